(** * What the sensor is compared with. *)
From Verif Require Import Base Sensor.
Open Scope list_scope.

(** Nothing fails: no error from the watcher or the file system, the receiver stays. *)
Definition quiet_happening (h : happening) : bool :=
  match h with HBadEvent | HMetaFail _ | HClose => false | _ => true end.

(** A change of the file, an event or an acknowledgement. *)
Definition touches (h : happening) : bool := match h with HChange _ | HEvent | HAck _ => true | _ => false end.

(** No call is in progress, and the file has not changed since the last event. *)
Definition settled (s : sensor) : Prop := Forall (fun p => exists r, p = Done r) (s_threads s) /\ s_event s = false.

(** The lengths that were acknowledged. *)
Fixpoint acked (l : list happening) : list N :=
  match l with [] => [] | HAck u :: r => u :: acked r | _ :: r => acked r end.
Definition largest (l : list N) : N := fold_right N.max 0 l.

(** The wakes received on the way. *)
Fixpoint received (l : list happening) (s : sensor) : list N :=
  match l with
  | [] => []
  | h :: r => (match h, s_open s, s_queue s with HRecv, true, Some n => [n] | _, _, _ => [] end) ++ received r (happens h s)
  end.

(** The lengths the file had. *)
Fixpoint sizes (l : list happening) : list N :=
  match l with [] => [] | HChange n :: r => n :: sizes r | _ :: r => sizes r end.
