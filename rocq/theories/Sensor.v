(** * [Sensor]: wakes for a growing file, brec/src/storage/observer/sensor/mod.rs.

    Any number of threads run [emit] (from the file watcher) and [processed] at the same time. One step of a thread is one
    access to a shared object (atomic variable, channel, file metadata); steps interleave in any order. Weaker memory orders
    than this are not modelled. *)
From Verif Require Import Base.
Open Scope list_scope.

(** What a call returns: [Ok], an error of [fs::metadata], or that the receiver is gone
    ([SensorError::Io] and [Disconnected], brec/src/storage/observer/sensor/error.rs:4-15). *)
Inductive returned := RetOk | RetIo | RetGone.

(** Where a thread stands.
    [processed], brec/src/storage/observer/sensor/mod.rs:82-88 with [fetch_max_u64], 121-129; [emit], 90-118. *)
Inductive pc :=
| PLoad (until : N)                (* 122: [store.load] *)
| PCas (until current : N)         (* 123-127: [while checked > current], [compare_exchange_weak] *)
| PUnlock                          (* 85: [locked.store(false)] *)
| EMeta                            (* 96: [fs::metadata(target)?.len()] *)
| ELoad (size : N)                 (* 98: [processed_len.load] *)
| ECas (size : N)                  (* 102-107: [locked.compare_exchange(false, true)] *)
| ESend (size : N)                 (* 109-117: [tx.try_send] *)
| Done (r : returned).

(** [Sensor], brec/src/storage/observer/sensor/mod.rs:28-34, with the file and the calls in progress. *)
Record sensor := mk_sensor {
  s_size : N;               (* length of the file *)
  s_locked : bool;          (* [locked] *)
  s_until : N;              (* [processed_len] *)
  s_queue : option N;       (* the channel, [bounded(1)], 42 *)
  s_open : bool;            (* the receiver is alive *)
  s_threads : list pc;      (* the calls made so far *)
  (* not part of the program: *)
  s_event : bool;           (* the file changed after the last event that was delivered *)
  s_held : bool }.          (* a wake was received and [processed] not called since *)

(** [Sensor::new], brec/src/storage/observer/sensor/mod.rs:37-79, on a file of [n] bytes. *)
Definition sensor0 (n : N) : sensor := mk_sensor n false 0 None true [] false false.

(** Entering or continuing the loop of [fetch_max_u64]. *)
Definition max_loop (until current : N) : pc := if current <? until then PCas until current else PUnlock.

(** The thread [i] goes on; the shared variables are stored to. *)
Fixpoint set_nth (i : nat) (p : pc) (l : list pc) : list pc :=
  match i, l with
  | _, [] => []
  | O, _ :: r => p :: r
  | S i, x :: r => x :: set_nth i p r
  end.
Definition goto (i : nat) (p : pc) (s : sensor) : sensor :=
  mk_sensor (s_size s) (s_locked s) (s_until s) (s_queue s) (s_open s) (set_nth i p (s_threads s)) (s_event s) (s_held s).
Definition with_locked (b : bool) (s : sensor) : sensor :=
  mk_sensor (s_size s) b (s_until s) (s_queue s) (s_open s) (s_threads s) (s_event s) (s_held s).
Definition with_until (n : N) (s : sensor) : sensor :=
  mk_sensor (s_size s) (s_locked s) n (s_queue s) (s_open s) (s_threads s) (s_event s) (s_held s).
Definition with_queue (q : option N) (s : sensor) : sensor :=
  mk_sensor (s_size s) (s_locked s) (s_until s) q (s_open s) (s_threads s) (s_event s) (s_held s).

(** One step of thread [i], brec/src/storage/observer/sensor/mod.rs:82-129; [weak]: [compare_exchange_weak] fails although the
    value is the expected one. *)
Definition run (i : nat) (weak : bool) (s : sensor) : sensor :=
  match nth_error (s_threads s) i with
  | Some (PLoad u) => goto i (max_loop u (s_until s)) s
  | Some (PCas u c) =>
      if (s_until s =? c) && negb weak then goto i PUnlock (with_until u s) else goto i (max_loop u (s_until s)) s
  | Some PUnlock => goto i EMeta (with_locked false s)
  | Some EMeta => goto i (ELoad (s_size s)) s
  | Some (ELoad n) => goto i (if n <=? s_until s then Done RetOk else ECas n) s
  | Some (ECas n) => if s_locked s then goto i (Done RetOk) s else goto i (ESend n) (with_locked true s)
  | Some (ESend n) =>
      if s_open s then goto i (Done RetOk) (match s_queue s with None => with_queue (Some n) s | Some _ => s end) else goto i (Done RetGone) s
  | Some (Done _) | None => s
  end.

(** What can happen next, brec/src/storage/observer/sensor/mod.rs:53-118. *)
Inductive happening :=
| HChange (n : N)                (* the file now has [n] bytes *)
| HEvent                         (* the watcher calls its callback, 53-67 *)
| HBadEvent                      (* the watcher reports an error, 54-56: the callback returns *)
| HAck (until : N)               (* somebody calls [processed] *)
| HRun (i : nat) (weak : bool)   (* thread [i] makes a step *)
| HMetaFail (i : nat)            (* [fs::metadata] fails, 96: the call returns *)
| HRecv                          (* the owner takes a wake from the channel *)
| HClose.                        (* the receiver is dropped *)

(** Its effect, brec/src/storage/observer/sensor/mod.rs:53-118. *)
Definition happens (h : happening) (s : sensor) : sensor :=
  match h with
  | HChange n => mk_sensor n (s_locked s) (s_until s) (s_queue s) (s_open s) (s_threads s) true (s_held s)
  | HEvent => mk_sensor (s_size s) (s_locked s) (s_until s) (s_queue s) (s_open s) (s_threads s ++ [EMeta]) false (s_held s)
  | HBadEvent => mk_sensor (s_size s) (s_locked s) (s_until s) (s_queue s) (s_open s) (s_threads s) false (s_held s)
  | HAck u => mk_sensor (s_size s) (s_locked s) (s_until s) (s_queue s) (s_open s) (s_threads s ++ [PLoad u]) (s_event s) false
  | HRun i weak => run i weak s
  | HMetaFail i => match nth_error (s_threads s) i with Some EMeta => goto i (Done RetIo) s | _ => s end
  | HRecv => match s_open s, s_queue s with
             | true, Some _ => mk_sensor (s_size s) (s_locked s) (s_until s) None (s_open s) (s_threads s) (s_event s) true
             | _, _ => s
             end
  | HClose => mk_sensor (s_size s) (s_locked s) (s_until s) (s_queue s) false (s_threads s) (s_event s) (s_held s)
  end.
(** One after another. *)
Definition all_happens (l : list happening) (s : sensor) : sensor := fold_left (fun s h => happens h s) l s.
