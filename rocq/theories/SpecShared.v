(** * What the use of storages by several processes is compared with. *)
From Verif Require Import Base Io File Packet Storage Locker Shared Spec SpecStorage SpecLocker.
Open Scope list_scope.

(** Nobody removes a lock file. *)
Definition leaves_locks {U} (m : call U) : bool := match m with MLock a => brec_only a | _ => true end.

(** The inserts into the file [q] by callers that have a storage, in order; [true]: the call came back. *)
Fixpoint attempts {U} (who : nat -> options) (q : path) (ms : list (call U)) (s : shared) : list (bool * packet U) :=
  match ms with
  | [] => []
  | m :: ms =>
      let here i b p := if path_eqb (op_path (who i)) q then match sh_writer s i with Some _ => [(b, p)] | None => [] end else [] in
      match m with MInsert i p => here i true p | MDie i p _ _ => here i false p | _ => [] end ++ attempts who q ms (snd (call_step who m s))
  end.
(** What those inserts that came back gave. *)
Fixpoint replies {U} (who : nat -> options) (q : path) (ms : list (call U)) (s : shared) : list (res unit) :=
  match ms with
  | [] => []
  | m :: ms =>
      match m with
      | MInsert i _ => if path_eqb (op_path (who i)) q then match fst (call_step who m s) with Some r => [r] | None => [] end else []
      | _ => []
      end ++ replies who q ms (snd (call_step who m s))
  end.

(** [es]: of the encodings [all], those of the calls that came back and some of the others, in order. *)
Inductive retained : list bool -> list bytes -> list bytes -> Prop :=
| ret_none : retained [] [] []
| ret_in b e back all es : retained back all es -> retained (b :: back) (e :: all) (e :: es)
| ret_out e back all es : retained back all es -> retained (false :: back) (e :: all) es.
