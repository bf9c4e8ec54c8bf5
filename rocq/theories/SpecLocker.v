(** * What the locking of a storage is compared with. *)
From Verif Require Import Base Locker.
Open Scope list_scope.

(** [i] has a storage. *)
Definition live (w : world) (i : nat) : Prop := exists ino, wo_status w i = SLive ino.
(** [i] has the lock (it has a storage or is about to get one). *)
Definition locking (w : world) (i : nat) : Prop := live w i \/ exists ino, wo_status w i = SHold ino.
Definition brec_only (a : action) : bool := match a with AUnlink _ => false | _ => true end.

(** A file name: not empty, neither "." nor "..". *)
Definition a_name (n : bytes) : Prop := n <> [] /\ n <> str "." /\ n <> str "..".
(** A name and its extension: "data.bin", "archive.tar.gz" (extension "gz"); a dot at the start alone does not make an extension. *)
Inductive ext_of : bytes -> option bytes -> Prop :=
| ext_none n : ~ In (n2b 46) n -> ext_of n None
| ext_hidden n : ~ In (n2b 46) n -> ext_of (n2b 46 :: n) None
| ext_some s x : s <> [] -> ~ In (n2b 46) x -> ext_of (s ++ n2b 46 :: x) (Some x).

(** The times of the rounds of a loop that sleeps at least [interval] in between. *)
Fixpoint timely (interval : N) (rounds : list round) : Prop :=
  match rounds with
  | a :: ((b :: _) as r) => ro_time a + interval <= ro_time b /\ timely interval r
  | _ => True
  end.
(** The lock was not available in that round. *)
Definition refused (r : round) : Prop := ro_open r = None /\ (ro_lock r = LBusy \/ ro_lock r = LErr WouldBlock).

(** Calls on [FileStorageOptions] after [new], in order; the last call of a kind counts. *)
Inductive setting := SetTimeout (t : N) | SetInterval (i : N).
Definition configure (p : path) (l : list setting) : options :=
  fold_left (fun o c => match c with SetTimeout t => op_set_timeout t o | SetInterval i => op_set_interval i o end) l (op_new p).
Definition is_timeout (c : setting) : Prop := match c with SetTimeout _ => True | _ => False end.
Definition is_interval (c : setting) : Prop := match c with SetInterval _ => True | _ => False end.
