(** * [FileWriterDef]: the lock file of a storage, brec/src/storage/writer/locker.rs. *)
From Verif Require Import Base Io File Storage.
Open Scope list_scope.

(** ** The name of the lock file *)

(** A path whose last component is an ordinary name: the part up to and including the last separator, and the name
    (not empty, no separator in it, not "." or ".."). [Path::with_extension] only looks at the name. *)
Record path := mk_path { pa_dir : bytes; pa_name : bytes }.

(** Index of the last dot. *)
Fixpoint last_dot (name : bytes) : option nat :=
  match name with
  | [] => None
  | b :: r => match last_dot r with
              | Some i => Some (S i)
              | None => if byte_eqb b (n2b 46) then Some O else None
              end
  end.
(** [Path::file_stem] (std: [rsplit_file_at_dot]): up to the last dot, a dot at the very start does not count. *)
Definition stem (name : bytes) : bytes :=
  match last_dot name with Some (S i) => firstn (S i) name | _ => name end.
(** [filename.with_extension(LOCK_EXT)], brec/src/storage/writer/locker.rs:15,198. *)
Definition lock_path (p : path) : path := mk_path (pa_dir p) (stem (pa_name p) ++ str ".lock").

(** ** Waiting for the lock *)

(** What [fs4]'s [try_lock_exclusive] answers: [Ok(true)], [Ok(false)], an error. *)
Inductive lock_answer := LFree | LBusy | LErr (k : iokind).

(** [wait_or_fail], brec/src/storage/writer/locker.rs:201-211; [elapsed] is [started.elapsed()] at that moment, in any unit.
    The sleep itself has no result. *)
Definition wait_or_fail (timeout : option N) (elapsed : N) : res unit :=
  match timeout with
  | Some t => if t <=? elapsed then Err ETimeoutToWaitLockedFile else Ok tt
  | None => Err EFileIsLocked
  end.

(** One round of the loop, brec/src/storage/writer/locker.rs:213-234. *)
Inductive turn := TGot | TAgain | TStop (e : err).
Definition waited (r : res unit) : turn := match r with Ok _ => TAgain | Err e => TStop e | Panic _ => TAgain end.
Definition lock_turn (timeout : option N) (opened : option iokind) (a : lock_answer) (elapsed : N) : turn :=
  match opened with
  | Some k => TStop (EFailToLockFile k)
  | None =>
      match a with
      | LFree => TGot
      | LBusy => waited (wait_or_fail timeout elapsed)
      | LErr WouldBlock => waited (wait_or_fail timeout elapsed)
      | LErr k => TStop (EFailToLockFile k)
      end
  end.

(** The system's part in one round: the answer to opening the lock file ([None]: opened), the answer to the lock request and
    the time since the start when it is needed. *)
Record round := mk_round { ro_open : option iokind; ro_lock : lock_answer; ro_time : N }.

(** The loop, brec/src/storage/writer/locker.rs:212-235, over the rounds that happen; [None]: still waiting after all of them.
    Also the number of rounds used. *)
Fixpoint lock_loop (timeout : option N) (rounds : list round) : option (res unit) * nat :=
  match rounds with
  | [] => (None, O)
  | r :: rest =>
      match lock_turn timeout (ro_open r) (ro_lock r) (ro_time r) with
      | TGot => (Some (Ok tt), 1%nat)
      | TStop e => (Some (Err e), 1%nat)
      | TAgain => let (o, n) := lock_loop timeout rest in (o, S n)
      end
  end.

(** [FileWriterDef::new], brec/src/storage/writer/locker.rs:188-246. [there]: what is at the path ([Some true]: a regular file,
    [Some false]: something else); [storage]: the answer to opening the storage file. With the result: is the lock held
    afterwards (an error after the lock was taken drops the lock file and so releases it). *)
Definition fw_new (there : option bool) (timeout : option N) (rounds : list round) (storage : file + iokind) : option (res writer) * bool :=
  match there with
  | Some false => (Some (Err EPathIsNotFile), false)
  | _ =>
      match fst (lock_loop timeout rounds) with
      | None => (None, false)
      | Some (Err e) => (Some (Err e), false)
      | Some (Panic w) => (Some (Panic w), false)
      | Some (Ok _) =>
          match storage with
          | inr k => (Some (Err (EIo k)), false)
          | inl f => match w_open f with
                     | Ok w => (Some (Ok w), true)
                     | Err e => (Some (Err e), false)
                     | Panic x => (Some (Panic x), false)
                     end
          end
      end
  end.

(** [FileStorageOptions], brec/src/storage/writer/locker.rs:38-123: the interval only goes into the sleep. *)
Record options := mk_options { op_path : path; op_timeout : option N; op_interval : N }.
Definition op_new (p : path) : options := mk_options p None 50.
Definition op_set_timeout (t : N) (o : options) : options := mk_options (op_path o) (Some t) (op_interval o).
Definition op_set_interval (i : N) (o : options) : options := mk_options (op_path o) (op_timeout o) i.

(** ** Several callers at the same time

    Callers are numbered; caller [i] uses the options [who i]. The system is modelled as on Unix: a lock belongs to the inode
    of the lock file and to one open handle, and goes when the handle is closed or the process dies. *)
Inductive status_of :=
| SIdle                  (* before the call, after an error, after the drop *)
| STry (ino : nat)       (* the lock file is open, not yet locked *)
| SWait                  (* asleep in [wait_or_fail] *)
| SHold (ino : nat)      (* lock taken, the storage file is being opened *)
| SLive (ino : nat).     (* [new] has returned a storage *)

(** The lock files, their locks and the callers; this is the system's part of brec/src/storage/writer/locker.rs:188-246. *)
Record world := mk_world {
  wo_file : list (path * nat);          (* lock files and their inodes *)
  wo_next : nat;                        (* next fresh inode *)
  wo_lock : nat -> option nat;          (* who has locked an inode *)
  wo_status : nat -> status_of }.
Definition world0 : world := mk_world [] O (fun _ => None) (fun _ => SIdle).

(** Looking up a lock file by its path (part of the system). *)
Definition path_eqb (a b : path) : bool := bytes_eqb (pa_dir a) (pa_dir b) && bytes_eqb (pa_name a) (pa_name b).
Fixpoint find_file (p : path) (fs : list (path * nat)) : option nat :=
  match fs with [] => None | (q, i) :: r => if path_eqb p q then Some i else find_file p r end.
Definition set {A} (f : nat -> A) (i : nat) (x : A) : nat -> A := fun j => if (j =? i)%nat then x else f j.

(** The steps of [FileWriterDef::new], brec/src/storage/writer/locker.rs:212-246, of the drop of its result and of the outside. *)
Inductive action :=
| AOpen (i : nat) (fails : option iokind)    (* lines 213-218 *)
| ATry (i : nat) (now : N)                   (* lines 219-226, the system knows the lock *)
| ATryErr (i : nat) (k : iokind) (now : N)   (* lines 227-233 *)
| AStore (i : nat) (good : bool)             (* lines 236-245 *)
| ADrop (i : nat)                            (* drop of the storage, or the end of its process at any point *)
| AUnlink (p : path).                        (* somebody removes a lock file; no code of brec does this *)

Section World.
Variable who : nat -> options.

(** Closing the handle of a lock file, and a change of the state of a caller. *)
Definition released (i : nat) (ino : nat) (w : world) : world :=
  mk_world (wo_file w) (wo_next w) (set (wo_lock w) ino None) (set (wo_status w) i SIdle).
Definition status_to (i : nat) (s : status_of) (w : world) : world :=
  mk_world (wo_file w) (wo_next w) (wo_lock w) (set (wo_status w) i s).

(** One step, brec/src/storage/writer/locker.rs:212-246. *)
Definition act (a : action) (w : world) : world :=
  match a with
  | AOpen i fails =>
      match wo_status w i with
      | SIdle | SWait =>
          match fails with
          | Some _ => status_to i SIdle w
          | None =>
              let lp := lock_path (op_path (who i)) in
              match find_file lp (wo_file w) with
              | Some ino => status_to i (STry ino) w
              | None => mk_world ((lp, wo_next w) :: wo_file w) (S (wo_next w)) (wo_lock w) (set (wo_status w) i (STry (wo_next w)))
              end
          end
      | _ => w
      end
  | ATry i now =>
      match wo_status w i with
      | STry ino =>
          match lock_turn (op_timeout (who i)) None (match wo_lock w ino with None => LFree | Some _ => LBusy end) now with
          | TGot => mk_world (wo_file w) (wo_next w) (set (wo_lock w) ino (Some i)) (set (wo_status w) i (SHold ino))
          | TAgain => status_to i SWait w
          | TStop _ => status_to i SIdle w
          end
      | _ => w
      end
  | ATryErr i k now =>
      match wo_status w i with
      | STry ino =>
          match lock_turn (op_timeout (who i)) None (LErr k) now with
          | TAgain => status_to i SWait w
          | _ => status_to i SIdle w
          end
      | _ => w
      end
  | AStore i good =>
      match wo_status w i with
      | SHold ino => if good then status_to i (SLive ino) w else released i ino w
      | _ => w
      end
  | ADrop i =>
      match wo_status w i with
      | SHold ino | SLive ino => released i ino w
      | _ => status_to i SIdle w
      end
  | AUnlink p => mk_world (filter (fun f => negb (path_eqb p (fst f))) (wo_file w)) (wo_next w) (wo_lock w) (wo_status w)
  end.

(** Several steps. *)
Definition acts (l : list action) (w : world) : world := fold_left (fun w a => act a w) l w.
End World.
