(** * Several processes that open, fill and close the same file storages, brec/src/storage/writer/locker.rs:188-258.

    The lock files and callers are those of [Locker]; here the storage files are real ones. A path names one file (no links);
    an insert of one caller is not interrupted by a step of another one on a finer scale than the calls below. *)
From Verif Require Import Base Io File Packet Storage Locker.
Open Scope list_scope.

Section Shared.
Context {U : Type}.
Implicit Types (p : packet U).

(** What the processes do: a step of the locking (brec/src/storage/writer/locker.rs:212-235, and the drop), opening the storage
    file once the lock is there (lines 236-245), [insert] (lines 256-258), and a process that dies somewhere in [insert]: the
    system answered [sched] and [flushes] until then, and the lock goes with the process. *)
Inductive call :=
| MLock (a : action)
| MStore (i : nat) (fails : option iokind)
| MInsert (i : nat) p
| MDie (i : nat) p (sched : list answer) (flushes : list (option iokind)).

(** Locks, files (a file that does not exist is created empty, brec/src/storage/writer/locker.rs:236-241) and the storages that
    the callers have. *)
Record shared := mk_shared { sh_world : world; sh_disk : path -> bytes; sh_writer : nat -> option writer }.
Definition shared0 : shared := mk_shared world0 (fun _ => []) (fun _ => None).

(** The content of one file changes. *)
Definition disk_set (q : path) (data : bytes) (disk : path -> bytes) : path -> bytes := fun r => if path_eqb r q then data else disk r.
(** The writer of a caller as its next call finds it: the content is that of the file now, whoever wrote it. *)
Definition on_disk (data : bytes) (sched : list answer) (flushes : list (option iokind)) (w : writer) : writer :=
  mk_writer (w_slots w) (mk_file (mk_cursor data (c_pos (fl_cur (w_file w)))) sched flushes) (w_loc w).

Variable who : nat -> options.

(** One step and what the caller gets, if it is a call that can be made ([AStore] is the business of [MStore]),
    brec/src/storage/writer/locker.rs:212-258. *)
Definition call_step (m : call) (s : shared) : option (res unit) * shared :=
  match m with
  | MLock (AStore _ _) => (None, s)
  | MLock (ADrop i) => (None, mk_shared (act who (ADrop i) (sh_world s)) (sh_disk s) (set (sh_writer s) i None))
  | MLock a => (None, mk_shared (act who a (sh_world s)) (sh_disk s) (sh_writer s))
  | MStore i fails =>
      match wo_status (sh_world s) i with
      | SHold _ =>
          match match fails with Some k => Err (EIo k) | None => w_open (healthy (sh_disk s (op_path (who i)))) end with
          | Ok w => (Some (Ok tt), mk_shared (act who (AStore i true) (sh_world s)) (sh_disk s) (set (sh_writer s) i (Some w)))
          | Err e => (Some (Err e), mk_shared (act who (AStore i false) (sh_world s)) (sh_disk s) (sh_writer s))
          | Panic x => (Some (Panic x), mk_shared (act who (AStore i false) (sh_world s)) (sh_disk s) (sh_writer s))
          end
      | _ => (None, s)
      end
  | MInsert i p =>
      match sh_writer s i with
      | Some w =>
          let q := op_path (who i) in
          let (o, w) := w_insert p (on_disk (sh_disk s q) [] [] w) in
          (Some o, mk_shared (sh_world s) (disk_set q (fl_data (w_file w)) (sh_disk s)) (set (sh_writer s) i (Some w)))
      | None => (None, s)
      end
  | MDie i p sched flushes =>
      match sh_writer s i with
      | Some w =>
          let q := op_path (who i) in
          let (_, w) := w_insert p (on_disk (sh_disk s q) sched flushes w) in
          (None, mk_shared (act who (ADrop i) (sh_world s)) (disk_set q (fl_data (w_file w)) (sh_disk s)) (set (sh_writer s) i None))
      | None => (None, s)
      end
  end.

(** Several steps, in the order in which they happen. *)
Fixpoint call_steps (ms : list call) (s : shared) : shared :=
  match ms with [] => s | m :: ms => call_steps ms (snd (call_step m s)) end.
End Shared.
Arguments call : clear implicits.
