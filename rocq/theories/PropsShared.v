(** * File storages used by several processes (C89). *)
From Coq Require Import ZifyBool ZifyNat ZifyN.
From Verif Require Import Base Crc32 Io File Block Payload Packet Slot Storage Locker Shared Spec SpecStorage SpecLocker SpecShared BaseProofs PacketProofs StorageProofs StorageReadProofs LockerProofs CrashProofs SharedProofs Samples.
Ltac Zify.zify_post_hook ::= Z.div_mod_to_equations.
Open Scope list_scope.

(** ** C89

    [ms] is any interleaving of the steps of any number of processes on any number of files: waiting for locks, errors of the
    system, opening, inserts, closing, and processes that die anywhere, also within an insert. [all] are the encodings of the
    packets inserted into the file [q]. *)
Theorem C89_shared_storage : forall U (P : proto U) who q ms all, forallb leaves_locks ms = true ->
  Forall2 (packet_enc P) (map snd (attempts who q ms shared0)) all -> blen (storage_file all) < two63 ->
  let s := call_steps who ms shared0 in
  (** every insert that came back succeeded *)
  Forall (fun r => r = Ok tt) (replies who q ms shared0) /\
  exists es, retained (map fst (attempts who q ms shared0)) all es /\
  ((** the file is a storage of these packets, can be read, and whoever has the lock can open it for writing *)
   (exists extra, blen extra < 16 /\ sh_disk s q = storage_file es ++ extra) /\
   (exists r : sreader U, d_open (sh_disk s q) = Ok r /\ reading es r /\ d_count r = length es) /\
   (forall i ino, op_path (who i) = q -> wo_status (sh_world s) i = SHold ino -> fst (call_step who (MStore (U := U) i None) s) = Some (Ok tt))
   \/
   (** or a process died in an insert and nobody can open it, and nobody has it open; all the packets are in it *)
   (exists i p sched flushes, In (MDie i p sched flushes) ms) /\
   (@d_open U (sh_disk s q) = Err (EDamagedSlot ECrcDismatch) /\ w_open (healthy (sh_disk s q)) = Err (EDamagedSlot ECrcDismatch) \/
    @d_open U (sh_disk s q) = Panic POverflow /\ w_open (healthy (sh_disk s q)) = Panic POverflow) /\
   (forall i, op_path (who i) = q -> ~ live (sh_world s) i) /\
   forall i x, nth_error es i = Some x -> holds (sh_disk s q) (packet_place es i) x).
Proof.
  intros U P who q ms all LL FE B s.
  destruct (sinv_steps P who q (exists i p sched flushes, In (MDie i p sched flushes) ms) ms shared0 [] all (sinv0 who q _) LL) as (es & R & [L V F S] & O); [eauto 6|exact FE|exact B|].
  cbn [app] in *. fold s in L, V, S. split; [exact O|]. exists es. split; [exact R|].
  assert (blen (storage_file es) < two63) as BE. { pose proof (retained_size _ _ _ [] [] R) as Q. cbn [app] in Q. rewrite !app_nil_r in Q. lia. }
  destruct S as [(fs & l & J & A1 & A2 & A3 & _ & A4 & _)|(A0 & A1 & A2 & A3)]; [left|right].
  - assert (sh_disk s q = storage_file es ++ J) as D by (rewrite A4, A1, storage_shaped by exact A2; reflexivity). pose proof (tail_short _ _ A3) as SJ. split; [eauto|]. split.
    + rewrite D. destruct (@open_reader_tail U es J F BE SJ) as (r & E & OK & _). exists r. split; [exact E|]. split; [exact (reading_open es J r SJ E)|]. now apply count_ok.
    + intros i ino PQ ST. cbn [call_step]. rewrite ST, PQ, A4. destruct (open_tail fs l J A2) as (w & c & E & _); [now rewrite <- A1|rewrite <- storage_shaped, <- A1 by exact A2; exact BE|exact SJ|].
      rewrite E. reflexivity.
  - split; [exact A0|]. split; [|split; [|exact A3]].
    + unfold d_open, w_open, healthy. cbn [fl_cur]. destruct A1 as [(c & ->)|(c & ->)]; auto.
    + intros i PQ Q. apply V in Q. apply Q. now apply A2.
Qed.
Print Assumptions C89_shared_storage.

(** When no process dies within an insert, the file is the storage of all packets in the order of the inserts, as if one writer
    had made them all. *)
Theorem C89_no_deaths : forall U (P : proto U) who q ms all, forallb leaves_locks ms = true -> (forall i p sched flushes, ~ In (MDie i p sched flushes) ms) ->
  Forall2 (packet_enc P) (map snd (attempts who q ms shared0)) all -> blen (storage_file all) < two63 ->
  Forall (fun r => r = Ok tt) (replies who q ms shared0) /\ sh_disk (call_steps who ms shared0) q = storage_file all.
Proof.
  intros U P who q ms all LL ND FE B.
  destruct (sinv_steps P who q False ms shared0 [] all (sinv0 who q _) LL) as (es & R & [_ _ F S] & O); [intros i p x y Q; exact (ND i p x y Q)|exact FE|exact B|].
  split; [exact O|]. cbn [app] in *.
  assert (es = all) as <-.
  { assert (forall s, Forall (fun a => fst a = true) (attempts who q ms s)) as T.
    { clear - ND. induction ms as [|m ms IH]; intros s; [constructor|]. cbn [attempts]. apply Forall_app. split.
      - destruct m as [a|i fails|i p|i p sched flushes]; [constructor|constructor| |elim (ND i p sched flushes); now left].
        destruct (path_eqb _ _); [|constructor]. destruct (sh_writer s i); repeat constructor.
      - apply IH. intros i p x y Q. apply (ND i p x y). now right. }
    specialize (T shared0). assert (Forall (fun b => b = true) (map fst (attempts who q ms shared0))) as T2 by (apply Forall_map; exact T). clear - R T2. rename T2 into T. induction R as [|b e a x c R IH|e a x c R IH]; [reflexivity|f_equal; apply IH; now inversion T|].
    inversion T as [|? ? T1 _]; subst. discriminate T1. }
  destruct S as [(fs & l & J & -> & A2 & _ & [->|[]] & A4 & _)|([] & _)]. rewrite A4, app_nil_r. symmetry. now apply storage_shaped.
Qed.
Print Assumptions C89_no_deaths.

Definition base_bin : path := mk_path (str "/srv/") (str "base.bin").
Definition log_bin : path := mk_path (str "/srv/") (str "log.bin").
Definition team (i : nat) : options :=
  match i with O => op_new base_bin | 1%nat => op_set_timeout 500 (op_new base_bin) | _ => op_new log_bin end.
Definition take (i : nat) (now : N) : list (call N) := [MLock (AOpen i None); MLock (ATry i now); MStore i None].
(** 0 opens and inserts, 1 has to wait; 2 works on another file; 0 dies in the first write of its next insert; then it is the
    turn of 1. *)
Definition shift (sched : list answer) : list (call N) :=
  take 0 0 ++ [MInsert 0 p_num; MLock (AOpen 1 None); MLock (ATry 1 10)] ++ take 2 0 ++ [MInsert 2 p_txt; MDie 0 p_raw sched []] ++ take 1 60 ++ [MInsert 1 p_txt].
(** Which of the calls count (to compute [attempts] without the packets). *)
Fixpoint mask {U} who q (ms : list (call U)) s : list bool :=
  match ms with
  | [] => []
  | m :: ms =>
      match m with
      | MInsert i _ | MDie i _ _ _ => path_eqb (op_path (who i)) q && match sh_writer s i with Some _ => true | None => false end
      | _ => false
      end :: mask who q ms (snd (call_step who m s))
  end.
Fixpoint picked {U} (bs : list bool) (ms : list (call U)) : list (bool * packet U) :=
  match bs, ms with
  | true :: bs, MInsert _ p :: ms => (true, p) :: picked bs ms
  | true :: bs, MDie _ p _ _ :: ms => (false, p) :: picked bs ms
  | _ :: bs, _ :: ms => picked bs ms
  | _, _ => []
  end.
Lemma attempts_mask {U} who q (ms : list (call U)) : forall s, attempts who q ms s = picked (mask who q ms s) ms.
Proof.
  induction ms as [|m ms IH]; intros s; [reflexivity|]. cbn [attempts mask]. rewrite IH. destruct m as [a|i x|i p|i p x y]; try reflexivity;
    (destruct (path_eqb _ _); [destruct (sh_writer s i)|]; reflexivity).
Qed.
Lemma shift_attempts : map snd (attempts team base_bin (shift [Accept 10; WFail OtherIo]) shared0) = [p_num; p_raw; p_txt].
Proof.
  rewrite attempts_mask. replace (mask team base_bin (shift [Accept 10; WFail OtherIo]) shared0) with
    [false; false; false; true; false; false; false; false; false; false; true; false; false; false; true] by (vm_compute; reflexivity). reflexivity.
Qed.
Example C89_example : forallb leaves_locks (shift [Accept 10; WFail OtherIo]) = true /\
  map fst (attempts team base_bin (shift [Accept 10; WFail OtherIo]) shared0) = [true; false; true] /\
  Forall2 (packet_enc P0) (map snd (attempts team base_bin (shift [Accept 10; WFail OtherIo]) shared0)) [wire p_num; wire p_raw; wire p_txt] /\
  sh_disk (call_steps team (shift [Accept 10; WFail OtherIo]) shared0) base_bin = storage_file [wire p_num; wire p_txt] /\
  sh_disk (call_steps team (shift [Accept 10; WFail OtherIo]) shared0) log_bin = storage_file [wire p_txt].
Proof.
  split; [reflexivity|]. split; [vm_compute; reflexivity|]. split; [|split; vm_compute; reflexivity].
  rewrite shift_attempts. constructor; [exact p_num_enc|]. constructor; [exact p_raw_enc|]. constructor; [exact p_txt_enc|constructor].
Qed.
(** When it dies between its two writes, 1 gets the lock but not the storage. *)
Example C89_example_ruined :
  map fst (attempts team base_bin (shift [Accept 4020; WFail OtherIo]) shared0) = [true; false] /\
  w_open (healthy (sh_disk (call_steps team (shift [Accept 4020; WFail OtherIo]) shared0) base_bin)) = Panic POverflow.
Proof. split; vm_compute; reflexivity. Qed.

(** All of this hangs on the lock file: if somebody removes it while a storage is open, a second process can open the storage
    too, both get their inserts acknowledged, and one of the packets is gone. (No code of brec removes the file.) *)
Definition torn : list (call N) := take 0 0 ++ [MLock (AUnlink (lock_path base_bin))] ++ take 1 0 ++ [MInsert 0 p_num; MInsert 1 p_num].
Theorem C89_removed_lock_file : replies team base_bin torn shared0 = [Ok tt; Ok tt] /\
  sh_disk (call_steps team torn shared0) base_bin = storage_file [wire p_num].
Proof. split; vm_compute; reflexivity. Qed.
Print Assumptions C89_removed_lock_file.
