(** * Properties of a storage whose file fails or whose process dies (C42-C44). *)
From Coq Require Import ZifyBool ZifyNat ZifyN.
From Verif Require Import Base Crc32 Io File Block Payload Packet Rules Slot Storage Spec SpecStorage BaseProofs BlockProofs PayloadEnumProofs PacketProofs WireProofs StorageProofs StorageReadProofs ReloadProofs ReadingProofs CrashProofs Samples PropsStorage.
Open Scope list_scope.

(** [w_faults sched flushes] stands for any sequence of answers of the system to writes and flushes: complete or partial writes,
    then errors. A process that dies during an insert leaves what an insert leaves that fails at that point. *)

Lemma history_state {U} (P : proto U) os es w : Forall2 (packet_enc P) (w_inserted os) es -> blen (storage_file es) < two63 -> w_history os = Ok w ->
  exists fs l, w_ok fs l w /\ concat fs ++ l = es.
Proof. intros FE B E. destruct (history_ok P os es FE B) as (fs & l & w' & E' & OK & EE). rewrite E in E'. injection E' as <-. eauto. Qed.

(** ** C43 *)
Theorem C43_packets_stay : forall U (P : proto U) os es ps es' w sched flushes rs w',
  Forall2 (packet_enc P) (w_inserted os) es -> blen (storage_file es) < two63 -> w_history os = Ok w ->
  Forall2 (packet_enc P) ps es' -> w_tries ps (w_faults sched flushes w) = (rs, w') ->
  (** no panic *)
  Forall (fun r => r = Ok tt \/ exists k, r = Err k) rs /\
  (** every packet from before is where it was *)
  (forall i x, nth_error es i = Some x -> holds (w_data w') (packet_place es i) x) /\
  (** every packet whose insert succeeded is in the file, however many failed around it *)
  (forall i x, nth_error rs i = Some (Ok tt) -> nth_error es' i = Some x -> holds (w_data w') (packet_place (es ++ es') (length es + i)) x).
Proof.
  intros U P os es ps es' w sched flushes rs w' FE B E FE' T. destruct (history_state P os es w FE B E) as (fs & l & OK & EE).
  pose proof (history_data _ _ _ OK) as D. pose proof (ok_shaped _ _ _ OK) as SH. destruct OK as [M _]. subst es.
  destruct (tries_holds P ps es' fs l (w_faults sched flushes w) rs w' M FE' T) as (T1 & T2 & T3). split; [|split].
  - clear - T1. induction T1 as [|r e rs es' H F IH]; constructor; auto.
  - intros i x N. apply (T2 i x N). change (w_data (w_faults sched flushes w)) with (w_data w). rewrite D. now apply ok_holds.
  - exact T3.
Qed.
Print Assumptions C43_packets_stay.

(** The first of four inserts is cut off in its table, the second in its packet, the third succeeds with writes in two parts,
    the last fails at once. *)
Definition some_faults : list answer :=
  [Accept 100; WFail OtherIo; Accept 4020; Accept 7; WFail OtherIo; Accept 2000; Accept 2020; Accept 10; Accept 10000; WFail OtherIo].
Definition at_place (data : bytes) (off : nat) (x : bytes) : bool := bytes_eqb (firstn (length x) (skipn off data)) x.
Example C43_example : match w_history [WInsert p_num; WInsert p_txt] with
  | Ok w =>
      let (rs, w') := w_tries [p_raw; p_void; p_txt; p_raw] (w_faults some_faults [] w) in
      rs = [Err (EIo OtherIo); Err (EIo OtherIo); Ok tt; Err (EIo OtherIo)] /\
      let es := map wire [p_num; p_txt; p_raw; p_void; p_txt; p_raw] in
      map (fun i => at_place (w_data w') (packet_place es i) (nth i es [])) [0; 1; 2; 3; 4]%nat = [true; true; false; false; true]
  | _ => False
  end.
Proof. vm_compute. split; reflexivity. Qed.

(** ** C42 *)

(** Missing: in the last two cases the storage cannot be opened (refuted below). It is never opened with wrong content. *)
Theorem C42_crash_partial : forall U (P : proto U) os es p e w sched flushes o w',
  Forall2 (packet_enc P) (w_inserted os) es -> packet_enc P p e -> blen (storage_file (es ++ [e])) < two63 ->
  w_history os = Ok w -> w_insert p (w_faults sched flushes w) = (o, w') ->
  (** as before, up to less than 16 bytes at the end *)
  (exists extra, blen extra < 16 /\ w_data w' = storage_file es ++ extra) \/
  (** complete *)
  w_data w' = storage_file (es ++ [e]) \/
  (** neither readers nor writers can be opened *)
  (@d_open U (w_data w') = Err (EDamagedSlot ECrcDismatch) /\ w_open (healthy (w_data w')) = Err (EDamagedSlot ECrcDismatch)) \/
  (@d_open U (w_data w') = Panic POverflow /\ w_open (healthy (w_data w')) = Panic POverflow).
Proof.
  intros U P os es p e w sched flushes o w' FE HE B E I. destruct (history_state P os es w FE) as (fs & l & OK & EE); [pose proof (storage_mono es [e]); lia|exact E|].
  pose proof (encs_nonempty _ _ _ FE) as NE. subst es. destruct (crash_cases P fs l w p e sched flushes o w' OK NE HE B I) as [(J & LJ & _ & C)|[C|[(c & C)|(c & C)]]]; eauto.
  - right. right. left. unfold d_open, w_open, healthy. cbn [fl_cur]. rewrite C. auto.
  - right. right. right. unfold d_open, w_open, healthy. cbn [fl_cur]. rewrite C. auto.
Qed.
Print Assumptions C42_crash_partial.

(** The first case is harmless for readers (all theorems about [reading] apply) and for writers. *)
Theorem C42_leftover_harmless : forall U (P : proto U) es extra os es',
  nonempty_all es -> blen extra < 16 -> Forall2 (packet_enc P) (w_inserted os) es' -> blen (storage_file (es ++ es')) < two63 ->
  (exists r : sreader U, d_open (storage_file es ++ extra) = Ok r /\ reading es r /\ d_count r = length es) /\
  exists w w' extra', w_open (healthy (storage_file es ++ extra)) = Ok w /\ w_steps os w = Ok w' /\ blen extra' < 16 /\ w_data w' = storage_file (es ++ es') ++ extra'.
Proof.
  intros U P es extra os es' NE L FE B. split; [|exact (reopen_tail P os es es' extra NE FE B L)].
  destruct (@open_reader_tail U es extra NE) as (r & E & OK & _); [pose proof (storage_mono es es'); lia|exact L|].
  exists r. split; [exact E|]. split; [exact (reading_open es extra r L E)|]. now apply count_ok.
Qed.
Print Assumptions C42_leftover_harmless.

(** Whatever the history and the packet: when the process dies between the write of the table and that of the packet, the
    storage cannot be opened any more. *)
Theorem C42_between_the_writes : forall U (P : proto U) os es p e w,
  Forall2 (packet_enc P) (w_inserted os) es -> packet_enc P p e -> blen (storage_file (es ++ [e])) < two63 -> w_history os = Ok w ->
  exists w', w_insert p (w_faults [Accept 4020; WFail OtherIo] [] w) = (Err (EIo OtherIo), w') /\
    @d_open U (w_data w') = Panic POverflow /\ w_open (healthy (w_data w')) = Panic POverflow.
Proof.
  intros U P os es p e w FE HE B E. destruct (history_state P os es w FE) as (fs & l & OK & EE); [pose proof (storage_mono es [e]); lia|exact E|].
  pose proof (encs_nonempty _ _ _ FE) as NE. subst es. destruct (crash_between P fs l w p e OK NE HE B) as (w' & c' & I & L).
  exists w'. split; [exact I|]. unfold d_open, w_open, healthy. cbn [fl_cur]. rewrite L. auto.
Qed.
Print Assumptions C42_between_the_writes.

Theorem C42_crash_refuted : exists os es p sched w o w',
  Forall2 (packet_enc P0) (w_inserted os) es /\ length es = 1101%nat /\ packet_enc P0 p (wire p) /\ w_history os = Ok w /\
  w_insert p (w_faults sched [] w) = (o, w') /\ @d_open N (w_data w') = Panic POverflow /\ w_open (healthy (w_data w')) = Panic POverflow.
Proof.
  assert (Forall2 (packet_enc P0) (w_inserted long_history) long_encoded) as FE by (rewrite long_inserted; exact long_enc).
  destruct (history_ok P0 long_history long_encoded FE long_size) as (fs & l & w & E & _).
  destruct (C42_between_the_writes N P0 long_history long_encoded p_txt (wire p_txt) w FE p_txt_enc ltac:(vm_compute; reflexivity) E) as (w' & I & D & W).
  exists long_history, long_encoded, p_txt, [Accept 4020; WFail OtherIo], w, (Err (EIo OtherIo)), w'.
  split; [exact FE|]. split; [reflexivity|]. split; [exact p_txt_enc|]. auto.
Qed.
Print Assumptions C42_crash_refuted.

(** ** C44 *)

(** Packets that cannot be encoded leave no trace, however they are mixed with others. *)
Theorem C44_unencodable_partial : forall U (P : proto U) os es ps rs w,
  Forall2 (packet_enc P) (w_inserted os) es -> w_history os = Ok w ->
  Forall2 (fun p r => match r with Ok e => packet_enc P p e | Err k => fst (pkt_write_all p (mk_sink [] [])) = Err k | Panic _ => False end) ps rs ->
  let es' := concat (map (fun r => match r with Ok e => [e] | _ => [] end) rs) in
  blen (storage_file (es ++ es')) < two63 ->
  exists w', w_tries ps w = (map (fun r => rmap (fun _ => tt) r) rs, w') /\ w_data w' = storage_file (es ++ es') /\
    (** and go on like this *)
    (forall os2 es2, Forall2 (packet_enc P) (w_inserted os2) es2 -> blen (storage_file ((es ++ es') ++ es2)) < two63 ->
      exists w2, w_steps os2 w' = Ok w2 /\ w_data w2 = storage_file ((es ++ es') ++ es2)).
Proof.
  intros U P os es ps rs w FE E F es' B. destruct (history_state P os es w FE) as (fs & l & OK & EE); [pose proof (storage_mono es es'); lia|exact E|].
  pose proof (encs_nonempty _ _ _ FE) as NE. clear FE E. subst es. unfold es' in *. clear es'. revert fs l w OK NE B.
  induction F as [|p r ps rs H F IH]; intros fs l w OK NE B.
  - exists w. split; [reflexivity|]. cbn [map concat] in *. rewrite app_nil_r in *. split; [now apply history_data|].
    intros os2 es2 FE2 B2. destruct (steps_ok P os2 fs l w es2 OK NE FE2 B2) as (fs2 & l2 & w2 & E2 & OK2 & C2). exists w2. split; [exact E2|]. rewrite <- C2. now apply history_data.
  - destruct r as [e|k|x]; [| |contradiction H]; cbn [w_tries map concat app rmap] in *.
    + destruct (ok_insert fs l w p e OK (pkt_write_all_ok P p e [] H) (packet_enc_nonempty _ _ _ H)) as (w1 & E1 & OK1). rewrite E1.
      assert (concat (fst (push fs l e)) ++ snd (push fs l e) = (concat fs ++ l) ++ [e]) as PU by apply concat_push.
      destruct (IH _ _ w1 OK1) as (w' & E2 & D & Q).
      * rewrite PU. apply Forall_app. split; [exact NE|]. repeat constructor. exact (packet_enc_nonempty _ _ _ H).
      * rewrite PU, <- app_assoc. exact B.
      * exists w'. rewrite E2. split; [reflexivity|]. rewrite PU, <- app_assoc in D, Q. split; [exact D|exact Q].
    + destruct (pkt_write_all p (mk_sink [] [])) as (o & s) eqn:WR. cbn [fst] in H. subst o.
      rewrite (insert_fails (map (map blen) fs) (map blen l) w p (Err k) s (wo_mem _ _ _ OK) WR ltac:(discriminate)).
      set (w1 := mk_writer _ _ _). assert (w_ok fs l w1) as OK1 by (destruct OK as [M FI]; split; [eapply mem_pending; exact M|exact FI]).
      destruct (IH fs l w1 OK1 NE B) as (w' & E2 & Q). exists w'. rewrite E2. split; [reflexivity|exact Q].
Qed.
Print Assumptions C44_unencodable_partial.

(** Any other failure leaves its mark, already when nothing was written: the next insert leaves a hole of zeros as large as the
    packet that was not stored, and readers count it as a packet. *)
Theorem C44_failed_flush : forall U (P : proto U) os es p e q e' w,
  Forall2 (packet_enc P) (w_inserted os) es -> packet_enc P p e -> packet_enc P q e' ->
  blen (storage_file (es ++ [e; e'])) < two63 -> w_history os = Ok w -> (length es mod 500 <> 499)%nat ->
  exists w1 w2 (r : sreader U), w_insert p (w_faults [] [Some OtherIo] w) = (Err (EIo OtherIo), w1) /\ w_data w1 = w_data w /\
    w_insert q w1 = (Ok tt, w2) /\ w_data w2 = storage_file (es ++ [repeat (n2b 0) (length e); e']) /\
    d_open (w_data w2) = Ok r /\ d_count r = (length es + 2)%nat.
Proof.
  intros U P os es p e q e' w FE HE HE' B E M. destruct (history_state P os es w FE) as (fs & l & OK & EE); [pose proof (storage_mono es [e; e']); lia|exact E|].
  pose proof (encs_nonempty _ _ _ FE) as NE. subst es.
  assert (length l + 1 < default_capacity)%nat as LC.
  { destruct (ok_shaped _ _ _ OK) as (F & L). rewrite <- cap_eq in M. rewrite app_length, length_concat_full, Nat.add_comm, Nat.mod_add, Nat.mod_small in M by (exact F || lia). rewrite cap_eq in *. lia. }
  destruct (fail_then P fs l w p q e e' OK NE HE HE' LC) as (w1 & I1 & D1 & w2 & I2 & D2).
  assert (nonempty_all ((concat fs ++ l) ++ [zeros (length e); e'])) as NA.
  { apply Forall_app. split; [exact NE|]. repeat constructor; [|exact (packet_enc_nonempty _ _ _ HE')]. pose proof (packet_enc_nonempty _ _ _ HE). destruct e; [contradiction|discriminate]. }
  assert (blen (storage_file ((concat fs ++ l) ++ [zeros (length e); e'])) < two63) as BZ.
  { erewrite storage_size; [exact B|]. rewrite !map_app. cbn [map]. unfold zeros, blen. now rewrite repeat_length. }
  destruct (@open_reader U _ _ eq_refl NA BZ) as (r & ER & OKR & _).
  exists w1, w2, r. split; [exact I1|]. split; [exact D1|]. split; [exact I2|]. split; [exact D2|]. rewrite D2. split; [exact ER|].
  rewrite (count_ok _ _ OKR), app_length. reflexivity.
Qed.
Print Assumptions C44_failed_flush.
Theorem C44_failure_refuted : exists os es p q w w1 w2 (r : sreader N),
  Forall2 (packet_enc P0) (w_inserted os) es /\ length es = 1101%nat /\ packet_enc P0 p (wire p) /\ packet_enc P0 q (wire q) /\ w_history os = Ok w /\
  w_insert p (w_faults [] [Some OtherIo] w) = (Err (EIo OtherIo), w1) /\ w_insert q w1 = (Ok tt, w2) /\
  w_data w2 <> storage_file (es ++ [wire q]) /\ d_open (w_data w2) = Ok r /\ d_count r = 1103%nat.
Proof.
  assert (Forall2 (packet_enc P0) (w_inserted long_history) long_encoded) as FE by (rewrite long_inserted; exact long_enc).
  destruct (history_ok P0 long_history long_encoded FE long_size) as (fs & l & w & E & _).
  destruct (C44_failed_flush N P0 long_history long_encoded p_num (wire p_num) p_txt (wire p_txt) w FE p_num_enc p_txt_enc ltac:(vm_compute; reflexivity) E ltac:(vm_compute; discriminate))
    as (w1 & w2 & r & I1 & _ & I2 & D2 & ER & CR).
  exists long_history, long_encoded, p_num, p_txt, w, w1, w2, r. split; [exact FE|]. split; [reflexivity|]. split; [exact p_num_enc|]. split; [exact p_txt_enc|].
  split; [exact E|]. split; [exact I1|]. split; [exact I2|]. split; [|split; [exact ER|exact CR]].
  rewrite D2. intros Q. apply (f_equal blen) in Q. vm_compute in Q. discriminate Q.
Qed.
Print Assumptions C44_failure_refuted.
(** A number of 33 bits cannot be encoded by its payload type. *)
Definition p_fails : packet N := mk_packet [b_a] (Some (PUser k_num two32)).
Example C44_example : exists w w', w_history long_history = Ok w /\
  w_tries [p_num; p_fails; p_fails; p_txt] w = ([Ok tt; Err (EIo OtherIo); Err (EIo OtherIo); Ok tt], w') /\
  w_data w' = storage_file (long_encoded ++ [wire p_num; wire p_txt]).
Proof.
  assert (Forall2 (packet_enc P0) (w_inserted long_history) long_encoded) as FE by (rewrite long_inserted; exact long_enc).
  destruct (history_ok P0 long_history long_encoded FE long_size) as (fs & l & w & E & _). exists w.
  destruct (C44_unencodable_partial N P0 long_history long_encoded [p_num; p_fails; p_fails; p_txt] [Ok (wire p_num); Err (EIo OtherIo); Err (EIo OtherIo); Ok (wire p_txt)] w FE E) as (w' & T & D & _).
  - constructor; [exact p_num_enc|]. constructor; [vm_compute; reflexivity|]. constructor; [vm_compute; reflexivity|]. repeat constructor. exact p_txt_enc.
  - vm_compute. reflexivity.
  - exists w'. auto.
Qed.

(** Other cases of C42: what opening the file gives after a write that was cut off in the table, and after a complete insert. *)
Definition after (sched : list answer) : option (res nat) :=
  match w_history [WInsert p_num] with
  | Ok w => Some (rmap d_count (@d_open N (w_data (snd (w_insert p_txt (w_faults sched [] w))))))
  | _ => None
  end.
Example C42_example : map after [[Accept 30; WFail OtherIo]; []] = [Some (Err (EDamagedSlot ECrcDismatch)); Some (Ok 2%nat)].
Proof. vm_compute. reflexivity. Qed.
