(** * Storages in a release build (C91, C92). *)
From Coq Require Import ZifyBool ZifyNat ZifyN Sorted.
From Verif Require Import Base Crc32 Io File Block Payload Packet Slot Storage Release Spec SpecStorage SpecPoll SpecRelease BaseProofs PacketProofs StorageProofs StorageReadProofs ReadingProofs CrashProofs HostileProofs PollProofs
  ReleaseProofs ReleaseReloadProofs PropsStorage PropsCrash PropsHostile PropsPoll Samples.
Ltac Zify.zify_post_hook ::= Z.div_mod_to_equations.
Open Scope list_scope.

(** ** C91 *)

(** Opening a file: the same as in a build with overflow checks wherever that one does not panic because of them. *)
Theorem C91_same : forall U n data, blen data < two63 -> (length data < n)%nat ->
  (d_open (U := U) data <> Panic POverflow -> rel_d_open (U := U) n data = d_open data) /\
  (w_open (healthy data) <> Panic POverflow -> rel_w_open n (healthy data) = w_open (healthy data)).
Proof. intros U n data B L. split; [exact (open_same n data B L)|exact (w_open_same n (healthy data) B L)]. Qed.
Print Assumptions C91_same.

(** Every file, by the tables that can be read one after the other in it, as in [C75_open_partial]; the file is opened also
    when it ends within a table, and a table that promises more than there is gives an error. Missing: tables that announce
    2^64 bytes or more, see below. *)
Theorem C91_open_partial : forall U data ls next n, blen data < two63 -> all_tables data ls next -> next < two64 -> (length data < n)%nat ->
  rel_stops data next (un (rel_d_open (U := U) n data)) /\
  (forall r : sreader U, rel_d_open n data = Ok r -> d_slots r = anchored 0 ls /\ c_data (d_file r) = data /\ d_rules r = []) /\
  (forall f, fl_data f = data -> un (rel_w_open n f) = un (rel_d_open (U := U) n data) /\ forall w, rel_w_open n f = Ok w -> w_slots w = map slot_of ls /\ fl_data (w_file w) = data).
Proof. intros U data ls next n. exact (rel_open_all data ls next n). Qed.
Print Assumptions C91_open_partial.

(** Opening need not end: a file of 28 bytes whose only table announces 2^64 bytes together with itself. Every round of the
    loop takes it up once more. *)
Definition endless : bytes := table [two64 - 28].
Lemma endless_step : forall c, c_data c = endless -> exists s c1, rel_try_read (c_seek 0 c) = (Ok (Success s), c1) /\ c_data c1 = endless /\ rel_total s = 0.
Proof.
  intros c D. unfold c_seek. rewrite D. remember (rel_try_read (mk_cursor endless 0)) as x eqn:X. vm_compute in X. rewrite X. eexists _, _. split; [reflexivity|]. split; vm_compute; reflexivity.
Qed.
Lemma endless_load n : forall acc c, c_data c = endless -> exists c', rel_load_go n 0 acc c = (Panic PFuel, c').
Proof.
  induction n as [|n IH]; intros acc c D; cbn [rel_load_go]; [eauto|]. destruct (endless_step c D) as (s & c1 & E & D1 & T). rewrite E, T. exact (IH _ c1 D1).
Qed.
Theorem C91_ends_refuted : exists data, blen data = 28 /\ forall n, rel_d_open (U := N) n data = Panic PFuel /\ rel_w_open n (healthy data) = Panic PFuel.
Proof.
  exists endless. split; [vm_compute; reflexivity|]. intros n. unfold rel_d_open, rel_w_open, rel_load.
  destruct (endless_load n [] (mk_cursor endless 0) eq_refl) as (c & E). rewrite E. change (fl_cur (healthy endless)) with (mk_cursor endless 0). rewrite E. split; reflexivity.
Qed.
Print Assumptions C91_ends_refuted.

(** What an insert that was cut off leaves. Missing: in the last two cases the storage cannot be opened, but the program
    says so instead of panicking. *)
Theorem C91_crash_partial : forall U (P : proto U) os es p e w sched flushes o w' n,
  Forall2 (packet_enc P) (w_inserted os) es -> packet_enc P p e -> blen (storage_file (es ++ [e])) < two63 ->
  w_history os = Ok w -> w_insert p (w_faults sched flushes w) = (o, w') -> (length (w_data w') < n)%nat ->
  (** as before, up to a part of a new table *)
  (exists k, (k < 4020)%nat /\ (k <> 0 -> length es mod 500 = 0)%nat /\ w_data w' = storage_file es ++ firstn k (slot_table [blen e])) \/
  (** complete *)
  w_data w' = storage_file (es ++ [e]) \/
  (** an error for readers and writers *)
  (rel_d_open (U := U) n (w_data w') = Err (EDamagedSlot ECrcDismatch) /\ rel_w_open n (healthy (w_data w')) = Err (EDamagedSlot ECrcDismatch)) \/
  (rel_d_open (U := U) n (w_data w') = Err (EIo UnexpectedEof) /\ rel_w_open n (healthy (w_data w')) = Err (EIo UnexpectedEof)).
Proof.
  intros U P os es p e w sched flushes o w' n FE HE B EH EI LN. assert (blen (storage_file es) < two63) as B0 by (pose proof (storage_mono es [e]); lia).
  destruct (C90_moments U P os es w p e sched flushes o w' FE B0 EH HE EI) as (m & LM & D & _). rewrite D in *. clear D EI EH w w'.
  assert (Forall2 (packet_enc P) (w_inserted os ++ [p]) (es ++ [e])) as FE1 by (apply Forall2_app; [exact FE|now repeat constructor]).
  pose proof (encs_nonempty _ _ _ FE) as NE. pose proof (encs_nonempty _ _ _ FE1) as NE1. destruct (decompose es) as (fs & l & SH & EE).
  destruct (Nat.le_gt_cases (4020 + length e) m) as [H|H]; [right; left; now apply during_all|]. rewrite EE in *. assert (shaped fs l) as SH' by exact SH.
  assert (length (concat fs ++ l) mod 500 = length l)%nat as LM5 by now apply shape_mod.
  assert (forall x, (exists c', rel_load n (mk_cursor (during (concat fs ++ l) e m) 0) = (Err x, c')) ->
    rel_d_open (U := U) n (during (concat fs ++ l) e m) = Err x /\ rel_w_open n (healthy (during (concat fs ++ l) e m)) = Err x) as ERR.
  { intros x (c' & E). unfold rel_d_open, rel_w_open. change (fl_cur (healthy ?d)) with (mk_cursor d 0). rewrite E. split; reflexivity. }
  destruct (rel_during fs l e m n SH NE1 B H LN) as [(HM & [(-> & D & _)|[(LN0 & D)|(LN0 & E)]])|(_ & E)].
  - left. exists m. split; [exact HM|]. split; [intros _; exact LM5|]. rewrite D, storage_shaped by exact SH. unfold gro. now rewrite app_nil_r.
  - left. exists O. split; [apply Nat.ltb_lt; vm_compute; reflexivity|]. split; [intros Q; now elim Q|]. rewrite firstn_O, app_nil_r, storage_shaped by exact SH. exact D.
  - right. right. left. now apply ERR.
  - right. right. right. now apply ERR.
Qed.
Print Assumptions C91_crash_partial.

(** In the first case the storage is opened: all the packets are there, and the next insert removes the rest of the table. *)
Theorem C91_leftover : forall U (P : proto U) ps es k e n, proto_ok P ->
  Forall2 (packet_enc P) ps es -> Forall (fun q => (length (p_blocks q) <= 256)%nat) ps -> blen e < two64 -> (k < 4020)%nat -> (length es mod 500 = 0)%nat ->
  let data := storage_file es ++ firstn k (slot_table [blen e]) in blen data < two63 -> (length data < n)%nat ->
  (exists r, rel_d_open (U := U) n data = Ok r /\ d_count r = length es /\ forall i, exists r', d_nth P i r = (Ok (nth_error ps i), r')) /\
  (exists w, rel_w_open n (healthy data) = Ok w /\
    forall p' e', packet_enc P p' e' -> exists w', w_insert p' w = (Ok tt, w') /\ w_data w' = storage_file (es ++ [e'])).
Proof.
  intros U P ps es k e n HP FE FW BE K M5 data BD LN. pose proof (encs_nonempty _ _ _ FE) as NE. destruct (decompose es) as (fs & l & SH & EE).
  assert (length es mod 500 = length l)%nat as LM5 by (rewrite EE; now apply shape_mod). destruct l; [|rewrite M5 in LM5; discriminate].
  assert (storage_file es = files fs) as SF by (rewrite EE, storage_shaped by exact SH; unfold gro; now rewrite app_nil_r).
  assert (blen (files fs) < two63) as BF by (unfold data in BD; rewrite SF, blen_app in BD; lia). unfold data in *. rewrite SF in *.
  destruct (rel_reopen P fs e k n SH ltac:(rewrite <- EE; exact NE) BF BE K BD LN) as ((r & E & OK & _) & w & EW & INS). rewrite <- EE in OK. split.
  - exists r. split; [exact E|]. split; [now apply count_ok|]. intros i. destruct (nth_ok P HP ps es r i OK FE (forall_few ps FW)) as (r' & Q & _). eauto.
  - exists w. split; [exact EW|]. intros p' e' HE. destruct (INS p' e' HE) as (w' & Q & OK'). exists w'. split; [exact Q|]. rewrite (history_data _ _ _ OK'), concat_push, <- EE. reflexivity.
Qed.
Print Assumptions C91_leftover.

(** As long as the table is there and the packet is not complete, the storage cannot be opened. *)
Theorem C91_torn : forall U (P : proto U) ps es p e m n,
  Forall2 (packet_enc P) ps es -> packet_enc P p e -> blen (storage_file (es ++ [e])) < two63 -> (4020 <= m < 4020 + length e)%nat -> (length (during es e m) < n)%nat ->
  rel_d_open (U := U) n (during es e m) = Err (EIo UnexpectedEof) /\ rel_w_open n (healthy (during es e m)) = Err (EIo UnexpectedEof).
Proof.
  intros U P ps es p e m n FE HE B (M1 & M2) LN. assert (Forall2 (packet_enc P) (ps ++ [p]) (es ++ [e])) as FE1 by (apply Forall2_app; [exact FE|now repeat constructor]).
  pose proof (encs_nonempty _ _ _ FE1) as NE1. destruct (decompose es) as (fs & l & SH & ->).
  destruct (rel_during fs l e m n SH NE1 B M2 LN) as [(HM & _)|(_ & c' & E)]; [lia|]. unfold rel_d_open, rel_w_open. change (fl_cur (healthy ?d)) with (mk_cursor d 0). rewrite E. split; reflexivity.
Qed.
Print Assumptions C91_torn.

(** A process that dies 40 bytes into its first insert, and the next one that goes on in its place. *)
Example C91_example : d_open (U := N) (during [] (wire p_num) 40) = Panic POverflow /\
  match rel_d_open (U := N) 41 (during [] (wire p_num) 40) with Ok r => d_count r = O | _ => False end /\
  match rel_w_open 41 (healthy (during [] (wire p_num) 40)) with
  | Ok w => let (o, w') := w_insert p_txt w in o = Ok tt /\ bytes_eqb (w_data w') (storage_file [wire p_txt]) = true
  | _ => False
  end.
Proof. vm_compute. repeat split; reflexivity. Qed.

(** Dying between the table and the packet. *)
Example C91_example_torn : d_open (U := N) (during [wire p_raw] (wire p_num) 4060) = Panic POverflow /\
  rel_d_open (U := N) 4900 (during [wire p_raw] (wire p_num) 4060) = Err (EIo UnexpectedEof) /\
  rel_d_open (U := N) 4900 (during [wire p_raw] (wire p_num) 33) = Err (EDamagedSlot ECrcDismatch).
Proof. vm_compute. repeat split; reflexivity. Qed.

(** The file of [C75_example]: two odd tables. Without its last four bytes the second one promises more than there is; with
    a third one that is incomplete; and with one whose size is 2^64 bytes and some. *)
Example C91_example_open : all_tables odd_file odd_tables 247 /\
  rmap (fun r => map (fun s => (sl_lengths (fst s), snd s)) (d_slots r)) (rel_d_open (U := N) 251 odd_file) = Ok [([33; 37], 0); ([105; 0], 106)] /\
  un (rel_d_open (U := N) 251 (firstn 246 odd_file)) = Err (EIo UnexpectedEof) /\
  un (rel_d_open (U := N) 300 (firstn 247 odd_file ++ slot_sig ++ le 8 3 ++ str "eleven byte")) = Ok tt /\
  un (rel_d_open (U := N) 300 (firstn 247 odd_file ++ slot_sig ++ le 8 2305843009213693951 ++ str "eleven byte")) = Panic PCapacity.
Proof. split; [exact odd_file_tables|]. vm_compute. auto. Qed.

(** ** C92 *)

(** Reloading: the same as in a build with overflow checks wherever that one does not panic, whatever has become of the
    file. *)
Theorem C92_same : forall U (P : proto U) ps es (r : sreader U) data n o r',
  reading es r -> Forall2 (packet_enc P) ps es -> blen (storage_file es) < two63 -> blen data < two63 -> (length data < n)%nat ->
  d_reload (d_refresh data r) = (o, r') -> (forall w, o <> Panic w) -> rel_d_reload n (d_refresh data r) = (o, r').
Proof.
  intros U P ps es r data n o r' RD FE B BD LN E NP. destruct (reading_ok P es r RD ps FE B) as ([(fs & l & J & SH & EE & DS & _) NE _] & _). apply rel_reload_same; [exact BD| |exact LN|exact E|exact NP].
  cbn [d_refresh d_slots]. rewrite EE in *. rewrite storage_shaped in B by exact SH. pose proof (reload_start fs l (d_slots r) SH NE DS B). unfold two63, two64 in *. lia.
Qed.
Print Assumptions C92_same.

(** A reader that reloads at any number of moments of an insert and once more when it is complete. No call panics. Missing:
    a call may give the error for the end of the file; then the packet is not announced at all. It is there all the same:
    in the end the number of packets is right and all of them can be read. *)
Theorem C92_poll_partial : forall U (P : proto U) ps es p e (r : sreader U) ms n os r1, proto_ok P ->
  reading es r -> Forall2 (packet_enc P) ps es -> packet_enc P p e -> blen e < two32 -> blen (storage_file (es ++ [e])) < two63 ->
  Forall (fun q => (length (p_blocks q) <= 256)%nat) (ps ++ [p]) -> (length (storage_file (es ++ [e])) < n)%nat ->
  StronglySorted Peano.le ms -> rel_polls n (map (during es e) ms) r = (os, r1) ->
  Forall (fun o => o = Ok 0%nat \/ o = Ok 1%nat \/ o = Err (EDamagedSlot ECrcDismatch) \/ o = Err (EIo UnexpectedEof)) os /\
  (forall i q, nth_error ps i = Some q -> exists r', d_nth P i r1 = (Ok (Some q), r')) /\
  exists k r2, rel_d_reload n (d_refresh (storage_file (es ++ [e])) r1) = (Ok k, r2) /\
    (In (Err (EIo UnexpectedEof)) os -> told_all os = 0 /\ k = 0)%nat /\ (~ In (Err (EIo UnexpectedEof)) os -> (told_all os + k = 1)%nat /\ reading (es ++ [e]) r2) /\
    d_count r2 = (length es + 1)%nat /\ forall i q, nth_error (ps ++ [p]) i = Some q -> exists r', d_nth P i r2 = (Ok (Some q), r').
Proof.
  intros U P ps es p e r ms n os r1 HP RD FE HE BE B FW LN ST EP.
  assert (blen (storage_file es) < two63) as B0 by (pose proof (storage_mono es [e]); lia). pose proof (FE1 P ps es p e FE HE) as FE1. pose proof (encs_nonempty _ _ _ FE) as NE.
  assert (Forall few ps) as FW0 by (apply forall_few; now apply Forall_app in FW). pose proof (forall_few _ FW) as FW1.
  assert (forall xs qs (r0 : sreader U), reading xs r0 -> Forall2 (packet_enc P) qs xs -> blen (storage_file xs) < two63 -> Forall few qs ->
    d_count r0 = length xs /\ forall i q, nth_error qs i = Some q -> exists r', d_nth P i r0 = (Ok (Some q), r')) as FULL.
  { intros xs qs r0 RD0 F0 BX FQ. destruct (reading_ok P xs r0 RD0 qs F0 BX) as (OK & _). split; [now apply count_ok|]. intros i q NQ. destruct (nth_ok P HP qs xs r0 i OK F0 FQ) as (r' & E & _). rewrite NQ in E. eauto. }
  destruct (rel_polls_any P ps es p e n FE HE BE B LN ms r os r1 (reading_tracks _ _ RD) ST EP) as (A & T). split; [exact A|].
  assert (Exists eof os <-> In (Err (EIo UnexpectedEof)) os) as EX.
  { rewrite Exists_exists. unfold eof. split; [intros (x & I & ->); exact I|intros I; eauto]. }
  assert (during es e (4020 + length e) = storage_file (es ++ [e])) as DF by (apply during_all; [exact NE|lia]). split.
  - intros i q NQ. destruct (list_eq_dec Nat.eq_dec ms []) as [->|MS].
    { cbn in EP. injection EP as <- <-. exact (proj2 (FULL _ _ r RD FE B0 FW0) i q NQ). }
    pose proof (enc_nth P ps es i FE) as EN. rewrite NQ in EN. destruct EN as (x & NX & HX).
    assert (exists m', c_data (d_file r1) = during es e m') as (m' & D).
    { clear - EP MS. revert r os r1 EP. induction ms as [|m ms IH]; [contradiction|]. intros r os r1. cbn [map rel_polls]. destruct (rel_d_reload n (d_refresh (during es e m) r)) as (o & r2) eqn:E.
      destruct (rel_polls n (map (during es e) ms) r2) as (os2 & r3) eqn:E2. intros Q. injection Q as _ <-. destruct ms as [|m1 ms]; [|apply (IH ltac:(discriminate) r2 os2 r3 E2)].
      cbn in E2. injection E2 as _ <-. exists m. pose proof (rel_reload_data n (d_refresh (during es e m) r)) as Q. rewrite E in Q. exact Q. }
    pose proof (during_holds es e m' i x NX) as HH. rewrite <- D in HH. assert (few q) as FQ by (rewrite Forall_forall in FW0; apply FW0; eapply nth_error_In; eauto).
    assert (i < length es)%nat as LI by (apply nth_error_Some; congruence). assert (i < length ps)%nat as LP by (apply nth_error_Some; congruence).
    assert (knows es r1 \/ knows (es ++ [e]) r1) as [K|K].
    { destruct T as [(_ & T & _)|[(_ & T & _)|(_ & T & _)]]; [left; exact (tracks_knows P ps es r1 T FE B0)|right; exact (tracks_knows P _ _ r1 T FE1 B)|right; now apply noted_knows]. }
    + exact (nth_knows P es ps r1 i q x HP K FE B0 NQ FQ NX HH).
    + apply (nth_knows P (es ++ [e]) (ps ++ [p]) r1 i q x HP K FE1 B); [now rewrite nth_error_app1|exact FQ|now rewrite nth_error_app1|]. rewrite place_app by lia. exact HH.
  - destruct T as [(Q & T & NX)|[(Q & T & NX)|(Q & T & X)]]; rewrite Q.
    + destruct (poll_done P ps es p e FE HE BE B r1 T) as (r2 & E & RD2). exists 1%nat, r2. rewrite <- DF in E |- *. split; [exact (poll_same P ps es e n FE BE B LN _ r1 _ _ T E ltac:(discriminate))|].
      split; [intros I; elim NX; now apply EX|]. split; [auto|]. destruct (FULL _ _ r2 RD2 FE1 B FW1) as (C1 & C2). rewrite app_length in C1. auto.
    + destruct (poll_again P ps es p e FE HE B r1 T) as (r2 & E & RD2). exists 0%nat, r2. rewrite <- DF in E |- *. split; [exact (poll_same1 P ps es p e n FE HE BE B LN _ r1 _ _ T E ltac:(discriminate))|].
      split; [intros I; elim NX; now apply EX|]. split; [auto|]. destruct (FULL _ _ r2 RD2 FE1 B FW1) as (C1 & C2). rewrite app_length in C1. auto.
    + pose proof (noted_brim es e n BE B LN r1 T) as BR. destruct (poll_noted P ps es p e n FE HE BE B LN (4020 + length e) r1 T BR) as (o & r2 & E & NT & [->|(Q1 & _)]); [|lia]. rewrite DF in E.
      exists 0%nat, r2. split; [exact E|]. split; [auto|]. split; [intros NI; elim NI; now apply EX|]. split; [now apply (noted_count P ps es p e n FE HE BE B LN)|].
      intros i q NQ. pose proof (enc_nth P _ _ i FE1) as EN. rewrite NQ in EN. destruct EN as (x & NX & HX).
      apply (nth_knows P (es ++ [e]) (ps ++ [p]) r2 i q x HP (noted_knows es e r2 NT) FE1 B NQ); [rewrite Forall_forall in FW1; apply FW1; eapply nth_error_In; eauto|exact NX|].
      pose proof (rel_reload_data n (d_refresh (storage_file (es ++ [e])) r1)) as D2. rewrite E in D2. cbn [snd d_refresh d_file c_data] in D2. rewrite D2.
      destruct (decompose (es ++ [e])) as (fs & l & SH & EE). rewrite EE in *. now apply ok_holds.
Qed.
Print Assumptions C92_poll_partial.

(** When that error comes: while the table of the first or of the last packet of a slot is there and the packet is not
    complete. *)
Theorem C92_boundary : forall U (P : proto U) ps es p e (r : sreader U) m n,
  reading es r -> Forall2 (packet_enc P) ps es -> packet_enc P p e -> blen e < two32 -> blen (storage_file (es ++ [e])) < two63 -> (length (storage_file (es ++ [e])) < n)%nat ->
  (length es mod 500 = 0 \/ length es mod 500 = 499)%nat -> (4020 <= m < 4020 + length e)%nat ->
  exists r', rel_d_reload n (d_refresh (during es e m) r) = (Err (EIo UnexpectedEof), r').
Proof.
  intros U P ps es p e r m n RD FE HE BE B LN H (M1 & M2). destruct (decompose es) as (fs & l & SH & EE). assert (length es mod 500 = length l)%nat as LM by (rewrite EE; now apply shape_mod). rewrite LM in H. pose proof SH as (F & L).
  assert (brim es e m) as BR.
  { exists fs, l. split; [exact SH|]. split; [exact EE|]. destruct H as [H|H]; [left; split; [now destruct l|exact M1]|right]. split; [rewrite cap_eq; lia|]. unfold fresh_table, mix.
    assert (length (slot_table (map blen l ++ [blen e])) = 4020%nat) as LT by (rewrite <- tsz_nat; apply CrashProofs.table_len; rewrite app_length, map_length; cbn [length]; lia).
    assert (length (slot_table (map blen l)) = 4020%nat) as LO by (rewrite <- tsz_nat; apply CrashProofs.table_len; rewrite map_length; lia).
    rewrite firstn_all2, skipn_all2, app_nil_r by lia. reflexivity. }
  destruct (poll_brim P ps es p e n FE HE BE B LN m r (reading_tracks _ _ RD) BR M2) as (r' & E & _). eauto.
Qed.
Print Assumptions C92_boundary.

(** So a packet may never be announced: a reader of an empty storage that reloads between the table and the first packet. *)
Theorem C92_announced_refuted : exists (r r1 r2 : sreader N) (os : list (w_op N)) w sched o w' n,
  reading [] r /\ w_history os = Ok w /\ w_inserted os = [] /\ packet_enc P0 p_num (wire p_num) /\
  w_insert p_num (w_faults sched [] w) = (o, w') /\ (length (storage_file [wire p_num]) < n)%nat /\
  rel_d_reload n (d_refresh (w_data w') r) = (Err (EIo UnexpectedEof), r1) /\
  rel_d_reload n (d_refresh (storage_file [wire p_num]) r1) = (Ok 0%nat, r2) /\ d_count r2 = 1%nat.
Proof.
  assert (Forall2 (packet_enc P0) [] []) as FE by constructor.
  destruct (@open_reader N [] _ eq_refl ltac:(constructor) ltac:(reflexivity)) as (r & ER & _).
  destruct (history_ok P0 [] [] FE ltac:(reflexivity)) as (fs & l & w & EW & _).
  destruct (C90_moments_occur N P0 [] [] w p_num (wire p_num) 4020 FE ltac:(reflexivity) EW p_num_enc ltac:(apply Nat.leb_le; vm_compute; reflexivity)) as (sched & o & w' & EI & D).
  set (n := S (length (storage_file [wire p_num]))).
  destruct (C92_boundary N P0 [] [] p_num (wire p_num) r 4020 n (reading_exact _ _ ER) FE p_num_enc ltac:(vm_compute; reflexivity) ltac:(vm_compute; reflexivity) ltac:(apply Nat.lt_succ_diag_r)
    ltac:(left; reflexivity) ltac:(split; [apply Nat.leb_le; vm_compute; reflexivity|apply Nat.ltb_lt; vm_compute; reflexivity])) as (r1 & EP).
  destruct (C92_poll_partial N P0 [] [] p_num (wire p_num) r [4020%nat] n [Err (EIo UnexpectedEof)] r1 P0_ok (reading_exact _ _ ER) FE p_num_enc ltac:(vm_compute; reflexivity) ltac:(vm_compute; reflexivity))
    as (_ & _ & k & r2 & E2 & T & _ & CN & _).
  - repeat constructor.
  - apply Nat.lt_succ_diag_r.
  - repeat constructor.
  - cbn [map rel_polls]. rewrite EP. reflexivity.
  - destruct (T ltac:(now left)) as (_ & ->). exists r, r1, r2, [], w, sched, o, w', n. rewrite D. do 5 (split; [first [exact (reading_exact _ _ ER)|exact EW|reflexivity|exact p_num_enc|exact EI]|]).
    split; [apply Nat.lt_succ_diag_r|]. split; [exact EP|]. split; [exact E2|exact CN].
Qed.
Print Assumptions C92_announced_refuted.

(** Reloads during the first insert of a storage: the table begun, nearly complete, complete; within the packet; after it. *)
Example C92_example : exists r : sreader N, d_open [] = Ok r /\
  fst (rel_polls 4200 (map (during [] (wire p_num)) [0; 16; 4019; 4020; 4060; 4125]%nat) r) = [Ok 0; Ok 0; Ok 0; Err (EIo UnexpectedEof); Ok 0; Ok 0]%nat /\
  fst (rel_polls 4200 (map (during [] (wire p_num)) [0; 16; 4019; 4125]%nat) r) = [Ok 0; Ok 0; Ok 0; Ok 1]%nat.
Proof. eexists. split; [reflexivity|]. vm_compute. split; reflexivity. Qed.
(** During the insert of a third packet. *)
Example C92_example_middle : match d_open (U := N) (storage_file [wire p_raw; wire p_txt]) with
  | Ok r => fst (rel_polls 4900 (map (during [wire p_raw; wire p_txt] (wire p_num)) moments) r) = [Ok 0; Ok 0; Err (EDamagedSlot ECrcDismatch); Err (EDamagedSlot ECrcDismatch); Ok 1; Ok 0]%nat
  | _ => False
  end.
Proof. vm_compute. reflexivity. Qed.
