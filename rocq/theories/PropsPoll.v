(** * Readers that follow a storage while it is written (C90). *)
From Coq Require Import ZifyBool ZifyNat ZifyN Sorted.
From Verif Require Import Base Crc32 Io File Block Payload Packet Slot Storage Spec SpecStorage SpecPoll BaseProofs PacketProofs StorageProofs StorageReadProofs ReadingProofs CrashProofs PollProofs PropsStorage PropsCrash Samples.
Ltac Zify.zify_post_hook ::= Z.div_mod_to_equations.
Open Scope list_scope.

(** ** C90 *)

(** The file at any moment of an insert, however the system splits the writes: [during] for some number of bytes. *)
Theorem C90_moments : forall U (P : proto U) os es w p e sched flushes o w',
  Forall2 (packet_enc P) (w_inserted os) es -> blen (storage_file es) < two63 -> w_history os = Ok w -> packet_enc P p e ->
  w_insert p (w_faults sched flushes w) = (o, w') ->
  exists m, (m <= 4020 + length e)%nat /\ w_data w' = during es e m /\ (o = Ok tt -> m = (4020 + length e)%nat).
Proof.
  intros U P os es w p e sched flushes o w' FE B E HE EI. destruct (history_state P os es w FE B E) as (fs & l & OK & <-).
  exact (insert_during P fs l w p e sched flushes o w' OK HE EI).
Qed.
Print Assumptions C90_moments.

(** Each of them occurs. *)
Theorem C90_moments_occur : forall U (P : proto U) os es w p e m,
  Forall2 (packet_enc P) (w_inserted os) es -> blen (storage_file es) < two63 -> w_history os = Ok w -> packet_enc P p e -> (m <= 4020 + length e)%nat ->
  exists sched o w', w_insert p (w_faults sched [] w) = (o, w') /\ w_data w' = during es e m.
Proof.
  intros U P os es w p e m FE B E HE LM. destruct (history_state P os es w FE B E) as (fs & l & OK & <-).
  destruct (during_insert P fs l w p e m OK HE LM) as (o & w' & Q). exists (bytewise m), o, w'. exact Q.
Qed.
Print Assumptions C90_moments_occur.

Lemma polls_data {U} m ms es e : forall (r : sreader U), exists m', c_data (d_file (snd (polls (map (during es e) (m :: ms)) r))) = during es e m'.
Proof.
  revert m. induction ms as [|m1 ms IH]; intros m r; cbn [map polls].
  - exists m. pose proof (reload_data (d_refresh (during es e m) r)) as Q. destruct (d_reload _) as (o & r1). exact Q.
  - destruct (d_reload (d_refresh (during es e m) r)) as (o & r1). destruct (IH m1 r1) as (m' & Q). exists m'. cbn [map polls] in Q.
    destruct (d_reload (d_refresh (during es e m1) r1)) as (o1 & r2). destruct (polls (map (during es e) ms) r2) as (os & r3). exact Q.
Qed.

(** A reader that reloads at any number of moments of the insert and once more when it is complete: a call gives 0, 1 or the
    error for a damaged table; the packet is announced exactly once; in the end the reader is up to date; and the packets
    that were there before can be read all the time. Missing: calls that panic; they only happen at moments that are not
    [calm], see below. *)
Theorem C90_poll_partial : forall U (P : proto U) ps es p e (r : sreader U) ms os r1, proto_ok P ->
  reading es r -> Forall2 (packet_enc P) ps es -> packet_enc P p e -> blen e < two32 -> blen (storage_file (es ++ [e])) < two63 ->
  Forall (fun q => (length (p_blocks q) <= 256)%nat) ps ->
  StronglySorted Peano.le ms -> polls (map (during es e) ms) r = (os, r1) -> (forall w, ~ In (Panic w) os) ->
  Forall (fun o => o = Ok 0%nat \/ o = Ok 1%nat \/ o = Err (EDamagedSlot ECrcDismatch)) os /\
  (forall i q, nth_error ps i = Some q -> exists r', d_nth P i r1 = (Ok (Some q), r')) /\
  exists n r2, d_reload (d_refresh (storage_file (es ++ [e])) r1) = (Ok n, r2) /\ (told_all os + n = 1)%nat /\ reading (es ++ [e]) r2.
Proof.
  intros U P ps es p e r ms os r1 HP RD FE HE BE B FW ST EP NP.
  assert (blen (storage_file es) < two63) as B0 by (pose proof (storage_mono es [e]); lia).
  destruct (polls_any P ps es p e FE HE BE B ms r os r1 (reading_tracks _ _ RD) ST NP EP) as (A & T). split; [exact A|]. split.
  - intros i q NQ. destruct ms as [|m ms].
    + cbn [map polls] in EP. injection EP as <- <-. destruct (reading_ok P es r RD ps FE B0) as (OK & _).
      destruct (nth_ok P HP ps es r i OK FE (forall_few ps FW)) as (r' & E & _). rewrite NQ in E. eauto.
    + destruct (polls_data m ms es e r) as (m' & D). rewrite EP in D. cbn [snd] in D.
      pose proof (enc_nth P ps es i FE) as EN. rewrite NQ in EN. destruct EN as (x & NX & HX). pose proof (during_holds es e m' i x NX) as HH. rewrite <- D in HH.
      assert (few q) as FQ by (rewrite Forall_forall in FW; apply FW; eapply nth_error_In; eauto).
      destruct T as [(_ & T)|(_ & T)].
      * exact (nth_holds P es ps r1 i q x HP T FE B0 NQ FQ NX HH).
      * assert (i < length es)%nat as LI by (apply nth_error_Some; congruence). assert (i < length ps)%nat as LP by (apply nth_error_Some; congruence).
        apply (nth_holds P (es ++ [e]) (ps ++ [p]) r1 i q x HP T (FE1 P ps es p e FE HE) B); [now rewrite nth_error_app1|exact FQ|now rewrite nth_error_app1|].
        rewrite place_app by lia. exact HH.
  - destruct T as [(Q & T)|(Q & T)]; rewrite Q.
    + destruct (poll_done P ps es p e FE HE BE B r1 T) as (r2 & E & RD2). exists 1%nat, r2. auto.
    + destruct (poll_again P ps es p e FE HE B r1 T) as (r2 & E & RD2). exists 0%nat, r2. auto.
Qed.
Print Assumptions C90_poll_partial.

(** No call panics when all the moments are calm. *)
Theorem C90_calm : forall U (P : proto U) ps es p e (r : sreader U) ms os r1,
  reading es r -> Forall2 (packet_enc P) ps es -> packet_enc P p e -> blen e < two32 -> blen (storage_file (es ++ [e])) < two63 ->
  StronglySorted Peano.le ms -> Forall (calm es e) ms -> polls (map (during es e) ms) r = (os, r1) -> forall w, ~ In (Panic w) os.
Proof.
  intros U P ps es p e r ms os r1 RD FE HE BE B ST CM EP w I. destruct (polls_before P ps es p e FE HE BE B ms r os r1 (reading_tracks _ _ RD) ST CM EP) as (A & _).
  rewrite Forall_forall in A. destruct (A _ I) as [Q|[Q|Q]]; discriminate.
Qed.
Print Assumptions C90_calm.

(** At the other moments: a reload panics while the table of a new slot is incomplete or the first packet of the slot is;
    and while the last packet of a slot is incomplete behind its table. (Within the four bytes of the checksum of a table
    that becomes full it gives the error or panics, which depends on the bytes.) *)
Theorem C90_boundary : forall U (P : proto U) ps es p e (r : sreader U) m,
  reading es r -> Forall2 (packet_enc P) ps es -> packet_enc P p e -> blen e < two32 -> blen (storage_file (es ++ [e])) < two63 ->
  (length es mod 500 = 0 /\ 16 <= m < 4020 + length e \/ length es mod 500 = 499 /\ 4020 <= m < 4020 + length e)%nat ->
  exists r', d_reload (d_refresh (during es e m) r) = (Panic POverflow, r').
Proof. intros U P ps es p e r m RD FE HE BE B H. exact (poll_panics P ps es p e FE HE BE B m r (reading_tracks _ _ RD) H). Qed.
Print Assumptions C90_boundary.

(** So reloading while a writer is at work is not safe: a reader of an empty storage, and the first insert. *)
Theorem C90_always_refuted : exists (r r' : sreader N) (os : list (w_op N)) w sched o w',
  reading [] r /\ w_history os = Ok w /\ w_inserted os = [] /\ packet_enc P0 p_num (wire p_num) /\
  w_insert p_num (w_faults sched [] w) = (o, w') /\ d_reload (d_refresh (w_data w') r) = (Panic POverflow, r').
Proof.
  assert (Forall2 (packet_enc P0) [] []) as FE by constructor.
  destruct (@open_reader N [] _ eq_refl ltac:(constructor) ltac:(reflexivity)) as (r & ER & _).
  destruct (history_ok P0 [] [] FE ltac:(reflexivity)) as (fs & l & w & EW & _).
  destruct (C90_moments_occur N P0 [] [] w p_num (wire p_num) 16 FE ltac:(reflexivity) EW p_num_enc ltac:(apply Nat.leb_le; vm_compute; reflexivity)) as (sched & o & w' & EI & D).
  destruct (C90_boundary N P0 [] [] p_num (wire p_num) r 16 (reading_exact _ _ ER) FE p_num_enc ltac:(vm_compute; reflexivity) ltac:(vm_compute; reflexivity)) as (r' & EP).
  { left. split; [reflexivity|]. split; [apply Nat.leb_le; vm_compute; reflexivity|apply Nat.ltb_lt; vm_compute; reflexivity]. }
  exists r, r', [], w, sched, o, w'. split; [exact (reading_exact _ _ ER)|]. split; [exact EW|]. split; [reflexivity|]. split; [exact p_num_enc|]. split; [exact EI|]. rewrite D. exact EP.
Qed.
Print Assumptions C90_always_refuted.

(** Six reloads during the insert of a third packet: before anything is written; within the new length, which is 105, twice;
    within the checksum; between the table and the packet; within the packet. *)
Definition moments : list nat := [0; 32; 33; 4018; 4020; 4060]%nat.
Example C90_example : exists r r1 : sreader N, reading [wire p_raw; wire p_txt] r /\
  StronglySorted Peano.le moments /\ Forall (calm [wire p_raw; wire p_txt] (wire p_num)) moments /\
  polls (map (during [wire p_raw; wire p_txt] (wire p_num)) moments) r =
    ([Ok 0; Ok 0; Err (EDamagedSlot ECrcDismatch); Err (EDamagedSlot ECrcDismatch); Ok 1; Ok 0]%nat, r1) /\
  (exists r2, d_reload (d_refresh (storage_file [wire p_raw; wire p_txt; wire p_num]) r1) = (Ok 0%nat, r2) /\ reading [wire p_raw; wire p_txt; wire p_num] r2).
Proof.
  assert (Forall2 (packet_enc P0) [p_raw; p_txt] [wire p_raw; wire p_txt]) as FE by (repeat constructor; [apply p_raw_enc|apply p_txt_enc]).
  destruct (@open_reader N [wire p_raw; wire p_txt] _ eq_refl (encs_nonempty _ _ _ FE) ltac:(vm_compute; reflexivity)) as (r & ER & _).
  pose proof (reading_exact _ _ ER) as RD.
  assert (StronglySorted Peano.le moments) as ST by (unfold moments; repeat match goal with |- StronglySorted _ _ => constructor | |- Forall _ _ => constructor | |- (_ <= _)%nat => apply Nat.leb_le; vm_compute; reflexivity end).
  assert (Forall (calm [wire p_raw; wire p_txt] (wire p_num)) moments) as CM by (unfold moments; repeat (constructor; [left; split; intros; discriminate|]); constructor).
  destruct (polls (map (during [wire p_raw; wire p_txt] (wire p_num)) moments) r) as (os & r1) eqn:EP. exists r, r1. split; [exact RD|]. split; [exact ST|]. split; [exact CM|].
  assert (os = [Ok 0; Ok 0; Err (EDamagedSlot ECrcDismatch); Err (EDamagedSlot ECrcDismatch); Ok 1; Ok 0]%nat) as OS.
  { assert (os = fst (polls (map (during [wire p_raw; wire p_txt] (wire p_num)) moments) (match d_open (U := N) (storage_file [wire p_raw; wire p_txt]) with Ok r => r | _ => r end))) as -> by (rewrite ER, EP; reflexivity).
    vm_compute. reflexivity. }
  subst os. split; [exact EP|].
  destruct (C90_poll_partial N P0 [p_raw; p_txt] [wire p_raw; wire p_txt] p_num (wire p_num) r moments _ r1 P0_ok RD FE p_num_enc ltac:(vm_compute; reflexivity) ltac:(vm_compute; reflexivity)
    ltac:(repeat match goal with |- Forall _ _ => constructor | |- (_ <= _)%nat => apply Nat.leb_le; vm_compute; reflexivity end) ST EP
    (C90_calm N P0 [p_raw; p_txt] [wire p_raw; wire p_txt] p_num (wire p_num) r moments _ r1 RD FE p_num_enc ltac:(vm_compute; reflexivity) ltac:(vm_compute; reflexivity) ST CM EP)) as (_ & _ & n & r2 & E & TN & RD2).
  exists r2. cbn in TN. injection TN as ->. split; [exact E|exact RD2].
Qed.

(** A reader of 499 packets, and the insert that fills the slot. *)
Example C90_example_boundary : exists r r' : sreader N, reading (repeat (wire p_void) 499) r /\
  d_reload (d_refresh (during (repeat (wire p_void) 499) (wire p_num) 4020) r) = (Panic POverflow, r').
Proof.
  assert (Forall2 (packet_enc P0) (repeat p_void 499) (repeat (wire p_void) 499)) as FE by (apply enc_repeat, p_void_enc).
  destruct (@open_reader N (repeat (wire p_void) 499) _ eq_refl (encs_nonempty _ _ _ FE) ltac:(vm_compute; reflexivity)) as (r & ER & _).
  destruct (C90_boundary N P0 (repeat p_void 499) (repeat (wire p_void) 499) p_num (wire p_num) r 4020 (reading_exact _ _ ER) FE p_num_enc ltac:(vm_compute; reflexivity) ltac:(vm_compute; reflexivity)) as (r' & EP).
  { right. split; [vm_compute; reflexivity|]. split; [apply Nat.leb_le; vm_compute; reflexivity|apply Nat.ltb_lt; vm_compute; reflexivity]. }
  exists r, r'. split; [exact (reading_exact _ _ ER)|exact EP].
Qed.
