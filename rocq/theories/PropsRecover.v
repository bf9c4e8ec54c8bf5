(** * Recovery of a storage file with the streaming reader (C45). *)
From Coq Require Import ZifyBool ZifyNat ZifyN.
From Verif Require Import Base Crc32 Io File Block Payload Packet Rules StreamReader Slot Storage Spec SpecStorage BaseProofs BlockProofs PayloadEnumProofs PacketProofs WireProofs StreamProofs StreamItemProofs StreamSoundProofs StorageProofs StorageReadProofs ReloadProofs ReadingProofs CrashProofs RecoverProofs Samples PropsStorage PropsStream PropsCrash.
Open Scope list_scope.

(** The signature of a packet. *)
Definition packet_mark : bytes := map n2b [236; 37; 94; 136; 236; 37; 94; 136].

Theorem C45_recovery : forall U (P : proto U) (ops : list (rule_op U)) os es w cs,
  proto_ok P -> Forall2 (packet_enc P) (w_inserted os) es -> Forall few_blocks (w_inserted os) -> blen (storage_file es) < two63 ->
  Forall (fun g => no_signature (slot_table (map blen g)) packet_mark) (in_groups 500 es) ->
  w_history os = Ok w -> cut_into cs (w_data w) -> Forall (fun c => (29 <= length c)%nat) cs ->
  let rs := rule_history ops in
  exists outs r',
    pr_reads P (length outs + 1) (fresh rs (map Chunk cs)) = (outs ++ [Ok NNoData], r') /\
    (forall k, fst (pr_reads P (length outs + 1 + k) (fresh rs (map Chunk cs))) = outs ++ repeat (Ok NNoData) (k + 1)) /\
    Forall2 (verdict P rs) (w_inserted os) (reports outs) /\
    (** the tables, and nothing else, are reported as foreign data *)
    (forall t, In (RIgnored t) rs -> exists bufs, r_log r' = map (pair t) bufs /\ Forall (fun b => b <> []) bufs /\
       concat bufs = concat (map (fun g => slot_table (map blen g)) (in_groups 500 es))) /\
    ((forall t, ~ In (RIgnored t) rs) -> r_log r' = []).
Proof.
  intros U P ops os es w cs HP FE FB B X E CU L29 rs. destruct (history_state P os es w FE B E) as (fs & l & OK & EE).
  pose proof (history_data _ _ _ OK) as D. pose proof (ok_shaped _ _ _ OK) as SH. pose proof (encs_nonempty _ _ _ FE) as NE. rewrite EE in D. rewrite D in CU. clear D OK E w.
  assert (in_groups 500 es = gro fs l) as EG by (rewrite <- EE, <- cap_eq; now apply groups_shaped). rewrite EG in *.
  assert (storage_file es = files (gro fs l)) as ES by (rewrite <- EE; now apply storage_shaped).
  assert (concat (gro fs l) = es) as EC by (rewrite <- EE; apply groups_concat).
  rewrite <- EE in NE. pose proof (shaped_filled _ _ SH NE) as FG. pose proof (groups_nonempty _ _ SH) as GN.
  destruct (mixed_stream P HP ops (gaps (gro fs l)) (w_inserted os) es [] cs FE FB) as (outs & r' & R1 & R2 & R3 & R4 & R5).
  - rewrite <- EC. apply gaps_clean; [exact GN|exact X|rewrite EC; exact (encs_mark _ _ _ FE)].
  - intros i Q. cbn [length] in Q. lia.
  - unfold stream_bytes. rewrite app_nil_r. rewrite <- EC at 1. rewrite combine_gaps by exact GN. rewrite <- ES. exact CU.
  - now right.
  - exists outs, r'. split; [exact R1|]. split; [exact R2|]. split; [exact R3|]. split; [|exact R5].
    intros t IT. destruct (R4 t IT) as (bufs & Q1 & Q2 & Q3). exists bufs. rewrite app_nil_r, concat_gaps in Q3. auto.
Qed.
Print Assumptions C45_recovery.

(** With packets below 4 GiB a table can meet the signature in one way only: its checksum is the first half of it. *)
Theorem C45_tables : forall es, Forall (fun e => blen e < two32) es ->
  Forall (fun g => skipn 4016 (slot_table (map blen g)) <> firstn 4 packet_mark) (in_groups 500 es) ->
  Forall (fun g => no_signature (slot_table (map blen g)) packet_mark) (in_groups 500 es).
Proof.
  intros es S X. rewrite Forall_forall in X. apply Forall_forall. intros g I. apply tabular_mark, table_tabular; [|apply Forall_map|exact (X g I)].
  - rewrite map_length, cap_eq. now apply (in_group_small 500 es).
  - rewrite Forall_forall in S. apply Forall_forall. intros x Ix. apply S. exact (in_group_in 500 es g x I Ix).
Qed.
Print Assumptions C45_tables.

(** After an insert that was interrupted anywhere, the packets from before are still all found, even where the storage cannot be
    opened any more (C42). The last table may then be a mixture of the new and the old one. *)
Theorem C45_recovery_after_crash : forall U (P : proto U) (ops : list (rule_op U)) os es p e w sched flushes o w' cs,
  proto_ok P -> Forall2 (packet_enc P) (w_inserted os) es -> Forall few_blocks (w_inserted os) -> packet_enc P p e ->
  blen (storage_file es) < two63 -> Forall (fun e => blen e < two32) (es ++ [e]) ->
  Forall (fun g => no_signature (slot_table (map blen g)) packet_mark) (in_groups 500 es) ->
  (forall g k, g = last (in_groups 500 (es ++ [e])) [] ->
     skipn 4016 (firstn k (slot_table (map blen g)) ++ skipn k (slot_table (map blen (removelast g)))) <> firstn 4 packet_mark) ->
  w_history os = Ok w -> w_insert p (w_faults sched flushes w) = (o, w') ->
  cut_into cs (w_data w') -> Forall (fun c => (29 <= length c)%nat) cs ->
  let rs := rule_history ops in
  exists outs r', pr_reads P (length outs) (fresh rs (map Chunk cs)) = (outs, r') /\ Forall2 (verdict P rs) (w_inserted os) (reports outs).
Proof.
  intros U P ops os es p e w sched flushes o w' cs HP FE FB HE B S32 X XM E I CU L29 rs. destruct (history_state P os es w FE B E) as (fs & l & OK & EE).
  pose proof (ok_shaped _ _ _ OK) as SH. pose proof SH as (SF & SL). pose proof (encs_nonempty _ _ _ FE) as NE. rewrite <- EE in NE.
  pose proof (crash_shape P fs l w p e sched flushes o w' OK NE HE I) as CS. clear I E OK.
  assert (in_groups 500 es = gro fs l) as EG by (rewrite <- EE, <- cap_eq; now apply groups_shaped). rewrite EG in X.
  assert (last (in_groups 500 (es ++ [e])) [] = l ++ [e]) as EL.
  { rewrite <- EE, <- concat_push, <- cap_eq, groups_shaped, gro_push by now apply shaped_push. apply last_last. }
  specialize (XM (l ++ [e])). rewrite removelast_last in XM. specialize (fun k => XM k (eq_sym EL)). cbv beta in XM. clear EL.
  pose proof (shaped_filled _ _ SH NE) as FG. pose proof (groups_nonempty _ _ SH) as GN.
  assert (Forall (fun g => g <> []) fs) as GF by (unfold gro in GN; now apply Forall_app in GN).
  assert (Forall (fun g => no_signature (slot_table (map blen g)) mark) fs) as TF by (unfold gro in X; now apply Forall_app in X).
  pose proof (encs_mark _ _ _ FE) as MK. rewrite <- EE in MK. apply Forall_app in MK as (M1 & M2).
  pose proof (gaps_clean fs GF TF M1) as GC.
  destruct CS as [(-> & k & D)|(NL & k & y & D)].
  - rewrite app_nil_r in EE. subst es.
    apply (mixed_then P HP ops (gaps fs) (w_inserted os) (concat fs) (firstn k (slot_table [blen e] ++ e)) cs FE FB GC); [|exact L29].
    unfold stream_bytes. rewrite combine_gaps by exact GF. rewrite <- D. exact CU.
  - set (T := mix k _ _) in D.
    assert (tabular T) as TT.
    { apply mixed_tabular; [rewrite map_length; exact SL| |].
      - rewrite <- EE, <- app_assoc in S32. apply Forall_app in S32 as (_ & S32). change [blen e] with (map blen [e]). rewrite <- (map_app blen). apply Forall_map. exact S32.
      - specialize (XM k). rewrite (map_app blen) in XM. exact XM. }
    apply (mixed_then P HP ops (gaps fs ++ T :: repeat [] (length l - 1)) (w_inserted os) es (firstn y e) cs FE FB); [|  |exact L29].
    + rewrite <- EE. apply Forall2_app; [exact GC|]. apply one_gap_clean; [exact NL|now apply tabular_mark|exact M2].
    + unfold stream_bytes. rewrite <- EE, combine_app by now apply gaps_length. rewrite map_app, concat_app, combine_gaps, one_gap by assumption.
      rewrite <- !app_assoc. rewrite <- D. exact CU.
Qed.
Print Assumptions C45_recovery_after_crash.

(** The condition on the checksum is needed: four packets of 370, 67, 145 and 377 bytes give such a table, and then the reader
    finds nothing at all. *)
Definition misleading : list (packet N) := [p_zeros 327; p_zeros 24; p_zeros 102; p_zeros 334].
Lemma misleading_enc : Forall2 (packet_enc P0) misleading (map wire misleading).
Proof.
  constructor; [zeros_enc 327%nat|]. constructor; [zeros_enc 24%nat|]. constructor; [zeros_enc 102%nat|]. constructor; [zeros_enc 334%nat|constructor].
Qed.
Theorem C45_condition_needed : exists ps es w,
  Forall2 (packet_enc P0) ps es /\ length ps = 4%nat /\ w_history (map WInsert ps) = Ok w /\
  forall n, fst (pr_reads P0 n (fresh [] [Chunk (w_data w)])) = repeat (Err ECrcDismatch) n.
Proof.
  exists misleading, (map wire misleading).
  assert (w_inserted (map WInsert misleading) = misleading) as EI by reflexivity.
  destruct (history_ok P0 (map WInsert misleading) (map wire misleading)) as (fs & l & w & E & OK & EE); [rewrite EI; exact misleading_enc|vm_compute; reflexivity|].
  exists w. split; [exact misleading_enc|]. split; [reflexivity|]. split; [exact E|].
  pose proof (history_data _ _ _ OK) as D. rewrite EE in D. rewrite D. clear.
  intros [|n]; [reflexivity|]. cbn [pr_reads repeat]. set (r1 := fresh [] _).
  set (r2 := mk_preader (mk_bufsrc (storage_file (map wire misleading)) []) [] HEmpty [] [] : preader N).
  assert (pr_read P0 r1 = (Err ECrcDismatch, r2)) as E1 by (vm_compute; reflexivity).
  assert (pr_read P0 r2 = (Err ECrcDismatch, r2)) as E2 by (vm_compute; reflexivity).
  rewrite E1, (stuck_forever P0 r2 _ E2). reflexivity.
Qed.
Print Assumptions C45_condition_needed.

Definition stored : list (w_op N) := [WInsert p_num; WInsert p_raw; WInsert p_txt].
Example C45_example : match w_history stored with
  | Ok w =>
      let (rs, w') := w_insert p_void (w_faults [Accept 3000; Accept 1019; WFail OtherIo] [] w) in
      let found d := firstn 4 (filter loud (fst (watch 12 (fresh [] (map Chunk (chop 5 3000 d)))))) in
      rs = Err (EIo OtherIo) /\
      found (w_data w) = [Ok (SFound (obs p_num)); Ok (SFound (obs p_raw)); Ok (SFound (obs p_txt)); Ok SNoData] /\
      found (w_data w') = [Ok (SFound (obs p_num)); Ok (SFound (obs p_raw)); Ok (SFound (obs p_txt)); Ok SNoData]
  | _ => False
  end.
Proof. vm_compute. repeat split. Qed.
