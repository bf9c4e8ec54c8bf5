(** * Theorems about the streaming reader in a release build (C93), each followed by a concrete case. *)
From Coq Require Import ZifyBool ZifyNat ZifyN.
From Verif Require Import Base Crc32 Io Block Payload Packet Rules StreamReader Release ReleaseStream Spec SpecReleaseStream BaseProofs CrcProofs BlockProofs
  DispatchProofs PayloadProofs PayloadEnumProofs PacketProofs PacketSafeProofs RulesProofs WireProofs LayoutProofs NegProofs CanonProofs
  StreamProofs StreamItemProofs StreamSoundProofs StreamSafeProofs StuckProofs ReleaseStreamProofs ReleaseDropProofs Samples PropsStream.
Ltac Zify.zify_post_hook ::= Z.div_mod_to_equations.
Open Scope list_scope.

Definition rel_watch (n : nat) (r : preader N) : list (res seen) * log :=
  let (os, r) := rel_pr_reads P0 n r in (map (rmap obs_next) os, r_log r).
Definition p_swap : packet N := mk_packet [b_b; b_a] (Some (PUser k_num 77)).
Definition noise : bytes := repeat (n2b 7) 21.

(** ** C93 *)

(** Wherever a build with overflow checks does not panic because of them, both builds return the same and leave the same reader. *)
Theorem C93_same : forall U (P : proto U) (rs : rules U) evs n, blen (concat (map ev_bytes evs)) < two63 ->
  ~ In (Panic POverflow) (fst (pr_reads P n (fresh rs evs))) -> rel_pr_reads P n (fresh rs evs) = pr_reads P n (fresh rs evs).
Proof. intros U P rs evs n L NI. exact (rel_stream_same P rs evs n L NI). Qed.
Print Assumptions C93_same.

Example C93_same_example : let evs := [Fail Interrupted; Chunk (firstn 47 demo_mixed); Chunk (firstn 60 (skipn 47 demo_mixed)); Chunk (skipn 107 demo_mixed)] in
  blen (concat (map ev_bytes evs)) < two63 /\ forallb (fun o => match o with Panic _ => false | _ => true end) (fst (watch 30 (fresh [RIgnored 5] evs))) = true /\
  firstn 5 (filter loud (fst (rel_watch 30 (fresh [RIgnored 5] evs)))) = [Err (EIo Interrupted); Ok (SFound (obs p_num)); Ok (SFound (obs p_void)); Ok (SFound (obs p_txt)); Ok SNoData].
Proof. split; [vm_compute; reflexivity|]. split; vm_compute; reflexivity. Qed.

(** No panic at all, however short the system reads are, unless a valid header lies about the lengths. *)
Theorem C93_no_panic_partial : forall U (P : proto U) (rs : rules U) evs n,
  let D := concat (map ev_bytes evs) in blen D < two63 -> honest_headers D ->
  Forall no_panic (fst (rel_pr_reads P n (fresh rs evs))).
Proof. intros U P rs evs n D L H. exact (rel_no_panic P rs evs n L H). Qed.
Print Assumptions C93_no_panic_partial.

Definition short_stream : bytes := noise ++ wire p_bare ++ wire p_num.
Definition short_reads : list bytes := [firstn 29 short_stream; firstn 22 (skipn 29 short_stream); skipn 51 short_stream].
(** A stream on which the build with overflow checks panics. *)
Example C93_no_panic_example : let evs := map Chunk short_reads in
  honest_headers (concat (map ev_bytes evs)) /\ nth_error (fst (pr_reads P0 3 (fresh [] evs))) 2 = Some (Panic POverflow) /\
  fst (rel_watch 5 (fresh [] evs)) = [Ok SNotFound; Ok (SWait 7); Ok (SWait 0); Ok (SWait 35); Ok (SWait 35)].
Proof. split; [apply honest_check; vm_compute; reflexivity|]. split; vm_compute; reflexivity. Qed.

(** A header whose size overflows makes this build panic too, behind the test that would have stopped it. *)
Theorem C93_panic_refuted : exists D, fst (rel_pr_read P0 (fresh [] [Chunk D])) = Panic PIndex /\ length D = 29%nat.
Proof. exists (layout_header (two64 - 1) 0 false). split; vm_compute; reflexivity. Qed.
Print Assumptions C93_panic_refuted.

(** Whatever the bytes, the source's errors and the rules: the packets found are, in order, sections of the bytes delivered, some bytes
    behind packet headers left out. *)
Theorem C93_found : forall U (P : proto U) (rs : rules U) evs n, let D := concat (map ev_bytes evs) in blen D < two63 ->
  exists kept, left_out kept D /\ sections P kept (found_packets (fst (rel_pr_reads P n (fresh rs evs)))).
Proof. intros U P rs evs n D L. exact (rel_found P rs evs n L). Qed.
Print Assumptions C93_found.

(** "Left out" cannot be dropped from it.  The stream consists of foreign bytes and two packets; the reader returns a packet that
    nobody sent: the header of the first with the blocks of the second. *)
Definition swap_stream : bytes := noise ++ wire p_bare ++ wire p_swap.
Definition swap_reads : list bytes := [firstn 29 swap_stream; firstn 22 (skipn 29 swap_stream); firstn 63 (skipn 51 swap_stream); skipn 114 swap_stream].
Lemma p_swap_enc : packet_enc P0 p_swap (wire p_swap).
Proof.
  exists (ph_bytes (mk_pheader (pk_sig k_num) (crc32_le (le 4 77)) 4) ++ le 4 77).
  split; [repeat (constructor; [first [exact b_a_ok | exact b_b_ok | exact b_e_ok]|]); constructor|].
  split; [|split; [vm_compute; reflexivity|vm_compute; reflexivity]].
  exists (le 4 77), (crc32_le (le 4 77)). split; [|split; reflexivity].
  split; [now left|]. apply num_encodes. reflexivity.
Qed.
Lemma rel_watch_nth n r i o : nth_error (fst (rel_watch n r)) i = Some (Ok (SFound o)) -> exists p, nth_error (fst (rel_pr_reads P0 n r)) i = Some (Ok (NFound p)) /\ obs p = o.
Proof.
  unfold rel_watch. destruct (rel_pr_reads P0 n r) as [os r']. cbn [fst]. rewrite nth_error_map. destruct (nth_error os i) as [[[]|e|w]|]; cbn [option_map rmap obs_next]; try discriminate.
  intros E. exists p. split; [reflexivity|]. congruence.
Qed.
Theorem C93_invented_refuted : exists gs ps es cs n i p,
  Forall2 (packet_enc P0) ps es /\ Forall few_blocks ps /\ Forall2 (fun g e => no_signature g e) gs es /\
  cut_into cs (concat (map (fun ge => fst ge ++ snd ge) (combine gs es))) /\
  nth_error (fst (rel_pr_reads P0 n (fresh [] (map Chunk cs)))) i = Some (Ok (NFound p)) /\ ~ In p ps.
Proof.
  destruct (rel_watch_nth 4 (fresh [] (map Chunk swap_reads)) 3 (map obs_block [b_b; b_a], None)) as (p & E & O); [vm_compute; reflexivity|].
  exists [noise; []], [p_bare; p_swap], [wire p_bare; wire p_swap], swap_reads, 4%nat, 3%nat, p.
  split; [repeat constructor; [exact p_bare_enc|exact p_swap_enc]|]. split; [repeat constructor; unfold few_blocks; cbn; lia|].
  split; [constructor; [|constructor; [|constructor]]; apply no_signature_check; vm_compute; reflexivity|].
  split; [apply cut_check; vm_compute; reflexivity|]. split; [exact E|]. clear E.
  assert (N1 : map fst (fst (obs p)) = map s_name [bk_ty b_b; bk_ty b_a]) by (rewrite O; reflexivity).
  assert (N2 : match snd (obs p) with Some _ => true | None => false end = false) by (rewrite O; reflexivity). clear O.
  intros [<-|[<-|[]]]; [revert N1|revert N2]; vm_compute; discriminate.
Qed.
Print Assumptions C93_invented_refuted.

(** Nor are all packets found: here none of two is ever reported, without an error or a panic. *)
Lemma rel_stuck {U} (P : proto U) r o : rel_pr_read P r = (o, r) -> forall k, rel_pr_reads P k r = (repeat o k, r).
Proof. intros E. induction k as [|k IH]; cbn [rel_pr_reads repeat]; [reflexivity|]. now rewrite E, IH. Qed.
Theorem C93_lost_refuted : exists gs ps es cs,
  Forall2 (packet_enc P0) ps es /\ Forall few_blocks ps /\ Forall2 (fun g e => no_signature g e) gs es /\
  cut_into cs (concat (map (fun ge => fst ge ++ snd ge) (combine gs es))) /\ length ps = 2%nat /\
  forall n, reports (fst (rel_pr_reads P0 n (fresh [] (map Chunk cs)))) = [].
Proof.
  exists [noise; []], [p_bare; p_num], [wire p_bare; wire p_num], short_reads.
  split; [repeat constructor; [exact p_bare_enc|exact p_num_enc]|]. split; [repeat constructor; unfold few_blocks; cbn; lia|].
  split; [constructor; [|constructor; [|constructor]]; apply no_signature_check; vm_compute; reflexivity|].
  split; [apply cut_check; vm_compute; reflexivity|]. split; [reflexivity|].
  set (st0 := fresh [] (map Chunk short_reads)). set (r := snd (rel_pr_reads P0 3 st0)).
  assert (E3 : rel_pr_reads P0 3 st0 = ([Ok NNotFound; Ok (NNotEnough 7); Ok (NNotEnough 0)], r)) by (unfold r, st0; vm_compute; reflexivity).
  assert (ER : rel_pr_read P0 r = (Ok (NNotEnough 35), r)) by (unfold r, st0; vm_compute; reflexivity).
  intros [|[|[|n]]]; [reflexivity|unfold st0; vm_compute; reflexivity|unfold st0; vm_compute; reflexivity|].
  change (S (S (S n))) with (3 + n)%nat. rewrite rel_reads_app, E3, (rel_stuck P0 r _ ER). cbn [fst]. unfold reports. cbn [app filter quiet negb].
  induction n as [|n IH]; [reflexivity|]. cbn [repeat filter quiet negb]. exact IH.
Qed.
Print Assumptions C93_lost_refuted.

(** What happens to streams of packets and foreign bytes in chunks of any length.  Either everything is as it should be; or some chunk is
    shorter than 29 bytes, and a packet [p] lies behind 21 foreign bytes or more.  All packets before [p] are reported.  Then either
    everything delivered by one system read [c] is thrown away and the reader goes on as if the bytes behind the header of [p] were those of
    the reads after [c]; or [p] is the last packet, not longer than 36 bytes, and goes to the ignore callback. *)
Theorem C93_any_chunks : forall U (P : proto U) (ops : list (rule_op U)) gs ps es last cs,
  proto_ok P -> Forall2 (packet_enc P) ps es -> Forall few_blocks ps ->
  Forall2 (fun g e => no_signature g e) gs es -> no_signature last [] ->
  cut_into cs (concat (map (fun ge => fst ge ++ snd ge) (combine gs es)) ++ last) -> blen (concat cs) < two63 ->
  let rs := rule_history ops in let start := fresh rs (map Chunk cs) in
  exists outs o r' ps1 ps2 told,
    rel_pr_reads P (length outs + 1) start = (outs ++ [o], r') /\
    ps = ps1 ++ ps2 /\ Forall2 (verdict P rs) ps1 (reports outs) /\
    (forall t, In (RIgnored t) rs -> exists bufs, r_log r' = map (pair t) bufs /\ Forall (fun b => b <> []) bufs /\ concat bufs = told) /\
    ((forall t, ~ In (RIgnored t) rs) -> r_log r' = []) /\
    (o = Ok NNoData -> forall k, fst (rel_pr_reads P (length outs + 1 + k) start) = outs ++ repeat (Ok NNoData) (k + 1)) /\
    ((ps2 = [] /\ o = Ok NNoData /\ told = concat gs ++ last) \/
     (Exists (fun c => (length c < 29)%nat) cs /\
      exists p ps3 g e, ps2 = p :: ps3 /\ nth_error gs (length ps1) = Some g /\ nth_error es (length ps1) = Some e /\ (21 <= length g)%nat /\
       ((o = Ok (NNotEnough 0) /\ told = concat (firstn (length ps1 + 1) gs) /\
         exists cs1 c cs2 x, cs = cs1 ++ c :: cs2 /\ x <> [] /\
           concat cs1 = concat (map (fun ge => fst ge ++ snd ge) (firstn (length ps1) (combine gs es))) ++ g ++ firstn 29 e ++ x /\
           ((29 < length e)%nat -> forall k, fst (rel_pr_reads P (length outs + 1 + k) start) =
              outs ++ [o] ++ tl (fst (rel_pr_reads P (k + 1) (fresh rs (map Chunk (firstn 29 e :: cs2)))))) /\
           (length e = 29%nat -> exists v, verdict P rs p v /\ forall k, fst (rel_pr_reads P (length outs + 2 + k) start) =
              outs ++ [o; v] ++ fst (rel_pr_reads P k (fresh rs (map Chunk cs2))))) \/
        o = Ok NNoData /\ ps3 = [] /\ (length e + length last <= 36)%nat /\ told = concat gs ++ e ++ last))).
Proof.
  intros U P ops gs ps es last cs HP HE HB HG HL HC L63 rs start. pose proof (history_nodup ops) as ND. fold rs in ND.
  assert (DEC : Forall (fun c => (29 <= length c)%nat) cs \/ Exists (fun c => (length c < 29)%nat) cs).
  { clear. induction cs as [|c cs [IH|IH]]; [left; constructor| |right; now constructor 2].
    destruct (Nat.le_gt_cases 29 (length c)); [left; now constructor|right; now constructor 1]. }
  destruct DEC as [L29|EX].
  { destruct (mixed_stream P HP ops gs ps es last cs HE HB HG HL HC (or_intror L29)) as (outs & r' & R1 & R2 & R3 & R4 & R5). fold rs in R1, R2, R3, R4, R5.
    fold start in R1, R2.
    assert (DD : blen (concat (map ev_bytes (map Chunk cs))) < two63).
    { replace (concat (map ev_bytes (map Chunk cs))) with (concat cs); [exact L63|]. clear. induction cs as [|c cs IH]; [reflexivity|]. cbn [map ev_bytes concat]. now rewrite IH. }
    assert (NI : forall k, ~ In (Panic POverflow) (outs ++ repeat (Ok NNoData) k)).
    { intros k IN. apply in_app_iff in IN as [IN|IN]; [|apply repeat_spec in IN; discriminate].
      assert (IR : In (Panic POverflow) (reports outs)) by (apply filter_In; auto). revert IR. clear - R3. induction R3 as [|p o ps os V F IH]; [intros []|].
      intros [->|IN]; [inversion V|auto]. }
    assert (SA : rel_pr_reads P (length outs + 1) start = (outs ++ [Ok NNoData], r')).
    { rewrite <- R1. apply C93_same; [exact DD|]. fold start. rewrite R1. exact (NI 1%nat). }
    exists outs, (Ok NNoData), r', ps, [], (concat gs ++ last). split; [exact SA|]. split; [now rewrite app_nil_r|]. split; [exact R3|].
    split; [exact R4|]. split; [exact R5|]. split; [|left; auto]. intros _ k. rewrite <- (R2 k). f_equal. apply C93_same; [exact DD|]. fold start. rewrite R2. apply NI. }
  destruct (rel_any_stream P HP ops gs ps es last cs HE HB HG HL HC L63) as (outs & o & r' & ps1 & ps2 & bufs & R1 & R2 & R3 & R4 & R5 & R6 & R7).
  fold rs in R1, R3, R4, R6, R7. fold start in R1, R6, R7. exists outs, o, r', ps1, ps2, (concat bufs). split; [exact R1|]. split; [exact R2|]. split; [exact R3|].
  split. { intros t IT. exists bufs. rewrite R4, (logs_some rs t) by easy. auto. }
  split. { intros NI. rewrite R4. now apply logs_none. }
  split; [exact R6|]. destruct R7 as [R7|R7]; [left; exact R7|right; split; [exact EX|exact R7]].
Qed.
Print Assumptions C93_any_chunks.

(** The packet nobody sent, as the theorem describes it; and a packet without a body, whose reader loses only the system read. *)
Definition void_stream : bytes := noise ++ wire p_void ++ wire p_num ++ wire p_txt.
Example C93_any_chunks_example :
  let '(os, l) := rel_watch 8 (fresh [RIgnored 4] (map Chunk swap_reads)) in
  firstn 4 os = [Ok SNotFound; Ok (SWait 7); Ok (SWait 0); Ok (SFound (map obs_block [b_b; b_a], None))] /\
  fst (rel_watch 9 (fresh [] (map Chunk [firstn 29 void_stream; firstn 22 (skipn 29 void_stream); firstn 104 (skipn 51 void_stream); skipn 155 void_stream]))) =
    [Ok SNotFound; Ok (SWait 7); Ok (SWait 0); Ok (SFound (obs p_void)); Ok (SFound (obs p_txt)); Ok SNoData; Ok SNoData; Ok SNoData; Ok SNoData].
Proof. vm_compute. split; reflexivity. Qed.

(** ** C22, streaming part *)
(** On streams whose headers do not lie the subtraction is the only thing that can panic (in a build with overflow checks), and only
    when some system read delivered less than a header. *)
Theorem C22_stream_only_underflow : forall U (P : proto U) (rs : rules U) evs n outs o rest,
  let D := concat (map ev_bytes evs) in blen D < two63 -> honest_headers D ->
  fst (pr_reads P n (fresh rs evs)) = outs ++ o :: rest -> Forall no_panic outs ->
  no_panic o \/ o = Panic POverflow /\ exists c, In (Chunk c) evs /\ c <> [] /\ (length c < 29)%nat.
Proof.
  intros U P rs evs n outs o rest D L H E F.
  assert (LN : n = (length outs + 1 + length rest)%nat).
  { rewrite <- (reads_length P n (fresh rs evs)), E, app_length. cbn [length]. lia. }
  assert (E1 : fst (pr_reads P (length outs + 1) (fresh rs evs)) = outs ++ [o]).
  { rewrite LN, reads_app in E. pose proof (reads_length P (length outs + 1) (fresh rs evs)) as L1.
    destruct (pr_reads P (length outs + 1) (fresh rs evs)) as [o1 r1]. destruct (pr_reads P (length rest) r1) as [o2 r2]. cbn [fst] in *.
    pose proof (f_equal (firstn (length outs + 1)) E) as Q. change (outs ++ o :: rest) with (outs ++ [o] ++ rest) in Q. rewrite app_assoc in Q.
    rewrite !firstn_app_exact in Q by (rewrite ?app_length; cbn [length]; lia). exact Q. }
  assert (DEC : o = Panic POverflow \/ o <> Panic POverflow) by (destruct o as [a|e|[]]; try (right; discriminate); left; reflexivity).
  destruct DEC as [->|NO].
  - right. split; [reflexivity|].
    assert (DR : roomy evs \/ exists c, In (Chunk c) evs /\ c <> [] /\ (length c < 29)%nat).
    { unfold roomy. clear. induction evs as [|ev evs [IH|(c & I & C)]]; [left; constructor| |right; exists c; split; [now right|exact C]].
      destruct ev as [c|k]; [|left; constructor; [exact I|exact IH]]. destruct c as [|x c]; [left; constructor; [now left|exact IH]|].
      destruct (Nat.le_gt_cases 29 (length (x :: c))) as [LE|LT]; [left; constructor; [now right|exact IH]|right]. exists (x :: c).
      split; [now left|]. split; [discriminate|exact LT]. }
    destruct DR as [R|R]; [exfalso|exact R]. pose proof (C22_stream_no_panic_partial U P rs evs (length outs + 1) L H R) as Q. rewrite E1 in Q.
    apply Forall_app in Q as (_ & Q). exact (Forall_inv Q).
  - left. pose proof (C93_no_panic_partial U P rs evs (length outs + 1) L H) as Q. rewrite C93_same in Q; [|exact L|].
    + rewrite E1 in Q. apply Forall_app in Q as (_ & Q). exact (Forall_inv Q).
    + rewrite E1. intros IN. apply in_app_iff in IN as [IN|[IN|[]]]; [|congruence]. exact (proj1 (Forall_forall _ _) F _ IN).
Qed.
Print Assumptions C22_stream_only_underflow.

Example C22_stream_only_underflow_example : let evs := map Chunk short_reads in
  honest_headers (concat (map ev_bytes evs)) /\ map (rmap obs_next) (fst (pr_reads P0 3 (fresh [] evs))) = [Ok SNotFound; Ok (SWait 7); Panic POverflow] /\
  length (nth 1 short_reads []) = 22%nat.
Proof. split; [apply honest_check; vm_compute; reflexivity|]. split; vm_compute; reflexivity. Qed.
