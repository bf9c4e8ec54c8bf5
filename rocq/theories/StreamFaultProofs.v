(** * The streaming reader: damaged packets. *)
From Coq Require Import ZifyBool ZifyNat ZifyN.
From Verif Require Import Base Crc32 Io Block Payload Packet Rules StreamReader Spec BaseProofs CrcProofs BlockProofs
  DispatchProofs PayloadProofs PayloadEnumProofs PacketProofs PacketSafeProofs RulesProofs WireProofs StreamProofs StreamItemProofs.
Ltac Zify.zify_post_hook ::= Z.div_mod_to_equations.
Open Scope list_scope.

Section Faults.
Context {U : Type}.
Variable P : proto U.
Hypothesis HP : proto_ok P.

(** ** Damaged blocks *)
Lemma burst_length k a b : burst k a b -> length b = length a.
Proof. intros (pre & w & w' & post & -> & -> & L & _). rewrite !app_length. lia. Qed.

Lemma decoded_damaged bs1 b bs2 body : (length (bs1 ++ b :: bs2) <= 255)%nat ->
  Forall (block_ok (pr_blocks P)) (bs1 ++ b :: bs2) -> s_no_crc (bk_ty b) = false ->
  burst 4 (fields_bytes (s_tys (bk_ty b)) (bk_vals b) ++ blk_crc (bk_ty b) (bk_vals b)) body ->
  let B := concat (map bk_encode bs1) ++ (blk_sig (bk_ty b) ++ body) ++ concat (map bk_encode bs2) in
  decoded_blocks P B = (Ok (bs1 ++ b :: bs2), Drop) \/ exists e, decoded_blocks P B = (Err e, Drop).
Proof.
  intros FB HB NC BU B. apply Forall_app in HB as (HB1 & HB2). inversion HB2 as [|x y OB HB3]; subst x y.
  pose proof OB as (IT & SO & VO). rewrite app_length in FB. cbn [length] in FB.
  assert (LBODY : length (blk_sig (bk_ty b) ++ body) = ssize (bk_ty b)).
  { rewrite app_length, (burst_length _ _ _ BU), app_length, blk_sig_length, blk_crc_length, fields_bytes_length by exact VO.
    rewrite ssize_eq. unfold body_size. lia. }
  set (rest := (blk_sig (bk_ty b) ++ body) ++ concat (map bk_encode bs2)) in *.
  assert (NR : rest <> []). { intros Q. apply (f_equal (@length byte)) in Q. unfold rest in Q. rewrite app_length, LBODY, ssize_eq in Q. cbn [length] in Q. lia. }
  assert (E1 : decoded_blocks P B = reader_blocks (255 - length bs1) (pr_blocks P) B (length (concat (map bk_encode bs1))) bs1).
  { destruct (reader_blocks_rt (pr_blocks P) (proj1 HP) bs1 255 B 0 [] rest HB1 ltac:(lia) eq_refl ltac:(lia)) as (_ & A).
    specialize (A NR). cbn [Nat.add app] in A. rewrite <- A. unfold decoded_blocks. destruct B eqn:EB; [|reflexivity].
    exfalso. apply NR. apply app_eq_nil in EB. tauto. }
  rewrite E1. replace (255 - length bs1)%nat with (S (254 - length bs1)) by lia. cbn [reader_blocks].
  assert (V : skipn (length (concat (map bk_encode bs1))) B = rest) by (now apply skipn_app_exact).
  rewrite V. rewrite bk_slice_pick by (unfold rest; rewrite app_length, LBODY, ssize_eq; lia).
  replace (firstn 4 rest) with (blk_sig (bk_ty b)).
  2: { unfold rest. rewrite <- !app_assoc. symmetry. apply firstn_app_exact. now rewrite blk_sig_length. }
  rewrite (pick_in _ _ IT (proj1 HP)).
  destruct (block_corruption (bk_ty b) (bk_vals b) body SO VO NC BU) as (_ & CO & _). specialize (CO (concat (map bk_encode bs2))).
  fold rest in CO. destruct (blk_read_from_slice (bk_ty b) rest false) as [vs|e|w]; [subst vs|right; cbn [rbind]; now exists e|contradiction].
  left. cbn [rbind]. rewrite bk_eta, bk_size_nat. replace (bk_size b =? 0) with false by (unfold bk_size; rewrite ssize_eq; lia).
  assert (LV : (length B = length (concat (map bk_encode bs1)) + ssize (bk_ty b) + length (concat (map bk_encode bs2)))%nat).
  { unfold B, rest. rewrite !app_length in *. lia. }
  destruct bs2 as [|b2 bs2].
  - cbn [map concat length] in LV. replace (_ =? _)%nat with true by lia. reflexivity.
  - assert (PB2 : (8 <= length (concat (map bk_encode (b2 :: bs2))))%nat).
    { inversion HB3; subst. cbn [map concat]. rewrite app_length. pose proof (bk_encode_pos _ _ H1). lia. }
    replace (_ =? _)%nat with false by lia.
    destruct (reader_blocks_rt (pr_blocks P) (proj1 HP) (b2 :: bs2) (254 - length bs1) B
      (length (concat (map bk_encode bs1)) + ssize (bk_ty b)) (bs1 ++ [b]) [] HB3) as (A & _).
    + lia.
    + rewrite Nat.add_comm, <- skipn_skipn, V. unfold rest. rewrite app_nil_r. apply skipn_app_exact. now rewrite LBODY.
    + lia.
    + rewrite A by easy. now rewrite <- app_assoc.
Qed.

Lemma sees_damaged rs p e : NoDup (map id_of rs) -> few_blocks p -> block_damaged P p e ->
  exists o, sees P rs e o /\ (verdict P rs p o \/ exists er, o = Err er).
Proof.
  intros ND FB (bs1 & b & bs2 & body & tail & EP & NC & BU & HB & HT & HL & EE).
  destruct (raw_body_ex P p tail HT) as (raw & HR). fold (flag_of p) in EE.
  set (B := concat (map bk_encode bs1) ++ (blk_sig (bk_ty b) ++ body) ++ concat (map bk_encode bs2)).
  set (blocks := concat (map bk_encode (p_blocks p))) in *.
  assert (LB : blen blocks = blen B).
  { unfold blocks, B. rewrite EP, map_app, concat_app. cbn [map concat]. rewrite !blen_app. rewrite EP in HB.
    apply Forall_app in HB as (_ & HB). pose proof (Forall_inv HB) as OB. unfold bk_encode at 2, blk_encode. rewrite !blen_app.
    pose proof (burst_length _ _ _ BU) as Q. rewrite app_length in Q. unfold blen. lia. }
  rewrite LB in *.
  assert (EE' : e = layout_header (blen B + blen tail) (blen B) (flag_of p) ++ B ++ tail).
  { rewrite EE. unfold B. now rewrite <- !app_assoc. }
  assert (S : forall o, parse_body P rs (mkh (blen B + blen tail) (blen B) (flag_of p)) (B ++ tail) = (o, Drop) -> sees P rs e o).
  { intros o H. exists (blen B + blen tail), (blen B), (flag_of p), (B ++ tail).
    split; [exact EE'|]. split; [apply blen_app|]. split; [exact HL|]. split; [apply two63_64; lia|exact H]. }
  unfold few_blocks in FB. rewrite EP in FB, HB.
  destruct (decoded_damaged bs1 b bs2 body FB HB NC BU) as [D|(er & D)]; fold B in D.
  - rewrite <- EP in D.
    exists (Ok (if passes rs p raw then NFound p else NSkipped)). split; [apply S; now apply parse_body_gen|left].
    destruct (passes rs p raw) eqn:E.
    + apply verdict_found. now apply (passes_accepts P rs p raw).
    + apply verdict_skipped. intros A. apply (passes_accepts P rs p raw ND HR) in A. congruence.
  - exists (Err er). split; [|right; eauto]. apply S. unfold parse_body.
    change (h_blocks_len (mkh (blen B + blen tail) (blen B) (flag_of p))) with (blen B).
    replace (blen (B ++ tail) <? blen B) with false by (rewrite blen_app; lia).
    rewrite to_nat_blen, firstn_app_exact by reflexivity. fold (decoded_blocks P B). now rewrite D.
Qed.

Lemma damaged_items rs pes : NoDup (map id_of rs) ->
  Forall (fun pe => sound_or_damaged P (fst pe) (snd pe) /\ few_blocks (fst pe)) pes ->
  exists its : list (@item U), Forall (item_ok P rs []) its /\ map fst its = map (fun pe => ([], snd pe)) pes /\
    Forall2 (report_ok P rs) pes (map snd its).
Proof.
  intros ND F. induction F as [|[p e] pes (SD & FB) F (its & A & B & C)]; [exists []; cbn [map]; auto|]. cbn [fst snd] in *.
  assert (S : exists o, sees P rs e o /\ report_ok P rs (p, e) o).
  { destruct SD as [SD|SD].
    - destruct (sees_packet P HP rs p e ND SD FB) as (o & S & V). exists o. split; [exact S|]. left. exact V.
    - destruct (sees_damaged rs p e ND FB SD) as (o & S & [V|V]); exists o; (split; [exact S|]); [left; exact V|right; split; [exact SD|exact V]]. }
  destruct S as (o & S & R). exists (([], e, o) :: its). split; [constructor; [|exact A]|].
  - split; [apply clean_nil|]. split; [exact S|now left].
  - cbn [map fst snd]. rewrite B. split; [reflexivity|]. constructor; auto.
Qed.

Lemma report_noisy rs pe o : report_ok P rs pe o -> quiet o = false.
Proof. intros [V|(_ & e & ->)]; [now destruct V|reflexivity]. Qed.

Lemma damaged_stream ops pes cs :
  let rs := rule_history ops in
  Forall (fun pe => sound_or_damaged P (fst pe) (snd pe) /\ few_blocks (fst pe)) pes ->
  cut_into cs (concat (map snd pes)) ->
  exists outs r', pr_reads P (length outs + 1) (fresh rs (map Chunk cs)) = (outs ++ [Ok NNoData], r') /\
    Forall2 (report_ok P rs) pes (reports outs) /\ r_log r' = [].
Proof.
  intros rs F CU. pose proof (history_nodup ops) as ND. fold rs in ND.
  destruct (damaged_items rs pes ND F) as (its & A & B & C).
  assert (SB : sbytes its [] = concat (map snd pes)).
  { rewrite sbytes_eq. unfold stream_bytes. rewrite B, map_map, app_nil_r. cbn [fst snd app]. reflexivity. }
  assert (PU : pure its []).
  { split; [|reflexivity]. assert (Q : Forall (fun i => fst i = []) (map fst its)).
    { rewrite B. apply Forall_map. now apply Forall_forall. }
    now apply Forall_map in Q. }
  assert (I : inv P rs [] True False its [] (fresh rs (map Chunk cs ++ []))).
  { apply inv_start; [exact A|intros _; apply clean_nil|left; eapply pure_tight; eassumption|now rewrite SB]. }
  rewrite app_nil_r in I.
  destruct (run_stream P rs [] True False its [] _ (fun x => x) eq_refl Logic.I I) as (outs & r' & bufs & R1 & R2 & R3 & R4 & R5 & R6 & R7 & R8).
  { assert (Q : Forall (fun o => quiet o = false) (map snd its)); [|now apply Forall_map in Q].
    clear - C. induction C as [|pe o pes os V F IH]; constructor; [now apply (report_noisy rs pe)|exact IH]. }
  exists outs, r'. split; [exact R1|]. split; [unfold reports; rewrite R2; exact C|].
  assert (FN : foreign its [] = []).
  { destruct PU as (PU & _). clear - PU. induction PU as [|[[g e] o] its H F IH]; [reflexivity|]. cbn [foreign fst] in *. now rewrite H, IH. }
  rewrite FN in R8. apply concat_nonnil in R8; [|exact R7]. rewrite R6, R8. reflexivity.
Qed.
End Faults.
