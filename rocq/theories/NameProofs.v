(** * A field called [crc] and other names. *)
From Coq Require Import ZifyBool ZifyNat ZifyN.
From Verif Require Import Base Crc32 Io Block Spec BaseProofs CrcProofs IoProofs BlockProofs.
Ltac Zify.zify_post_hook ::= Z.div_mod_to_equations.
Open Scope list_scope.

Lemma capture_app fs1 : forall v1 fs2 v2 crc, length v1 = length fs1 ->
  capture (fs1 ++ fs2) (v1 ++ v2) crc = capture fs1 v1 crc ++ capture fs2 v2 crc.
Proof.
  induction fs1 as [|f fs1 IH]; intros [|v v1] fs2 v2 crc L; try discriminate L; [reflexivity|].
  cbn [app capture]. f_equal. apply IH. now injection L.
Qed.

Lemma capture_crc fs1 fs2 v1 b v2 crc : Forall plain_field fs1 -> Forall plain_field fs2 ->
  length v1 = length fs1 -> length v2 = length fs2 ->
  capture (fs1 ++ (str "crc", TBlob 4) :: fs2) (v1 ++ VBlob b :: v2) crc = v1 ++ VBlob crc :: v2.
Proof.
  intros F1 F2 L1 L2. rewrite capture_app by easy. rewrite capture_id by easy.
  cbn [capture fst]. rewrite bytes_eqb_refl. now rewrite capture_id.
Qed.

Lemma fields_bytes_app ts1 : forall v1 ts2 v2, length v1 = length ts1 ->
  fields_bytes (ts1 ++ ts2) (v1 ++ v2) = fields_bytes ts1 v1 ++ fields_bytes ts2 v2.
Proof.
  induction ts1 as [|t ts1 IH]; intros [|v v1] ts2 v2 L; try discriminate L; [reflexivity|].
  cbn [app fields_bytes]. rewrite IH by (now injection L). apply app_assoc.
Qed.

Lemma crc_field_parse D sc fs1 fs2 v1 b v2 : good_dec D ->
  s_fields sc = fs1 ++ (str "crc", TBlob 4) :: fs2 -> Forall plain_field fs1 -> Forall plain_field fs2 ->
  length v1 = length fs1 -> vals_ok sc (v1 ++ VBlob b :: v2) ->
  blk_parse D sc (fields_bytes (s_tys sc) (v1 ++ VBlob b :: v2)) (blk_crc sc (v1 ++ VBlob b :: v2))
  = crc_field_outcome sc v1 b v2.
Proof.
  intros G EF F1 F2 L1 HV. unfold blk_parse. rewrite fields_parse_rt by easy. cbn [rbind].
  assert (TS : s_tys sc = map snd fs1 ++ TBlob 4 :: map snd fs2) by (unfold s_tys; rewrite EF, map_app; reflexivity).
  assert (L2 : length v2 = length fs2).
  { unfold vals_ok in HV. apply Forall2_len in HV. rewrite TS, !app_length in HV. cbn [length] in HV.
    rewrite !map_length in HV. lia. }
  assert (LB : length b = 4%nat).
  { unfold vals_ok in HV. rewrite TS in HV. apply Forall2_app_inv_l in HV as (x & y & H1 & H2 & E).
    apply Forall2_len in H1. rewrite map_length in H1.
    apply app_len_inj in E as [-> E]; [|lia]. subst y. inversion H2; subst. assumption. }
  rewrite EF, capture_crc by easy. unfold crc_field_outcome, blk_crc.
  destruct (s_no_crc sc); [now rewrite bytes_eqb_refl|].
  set (c := crc32_le (fields_bytes (s_tys sc) (v1 ++ VBlob b :: v2))).
  destruct (bytes_eqb b c) eqn:E.
  - apply bytes_eqb_eq in E. rewrite <- E.
    replace (crc32_le (fields_bytes (s_tys sc) (v1 ++ VBlob b :: v2))) with b by exact E. now rewrite bytes_eqb_refl.
  - apply bytes_eqb_neq in E. destruct (bytes_eqb (crc32_le (fields_bytes (s_tys sc) (v1 ++ VBlob c :: v2))) c) eqn:E2; [|reflexivity].
    exfalso. apply E. apply bytes_eqb_eq in E2. revert E2. unfold c at 2. rewrite TS.
    rewrite !fields_bytes_app by (now rewrite map_length). cbn [fields_bytes to_bytes]. intros E2.
    apply le_inj in E2; [|apply crc32_bound|apply crc32_bound]. symmetry.
    eapply crc32_burst; [| |exact E2]; [now rewrite LB; unfold c; rewrite crc32_le_length|unfold c; now rewrite crc32_le_length].
Qed.

Lemma crc_field_readers sc fs1 fs2 v1 b v2 :
  s_fields sc = fs1 ++ (str "crc", TBlob 4) :: fs2 -> Forall plain_field fs1 -> Forall plain_field fs2 ->
  length v1 = length fs1 -> vals_ok sc (v1 ++ VBlob b :: v2) ->
  let e := blk_encode sc (v1 ++ VBlob b :: v2) in let o := crc_field_outcome sc v1 b v2 in
  (forall S (R : reader S) view okst, lawful R view okst -> forall s rest, okst s -> view s = e ++ rest ->
     fst (blk_read R sc false s) = o) /\
  (forall rest, blk_read_from_slice sc (e ++ rest) false = o) /\
  (forall c rest, c_pos c <= c_len c -> c_rest c = e ++ rest -> fst (blk_try_read sc c) = lift_status o) /\
  (forall s rest, b_ok s -> (4 <= length (b_cur s))%nat -> b_view s = e ++ rest ->
     fst (blk_try_read_buf sc s) = lift_status o).
Proof.
  intros EF F1 F2 L1 HV. cbv zeta. set (vs := v1 ++ VBlob b :: v2) in *.
  assert (LR : length (fields_bytes (s_tys sc) vs) = body_size sc) by (now apply fields_bytes_length).
  assert (LC : length (blk_crc sc vs) = 4%nat) by apply blk_crc_length.
  pose proof (crc_field_parse dec_stream sc fs1 fs2 v1 b v2 good_stream EF F1 F2 L1 HV) as PS.
  pose proof (crc_field_parse dec_slice sc fs1 fs2 v1 b v2 good_slice EF F1 F2 L1 HV) as PL.
  fold vs in PS, PL.
  assert (NP : forall w, crc_field_outcome sc v1 b v2 <> Panic w).
  { unfold crc_field_outcome. intros w. destruct (s_no_crc sc); [easy|]. now destruct (bytes_eqb b _). }
  unfold blk_encode. repeat split.
  - intros S R view okst L s rest O V. rewrite <- app_assoc in V.
    pose proof (blk_read_sig_spec L sc s (blk_sig sc) _ O V (blk_sig_length sc)) as SG.
    rewrite bytes_eqb_refl in SG. destruct SG as (s1 & V1 & O1 & ->). rewrite <- app_assoc in V1.
    pose proof (blk_read_skip_spec L sc s1 _ _ rest O1 V1 LR LC) as F. rewrite PS in F.
    destruct (crc_field_outcome sc v1 b v2) as [x|x|x]; [destruct F as (s2 & -> & _)|destruct F as (s2 & ->)|easy]; reflexivity.
  - intros rest. rewrite <- !app_assoc, blk_slice_spec by (easy || apply blk_sig_length).
    now rewrite bytes_eqb_refl.
  - intros c rest HC V. destruct (blk_try_read_spec sc c HC) as [_ T].
    rewrite <- !app_assoc in V. destruct (T _ _ V (blk_sig_length sc)) as (_ & _ & T2).
    specialize (T2 _ _ rest eq_refl eq_refl LR LC). rewrite PS in T2.
    destruct (crc_field_outcome sc v1 b v2) as [x|x|x]; [destruct T2 as (s2 & -> & _)|destruct T2 as (s2 & ->)|easy]; reflexivity.
  - intros [cur evs] rest HB L4 V. cbn [b_cur] in L4.
    assert (NE : cur <> []) by (destruct cur; cbn [length] in L4; [lia|easy]).
    destruct (blk_try_buf_spec sc _ cur evs eq_refl HB NE) as [_ T]. rewrite <- !app_assoc in V.
    assert (SP : cur = blk_sig sc ++ skipn 4 cur).
    { rewrite <- (firstn_skipn 4 cur) at 1. f_equal. unfold b_view in V. cbn [b_cur] in V.
      apply (f_equal (firstn 4)) in V. rewrite firstn_app in V. replace (4 - length cur)%nat with O in V by lia.
      rewrite firstn_O, app_nil_r in V. rewrite V, firstn_app_exact by (now rewrite blk_sig_length). reflexivity. }
    destruct (T _ _ SP (blk_sig_length sc)) as (_ & T2).
    specialize (T2 _ _ rest eq_refl V LR LC). rewrite PS in T2.
    destruct (crc_field_outcome sc v1 b v2) as [x|x|x]; [destruct T2 as (s2 & -> & _)|destruct T2 as (s2 & ->)|easy]; reflexivity.
Qed.

(** Readers of two types with the same field types give the same results. *)
Lemma read_fields_length {S} (R : reader S) ts : forall s vs s', read_fields R ts s = (Ok vs, s') -> length vs = length ts.
Proof.
  induction ts as [|t ts IH]; intros s vs s' E; cbn [read_fields] in E; [now inversion E|].
  destruct (rd_exact R _ s) as [[raw| |] s1]; cbn [sbind] in E; try easy.
  destruct (dec_stream t raw); try easy.
  destruct (read_fields R ts s1) as [[l| |] s2] eqn:E2; cbn [sbind] in E; try easy.
  inversion E; subst. cbn [length]. f_equal. eauto.
Qed.
Lemma slice_fields_length ts : forall src off vs e, slice_fields ts src off = Ok (vs, e) -> length vs = length ts.
Proof.
  induction ts as [|t ts IH]; intros src off vs e E; cbn [slice_fields] in E; [now inversion E|].
  destruct (checked_slice src off (ty_size t)); cbn [rbind] in E; try easy.
  destruct (dec_slice t _); cbn [rbind] in E; try easy.
  destruct (slice_fields ts src _) as [[l e2]| |] eqn:E2; cbn [rbind] in E; try easy.
  inversion E; subst. cbn [length]. f_equal. eauto.
Qed.

Lemma names_irrelevant sc sc' : schema_ok sc -> schema_ok sc' -> s_tys sc = s_tys sc' -> s_no_crc sc = s_no_crc sc' ->
  (forall S (R : reader S) s, blk_read R sc true s = blk_read R sc' true s) /\
  (forall src, blk_read_from_slice sc src true = blk_read_from_slice sc' src true) /\
  (forall vs, fields_bytes (s_tys sc) vs ++ blk_crc sc vs = fields_bytes (s_tys sc') vs ++ blk_crc sc' vs).
Proof.
  intros H H' ET EN.
  assert (EC : forall vs, blk_crc sc vs = blk_crc sc' vs) by (intros vs; unfold blk_crc; now rewrite ET, EN).
  repeat split.
  - intros S R s. unfold blk_read. cbn [sbind]. rewrite <- ET.
    destruct (read_fields R (s_tys sc) s) as [[vs| |] s1] eqn:E; cbn [sbind]; try reflexivity.
    apply read_fields_length in E.
    destruct (rd_exact R 4 s1) as [[crc| |] s2]; cbn [sbind]; try reflexivity.
    rewrite !capture_ok by (easy || now rewrite <- ET). now rewrite EC.
  - intros src. unfold blk_read_from_slice. cbn [rbind].
    rewrite !ssize_eq. unfold body_size. rewrite <- ET.
    destruct (length src <? _)%nat; [reflexivity|].
    destruct (slice_fields (s_tys sc) src 4) as [[vs off]| |] eqn:E; cbn [rbind]; try reflexivity.
    apply slice_fields_length in E.
    destruct (checked_slice src off 4) as [crc| |]; cbn [rbind]; try reflexivity.
    rewrite !capture_ok by (easy || now rewrite <- ET). now rewrite EC.
  - intros vs. now rewrite EC, ET.
Qed.
