(** * Proofs of the longer statements of PropsWire.v. *)
From Coq Require Import ZifyBool ZifyNat ZifyN Permutation.
From Verif Require Import Base Crc32 Io Block Payload Packet Rules Spec BaseProofs CrcProofs BlockProofs
  DispatchProofs PayloadProofs PayloadEnumProofs PacketProofs PacketSafeProofs RulesProofs.
Ltac Zify.zify_post_hook ::= Z.div_mod_to_equations.
Open Scope list_scope.

Lemma pl_write_full {U} (ks : list (pkind U)) pl body crc : payload_ok ks pl body crc -> forall got,
  let e := ph_bytes (mk_pheader (pl_sig pl) crc (blen body)) ++ body in
  pl_write pl (mk_sink got []) = (Ok (blen e), mk_sink (got ++ e) []).
Proof.
  intros H got e.
  assert (G : forall V (k : pkind V) v, encodes k v body crc -> pk_sig k = pl_sig pl ->
    pk_write k v (mk_sink got []) = (Ok (blen e), mk_sink (got ++ e) [])).
  { intros V k v HE HS. unfold pk_write. rewrite (proj1 (ph_new_ok _ _ _ _ HE)). cbn [sbind]. rewrite sink_write_all_nil.
    cbn [sbind]. destruct HE as (EB & _). rewrite EB. cbn [io sbind]. rewrite sink_write_nil. cbn [sbind].
    unfold hdr_of. rewrite HS. unfold e. rewrite blen_app, <- app_assoc. do 2 f_equal. lia. }
  destruct pl; cbn [payload_ok pl_write pl_sig] in *; apply G; try reflexivity; tauto.
Qed.

Lemma write_blocks_nil scs bs : Forall (block_ok scs) bs -> forall total got,
  write_blocks bs total (mk_sink got []) =
  (Ok (true, total + blen (concat (map bk_encode bs))), mk_sink (got ++ concat (map bk_encode bs)) []).
Proof.
  induction 1 as [|b bs H F IH]; intros total got; cbn [write_blocks map concat].
  - rewrite app_nil_r, blen_nil. do 3 f_equal. lia.
  - unfold bk_write, blk_write. fold (bk_encode b). rewrite sink_write_nil. cbn [sbind]. rewrite (bk_size_len _ _ H).
    replace (blen (bk_encode b) <? blen (bk_encode b)) with false by lia. rewrite IH, blen_app, <- app_assoc.
    do 3 f_equal. lia.
Qed.

Lemma pkt_write_full {U} (P : proto U) (p : packet U) e : packet_enc P p e ->
  pkt_write p (mk_sink [] []) = (Ok (blen e), mk_sink e []).
Proof.
  intros (tail & HB & HT & HL & ->). unfold pkt_write. rewrite (hdr_new_ok P p tail HB HT). cbn [sbind].
  rewrite sink_write_nil. cbn [sbind]. rewrite mkh_bytes. fold (flag_of p).
  set (blocks := concat (map bk_encode (p_blocks p))) in *. set (hb := layout_header _ _ _) in *.
  assert (LH : blen hb = 29) by (unfold blen, hb; now rewrite layout_length). rewrite LH. unfold hdr_size.
  replace (29 <? N.of_nat 29) with false by lia.
  rewrite (write_blocks_nil _ _ HB). fold blocks. cbn [sbind negb].
  destruct (p_payload p) as [pl|]; cbn [payload_part] in HT.
  - destruct HT as (body & crc & HP & L4 & ->). rewrite (pl_write_full _ _ _ _ HP). cbn [sbind].
    rewrite (pl_size_ok _ _ _ _ HP). cbn [sbind]. set (t := ph_bytes _ ++ body).
    assert (Q : 29 + blen blocks + blen t = blen (hb ++ blocks ++ t)) by (rewrite !blen_app, LH; lia).
    rewrite Q. cbn [app]. rewrite <- app_assoc. now destruct (_ <? _).
  - subst tail. rewrite !blen_app, LH, blen_nil, !app_nil_r. cbn [app]. do 2 f_equal. lia.
Qed.

Lemma block_round_trip : forall sc vs, schema_ok sc -> vals_ok sc vs ->
  let e := blk_encode sc vs in
  written (blk_write_all sc vs) e /\ length e = ssize sc /\
  (forall S (R : reader S) view okst, lawful R view okst -> forall s rest, okst s -> view s = e ++ rest ->
     exists s', blk_read R sc false s = (Ok vs, s') /\ view s' = rest /\ okst s') /\
  (forall rest, blk_read_from_slice sc (e ++ rest) false = Ok vs) /\
  (forall c rest, c_pos c <= c_len c -> c_rest c = e ++ rest ->
     blk_try_read sc c = (Ok (Success vs), c_seek (c_pos c + N.of_nat (ssize sc)) c)) /\
  (forall s rest, b_ok s -> (4 <= length (b_cur s))%nat -> b_view s = e ++ rest ->
     exists s', blk_try_read_buf sc s = (Ok (Success vs), s') /\ b_view s' = rest).
Proof.
  intros sc vs HS HV e.
  assert (LR : length (fields_bytes (s_tys sc) vs) = body_size sc) by now apply fields_bytes_length.
  assert (LC : length (blk_crc sc vs) = 4%nat) by apply blk_crc_length.
  assert (LS : length (blk_sig sc) = 4%nat) by apply blk_sig_length.
  assert (EE : forall rest, e ++ rest = blk_sig sc ++ fields_bytes (s_tys sc) vs ++ blk_crc sc vs ++ rest).
  { intros rest. unfold e, blk_encode. now rewrite <- !app_assoc. }
  split; [|split; [|split; [|split; [|split]]]].
  - unfold written, blk_write_all. now rewrite sink_write_all_nil.
  - now apply blk_encode_length.
  - intros S R view okst L s rest O V. rewrite EE in V.
    pose proof (blk_read_sig_spec L sc s _ _ O V LS) as Q. rewrite bytes_eqb_refl in Q.
    destruct Q as (s1 & V1 & O1 & E1). rewrite E1.
    pose proof (blk_read_skip_spec L sc s1 _ _ _ O1 V1 LR LC) as Q. rewrite blk_parse_rt in Q; auto using good_stream.
  - intros rest. rewrite EE, blk_slice_spec by easy. rewrite bytes_eqb_refl. apply blk_parse_rt; auto using good_slice.
  - intros c rest O V. rewrite EE in V. destruct (blk_try_read_spec sc c O) as (_ & Q).
    destruct (Q _ _ V LS) as (_ & _ & Q2). specialize (Q2 _ _ _ eq_refl eq_refl LR LC).
    rewrite blk_parse_rt in Q2 by auto using good_stream. destruct Q2 as (c' & E & _ & _ & ->). exact E.
  - intros [cur evs] rest O L4 V. rewrite EE in V. cbn [b_cur] in L4.
    assert (NE : cur <> []) by (intros ->; cbn [length] in L4; lia).
    destruct (blk_try_buf_spec sc _ cur evs eq_refl O NE) as (_ & Q).
    assert (C4 : firstn 4 cur = blk_sig sc).
    { unfold b_view in V. cbn [b_cur b_evs] in V.
      assert (K : firstn 4 (cur ++ concat (map ev_bytes evs)) = firstn 4 cur).
      { rewrite firstn_app. replace (4 - length cur)%nat with 0%nat by lia. cbn [firstn]. apply app_nil_r. }
      rewrite <- K, V. rewrite firstn_app_exact by easy. reflexivity. }
    assert (CS : cur = blk_sig sc ++ skipn 4 cur) by (rewrite <- C4 at 1; now rewrite firstn_skipn).
    destruct (Q _ _ CS LS) as (_ & Q2). specialize (Q2 _ _ _ eq_refl V LR LC).
    rewrite blk_parse_rt in Q2 by auto using good_stream. destruct Q2 as (s' & E & W & _). eauto.
Qed.

Lemma block_corruption : forall sc vs body',
  schema_ok sc -> vals_ok sc vs -> s_no_crc sc = false ->
  burst 4 (fields_bytes (s_tys sc) vs ++ blk_crc sc vs) body' ->
  let e' := blk_sig sc ++ body' in
  (forall S (R : reader S) view okst, lawful R view okst -> forall s rest, okst s -> view s = e' ++ rest ->
     match fst (blk_read R sc false s) with Ok vs' => vs' = vs | Err _ => True | Panic _ => False end) /\
  (forall rest, match blk_read_from_slice sc (e' ++ rest) false with Ok vs' => vs' = vs | Err _ => True | Panic _ => False end) /\
  (forall c rest, c_pos c <= c_len c -> c_rest c = e' ++ rest ->
     match fst (blk_try_read sc c) with Ok (Success vs') => vs' = vs | Ok (NotEnough _) => False | Err _ => True | Panic _ => False end).
Proof.
  intros sc vs body' HS HV NC HB e'.
  assert (LR : length (fields_bytes (s_tys sc) vs) = body_size sc) by now apply fields_bytes_length.
  assert (LC : length (blk_crc sc vs) = 4%nat) by apply blk_crc_length.
  assert (LS : length (blk_sig sc) = 4%nat) by apply blk_sig_length.
  assert (LB : length body' = (body_size sc + 4)%nat).
  { destruct HB as (pre & w & w' & post & E1 & E2 & E3 & _). apply (f_equal (@length byte)) in E1.
    rewrite !app_length in E1. rewrite E2, !app_length. lia. }
  set (raw := firstn (body_size sc) body') in *. set (crc := skipn (body_size sc) body') in *.
  assert (EB : body' = raw ++ crc) by (unfold raw, crc; now rewrite firstn_skipn).
  assert (LR' : length raw = body_size sc) by (unfold raw; rewrite firstn_length; lia).
  assert (LC' : length crc = 4%nat) by (unfold crc; rewrite skipn_length; lia).
  assert (EE : forall rest, e' ++ rest = blk_sig sc ++ raw ++ crc ++ rest).
  { intros rest. unfold e'. rewrite EB, <- !app_assoc. reflexivity. }
  rewrite EB in HB.
  assert (HP : forall D vs', good_dec D -> blk_parse D sc raw crc = Ok vs' -> vs' = vs).
  { intros D vs' GD E. exact (blk_parse_burst D sc vs raw crc vs' GD HS HV NC LR' LC' HB E). }
  split; [|split].
  - intros S R view okst L s rest O V. rewrite EE in V.
    pose proof (blk_read_sig_spec L sc s _ _ O V LS) as Q. rewrite bytes_eqb_refl in Q.
    destruct Q as (s1 & V1 & O1 & E1). rewrite E1.
    pose proof (blk_read_skip_spec L sc s1 _ _ _ O1 V1 LR' LC') as Q.
    destruct (blk_parse dec_stream sc raw crc) eqn:EP; [|destruct Q as (s' & ->); exact I|easy].
    destruct Q as (s' & -> & _). cbn [fst]. exact (HP _ _ good_stream EP).
  - intros rest. rewrite EE, blk_slice_spec by easy. rewrite bytes_eqb_refl.
    destruct (blk_parse dec_slice sc raw crc) eqn:EP; [exact (HP _ _ good_slice EP)|easy|].
    exact (blk_parse_nopanic _ _ _ _ _ good_slice EP).
  - intros c rest O V. rewrite EE in V. destruct (blk_try_read_spec sc c O) as (_ & Q).
    destruct (Q _ _ V LS) as (_ & _ & Q2). specialize (Q2 _ _ _ eq_refl eq_refl LR' LC').
    destruct (blk_parse dec_stream sc raw crc) eqn:EP; [|destruct Q2 as (c' & ->); exact I|easy].
    destruct Q2 as (c' & -> & _). cbn [fst]. exact (HP _ _ good_stream EP).
Qed.

Lemma truncated_block : forall sc vs q,
  schema_ok sc -> vals_ok sc vs -> strict_prefix q (blk_encode sc vs) ->
  (exists e, blk_read_from_slice sc q false = Err e) /\
  (forall S (R : reader S) view okst, lawful R view okst -> forall s, okst s -> view s = q ->
     exists e s', blk_read R sc false s = (Err e, s')) /\
  (forall c, c_pos c <= c_len c -> c_rest c = q ->
     fst (blk_try_read sc c) =
     Ok (NotEnough (if blen q <? 4 then 4 - blen q else N.of_nat (ssize sc) - blen q))).
Proof.
  intros sc vs q HS HV (r & NR & E).
  assert (LQ : (length q < ssize sc)%nat).
  { rewrite <- (blk_encode_length sc vs HV), E, app_length. destruct r; [easy|cbn [length]; lia]. }
  split; [now apply blk_slice_short|split].
  - intros S R view okst L s O V.
    destruct (blk_read R sc false s) as [[vs'|e|w] s'] eqn:EB; [|eauto|exfalso; exact (blk_read_nopanic L sc false s w s' O EB)].
    exfalso. destruct (blk_read_inv L _ _ _ _ _ O EB) as (raw & crc & V' & L1 & L2 & _).
    rewrite V in V'. rewrite V', !app_length, blk_sig_length, ssize_eq in LQ. lia.
  - intros c O V. destruct (blk_try_read_spec sc c O) as (Q1 & Q2). rewrite V in *.
    destruct (blen q <? 4) eqn:E4; [rewrite Q1 by lia; reflexivity|].
    assert (SP : q = blk_sig sc ++ skipn 4 q).
    { rewrite <- (firstn_skipn 4 q) at 1. f_equal.
      assert (K : firstn 4 (q ++ r) = firstn 4 q).
      { rewrite firstn_app. replace (4 - length q)%nat with 0%nat by (unfold blen in *; lia). cbn [firstn]. apply app_nil_r. }
      rewrite <- K, <- E. unfold blk_encode. rewrite firstn_app_exact by (now rewrite blk_sig_length). reflexivity. }
    destruct (Q2 _ _ SP (blk_sig_length _)) as (_ & Q3 & _). rewrite Q3; [reflexivity|easy|]. unfold blen. lia.
Qed.

(** ** Headers *)
Lemma hdr_try_slice c : c_ok c -> (29 <= length (c_rest c))%nat ->
  fst (hdr_try_read c) = match hdr_read_from_slice (c_rest c) with Ok h => Ok (Success h) | Err e => Err e | Panic w => Panic w end.
Proof.
  intros O L. unfold hdr_try_read. rewrite c_available_ok by easy. cbn [sbind].
  replace (blen (c_rest c) <? N.of_nat hdr_size) with false by (unfold blen, hdr_size; lia).
  destruct (split_hdr _ L) as (sg & sz & bl & fl & crc & rest & V & L1 & L2 & L3 & L4 & L5).
  pose proof (hdr_read_spec cursor_reader c_rest c_ok (lawful_okl _ _ _ cursor_lawful) c _ _ _ _ _ _ O V L1 L2 L3 L4 L5) as Q.
  rewrite V, hdr_slice_spec by easy. destruct (bytes_eqb sg packet_sig).
  - destruct Q as (s' & _ & _ & E). rewrite E. destruct (hdr_parse sz bl fl crc); reflexivity.
  - destruct Q as (s' & E). rewrite E. reflexivity.
Qed.

Lemma hdr_read_slice {S} (R : reader S) view okst (L : lawful R view okst) s : okst s -> (29 <= length (view s))%nat ->
  fst (hdr_read R s) = hdr_read_from_slice (view s).
Proof.
  intros O LV. destruct (split_hdr _ LV) as (sg & sz & bl & fl & crc & rest & V & L1 & L2 & L3 & L4 & L5).
  pose proof (hdr_read_spec R view okst (lawful_okl _ _ _ L) s _ _ _ _ _ _ O V L1 L2 L3 L4 L5) as Q.
  rewrite V, hdr_slice_spec by easy. destruct (bytes_eqb sg packet_sig).
  - destruct Q as (s' & _ & _ & E). now rewrite E.
  - destruct Q as (s' & E). now rewrite E.
Qed.

Lemma header_corruption : forall h x',
  h_size h < two64 -> h_blocks_len h < two64 -> le 4 (h_crc h) = hdr_crc h -> h_crc h < two32 ->
  burst 4 (le 8 (h_size h) ++ le 8 (h_blocks_len h) ++ [flag_byte (h_payload h)] ++ le 4 (h_crc h)) x' ->
  let e' := packet_sig ++ x' in
  (forall S (R : reader S) view okst, lawful R view okst -> forall s rest, okst s -> view s = e' ++ rest ->
     fst (hdr_read R s) = Err ECrcDismatch \/ fst (hdr_read R s) = Ok h) /\
  (forall rest, hdr_read_from_slice (e' ++ rest) = Err ECrcDismatch \/ hdr_read_from_slice (e' ++ rest) = Ok h) /\
  (forall c rest, c_pos c <= c_len c -> c_rest c = e' ++ rest ->
     fst (hdr_try_read c) = Err ECrcDismatch \/ fst (hdr_try_read c) = Ok (Success h)).
Proof.
  intros [size bl flag crc] x' H1 H2 HC H3 HB e'. unfold hdr_crc in *. cbn [h_size h_blocks_len h_payload h_crc] in *.
  assert (EH : mk_header size bl flag crc = mkh size bl flag).
  { unfold mkh. f_equal. apply (f_equal unle) in HC. unfold crc32_le in HC.
    rewrite !unle_le in HC; [exact HC|apply crc32_bound|exact H3]. }
  rewrite EH. rewrite HC in HB.
  assert (LX : length x' = 21%nat).
  { destruct HB as (pre & w & w' & post & E1 & E2 & E3 & _). apply (f_equal (@length byte)) in E1.
    rewrite !app_length, !le_length, crc32_le_length in E1. cbn [length] in E1. rewrite E2, !app_length. lia. }
  assert (L29 : forall rest, (29 <= length (e' ++ rest))%nat).
  { intros rest. unfold e'. rewrite !app_length, LX. change (length packet_sig) with 8%nat. lia. }
  assert (G : forall rest, hdr_read_from_slice (e' ++ rest) = Err ECrcDismatch \/ hdr_read_from_slice (e' ++ rest) = Ok (mkh size bl flag)).
  { intros rest. destruct (split_hdr _ (L29 [])) as (sg & sz & bl' & fl & cr & r0 & V & L1 & L2 & L3 & L4 & L5).
    rewrite app_nil_r in V. unfold e' in V.
    apply app_len_inj in V as [Q1 V]; [|now rewrite L1]. subst sg.
    assert (R0 : r0 = []).
    { apply (f_equal (@length byte)) in V. rewrite !app_length, LX, L2, L3, L4, L5 in V. destruct r0; [easy|cbn [length] in V; lia]. }
    subst r0. rewrite app_nil_r in V. unfold e'. rewrite V, <- !app_assoc. rewrite hdr_slice_spec by easy.
    rewrite bytes_eqb_refl. rewrite V in HB.
    destruct (hdr_parse sz bl' fl cr) as [h|e|w] eqn:EP.
    - right. f_equal. exact (hdr_burst size bl flag sz bl' fl cr h H1 H2 L2 L3 L4 L5 HB EP).
    - left. unfold hdr_parse in EP. destruct (bytes_eqb _ _); inversion EP; easy.
    - unfold hdr_parse in EP. destruct (bytes_eqb _ _); easy. }
  split; [|split; [exact G|]].
  - intros S R view okst L s rest O V. rewrite (hdr_read_slice R view okst L s O); rewrite V; auto.
  - intros c rest O V. rewrite (hdr_try_slice c O); rewrite V; auto.
    destruct (G rest) as [-> | ->]; auto.
Qed.

Lemma signature_change : forall sg x,
  length sg = 8%nat -> length x = 21%nat -> sg <> packet_sig ->
  (forall S (R : reader S) view okst, lawful R view okst -> forall s rest, okst s -> view s = sg ++ x ++ rest ->
     fst (hdr_read R s) = Err ESignatureDismatch) /\
  (forall rest, hdr_read_from_slice (sg ++ x ++ rest) = Err ESignatureDismatch) /\
  (forall c rest, c_pos c <= c_len c -> c_rest c = sg ++ x ++ rest ->
     fst (hdr_try_read c) = Err ESignatureDismatch).
Proof.
  intros sg x L1 L2 NE.
  assert (LL : forall rest, (29 <= length (sg ++ x ++ rest))%nat) by (intros rest; rewrite !app_length; lia).
  assert (G : forall rest, hdr_read_from_slice (sg ++ x ++ rest) = Err ESignatureDismatch).
  { intros rest. unfold hdr_read_from_slice. specialize (LL rest).
    replace (length (sg ++ x ++ rest) <? hdr_size)%nat with false by (unfold hdr_size; lia).
    rewrite starts_with_firstn. change (length packet_sig) with 8%nat. rewrite firstn_app_exact by easy.
    destruct (bytes_eqb sg packet_sig) eqn:E; [apply bytes_eqb_eq in E; contradiction|reflexivity]. }
  split; [|split; [exact G|]].
  - intros S R view okst L s rest O V. rewrite (hdr_read_slice R view okst L s O); rewrite V; auto.
  - intros c rest O V. rewrite (hdr_try_slice c O); rewrite V; auto. now rewrite G.
Qed.

(** ** Rules *)
Lemma history_nodup {U} (ops : list (rule_op U)) : NoDup (map id_of (rule_history ops)).
Proof.
  unfold rule_history. assert (G : forall rs : rules U, NoDup (map id_of rs) -> NoDup (map id_of (fold_left rule_step ops rs))).
  { induction ops as [|o ops IH]; intros rs H; [easy|]. cbn [fold_left]. apply IH.
    destruct o; cbn [rule_step]; [now apply add_rule_nodup|now apply remove_rule_nodup]. }
  apply G. constructor.
Qed.

Lemma one_rule_per_kind : forall U (ops : list (rule_op U)),
  let rs := rule_history ops in
  (forall i j a b, nth_error rs i = Some a -> nth_error rs j = Some b -> id_of a = id_of b -> i = j) /\
  (forall r, (exists x, In x rs /\ id_of x = id_of r) -> add_rule r rs = (Err ERuleDuplicate, rs)) /\
  (forall r, ~ (exists x, In x rs /\ id_of x = id_of r) -> add_rule r rs = (Ok tt, rs ++ [r])) /\
  (forall i r, In r (remove_rule i rs) <-> In r rs /\ id_of r <> i).
Proof.
  intros U ops rs. pose proof (history_nodup ops) as ND. fold rs in ND. repeat split.
  - intros i j a b HI HJ E. rewrite NoDup_nth_error in ND. apply ND.
    + rewrite map_length. apply nth_error_Some. congruence.
    + rewrite !nth_error_map, HI, HJ. cbn [option_map]. now rewrite E.
  - intros r H. rewrite add_rule_eq. apply has_in in H. now rewrite H.
  - intros r H. rewrite add_rule_eq. destruct (has (id_of r) rs) eqn:E; [|easy]. apply has_in in E. contradiction.
  - now apply remove_rule_in in H.
  - now apply remove_rule_in in H.
  - intros H. now apply remove_rule_in.
Qed.

Lemma filter_verdicts : forall U (ops : list (rule_op U)),
  let rs := rule_history ops in
  (forall f bs, In (RFilterByBlocks f) rs -> filter_by_blocks rs bs = f bs) /\
  (forall bs, (forall f, ~ In (RFilterByBlocks f) rs) -> filter_by_blocks rs bs = true) /\
  (forall f body, In (RFilterByPayload f) rs -> filter_by_payload rs body = f body) /\
  (forall body, (forall f, ~ In (RFilterByPayload f) rs) -> filter_by_payload rs body = true) /\
  (forall f p, In (RFilter f) rs -> filter_packet rs p = f p) /\
  (forall p, (forall f, ~ In (RFilter f) rs) -> filter_packet rs p = true) /\
  (forall t buf l, In (RIgnored t) rs -> ignore rs buf l = l ++ [(t, buf)]) /\
  (forall buf l, (forall t, ~ In (RIgnored t) rs) -> ignore rs buf l = l).
Proof.
  intros U ops rs. pose proof (history_nodup ops) as ND. fold rs in ND.
  repeat split; intros.
  - now apply filter_by_blocks_some. - now apply filter_by_blocks_none.
  - now apply filter_by_payload_some. - now apply filter_by_payload_none.
  - now apply filter_packet_some. - now apply filter_packet_none.
  - now apply ignore_some. - now apply ignore_none.
Qed.

Lemma filtered_read : forall U (P : proto U) rs (p : packet U) e body,
  proto_ok P -> packet_enc P p e ->
  (forall pl, p_payload p = Some pl -> exists crc, payload_ok (pr_kinds P) pl body crc) ->
  forall S (R : reader S) view okst, lawful R view okst ->
  forall s rest, okst s -> view s = e ++ rest ->
  let accepted := filter_by_blocks rs (p_blocks p) = true /\
                  (p_payload p = None \/ filter_by_payload rs body = true) /\
                  filter_packet rs p = true in
  exists s', view s' = rest /\
    ((accepted /\ filtered R P rs s = (Ok (Accepted (blen e - 29) p), s')) \/
     (~ accepted /\ filtered R P rs s = (Ok (Denied (blen e - 29)), s'))).
Proof.
  intros U P rs p e body HP HE HB S R view okst L s rest O V accepted.
  assert (RB : raw_body (pr_kinds P) (p_payload p) body).
  { unfold raw_body. destruct (p_payload p); [now apply HB|exact I]. }
  destruct (filtered_rt R view okst (lawful_okl _ _ _ L) P rs p e s rest body HP HE RB O V) as (s' & E & W & _).
  exists s'. split; [exact W|]. rewrite E. unfold accepted.
  destruct (filter_by_blocks rs (p_blocks p)); cbn [andb]; [|right; split; [intros (Q & _); discriminate|reflexivity]].
  destruct (p_payload p) as [pl|].
  - destruct (filter_by_payload rs body); cbn [andb];
      [|right; split; [intros (_ & [Q|Q] & _); discriminate|reflexivity]].
    destruct (filter_packet rs p); [left; auto|right; split; [intros (_ & _ & Q); discriminate|reflexivity]].
  - cbn [andb]. destruct (filter_packet rs p); [left; auto|right; split; [intros (_ & _ & Q); discriminate|reflexivity]].
Qed.

Lemma no_match_consumes_nothing : forall U (ks : list (pkind U)) h,
  ~ In (ph_sig h) (pl_sigs ks) -> forall S (R : reader S) s, pl_read R ks h s = (Err ESignatureDismatch, s).
Proof.
  intros U ks h NI S R s. unfold pl_sigs in NI. rewrite in_app_iff in NI.
  assert (N1 : ~ In (ph_sig h) (map pk_sig ks)) by tauto.
  assert (N2 : ph_sig h <> pk_sig bytes_kind) by (intros Q; apply NI; right; left; now rewrite Q).
  assert (N3 : ph_sig h <> pk_sig string_kind) by (intros Q; apply NI; right; right; left; now rewrite Q).
  clear NI. induction ks as [|k ks IH]; cbn [pl_read].
  - rewrite !pk_read_miss by easy. cbn [or_next sig_dismatch]. rewrite !pk_read_miss by easy. reflexivity.
  - rewrite pk_read_miss; [cbn [or_next sig_dismatch]; apply IH; intros Q; apply N1; now right|].
    intros Q. apply N1. left. now rewrite Q.
Qed.
