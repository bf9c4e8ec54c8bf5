(** * Every packet whose header can be read: what the streaming reader makes of it. *)
From Coq Require Import ZifyBool ZifyNat ZifyN.
From Verif Require Import Base Crc32 Io Block Payload Packet Rules StreamReader Spec SpecJudge BaseProofs CrcProofs IoProofs BlockProofs
  DispatchProofs PayloadProofs PayloadEnumProofs PacketProofs PacketSafeProofs LayoutProofs NegProofs RulesProofs WireProofs CanonProofs
  StreamProofs StreamItemProofs StuckProofs.
Ltac Zify.zify_post_hook ::= Z.div_mod_to_equations.
Open Scope list_scope.

(** ** Values and blocks in slices *)
Lemma dec_slice_means t raw v : ty_ok t -> (length raw = ty_size t /\ dec_slice t raw = Ok v <-> value_seen t v raw).
Proof.
  intros HT. split.
  - intros (L & E). pose proof (gd_ok _ good_slice t raw v HT L E) as F. split; [exact F|].
    assert (G : canon_ty t -> raw = field_layout t v).
    { intros C. pose proof (dec_canon t raw v C L (or_introl E)) as Q. now rewrite to_bytes_layout in Q by exact F. }
    destruct t as [w|w|w| |n|l]; try (specialize (G I); destruct v; cbn [fval_ok] in F; (contradiction || exact G)).
    + cbn [dec_slice ty_size] in *. destruct raw as [|x [|]]; try discriminate. cbn [first_byte] in E. apply ok_inj in E. subst v.
      exists x. split; [reflexivity|]. apply b2n_one.
    + cbn [dec_slice ty_size] in *. destruct raw as [|x [|]]; try discriminate. cbn [first_byte] in E.
      destruct (l_of l x) as [e|] eqn:EO; [|discriminate]. apply ok_inj in E. subst v. exists x. auto.
  - intros (F & H). destruct t as [w|w|w| |n|l], v as [a|z|b|bs|e]; cbn [fval_ok] in F; try easy;
      try (match goal with |- context [dec_slice ?t _ = Ok ?v] => assert (FV : fval_ok t v) by exact F end;
           subst raw; rewrite <- to_bytes_layout by exact FV; split; [now apply to_bytes_length|apply (gd_rt _ good_slice); exact FV]).
    + destruct H as (x & -> & H). split; [reflexivity|]. cbn [dec_slice first_byte]. do 2 f_equal.
      rewrite <- b2n_one in H. destruct (b2n x =? 1), b; try reflexivity; [symmetry; now apply H|now apply H].
    + destruct H as (x & -> & H). split; [reflexivity|]. cbn [dec_slice first_byte]. now rewrite H.
Qed.

Lemma slice_fields_means ts : Forall ty_ok ts -> forall raw vs,
  length raw = sum_sizes ts /\ fields_parse dec_slice ts raw = Ok vs <-> values_seen ts vs raw.
Proof.
  induction 1 as [|t ts HT F IH]; intros raw vs; cbn [fields_parse].
  - split; [intros (L & E); apply ok_inj in E; subst; destruct raw; [constructor|discriminate]|].
    intros H. inversion H; subst. split; reflexivity.
  - cbn [sum_sizes fold_right]. fold (sum_sizes ts). split.
    + intros (L & E). destruct (dec_slice t (firstn (ty_size t) raw)) as [v| |] eqn:E1; cbn [rbind] in E; try discriminate.
      destruct (fields_parse dec_slice ts (skipn (ty_size t) raw)) as [vs'| |] eqn:E2; cbn [rbind] in E; try discriminate.
      apply ok_inj in E. subst vs. rewrite <- (firstn_skipn (ty_size t) raw). constructor.
      * apply (dec_slice_means t _ v HT). split; [rewrite firstn_length; lia|exact E1].
      * apply IH. split; [rewrite skipn_length; lia|exact E2].
    + intros H. inversion H as [|t' v r1 ts' vs' r2 H1 H2]; subst. apply (dec_slice_means t r1 v HT) in H1 as (L1 & E1).
      apply IH in H2 as (L2 & E2). rewrite app_length. split; [lia|].
      rewrite firstn_app_exact, skipn_app_exact by easy. rewrite E1. cbn [rbind]. now rewrite E2.
Qed.

Lemma slice_parse_means sc raw crc vs : schema_ok sc -> length raw = body_size sc ->
  (blk_parse dec_slice sc raw crc = Ok vs <-> values_seen (s_tys sc) vs raw /\ crc = blk_crc sc vs).
Proof.
  intros HS LR. pose proof (slice_fields_means (s_tys sc) (schema_tys_ok _ HS) raw) as Q. unfold blk_parse. split.
  - intros E. destruct (fields_parse dec_slice (s_tys sc) raw) as [us| |] eqn:EF; cbn [rbind] in E; try discriminate.
    rewrite capture_ok in E; [|easy|now apply fields_parse_length in EF].
    destruct (bytes_eqb (blk_crc sc us) crc) eqn:EC; [|discriminate]. apply ok_inj in E. subst us. apply bytes_eqb_eq in EC.
    split; [|easy]. apply Q. split; [exact LR|reflexivity].
  - intros (V & ->). apply Q in V as (_ & EF). rewrite EF. cbn [rbind].
    rewrite capture_ok; [|easy|now apply fields_parse_length in EF]. now rewrite bytes_eqb_refl.
Qed.
Lemma seen_ok ts vs raw : values_seen ts vs raw -> Forall2 fval_ok ts vs.
Proof. induction 1 as [|t v raw ts vs rest (H & _)]; constructor; auto. Qed.

Lemma seen_split b e : schema_ok (bk_ty b) -> (block_seen b e <->
  exists raw, values_seen (s_tys (bk_ty b)) (bk_vals b) raw /\ length raw = body_size (bk_ty b) /\
    e = blk_sig (bk_ty b) ++ raw ++ blk_crc (bk_ty b) (bk_vals b)).
Proof.
  intros HS. unfold block_seen. fold (s_tys (bk_ty b)). unfold blk_sig. rewrite snapshot_text. fold (crc32_le (signature_text (bk_ty b))).
  split.
  - intros (raw & V & ->). exists raw. split; [exact V|]. split; [now apply (slice_fields_means _ (schema_tys_ok _ HS)) in V|].
    unfold blk_crc. rewrite fields_layout by now apply seen_ok in V. reflexivity.
  - intros (raw & V & L & ->). exists raw. split; [exact V|].
    unfold blk_crc. rewrite fields_layout by now apply seen_ok in V. reflexivity.
Qed.
Lemma seen_length b e : schema_ok (bk_ty b) -> block_seen b e -> N.to_nat (bk_size b) = length e /\ (8 <= length e)%nat.
Proof.
  intros HS H. apply (seen_split b e HS) in H as (raw & _ & L & ->). unfold bk_size. rewrite ssize_eq, !app_length, blk_sig_length, blk_crc_length. lia.
Qed.

Section Judge.
Context {U : Type}.
Variable P : proto U.
Hypothesis HP : proto_ok P.
Hypothesis HS : Forall schema_ok (pr_blocks P).

Lemma slice_exact x b : bk_read_from_slice (pr_blocks P) x false = Ok b <->
  exists e rest, x = e ++ rest /\ In (bk_ty b) (pr_blocks P) /\ block_seen b e.
Proof.
  rewrite Forall_forall in HS. split.
  - intros E. apply bk_slice_inv in E as (HI & E & L). pose proof (HS _ HI) as HSC.
    destruct (split_block _ x L) as (sig & raw & crc & rest & -> & L1 & L2 & L3).
    rewrite blk_slice_spec in E by easy. destruct (bytes_eqb sig (blk_sig (bk_ty b))) eqn:EQ; [|discriminate].
    apply bytes_eqb_eq in EQ. apply slice_parse_means in E as (V & ->); [|easy|easy].
    exists (sig ++ raw ++ blk_crc (bk_ty b) (bk_vals b)), rest. split; [now rewrite <- !app_assoc|]. split; [exact HI|].
    apply seen_split; [exact HSC|]. subst sig. eauto.
  - intros (e & rest & -> & HI & H). pose proof (HS _ HI) as HSC. pose proof (seen_length _ _ HSC H) as (_ & L8).
    apply (seen_split b e HSC) in H as (raw & V & L & ->).
    rewrite bk_slice_pick by (rewrite app_length; lia). rewrite <- !app_assoc.
    rewrite firstn_app_exact by (now rewrite blk_sig_length). rewrite pick_in by (easy || apply HP).
    rewrite blk_slice_spec by (apply blk_sig_length || apply blk_crc_length || exact L). rewrite bytes_eqb_refl.
    assert (EP : blk_parse dec_slice (bk_ty b) raw (blk_crc (bk_ty b) (bk_vals b)) = Ok (bk_vals b)) by (apply slice_parse_means; auto).
    rewrite EP. now destruct b.
Qed.
Lemma no_block_err x : no_block P x -> exists e, bk_read_from_slice (pr_blocks P) x false = Err e.
Proof.
  intros H. destruct (bk_read_from_slice (pr_blocks P) x false) as [b|e|w] eqn:E; [exfalso|eauto|now apply bk_slice_nopanic in E].
  apply slice_exact in E as (e & rest & Q & HI & S). exact (H b e rest Q HI S).
Qed.

Lemma seen_snoc b e bs raw : In (bk_ty b) (pr_blocks P) -> block_seen b e -> blocks_seen P bs raw -> blocks_seen P (b :: bs) (e ++ raw).
Proof. intros HI S (raws & F & A & ->). exists (e :: raws). split; [now constructor|]. split; [now constructor|reflexivity]. Qed.

Lemma split_blocks n : forall x, exists bs raw y, x = raw ++ y /\ blocks_seen P bs raw /\ (length bs <= n)%nat /\
  (y = [] \/ (y <> [] /\ length bs = n) \/ (y <> [] /\ (length bs < n)%nat /\ no_block P y)).
Proof.
  induction n as [|n IH]; intros x.
  - exists [], [], x. split; [reflexivity|]. split; [now exists []|]. split; [cbn; lia|]. destruct x; [now left|right; left]. split; [discriminate|reflexivity].
  - destruct x as [|c x].
    { exists [], [], []. split; [reflexivity|]. split; [now exists []|]. split; [cbn; lia|]. now left. }
    set (x' := c :: x). destruct (bk_read_from_slice (pr_blocks P) x' false) as [b|e|w] eqn:E; [| |now apply bk_slice_nopanic in E].
    + apply slice_exact in E as (e & rest & Q & HI & S). destruct (IH rest) as (bs & raw & y & -> & B & L & C).
      exists (b :: bs), (e ++ raw), y. split; [now rewrite Q, app_assoc|]. split; [now apply seen_snoc|]. cbn [length]. split; [lia|].
      destruct C as [C|[(C & D)|(C & D & F)]]; [now left|right; left; split; [exact C|lia]|right; right; split; [exact C|split; [lia|exact F]]].
    + exists [], [], x'. split; [reflexivity|]. split; [now exists []|]. split; [cbn; lia|]. right; right.
      split; [discriminate|]. split; [cbn; lia|]. intros b e' rest Q HI S.
      assert (Z : bk_read_from_slice (pr_blocks P) x' false = Ok b) by (apply slice_exact; eauto). congruence.
Qed.

Lemma loop_seen bs raw : blocks_seen P bs raw -> forall left buf processed acc tail, (length bs <= left)%nat ->
  skipn processed buf = raw ++ tail -> (processed + length raw + length tail = length buf)%nat ->
  (bs <> [] -> tail = [] -> reader_blocks left (pr_blocks P) buf processed acc = (Ok (acc ++ bs), Drop)) /\
  (tail <> [] -> reader_blocks left (pr_blocks P) buf processed acc =
     reader_blocks (left - length bs) (pr_blocks P) buf (processed + length raw) (acc ++ bs)).
Proof.
  intros (raws & F & A & ->). induction F as [|b e bs raws HB F IH]; intros left buf processed acc tail LL V LN.
  - cbn [concat length app] in *. split; [easy|]. intros _. now rewrite app_nil_r, Nat.sub_0_r, Nat.add_0_r.
  - inversion A as [|? ? HI A']; subst. cbn [concat length] in *. rewrite <- app_assoc in V. rewrite app_length in LN.
    destruct left as [|left]; [lia|]. cbn [reader_blocks].
    assert (EB : bk_read_from_slice (pr_blocks P) (skipn processed buf) false = Ok b) by (apply slice_exact; eauto).
    rewrite EB. rewrite Forall_forall in HS. destruct (seen_length b e (HS _ HI) HB) as (SB & L8).
    replace (bk_size b =? 0) with false by lia. rewrite SB.
    assert (V' : skipn (processed + length e) buf = concat raws ++ tail).
    { rewrite Nat.add_comm, <- skipn_skipn, V. now apply skipn_app_exact. }
    specialize (IH A' left buf (processed + length e)%nat (acc ++ [b]) tail ltac:(lia) V' ltac:(lia)). destruct IH as (I1 & I2).
    rewrite <- app_assoc in I1, I2. cbn [app] in I1, I2. split.
    + intros _ ->. destruct bs as [|b2 bs].
      * inversion F; subst. cbn [concat length] in *. replace (processed + length e =? length buf)%nat with true by lia. reflexivity.
      * replace (processed + length e =? length buf)%nat with false; [now apply I1|]. symmetry. apply Nat.eqb_neq. intros Q.
        inversion F as [|? e2 ? raws2 HB2 F2]; subst. inversion A' as [|? ? HI2 A2]; subst.
        destruct (seen_length b2 e2 (HS _ HI2) HB2) as (_ & L2). cbn [concat] in LN. rewrite app_length in LN. cbn [length] in LN. lia.
    + intros NT. replace (processed + length e =? length buf)%nat with false.
      2: { symmetry. apply Nat.eqb_neq. destruct tail; [easy|cbn [length] in LN; lia]. }
      rewrite (I2 NT). rewrite app_length. cbn [Nat.sub]. f_equal. lia.
Qed.

Lemma blocks_whole bs raw : blocks_seen P bs raw -> (length bs <= 255)%nat -> decoded_blocks P raw = (Ok bs, Drop).
Proof.
  intros B L. destruct (loop_seen bs raw B 255 raw 0 [] [] L (eq_sym (app_nil_r raw)) ltac:(cbn [length]; lia)) as (A & _).
  unfold decoded_blocks. change (N.to_nat max_blocks_count) with 255%nat. destruct bs as [|b bs].
  - destruct B as (raws & F & _ & ->). inversion F; subst. reflexivity.
  - rewrite (A ltac:(discriminate) eq_refl). destruct raw as [|c raw]; [exfalso|reflexivity].
    destruct B as (raws & F & A' & E). inversion F as [|? e ? raws2 HB2 F2]; subst. inversion A' as [|? ? HI2 A2]; subst.
    rewrite Forall_forall in HS. destruct (seen_length b e (HS _ HI2) HB2) as (_ & L2). apply (f_equal (@length byte)) in E.
    cbn [concat] in E. rewrite app_length in E. cbn [length] in E. lia.
Qed.
Lemma blocks_then bs raw y : blocks_seen P bs raw -> y <> [] ->
  ((length bs < 255)%nat -> no_block P y -> exists e, decoded_blocks P (raw ++ y) = (Err e, Drop)) /\
  (length bs = 255%nat -> decoded_blocks P (raw ++ y) = (Err EMaxBlocksCount, ClearOnly)).
Proof.
  intros B NY. assert (D : decoded_blocks P (raw ++ y) = reader_blocks 255 (pr_blocks P) (raw ++ y) 0 []).
  { unfold decoded_blocks. change (N.to_nat max_blocks_count) with 255%nat. destruct (raw ++ y) eqn:E; [|reflexivity].
    apply app_eq_nil in E as (_ & E). easy. }
  rewrite D. split; [intros L NB|intros L];
    destruct (loop_seen bs raw B 255 (raw ++ y) 0 [] y ltac:(lia) eq_refl ltac:(rewrite app_length; lia)) as (_ & A); rewrite (A NY).
  - destruct (255 - length bs)%nat as [|k] eqn:EK; [lia|]. cbn [reader_blocks Nat.add]. rewrite skipn_app_exact by reflexivity.
    destruct (no_block_err y NB) as (e & ->). eauto.
  - rewrite L, Nat.sub_diag. reflexivity.
Qed.

(** ** Rules *)
Lemma lets_blocks_iff (rs : rules U) bs : NoDup (map id_of rs) -> (filter_by_blocks rs bs = true <-> lets_blocks rs bs).
Proof.
  intros ND. split; [intros E f I; now rewrite <- (filter_by_blocks_some rs f)|]. intros L. destruct (has IdFilterByBlocks rs) eqn:E.
  - apply has_in in E as (x & I & E). destruct x; try discriminate. rewrite (filter_by_blocks_some rs f) by easy. now apply L.
  - apply filter_by_blocks_none. intros f I. assert (Q : has IdFilterByBlocks rs = true) by (apply has_in; eauto). congruence.
Qed.
Lemma lets_payload_iff (rs : rules U) b : NoDup (map id_of rs) -> (filter_by_payload rs b = true <-> lets_payload rs b).
Proof.
  intros ND. split; [intros E f I; now rewrite <- (filter_by_payload_some rs f)|]. intros L. destruct (has IdFilterByPayload rs) eqn:E.
  - apply has_in in E as (x & I & E). destruct x; try discriminate. rewrite (filter_by_payload_some rs f) by easy. now apply L.
  - apply filter_by_payload_none. intros f I. assert (Q : has IdFilterByPayload rs = true) by (apply has_in; eauto). congruence.
Qed.
Lemma lets_packet_iff (rs : rules U) p : NoDup (map id_of rs) -> (filter_packet rs p = true <-> lets_packet rs p).
Proof.
  intros ND. split; [intros E f I; now rewrite <- (filter_packet_some rs f)|]. intros L. destruct (has IdFilter rs) eqn:E.
  - apply has_in in E as (x & I & E). destruct x; try discriminate. rewrite (filter_packet_some rs f) by easy. now apply L.
  - apply filter_packet_none. intros f I. assert (Q : has IdFilter rs = true) by (apply has_in; eauto). congruence.
Qed.

(** ** The payload *)
Lemma peeked x : fst (ph_try_read_buf (of_slice x)) = ph_peek x.
Proof. unfold ph_try_read_buf, of_slice, fill_buf. cbn [b_cur b_evs]. destruct x; reflexivity. Qed.
Lemma peek_seen x h : ph_peek x = Ok (Success h) -> payload_header_seen x (skipn (ph_size h) x) /\ ph_ok h /\ x = ph_bytes h ++ skipn (ph_size h) x.
Proof.
  intros E. apply ph_peek_inv in E as (rest & -> & HH). rewrite skipn_app_exact by (now rewrite ph_bytes_length).
  split; [|split; [exact HH|reflexivity]]. destruct h as [sig crc len]. destruct HH as (H1 & H2 & H3). exists sig, crc, len. rewrite ph_bytes_layout. auto.
Qed.
Lemma seen_peek x body : payload_header_seen x body -> exists h, ph_peek x = Ok (Success h) /\ ph_ok h /\ x = ph_bytes h ++ body.
Proof.
  intros (sig & crc & len & C1 & C2 & LN & ->). exists (mk_pheader sig crc len).
  assert (HH : ph_ok (mk_pheader sig crc len)) by (now repeat split).
  assert (EL : payload_header_layout sig crc len = ph_bytes (mk_pheader sig crc len)) by (now rewrite ph_bytes_layout). rewrite EL.
  split; [now apply ph_peek_rt|]. auto.
Qed.
Lemma payload_read h body pl part rest : ph_ok h -> ph_bytes h ++ body = part ++ rest -> payload_taken (pr_kinds P) pl part ->
  fst (pl_try_read_buf (pr_kinds P) h (of_slice body)) = Ok (Success pl).
Proof.
  intros HH E T. pose proof (payload_taken_rt (pr_kinds P) pl part rest (proj2 HP) T) as Q. rewrite <- E in Q.
  destruct (ph_read_rt buf_reader b_cur (fun s => b_evs s = []) (cur_okl []) h (mk_bufsrc (ph_bytes h ++ body) []) body) as (s' & E1 & V & O); try easy.
  rewrite E1 in Q. cbn [sbind] in Q. rewrite (cur_state [] s' _ O V) in Q. rewrite pl_try_read_buf_eq. unfold of_slice.
  destruct (pl_read buf_reader (pr_kinds P) h (mk_bufsrc body [])) as [o s]. cbn [fst] in Q. subst o. reflexivity.
Qed.
Lemma payload_or_not x : (exists pl part rest, x = part ++ rest /\ payload_taken (pr_kinds P) pl part) \/
  (forall pl part rest, x = part ++ rest -> ~ payload_taken (pr_kinds P) pl part).
Proof.
  destruct (do (ph, r) <- ph_read buf_reader (mk_bufsrc x []); pl_read buf_reader (pr_kinds P) ph r) as [[pl|e|w] s] eqn:E.
  - left. destruct (payload_taken_inv _ _ _ _ E) as (part & rest & T & ->). eauto.
  - right. intros pl part rest -> T. pose proof (payload_taken_rt _ pl part rest (proj2 HP) T) as Q. now rewrite E in Q.
  - right. intros pl part rest -> T. pose proof (payload_taken_rt _ pl part rest (proj2 HP) T) as Q. now rewrite E in Q.
Qed.

(** ** The two halves *)
Section Rules.
Variable rs : rules U.
Hypothesis ND : NoDup (map id_of rs).

Lemma found_total p : exists o, judged_found rs p o.
Proof.
  destruct (filter_packet rs p) eqn:E; [exists (Ok (NFound p)); constructor; now apply lets_packet_iff|].
  exists (Ok NSkipped). constructor. intros L. apply (lets_packet_iff rs p ND) in L. congruence.
Qed.
Lemma rest_total bs tail flag : exists o f, judged_rest P rs bs tail flag o f.
Proof.
  destruct (filter_by_blocks rs bs) eqn:EB.
  2: { exists (Ok NSkipped), Drop. constructor. intros L. apply (lets_blocks_iff rs bs ND) in L. congruence. }
  apply (lets_blocks_iff rs bs ND) in EB. destruct flag.
  2: { destruct (found_total (mk_packet bs None)) as (o & F). exists o, Drop. now constructor. }
  destruct (ph_peek tail) as [[h|n]|e|w] eqn:EK.
  2, 3, 4: exists (Err EMaxBlocksCount), Drop; apply judged_no_header; [exact EB|]; intros body S; apply seen_peek in S as (h & Q & _); congruence.
  destruct (peek_seen _ _ EK) as (S & _). set (body := skipn (ph_size h) tail) in *.
  destruct (filter_by_payload rs body) eqn:EF.
  2: { exists (Ok NSkipped), Drop. eapply judged_payload_filtered; eauto. intros L. apply (lets_payload_iff rs body ND) in L. congruence. }
  apply (lets_payload_iff rs body ND) in EF.
  destruct (payload_or_not tail) as [(pl & part & rest & E & T)|N].
  - destruct (found_total (mk_packet bs (Some pl))) as (o & F). exists o, Drop. eapply judged_payload; eauto.
  - exists (Err EMaxBlocksCount), Leave. eapply judged_no_payload; eauto.
Qed.
Lemma judged_total bl flag body : exists o f, judged P rs bl flag body o f.
Proof.
  destruct (blen body <? bl) eqn:EL; [exists (Panic PIndex), Leave; constructor; lia|].
  set (n := N.to_nat bl). assert (LN : (n <= length body)%nat) by (unfold n, blen in *; lia).
  assert (LF : blen (firstn n body) = bl) by (unfold blen; rewrite firstn_length; lia).
  destruct (split_blocks 255 (firstn n body)) as (bs & raw & y & E & B & L & C).
  assert (EB : body = raw ++ y ++ skipn n body) by (rewrite app_assoc, <- E; symmetry; apply firstn_skipn).
  rewrite E in LF. destruct C as [->|[(NY & C)|(NY & C & NB)]].
  - rewrite app_nil_r in LF. cbn [app] in EB. destruct (rest_total bs (skipn n body) flag) as (o & f & R). exists o, f. eapply judged_blocks; eauto.
  - exists (Err EMaxBlocksCount), ClearOnly. eapply judged_many; eauto.
  - exists (Err EMaxBlocksCount), Drop. eapply judged_bad_block; eauto.
Qed.

(** The same up to what an error says. *)
Definition alike (o o' : res (next U)) : Prop := match o with Err _ => exists e, o' = Err e | _ => o' = o end.
Lemma alike_refl o : alike o o.
Proof. destruct o; cbn; eauto. Qed.

Definition fin (p : packet U) : res (next U) * fate := if negb (filter_packet rs p) then (Ok NSkipped, Drop) else (Ok (NFound p), Drop).
Lemma found_fin p o : judged_found rs p o -> fin p = (o, Drop).
Proof.
  unfold fin. intros [L|L]; rewrite <- (lets_packet_iff rs p ND) in L.
  - now rewrite L.
  - now apply not_true_is_false in L as ->.
Qed.

Lemma parse_rest size bl flag body bs raw tail o f : body = raw ++ tail -> blen raw = bl -> blocks_seen P bs raw -> (length bs <= 255)%nat ->
  judged_rest P rs bs tail flag o f ->
  exists o', parse_body P rs (mkh size bl flag) body = (o', f) /\ judged_rest P rs bs tail flag o' f /\ alike o o'.
Proof.
  intros -> LB B L J. unfold parse_body.
  change (h_blocks_len (mkh size bl flag)) with bl. change (h_payload (mkh size bl flag)) with flag. subst bl.
  replace (blen (raw ++ tail) <? blen raw) with false by (rewrite blen_app; lia).
  rewrite to_nat_blen, firstn_app_exact, skipn_app_exact by reflexivity. fold (decoded_blocks P raw).
  rewrite (blocks_whole bs raw B L). cbv iota beta.
  destruct J as [flag LB|o LB F|e LB NH|b LB S NP|b e LB S LP NT|b pl part rest o LB S LP E T F].
  - assert (Q : filter_by_blocks rs bs = false) by (apply not_true_is_false; intros Q; now apply (lets_blocks_iff rs bs ND) in Q).
    rewrite Q. cbn [negb]. eexists. split; [reflexivity|]. split; [now constructor|reflexivity].
  - rewrite (proj2 (lets_blocks_iff rs bs ND) LB). cbn [negb]. pose proof (found_fin _ _ F) as Q. unfold fin in Q. rewrite Q.
    exists o. split; [reflexivity|]. split; [now constructor|apply alike_refl].
  - rewrite (proj2 (lets_blocks_iff rs bs ND) LB). cbn [negb]. rewrite peeked.
    destruct (ph_peek tail) as [[h|n]|er|w] eqn:EK.
    + apply peek_seen in EK as (S & _). now apply NH in S.
    + eexists. split; [reflexivity|]. split; [now apply judged_no_header|cbn; eexists; reflexivity].
    + eexists. split; [reflexivity|]. split; [now apply judged_no_header|cbn; eexists; reflexivity].
    + now apply ph_peek_nopanic in EK.
  - rewrite (proj2 (lets_blocks_iff rs bs ND) LB). cbn [negb]. rewrite peeked.
    destruct (seen_peek _ _ S) as (h & EK & HH & ET). rewrite EK.
    assert (K2 : skipn (length raw + ph_size h) (raw ++ tail) = b).
    { rewrite ET, (app_assoc raw). rewrite skipn_app_exact; [easy|]. now rewrite app_length, ph_bytes_length. }
    rewrite K2. assert (Q : filter_by_payload rs b = false) by (apply not_true_is_false; intros Q; now apply (lets_payload_iff rs b ND) in Q).
    rewrite Q. cbn [negb]. eexists. split; [reflexivity|]. split; [now apply (judged_payload_filtered P rs bs tail b)|reflexivity].
  - rewrite (proj2 (lets_blocks_iff rs bs ND) LB). cbn [negb]. rewrite peeked.
    destruct (seen_peek _ _ S) as (h & EK & HH & ET). rewrite EK.
    assert (K2 : skipn (length raw + ph_size h) (raw ++ tail) = b).
    { rewrite ET, (app_assoc raw). rewrite skipn_app_exact; [easy|]. now rewrite app_length, ph_bytes_length. }
    rewrite K2, (proj2 (lets_payload_iff rs b ND) LP). cbn [negb].
    destruct (refused_payload P tail h b HH ET NT) as (er & ->). eexists. split; [reflexivity|]. split; [now apply (judged_no_payload P rs bs tail b)|cbn; eexists; reflexivity].
  - rewrite (proj2 (lets_blocks_iff rs bs ND) LB). cbn [negb]. rewrite peeked.
    destruct (seen_peek _ _ S) as (h & EK & HH & ET). rewrite EK.
    assert (K2 : skipn (length raw + ph_size h) (raw ++ tail) = b).
    { rewrite ET, (app_assoc raw). rewrite skipn_app_exact; [easy|]. now rewrite app_length, ph_bytes_length. }
    rewrite K2, (proj2 (lets_payload_iff rs b ND) LP). cbn [negb].
    rewrite (payload_read h b pl part rest HH (eq_trans (eq_sym ET) E) T).
    pose proof (found_fin _ _ F) as Q. unfold fin in Q. rewrite Q.
    exists o. split; [reflexivity|]. split; [now apply (judged_payload P rs bs tail b pl part rest)|apply alike_refl].
Qed.

Lemma parse_judged size bl flag body o f : judged P rs bl flag body o f ->
  exists o', parse_body P rs (mkh size bl flag) body = (o', f) /\ judged P rs bl flag body o' f /\ alike o o'.
Proof.
  intros J. destruct J as [LT|bs raw x tail e EB LB NX B L NB|bs raw x tail EB LB NX B L|bs raw tail o f EB LB B L R].
  - exists (Panic PIndex). unfold parse_body. change (h_blocks_len (mkh size bl flag)) with bl.
    replace (blen body <? bl) with true by lia. split; [reflexivity|]. split; [now constructor|reflexivity].
  - destruct (blocks_then bs raw x B NX) as (A & _). destruct (A L NB) as (er & E). exists (Err er). split; [|split; [|cbn; eauto]].
    + unfold parse_body. change (h_blocks_len (mkh size bl flag)) with bl. rewrite app_assoc in EB. rewrite EB, <- LB.
      replace (blen ((raw ++ x) ++ tail) <? blen (raw ++ x)) with false by (rewrite (blen_app (raw ++ x)); lia).
      rewrite to_nat_blen, firstn_app_exact by reflexivity. fold (decoded_blocks P (raw ++ x)). now rewrite E.
    + eapply judged_bad_block; eauto.
  - destruct (blocks_then bs raw x B NX) as (_ & A). specialize (A L). exists (Err EMaxBlocksCount). split; [|split; [|cbn; eauto]].
    + unfold parse_body. change (h_blocks_len (mkh size bl flag)) with bl. rewrite app_assoc in EB. rewrite EB, <- LB.
      replace (blen ((raw ++ x) ++ tail) <? blen (raw ++ x)) with false by (rewrite (blen_app (raw ++ x)); lia).
      rewrite to_nat_blen, firstn_app_exact by reflexivity. fold (decoded_blocks P (raw ++ x)). now rewrite A.
    + eapply judged_many; eauto.
  - destruct (parse_rest size bl flag body bs raw tail o f EB LB B L R) as (o' & E & R' & AL). exists o'. split; [exact E|]. split; [|exact AL].
    eapply judged_blocks; eauto.
Qed.
Lemma judged_parse size bl flag body : exists o f, parse_body P rs (mkh size bl flag) body = (o, f) /\ judged P rs bl flag body o f.
Proof. destruct (judged_total bl flag body) as (o & f & J). destruct (parse_judged size _ _ _ _ _ J) as (o' & E & J' & _). eauto. Qed.
Lemma judged_same bl flag body o f o' f' : judged P rs bl flag body o f -> judged P rs bl flag body o' f' -> f = f' /\ alike o o'.
Proof.
  intros J J'. destruct (parse_judged 0 _ _ _ _ _ J) as (p & E & _ & A). destruct (parse_judged 0 _ _ _ _ _ J') as (p' & E' & _ & A').
  rewrite E in E'. apply pair_equal_spec in E' as (<- & <-). split; [reflexivity|].
  destruct o; cbn [alike] in *; [subst p|destruct A as (er & ->)|subst p]; destruct o'; cbn [alike] in A'; try (destruct A'; discriminate); try congruence; eauto.
Qed.
Lemma judged_reports bl flag body o : judged P rs bl flag body o Drop -> quiet o = false.
Proof.
  intros J. remember Drop as d eqn:Q. destruct J as [LT|bs raw x tail e EB LB NX B L NB|bs raw x tail EB LB NX B L|bs raw tail o f EB LB B L R]; try easy.
  destruct R as [flag LA|o LA F|e LA NH|b LA S NP|b e LA S LP NT|b pl part rest o LA S LP E T F]; try reflexivity; now destruct F.
Qed.

(** ** Streams *)
Lemma sees_judged x o : frame_ok x -> judged_frame P rs x o Drop ->
  exists o', sees P rs (framed x) o' /\ judged_frame P rs x o' Drop /\ quiet o' = false.
Proof.
  destruct x as [[bl flag] body]. cbn [frame_ok judged_frame framed]. intros (H1 & H2) J.
  destruct (parse_judged (blen body) _ _ _ _ _ J) as (o' & E & J' & _). exists o'. split; [|split; [exact J'|exact (judged_reports _ _ _ _ J')]].
  exists (blen body), bl, flag, body. auto.
Qed.
Lemma judged_items gs xs : Forall frame_ok xs -> Forall (fun x => exists o, judged_frame P rs x o Drop) xs ->
  Forall2 (fun g x => no_signature g (framed x)) gs xs ->
  exists its : list (@item U), Forall (item_ok P rs []) its /\ map fst its = combine gs (map framed xs) /\
    Forall2 (fun x o => judged_frame P rs x o Drop) xs (map snd its) /\ Forall (fun i => quiet (snd i) = false) its.
Proof.
  intros F1 F2 FS. revert F1 F2. induction FS as [|g x gs xs HG FS IH]; intros F1 F2.
  - exists []. cbn [map combine]. auto.
  - inversion F1; subst. inversion F2 as [|? ? (o & J) F2']; subst. destruct (IH H2 F2') as (its & A & B & C & D).
    destruct (sees_judged x o H1 J) as (o' & S & J' & Q). exists ((g, framed x, o') :: its).
    split; [constructor; [|exact A]|].
    + split; [now apply clean_spec|]. split; [exact S|]. now left.
    + cbn [map fst snd combine]. rewrite B. split; [reflexivity|]. split; constructor; auto.
Qed.
Lemma judged_stream gs xs last cs : Forall frame_ok xs -> Forall (fun x => exists o, judged_frame P rs x o Drop) xs ->
  Forall2 (fun g x => no_signature g (framed x)) gs xs -> no_signature last [] ->
  cut_into cs (stream_bytes (combine gs (map framed xs)) last) ->
  (Forall (fun g => (length g < 21)%nat) gs \/ Forall (fun c => (29 <= length c)%nat) cs) ->
  exists outs r',
    pr_reads P (length outs + 1) (fresh rs (map Chunk cs)) = (outs ++ [Ok NNoData], r') /\
    Forall2 (fun x o => judged_frame P rs x o Drop) xs (reports outs) /\
    (forall t, In (RIgnored t) rs -> exists bufs, r_log r' = map (pair t) bufs /\ Forall (fun b => b <> []) bufs /\ concat bufs = concat gs ++ last).
Proof.
  intros F1 F2 FS FL CU PC. destruct (judged_items gs xs F1 F2 FS) as (its & A & B & C & D).
  assert (LG : map (fun i => fst (fst i)) its = gs).
  { rewrite <- map_map, B. clear - FS. induction FS; cbn [combine map fst]; congruence. }
  assert (I : inv P rs [] True False its last (fresh rs (map Chunk cs ++ []))).
  { apply inv_start; [exact A|intros _; now apply clean_spec| |now rewrite sbytes_eq, B].
    destruct PC as [PC|PC]; [left|now right].
    rewrite <- LG in PC. apply Forall_map in PC. exact PC. }
  rewrite app_nil_r in I.
  destruct (run_stream P rs [] True False its last _ (fun x => x) eq_refl Logic.I I D) as (outs & r' & bufs & R1 & R2 & R3 & R4 & R5 & R6 & R7 & R8).
  exists outs, r'. split; [exact R1|]. split; [unfold reports; rewrite R2; exact C|]. cbn [fresh r_log] in R6.
  intros t IT. exists bufs. rewrite R6, (logs_some rs t) by easy. split; [reflexivity|]. split; [exact R7|].
  rewrite R8, foreign_eq, LG. reflexivity.
Qed.
End Rules.
End Judge.

(** ** What the numbers of [NotEnoughData] say *)
Section Wait.
Context {U : Type}.
Variable P : proto U.

Lemma note_state c b (r : preader U) : r_state (note c b r) = r_state r /\ r_buffered (note c b r) = r_buffered r.
Proof. unfold note. now destruct c. Qed.

Definition waits (r : preader U) (o : res (next U)) (r' : preader U) : Prop :=
  match o with
  | Ok (NNotEnough n) =>
      match r_state r' with
      | HRefill _ needed => n = N.of_nat needed
      | HReady h => n + blen (r_buffered r') = h_size h \/ (n = 0 /\ r_buffered r' = r_buffered r /\ exists b k, r_state r = HRefill b k)
      | HEmpty => False
      end
  | Ok NNotFound => exists b, r_state r' = HRefill b 29
  | _ => True
  end.

Lemma finish_waits h buf n (r0 r : preader U) : let (o, r') := finish P h buf n r in waits r0 o r'.
Proof.
  unfold finish. destruct (parse_body P (r_rules r) h buf) as [o f] eqn:E.
  assert (Q : match o with Ok (NNotEnough _) | Ok NNotFound => False | _ => True end).
  { unfold parse_body in E. destruct (blen buf <? h_blocks_len h); [now injection E as <- <-|].
    destruct (match firstn _ buf with [] => _ | _ => _ end) as [[bs|e|w] f0]; [|now injection E as <- <-|now injection E as <- <-].
    destruct (negb (filter_by_blocks _ bs)); [now injection E as <- <-|].
    destruct (h_payload h); [|destruct (negb _); now injection E as <- <-].
    destruct (fst (ph_try_read_buf _)) as [[ph|m]|e|w]; try now injection E as <- <-.
    destruct (negb (filter_by_payload _ _)); [now injection E as <- <-|].
    destruct (fst (pl_try_read_buf _ _ _)) as [[pl|m]|e|w]; try now injection E as <- <-.
    destruct (negb _); now injection E as <- <-. }
  destruct o as [[]| |]; easy.
Qed.

Lemma refill_found_waits h from to buf n (r0 r : preader U) : (exists b k, r_state r0 = HRefill b k) -> r_buffered r = r_buffered r0 ->
  let (o, r') := refill_found h from to buf n r in waits r0 o r'.
Proof.
  intros H E. unfold refill_found, usub. destruct (n <=? to)%nat; cbn [sbind]; [|exact I].
  cbn [waits]. unfold set_state. cbn [r_state]. right. split; [reflexivity|]. unfold eat, set_src. cbn [r_buffered].
  destruct (note_state (0 <? from)%nat (firstn from buf) r) as (_ & Q). now rewrite Q.
Qed.

Lemma fill_fields (r : preader U) o r1 : pr_fill r = (o, r1) -> r_state r1 = r_state r /\ r_buffered r1 = r_buffered r /\
  match o with Ok _ | Err _ => True | Panic _ => False end.
Proof.
  unfold pr_fill. destruct (fill_buf (r_src r)) as [o' s] eqn:E. intros Q. injection Q as <- <-. split; [reflexivity|]. split; [reflexivity|].
  unfold fill_buf in E. destruct (b_cur (r_src r)); [destruct (b_evs (r_src r)) as [|[|] ]|]; now injection E as <- <-.
Qed.

Lemma read_waits (r : preader U) : let (o, r') := pr_read P r in waits r o r'.
Proof.
  unfold pr_read. destruct (r_state r) as [h|buf needed|] eqn:ST.
  - unfold resolve_ready. destruct (pr_fill (set_state HEmpty r)) as [[buf|e|w] r1] eqn:EF; cbn [sbind]; try exact I.
    apply fill_fields in EF as (E1 & E2 & _). cbv zeta. destruct (blen (r_buffered r1) + blen buf <? h_size h) eqn:L.
    + cbn [waits]. unfold set_state, eat, set_src, set_buffered. cbn [r_state r_buffered]. left. rewrite blen_app. lia.
    + destruct (h_size h <? blen (r_buffered r1)); [exact I|]. apply finish_waits.
  - unfold resolve_refill. destruct (pr_fill (set_state HEmpty r)) as [[ex|e|w] r1] eqn:EF; cbn [sbind]; try exact I.
    apply fill_fields in EF as (E1 & E2 & _). cbn [set_state r_buffered] in E2. destruct ex as [|x ex]; [exact I|].
    set (x' := x :: ex) in *. clearbody x'. cbv zeta.
    destruct (length x' <? needed)%nat; [cbn [waits]; unfold set_state; cbn [r_state]; reflexivity|].
    destruct (read_header (buf ++ firstn needed x')) as [[|f n|h f t]|e|w]; cbn [sbind]; try exact I;
      [| |now apply refill_found_waits; [eauto|]];
      (destruct (read_header (buf ++ x')) as [[|f2 n2|h2 f2 t2]|e2|w2]; cbn [sbind]; try exact I;
       [cbn [waits]; unfold set_state; cbn [r_state]; unfold hdr_size; eauto
       |cbn [waits]; unfold set_state; cbn [r_state]; reflexivity
       |now apply refill_found_waits; [eauto|]]).
  - unfold resolve_empty. destruct (pr_fill (set_buffered [] (set_state HEmpty r))) as [[ex|e|w] r1] eqn:EF; cbn [sbind]; try exact I.
    apply fill_fields in EF as (E1 & E2 & _). cbn [set_buffered r_buffered] in E2. destruct ex as [|x ex]; [exact I|].
    set (x' := x :: ex) in *. clearbody x'. cbv zeta.
    destruct (length x' <? hdr_size)%nat.
    { cbn [waits]. unfold eat, set_src, set_state. cbn [r_state]. reflexivity. }
    destruct (read_header x') as [[|f n|h f t]|e|w] eqn:EH; cbn [sbind]; try exact I.
    + cbn [waits]. unfold eat, set_src, set_state. cbn [r_state]. unfold hdr_size. eauto.
    + cbn [waits]. unfold eat, set_src, set_state. cbn [r_state]. reflexivity.
    + destruct (two64 <=? h_size h + N.of_nat t); [exact I|]. destruct (blen x' <? h_size h + N.of_nat t) eqn:L; [|apply finish_waits].
      cbn [waits]. unfold set_state, eat, set_src, set_buffered. cbn [r_state r_buffered]. left.
      assert (LT : (t <= length x')%nat).
      { unfold read_header in EH. destruct (get_pos x') as [off|]; [|discriminate]. destruct (length (skipn off x') <? hdr_size)%nat eqn:LL; [discriminate|].
        destruct (hdr_read_from_slice _) as [h'| |]; cbn [rbind] in EH; try discriminate. apply ok_inj in EH.
        apply (f_equal (fun z => match z with FFound _ _ t => t | _ => 0%nat end)) in EH. subst t. rewrite skipn_length in LL. unfold hdr_size in *. lia. }
      unfold blen in *. rewrite skipn_length. lia.
Qed.

Lemma step_waits rs its (r : preader U) : inv P rs [] True False its [] r -> pure its [] ->
  let (o, r') := pr_read P r in
  exists its', inv P rs [] True False its' [] r' /\ pure its' [] /\
    ((quiet o = true /\ map ident its' = map ident its /\
       exists n g e o1 its2 j, o = Ok (NNotEnough n) /\ its = (g, e, o1) :: its2 /\ missing e j n /\
         firstn j e ++ b_view (r_src r') = sbytes its []) \/
     (exists i, its = i :: its' /\ o = snd i) \/ (its = [] /\ its' = [] /\ o = Ok NNoData)).
Proof.
  intros I PU. pose proof (pr_step P rs [] True False its [] r (fun _ => conj eq_refl Logic.I) I) as S. pose proof (read_waits r) as W.
  destruct (pr_read P r) as [o r']. destruct S as [o r1 its' last' bufs ID I1 EI [LT|([] & _)] PP _ LG NE FO|g e o r1 its' bufs Q I1 LT PP LG NE FO|r1 bufs Q I1 VW ST LG NE FO|? ? ? ? ? ? [] _ _ _ _ _|? ? ? ? [] _ _ _ _ _ _ _].
  - pose proof (PP PU) as PU'. assert (last' = []) by apply PU'. subst last'. exists its'. split; [exact I1|]. split; [exact PU'|]. left.
    split; [destruct ID as [(n & ->)| ->]; reflexivity|]. split; [exact EI|].
    destruct I1 as (R1 & F1 & _ & cs & EV & FC & LC & PC & V).
    assert (VV : b_view (r_src r1) = b_cur (r_src r1) ++ concat cs).
    { unfold b_view. rewrite EV. rewrite app_nil_r. f_equal. rewrite map_map. cbn [ev_bytes]. now rewrite map_id. }
    assert (SB : sbytes its' [] = sbytes its []).
    { clear - PU PU' EI. destruct PU as (A & _), PU' as (B & _). revert its EI A. induction its' as [|[[g e] o] its' IH]; intros its EI A.
      - destruct its; [reflexivity|discriminate].
      - destruct its as [|[[g2 e2] o2] its]; [discriminate|]. cbn [map] in EI. apply (f_equal (fun l => (hd_error l, tl l))) in EI. cbn [hd_error tl] in EI.
        apply pair_equal_spec in EI as (E1 & E2). unfold ident in E1. cbn [fst snd] in E1.
        pose proof (Forall_inv A) as G2. pose proof (Forall_inv B) as G1. cbn [fst] in G1, G2. subst g g2.
        assert (e = e2) by congruence. subst e2. cbn [sbytes app]. f_equal. apply IH; [exact (Forall_inv_tail B)|exact E2|exact (Forall_inv_tail A)]. }
    assert (HD : forall g' e' o' t', its' = (g', e', o') :: t' -> exists g e o t, its = (g, e, o) :: t /\ e = e' /\ (29 <= length e')%nat /\ sbytes its [] = e' ++ sbytes t' []).
    { intros g' e' o' t' ->. destruct its as [|[[g e] o1] its]; [discriminate|]. cbn [map] in EI. apply (f_equal (@hd_error _)) in EI. cbn [hd_error] in EI.
      unfold ident in EI. cbn [fst snd] in EI. exists g, e, o1, its. split; [reflexivity|]. split; [congruence|].
      pose proof (Forall_inv F1) as (_ & S & _). split; [now apply sees_len in S|].
      rewrite <- SB. cbn [sbytes]. pose proof (Forall_inv (proj1 PU')) as G. cbn [fst] in G. now rewrite G. }
    destruct ID as [(n & ->)| ->]; cbn [waits] in W.
    + destruct (r_state r1) as [h|buf needed|] eqn:ST; [| |contradiction].
      * destruct V as (size & bl & flag & body & o1 & its2 & E & SZ & L63 & L64 & EH & PB & VB & LB).
        destruct (HD _ _ _ _ E) as (g & e & o2 & t & E2 & Ee & _ & SBE). subst e.
        exists n, g, (layout_header size bl flag ++ body), o2, t, (29 + length (r_buffered r1))%nat.
        split; [reflexivity|]. split; [exact E2|]. assert (LL : length (layout_header size bl flag ++ body) = (29 + length body)%nat) by (rewrite app_length, layout_length; reflexivity).
        assert (LBB : (length (r_buffered r1) <= length body)%nat) by (destruct LB as [LB|(LB & ->)]; [lia|rewrite LB; cbn [length]; lia]).
        split.
        { unfold missing. rewrite LL. split; [lia|]. subst h. change (h_size (mkh size bl flag)) with size in W. unfold blen in *.
          destruct W as [W|(W1 & W2 & b & k & W3)]; [right; left; lia|right; right]. split; [|exact W1]. rewrite W2.
          destruct I as (_ & _ & _ & cs0 & _ & _ & _ & _ & V0). rewrite W3 in V0. destruct V0 as (V0 & _). rewrite V0. reflexivity. }
        rewrite SBE, <- app_assoc, <- VB, VV. rewrite !app_assoc. f_equal. f_equal.
        rewrite firstn_app, layout_length. replace (29 + length (r_buffered r1) - 29)%nat with (length (r_buffered r1)) by lia.
        rewrite firstn_all2 by (rewrite layout_length; lia). f_equal.
        apply (f_equal (firstn (length (r_buffered r1)))) in VB. rewrite firstn_app_exact in VB by reflexivity.
        rewrite firstn_app_le in VB by exact LBB. symmetry. exact VB.
      * destruct V as (RB & CU & NB & VB & ND).
        destruct its' as [|[[g' e'] o'] its']; [cbn [sbytes] in VB; apply app_eq_nil in VB as (VB & _); contradiction|].
        destruct (HD _ _ _ _ eq_refl) as (g & e & o2 & t & E2 & Ee & L29 & SBE). subst e.
        assert (LL : (length buf < 29)%nat /\ needed = (29 - length buf)%nat).
        { destruct ND as [ND|(_ & _ & AT)]; [exact ND|]. pose proof (Forall_inv (proj1 PU')) as G. cbn [fst] in G. subst g'. cbn [at_tail length] in AT. lia. }
        exists n, g, e', o2, t, (length buf). split; [reflexivity|]. split; [exact E2|]. assert (LB : (0 < length buf)%nat) by (destruct buf; [easy|cbn [length]; lia]).
        split; [unfold missing; lia|]. rewrite SBE, VV. rewrite CU in *. cbn [app] in *. rewrite SB, SBE in VB. rewrite <- VB. f_equal.
        apply (f_equal (firstn (length buf))) in VB. rewrite firstn_app_exact in VB by reflexivity. rewrite firstn_app_le in VB by lia. symmetry. exact VB.
    + exfalso. destruct W as (b & W). rewrite W in V. destruct V as (RB & CU & NB & VB & ND).
      destruct its' as [|[[g' e'] o'] its']; [cbn [sbytes] in VB; apply app_eq_nil in VB as (VB & _); contradiction|].
      assert (LB : (0 < length b)%nat) by (destruct b; [easy|cbn [length]; lia]).
      destruct ND as [ND|(_ & _ & AT)]; [lia|]. pose proof (Forall_inv (proj1 PU')) as G. cbn [fst] in G. subst g'. cbn [at_tail length] in AT. lia.
  - subst its. exists its'. split; [exact I1|]. split; [exact (PP PU)|]. right; left. now exists (g, e, o).
  - subst its. exists []. split; [exact I1|]. split; [exact PU|]. right; right. auto.
Qed.

Lemma pure_sbytes (its : list (@item U)) : pure its [] -> sbytes its [] = concat (map (fun i => snd (fst i)) its).
Proof.
  intros (A & _). induction its as [|[[g e] o] its IH]; [reflexivity|]. pose proof (Forall_inv A) as G. cbn [fst] in G. subst g.
  cbn [sbytes app map fst snd concat]. now rewrite IH by exact (Forall_inv_tail A).
Qed.
Lemma ident_es (its its' : list (@item U)) : map ident its' = map ident its -> map (fun i => snd (fst i)) its' = map (fun i => snd (fst i)) its.
Proof. intros E. apply (f_equal (map fst)) in E. rewrite !map_map in E. exact E. Qed.

Lemma run_waits rs : forall k its (r : preader U) outs o r', inv P rs [] True False its [] r -> pure its [] -> Forall (fun i => quiet (snd i) = false) its ->
  pr_reads P (S k) r = (outs ++ [o], r') -> quiet o = true ->
  exists n past e rest j, o = Ok (NNotEnough n) /\ map (fun i => snd (fst i)) its = past ++ e :: rest /\
    length (reports outs) = length past /\ missing e j n /\ concat (e :: rest) = firstn j e ++ b_view (r_src r').
Proof.
  induction k as [|k IH]; intros its r outs o r' I PU FQ E Q.
  - cbn [pr_reads] in E. pose proof (step_waits rs its r I PU) as S. destruct (pr_read P r) as [o1 r1].
    assert (outs = [] /\ o = o1 /\ r' = r1) as (-> & -> & ->).
    { apply pair_equal_spec in E as (E & <-). destruct outs as [|x outs]; [injection E as <-; auto|].
      apply (f_equal (@length _)) in E. cbn [length app] in E. rewrite app_length in E. cbn [length] in E. lia. }
    destruct S as (its' & I1 & PU1 & [(_ & EI & n & g & e & o2 & its2 & j & -> & -> & M & V)|[(i & -> & ->)|(-> & -> & ->)]]).
    + exists n, [], e, (map (fun i => snd (fst i)) its2), j. split; [reflexivity|]. split; [reflexivity|]. split; [reflexivity|]. split; [exact M|].
      rewrite V, (pure_sbytes _ PU). reflexivity.
    + pose proof (Forall_inv FQ) as K. cbn beta in K. congruence.
    + discriminate.
  - cbn [pr_reads] in E. pose proof (step_waits rs its r I PU) as S. destruct (pr_read P r) as [o1 r1].
    destruct outs as [|x outs].
    { exfalso. destruct (pr_read P r1) as [o2 r2]. destruct (pr_reads P k r2) as [os r3]. apply pair_equal_spec in E as (E & _). discriminate. }
    assert (E' : pr_reads P (Datatypes.S k) r1 = (outs ++ [o], r') /\ x = o1).
    { cbn [pr_reads]. destruct (pr_read P r1) as [o2 r2]. destruct (pr_reads P k r2) as [os r3]. apply pair_equal_spec in E as (E & <-).
      cbn [app] in E. injection E as <- E. now rewrite E. }
    clear E. destruct E' as (E & ->).
    destruct S as (its' & I1 & PU1 & [(Q1 & EI & _)|[(i & -> & ->)|(-> & -> & ->)]]).
    + assert (FQ' : Forall (fun i => quiet (snd i) = false) its').
      { rewrite Forall_forall. intros y Hy. apply (in_map snd) in Hy. rewrite (ident_snd _ _ EI) in Hy. apply in_map_iff in Hy as (z & <- & Hz).
        rewrite Forall_forall in FQ. now apply FQ. }
      destruct (IH its' r1 outs o r' I1 PU1 FQ' E Q) as (n & past & e & rest & j & A1 & A2 & A3 & A4 & A5).
      exists n, past, e, rest, j. split; [exact A1|]. split; [now rewrite <- (ident_es _ _ EI)|]. split; [|now split].
      rewrite <- A3. unfold reports. cbn [filter]. now rewrite Q1.
    + destruct (IH its' r1 outs o r' I1 PU1 (Forall_inv_tail FQ) E Q) as (n & past & e & rest & j & A1 & A2 & A3 & A4 & A5).
      exists n, (snd (fst i) :: past), e, rest, j. split; [exact A1|]. split; [cbn [map app]; now rewrite A2|]. split; [|now split].
      pose proof (Forall_inv FQ) as K. cbn beta in K. cbn [length]. rewrite <- A3. unfold reports. cbn [filter]. now rewrite K.
    + destruct (IH [] r1 outs o r' I1 PU1 FQ E Q) as (n & past & e & rest & j & A1 & A2 & _). destruct past; discriminate.
Qed.
End Wait.

Lemma judged_waits {U} (P : proto U) (HP : proto_ok P) (HS : Forall schema_ok (pr_blocks P)) (rs : rules U) (ND : NoDup (map id_of rs)) xs cs k outs o r' :
  Forall frame_ok xs -> Forall (fun x => exists o, judged_frame P rs x o Drop) xs -> cut_into cs (concat (map framed xs)) ->
  pr_reads P (S k) (fresh rs (map Chunk cs)) = (outs ++ [o], r') -> quiet o = true ->
  exists n past e rest j, o = Ok (NNotEnough n) /\ map framed xs = past ++ e :: rest /\
    length (reports outs) = length past /\ missing e j n /\ concat (e :: rest) = firstn j e ++ b_view (r_src r').
Proof.
  intros F1 F2 CU E Q.
  assert (FS : Forall2 (fun g x => no_signature g (framed x)) (map (fun _ => []) xs) xs).
  { clear. induction xs as [|e es IH]; cbn [map]; constructor; [|exact IH]. intros i L. cbn [length] in L. lia. }
  destruct (judged_items P HP HS rs ND _ xs F1 F2 FS) as (its & A & B & C & D).
  assert (ES : map (fun i => snd (fst i)) its = map framed xs).
  { rewrite <- map_map, B. clear. induction xs; cbn [combine map snd]; congruence. }
  assert (PU : pure its []).
  { split; [|reflexivity]. assert (GS : map fst (map fst its) = map (fun _ => []) xs) by (rewrite B; clear; induction xs; cbn [combine map fst]; congruence).
    rewrite map_map in GS. rewrite Forall_forall. intros y Hy. apply (in_map (fun x => fst (fst x))) in Hy. unfold item in *. rewrite GS in Hy.
    now apply in_map_iff in Hy as (z & <- & _). }
  assert (I : inv P rs [] True False its [] (fresh rs (map Chunk cs ++ []))).
  { apply inv_start; [exact A|intros _ i L; cbn [length] in L; lia|left; exact (pure_tight _ _ PU)|]. now rewrite (pure_sbytes _ PU), ES. }
  rewrite app_nil_r in I. destruct (run_waits P rs k its _ outs o r' I PU D E Q) as (n & past & e & rest & j & H1 & H2 & H).
  exists n, past, e, rest, j. rewrite <- ES. auto.
Qed.
