(** * Lemmas about packet headers and packets. *)
From Coq Require Import ZifyBool ZifyNat ZifyN.
From Verif Require Import Base Crc32 Io Block Payload Packet Spec BaseProofs CrcProofs BlockProofs DispatchProofs PayloadProofs PayloadEnumProofs.
Ltac Zify.zify_post_hook ::= Z.div_mod_to_equations.
Open Scope list_scope.

(** ** Header *)
Definition mkh (size bl : N) (flag : bool) : header :=
  mk_header size bl flag (crc32 (le 8 size ++ le 8 bl ++ [flag_byte flag])).

Definition hdr_parse (sz bl fl crc : bytes) : res header :=
  let h := mk_header (unle sz) (unle bl) (b2n (first_byte fl) =? 1) (unle crc) in
  if bytes_eqb (le 4 (h_crc h)) (hdr_crc h) then Ok h else Err ECrcDismatch.

Lemma mkh_bytes size bl flag : hdr_bytes (mkh size bl flag) = layout_header size bl flag.
Proof. unfold hdr_bytes, layout_header, mkh, crc32_le, flag_byte. simpl h_size. simpl h_blocks_len. simpl h_payload. simpl h_crc. now rewrite <- !app_assoc. Qed.

Lemma layout_length size bl flag : length (layout_header size bl flag) = 29%nat.
Proof. unfold layout_header. rewrite !app_length, !le_length, crc32_le_length, map_length. reflexivity. Qed.

Lemma layout_split size bl flag rest : layout_header size bl flag ++ rest
  = packet_sig ++ le 8 size ++ le 8 bl ++ [flag_byte flag]
    ++ crc32_le (le 8 size ++ le 8 bl ++ [flag_byte flag]) ++ rest.
Proof. unfold layout_header, packet_sig, flag_byte. now rewrite <- !app_assoc. Qed.

Lemma hdr_parse_rt size bl flag : size < two64 -> bl < two64 ->
  hdr_parse (le 8 size) (le 8 bl) [flag_byte flag] (crc32_le (le 8 size ++ le 8 bl ++ [flag_byte flag]))
  = Ok (mkh size bl flag).
Proof.
  intros H1 H2. unfold hdr_parse. cbn [first_byte].
  rewrite !unle_le by (unfold two64 in *; simpl; lia).
  replace (b2n (flag_byte flag) =? 1) with flag by (destruct flag; reflexivity).
  unfold crc32_le at 1 3. rewrite unle_le by apply crc32_bound.
  cbn [h_crc hdr_crc h_size h_blocks_len h_payload]. unfold hdr_crc. cbn [h_crc hdr_crc h_size h_blocks_len h_payload].
  unfold crc32_le. rewrite bytes_eqb_refl. reflexivity.
Qed.

Lemma hdr_read_spec {S} (R : reader S) view okst (OK : okl R view okst) s sig sz bl fl crc rest :
  okst s -> view s = sig ++ sz ++ bl ++ fl ++ crc ++ rest ->
  length sig = 8%nat -> length sz = 8%nat -> length bl = 8%nat -> length fl = 1%nat -> length crc = 4%nat ->
  if bytes_eqb sig packet_sig
  then exists s', view s' = rest /\ okst s' /\ hdr_read R s = (hdr_parse sz bl fl crc, s')
  else exists s', hdr_read R s = (Err ESignatureDismatch, s').
Proof.
  intros O V L1 L2 L3 L4 L5. unfold hdr_read.
  rd OK. { unfold blen; now rewrite L1. }
  destruct (bytes_eqb sig packet_sig); cbn [negb]; [|eauto].
  rd OK. { unfold blen; now rewrite L2. }
  rd OK. { unfold blen; now rewrite L3. }
  rd OK. { unfold blen; now rewrite L4. }
  rd OK. { unfold blen; now rewrite L5. }
  unfold hdr_parse. destruct (bytes_eqb _ _); eauto.
Qed.

Lemma hdr_slice_spec sig sz bl fl crc rest :
  length sig = 8%nat -> length sz = 8%nat -> length bl = 8%nat -> length fl = 1%nat -> length crc = 4%nat ->
  hdr_read_from_slice (sig ++ sz ++ bl ++ fl ++ crc ++ rest) =
  if bytes_eqb sig packet_sig then hdr_parse sz bl fl crc else Err ESignatureDismatch.
Proof.
  intros L1 L2 L3 L4 L5. unfold hdr_read_from_slice, hdr_size.
  replace (length (sig ++ sz ++ bl ++ fl ++ crc ++ rest) <? 29)%nat with false by (rewrite !app_length; lia).
  rewrite starts_with_firstn. change (length packet_sig) with 8%nat. rewrite firstn_app_exact by easy.
  destruct (bytes_eqb sig packet_sig); cbn [negb]; [|easy].
  rewrite (slice_app_exact sig sz _ 8 8) by easy.
  replace (sig ++ sz ++ bl ++ fl ++ crc ++ rest) with ((sig ++ sz) ++ bl ++ fl ++ crc ++ rest) by now rewrite <- !app_assoc.
  rewrite (slice_app_exact (sig ++ sz) bl _ 16 8) by (rewrite ?app_length; lia).
  replace ((sig ++ sz) ++ bl ++ fl ++ crc ++ rest) with ((sig ++ sz ++ bl) ++ fl ++ crc ++ rest) by now rewrite <- !app_assoc.
  rewrite (slice_app_exact (sig ++ sz ++ bl) fl _ 24 1) by (rewrite ?app_length; lia).
  replace ((sig ++ sz ++ bl) ++ fl ++ crc ++ rest) with ((sig ++ sz ++ bl ++ fl) ++ crc ++ rest) by now rewrite <- !app_assoc.
  rewrite (slice_app_exact (sig ++ sz ++ bl ++ fl) crc _ 25 4) by (rewrite ?app_length; lia).
  reflexivity.
Qed.

Lemma hdr_read_rt {S} (R : reader S) view okst (OK : okl R view okst) s size bl flag rest :
  okst s -> view s = layout_header size bl flag ++ rest -> size < two64 -> bl < two64 ->
  exists s', hdr_read R s = (Ok (mkh size bl flag), s') /\ view s' = rest /\ okst s'.
Proof.
  intros O V H1 H2. rewrite layout_split in V.
  pose proof (hdr_read_spec R view okst OK s _ _ _ _ _ _ O V eq_refl (le_length _ _) (le_length _ _) eq_refl (crc32_le_length _)) as Q.
  rewrite bytes_eqb_refl in Q. destruct Q as (s' & W & O' & E). rewrite hdr_parse_rt in E by easy. eauto.
Qed.

Lemma hdr_slice_rt size bl flag rest : size < two64 -> bl < two64 ->
  hdr_read_from_slice (layout_header size bl flag ++ rest) = Ok (mkh size bl flag).
Proof.
  intros H1 H2. rewrite layout_split.
  rewrite hdr_slice_spec by (easy || apply le_length || apply crc32_le_length).
  rewrite bytes_eqb_refl. now apply hdr_parse_rt.
Qed.

(** Any 29 bytes split into the fields of a header. *)
Lemma split_hdr (bs : bytes) : (29 <= length bs)%nat ->
  exists sig sz bl fl crc rest, bs = sig ++ sz ++ bl ++ fl ++ crc ++ rest /\
    length sig = 8%nat /\ length sz = 8%nat /\ length bl = 8%nat /\ length fl = 1%nat /\ length crc = 4%nat.
Proof.
  intros H.
  exists (firstn 8 bs), (firstn 8 (skipn 8 bs)), (firstn 8 (skipn 16 bs)), (firstn 1 (skipn 24 bs)),
    (firstn 4 (skipn 25 bs)), (skipn 29 bs).
  rewrite !firstn_length, !skipn_length. repeat split; try lia.
  assert (G : forall a b, firstn a (skipn b bs) ++ skipn (a + b) bs = skipn b bs).
  { intros a b. rewrite <- skipn_skipn. apply firstn_skipn. }
  pose proof (G 4 25)%nat as G1. pose proof (G 1 24)%nat as G2. pose proof (G 8 16)%nat as G3. pose proof (G 8 8)%nat as G4.
  cbn [Nat.add] in *. rewrite G1, G2, G3, G4. now rewrite firstn_skipn.
Qed.

(** ** Corruption *)
Lemma hdr_parse_inv sz bl fl crc h :
  length sz = 8%nat -> length bl = 8%nat -> length fl = 1%nat -> length crc = 4%nat ->
  hdr_parse sz bl fl crc = Ok h ->
  h = mkh (unle sz) (unle bl) (b2n (first_byte fl) =? 1)
  /\ crc = crc32_le (sz ++ bl ++ [flag_byte (b2n (first_byte fl) =? 1)])
  /\ h_size h < two64 /\ h_blocks_len h < two64.
Proof.
  intros L1 L2 L3 L4. unfold hdr_parse. destruct (bytes_eqb _ _) eqn:E; [|easy]. inversion 1; subst h; clear H.
  apply bytes_eqb_eq in E. unfold hdr_crc in E. cbn [h_crc h_size h_blocks_len h_payload] in *.
  assert (E1 : le 8 (unle sz) = sz) by (rewrite <- L1; apply le_unle).
  assert (E2 : le 8 (unle bl) = bl) by (rewrite <- L2; apply le_unle).
  assert (E3 : le 4 (unle crc) = crc) by (rewrite <- L4; apply le_unle).
  rewrite E1, E2, E3 in E.
  assert (B1 : unle sz < two64).
  { pose proof (unle_bound sz) as Q. unfold blen in Q. rewrite L1 in Q. exact Q. }
  assert (B2 : unle bl < two64).
  { pose proof (unle_bound bl) as Q. unfold blen in Q. rewrite L2 in Q. exact Q. }
  split; [|auto]. unfold mkh. rewrite E1, E2. f_equal.
  assert (Q : unle crc = unle (crc32_le (sz ++ bl ++ [flag_byte (b2n (first_byte fl) =? 1)]))) by now rewrite <- E.
  rewrite Q. unfold crc32_le. apply unle_le. apply crc32_bound.
Qed.

Lemma byte1 (fl : bytes) : length fl = 1%nat -> exists b, fl = [b].
Proof. destruct fl as [|b [|c fl]]; simpl; try lia. eauto. Qed.

Lemma hdr_burst size bl flag sz' bl' fl' crc' h :
  size < two64 -> bl < two64 ->
  length sz' = 8%nat -> length bl' = 8%nat -> length fl' = 1%nat -> length crc' = 4%nat ->
  burst 4 (le 8 size ++ le 8 bl ++ [flag_byte flag] ++ crc32_le (le 8 size ++ le 8 bl ++ [flag_byte flag]))
          (sz' ++ bl' ++ fl' ++ crc') ->
  hdr_parse sz' bl' fl' crc' = Ok h -> h = mkh size bl flag.
Proof.
  intros H1 H2 L1 L2 L3 L4 HB HP.
  apply hdr_parse_inv in HP; try easy. destruct HP as (-> & EC & _ & _).
  destruct (byte1 _ L3) as (f & ->). cbn [first_byte] in *.
  set (o := le 8 size ++ le 8 bl ++ [flag_byte flag]) in *.
  set (m := sz' ++ bl' ++ [flag_byte (b2n f =? 1)]) in *.
  assert (HB' : burst 4 (o ++ crc32_le o) ((sz' ++ bl' ++ [f]) ++ crc')).
  { unfold o at 1. rewrite <- !app_assoc. exact HB. }
  assert (Q : m = o).
  { apply (crc_burst_core o (sz' ++ bl' ++ [f]) m crc').
    - unfold o. rewrite !app_length, !le_length. cbn [length]. lia.
    - unfold o, m. rewrite !app_length, !le_length. cbn [length]. lia.
    - intros i E. unfold m. rewrite <- E.
      destruct (Nat.lt_ge_cases i 16) as [Hi|Hi].
      + rewrite !(app_assoc sz'). rewrite (nth_error_app1 _ [f]), (nth_error_app1 _ [flag_byte (b2n f =? 1)]) by (rewrite app_length; lia). reflexivity.
      + rewrite !(app_assoc sz') in *. rewrite nth_error_app2 in E |- * by (rewrite app_length; lia).
        rewrite (nth_error_app2 _ [f]) by (rewrite app_length; lia).
        rewrite app_length, L1, L2 in E |- *. unfold o in E. rewrite (app_assoc (le 8 size)) in E.
        rewrite nth_error_app2 in E by (rewrite app_length, !le_length; lia).
        rewrite app_length, !le_length in E. replace (8 + 8)%nat with 16%nat in * by lia.
        destruct (i - 16)%nat as [|j]; [|now destruct j].
        cbn [nth_error] in *. inversion E; subst. now destruct flag.
    - exact HB'.
    - now symmetry. }
  unfold m, o in Q. apply app_len_inj in Q as [Q1 Q]; [|now rewrite le_length].
  apply app_len_inj in Q as [Q2 Q3]; [|now rewrite le_length].
  assert (U1 : unle sz' = size) by (rewrite Q1; apply unle_le; exact H1).
  assert (U2 : unle bl' = bl) by (rewrite Q2; apply unle_le; exact H2).
  assert (U3 : (b2n f =? 1) = flag).
  { inversion Q3 as [Q4]. destruct (b2n f =? 1), flag; try easy. }
  now rewrite U1, U2, U3.
Qed.

(** ** Encoding *)
Section Packets.
Context {U : Type}.
Implicit Types (P : proto U) (p : packet U).

Lemma bk_size_len scs b : block_ok scs b -> bk_size b = blen (bk_encode b).
Proof. intros H. unfold bk_size, blen. now rewrite (bk_encode_length _ _ H). Qed.

Lemma blocks_len_sum scs bs : Forall (block_ok scs) bs ->
  fold_right (fun b a => bk_size b + a) 0 bs = blen (concat (map bk_encode bs)).
Proof.
  induction 1 as [|b bs H F IH]; [easy|]. cbn [fold_right map concat].
  rewrite blen_app, IH, (bk_size_len _ _ H). reflexivity.
Qed.

Lemma hdr_new_ok P p tail :
  Forall (block_ok (pr_blocks P)) (p_blocks p) -> payload_part (pr_kinds P) (p_payload p) tail ->
  let blocks := concat (map bk_encode (p_blocks p)) in
  hdr_new p = Ok (mkh (blen blocks + blen tail) (blen blocks) (match p_payload p with Some _ => true | None => false end)).
Proof.
  intros HB HT blocks. unfold hdr_new. rewrite (blocks_len_sum _ _ HB). fold blocks.
  destruct (p_payload p) as [pl|]; cbn [payload_part rbind] in *.
  - destruct HT as (body & crc & HP & L4 & ->). unfold payload_size.
    rewrite (pl_size_ok _ _ _ _ HP). cbn [rbind].
    assert (E : blen body + pl_header_ssize pl = blen (ph_bytes (mk_pheader (pl_sig pl) crc (blen body)) ++ body)).
    { rewrite blen_app. assert (Q : forall h, blen (ph_bytes h) = N.of_nat (ph_size h)) by (intros h; unfold blen; now rewrite ph_bytes_length). rewrite Q. unfold pl_header_ssize, pl_crc_size, ph_size.
      cbn [ph_sig ph_crc]. unfold blen in *. lia. }
    rewrite E. reflexivity.
  - subst tail. reflexivity.
Qed.

Lemma write_all_blocks_nil bs : forall got,
  write_all_blocks bs (mk_sink got []) = (Ok tt, mk_sink (got ++ concat (map bk_encode bs)) []).
Proof.
  induction bs as [|b bs IH]; intros got; cbn [write_all_blocks map concat]; [now rewrite app_nil_r|].
  unfold bk_write_all, blk_write_all. rewrite sink_write_all_nil. cbn [sbind]. rewrite IH.
  now rewrite <- app_assoc.
Qed.

Lemma pkt_write_all_ok P p e got : packet_enc P p e ->
  pkt_write_all p (mk_sink got []) = (Ok tt, mk_sink (got ++ e) []).
Proof.
  intros (tail & HB & HT & HL & ->). unfold pkt_write_all. rewrite (hdr_new_ok P p tail HB HT). cbn [sbind].
  rewrite sink_write_all_nil. cbn [sbind]. rewrite mkh_bytes. rewrite write_all_blocks_nil. cbn [sbind].
  destruct (p_payload p) as [pl|]; cbn [payload_part] in HT.
  - destruct HT as (body & crc & HP & L4 & ->). rewrite (pl_write_all_ok _ _ _ _ HP). unfold pl_hdr.
    now rewrite <- !app_assoc.
  - subst tail. now rewrite <- !app_assoc, app_nil_r.
Qed.

Lemma packet_enc_fun P p e e' : packet_enc P p e -> packet_enc P p e' -> e = e'.
Proof.
  intros H H'. apply (pkt_write_all_ok P p e []) in H. apply (pkt_write_all_ok P p e' []) in H'.
  rewrite H in H'. inversion H'. easy.
Qed.

(** Slices *)
Lemma concat_concat_map {A B} (f : A -> list (list B)) l : concat (concat (map f l)) = concat (map (fun x => concat (f x)) l).
Proof. induction l as [|x l IH]; [easy|]. cbn [map concat]. now rewrite concat_app, IH. Qed.

Lemma pkt_slices_ok P p e : packet_enc P p e -> exists l, pkt_slices p = Ok l /\ concat l = e.
Proof.
  intros (tail & HB & HT & HL & ->). unfold pkt_slices. rewrite (hdr_new_ok P p tail HB HT). cbn [rbind].
  assert (Q : concat (concat (map bk_slices (p_blocks p))) = concat (map bk_encode (p_blocks p))).
  { rewrite concat_concat_map. f_equal. apply map_ext. intros b. apply blk_slices_concat. }
  destruct (p_payload p) as [pl|]; cbn [payload_part] in HT.
  - destruct HT as (body & crc & HP & L4 & ->). rewrite (pl_slices_ok _ _ _ _ HP). cbn [rbind].
    eexists; split; [reflexivity|]. rewrite !concat_app, Q. cbn [concat]. rewrite !app_nil_r, mkh_bytes.
    unfold pl_hdr. first [reflexivity | now rewrite <- !app_assoc].
  - subst tail. cbn [rbind]. eexists; split; [reflexivity|]. rewrite !concat_app, Q. cbn [concat].
    rewrite !app_nil_r, mkh_bytes. reflexivity.
Qed.

(** ** Block loops *)
Lemma loop_buf_rt scs (ND : NoDup (map blk_sig scs)) bs : forall fuel total rd acc cur evs,
  Forall (block_ok scs) bs -> bs <> [] -> (length bs <= fuel)%nat ->
  rd + blen (concat (map bk_encode bs)) = total ->
  blocks_loop_buf fuel scs total rd acc (mk_bufsrc (concat (map bk_encode bs) ++ cur) evs)
  = (Ok (Success (acc ++ bs)), mk_bufsrc cur evs).
Proof.
  induction bs as [|b bs IH]; intros fuel total rd acc cur evs F NE LF HT; [easy|].
  inversion F; subst. destruct fuel as [|fuel]; [cbn [length] in LF; lia|].
  cbn [blocks_loop_buf map concat]. rewrite <- app_assoc, bk_buf_rt by easy. cbn [stbind].
  rewrite (bk_size_len _ _ H1). rewrite !blen_app.
  destruct bs as [|b2 bs].
  - cbn [map concat]. rewrite blen_nil.
    replace (rd + blen (bk_encode b) =? rd + (blen (bk_encode b) + 0)) with true by lia. reflexivity.
  - inversion H2; subst.
    replace (rd + blen (bk_encode b) =? rd + (blen (bk_encode b) + blen (concat (map bk_encode (b2 :: bs))))) with false.
    + rewrite IH; try easy; [now rewrite <- app_assoc|cbn [length] in *; lia|lia].
    + cbn [map concat]. rewrite blen_app. pose proof (bk_encode_pos _ _ H3). unfold blen. lia.
Qed.

Lemma c_seek_eta c : c_seek (c_pos c) c = c.
Proof. now destruct c. Qed.

Lemma loop_try_rt scs (ND : NoDup (map blk_sig scs)) bs : forall fuel total rd acc c rest,
  Forall (block_ok scs) bs -> bs <> [] -> (length bs <= fuel)%nat ->
  rd + blen (concat (map bk_encode bs)) = total ->
  c_ok c -> c_rest c = concat (map bk_encode bs) ++ rest ->
  let c' := c_seek (c_pos c + blen (concat (map bk_encode bs))) c in
  blocks_loop_try fuel scs total rd acc c = (Ok (Success (acc ++ bs)), c') /\ c_rest c' = rest /\ c_ok c'.
Proof.
  induction bs as [|b bs IH]; intros fuel total rd acc c rest F NE LF HT O V; [easy|].
  inversion F; subst. destruct fuel as [|fuel]; [cbn [length] in LF; lia|].
  cbn [map concat] in V. rewrite <- app_assoc in V.
  destruct (bk_try_rt scs ND b c _ H1 O V) as (E & W & O1).
  cbn [blocks_loop_try map concat]. rewrite E. cbn [stbind].
  assert (SZ : N.of_nat (ssize (bk_ty b)) = blen (bk_encode b)).
  { unfold blen. now rewrite (bk_encode_length _ _ H1). }
  rewrite SZ in *. rewrite (bk_size_len _ _ H1). rewrite !blen_app.
  set (c1 := c_seek (c_pos c + blen (bk_encode b)) c) in *.
  destruct bs as [|b2 bs].
  - cbn [map concat app] in *. rewrite blen_nil.
    replace (rd + blen (bk_encode b) =? rd + (blen (bk_encode b) + 0)) with true by lia.
    replace (c_pos c + (blen (bk_encode b) + 0)) with (c_pos c + blen (bk_encode b)) by lia. auto.
  - inversion H2; subst.
    replace (rd + blen (bk_encode b) =? rd + (blen (bk_encode b) + blen (concat (map bk_encode (b2 :: bs))))) with false
      by (cbn [map concat]; rewrite blen_app; pose proof (bk_encode_pos _ _ H3); unfold blen; lia).
    destruct (IH fuel (rd + (blen (bk_encode b) + blen (concat (map bk_encode (b2 :: bs))))) (rd + blen (bk_encode b))
        (acc ++ [b]) c1 rest) as (E2 & W2 & O2); auto; try easy.
    { cbn [length] in *; lia. } { lia. }
    rewrite E2. rewrite <- app_assoc.
    replace (c_seek (c_pos c + (blen (bk_encode b) + blen (concat (map bk_encode (b2 :: bs))))) c)
      with (c_seek (c_pos c1 + blen (concat (map bk_encode (b2 :: bs)))) c1)
      by (unfold c1, c_seek; cbn [c_pos c_data]; f_equal; lia).
    auto.
Qed.

(** ** Reading back *)
Definition flag_of p : bool := match p_payload p with Some _ => true | None => false end.

Lemma enc_blocks_zero scs bs : Forall (block_ok scs) bs -> (0 <? blen (concat (map bk_encode bs))) = false -> bs = [].
Proof.
  intros F E. destruct bs as [|b bs]; [easy|]. inversion F; subst. cbn [map concat] in E.
  rewrite blen_app in E. pose proof (bk_encode_pos _ _ H1). unfold blen in E. lia.
Qed.

Lemma two63_64 n : n < two63 -> n < two64.
Proof. unfold two63, two64. lia. Qed.

Lemma read_payload_buf P pl tail evs cur : proto_ok P -> payload_part (pr_kinds P) (Some pl) tail ->
  (do (ph, r) <- ph_read buf_reader (mk_bufsrc (tail ++ cur) evs); pl_read buf_reader (pr_kinds P) ph r)
  = (Ok pl, mk_bufsrc cur evs).
Proof.
  intros (_ & ND) (body & crc & HP & L4 & ->).
  pose proof (payload_ok_hdr _ _ _ _ HP) as HH. unfold pl_hdr in HH.
  rewrite <- app_assoc.
  destruct (ph_read_rt _ _ _ (cur_okl evs) _ (mk_bufsrc (ph_bytes (mk_pheader (pl_sig pl) crc (blen body)) ++ body ++ cur) evs)
     (body ++ cur) HH eq_refl eq_refl) as (s1 & E & V1 & O1). rewrite E. cbn [sbind].
  destruct (pl_read_rt _ _ _ (cur_okl evs) buf_io_only (pr_kinds P) pl body crc s1 cur ND HP O1 V1) as (s2 & E2 & V2 & O2).
  unfold pl_hdr in E2. rewrite E2. now rewrite (cur_state _ _ _ O2 V2).
Qed.

Lemma max_fuel : block_fuel = 256%nat.
Proof. reflexivity. Qed.

Lemma pkt_read_rt {S} (R : reader S) view okst (OK : okl R view okst) P p e s rest :
  proto_ok P -> packet_enc P p e -> (length (p_blocks p) <= 256)%nat ->
  okst s -> view s = e ++ rest ->
  exists s', pkt_read R P s = (Ok p, s') /\ view s' = rest /\ okst s'.
Proof.
  intros HP (tail & HB & HT & HL & ->) H256 O V. rewrite <- !app_assoc in V.
  unfold pkt_read. set (blocks := concat (map bk_encode (p_blocks p))) in *.
  destruct (hdr_read_rt R view okst OK s _ _ _ _ O V) as (s1 & E1 & V1 & O1).
  { now apply two63_64. } { apply two63_64. lia. }
  rewrite E1. cbn [sbind mkh h_size h_blocks_len h_payload].
  unfold alloc. replace (blen blocks + blen tail <? two63) with true by lia. cbn [sbind].
  destruct (OK (blen blocks + blen tail) s1 (blocks ++ tail) rest O1) as (s2 & E2 & V2 & O2).
  { now rewrite V1, <- app_assoc. } { now rewrite blen_app. }
  rewrite E2. cbn [sbind]. unfold of_slice. exists s2. split; [|auto].
  assert (EB : (if 0 <? blen blocks
          then blocks_loop_buf block_fuel (pr_blocks P) (blen blocks) 0 [] (mk_bufsrc (blocks ++ tail) [])
          else (Ok (Success []), mk_bufsrc (blocks ++ tail) [])) = (Ok (Success (p_blocks p)), mk_bufsrc tail [])).
  { destruct (0 <? blen blocks) eqn:EZ.
    - unfold blocks. rewrite loop_buf_rt; auto; [apply HP|].
      + intros Q. unfold blocks in EZ. rewrite Q in EZ. easy.
    - pose proof (enc_blocks_zero _ _ HB EZ) as Q. unfold blocks. rewrite Q. reflexivity. }
  rewrite EB. destruct p as [pbs ppl]. cbn [p_payload p_blocks] in *. destruct ppl as [pl|].
  - pose proof (read_payload_buf P pl tail [] [] HP HT) as Q. rewrite app_nil_r in Q. rewrite Q. reflexivity.
  - reflexivity.
Qed.

Lemma cur_eq c1 c2 : c_data c1 = c_data c2 -> c_ok c1 -> c_ok c2 -> c_rest c1 = c_rest c2 -> c1 = c2.
Proof.
  intros D O1 O2 E. pose proof (c_rest_len c1 O1) as R1. pose proof (c_rest_len c2 O2) as R2.
  rewrite E in R1. unfold c_ok, c_len in *. rewrite D in *.
  destruct c1 as [d1 p1], c2 as [d2 p2]. cbn [c_data c_pos] in *. subst. f_equal. lia.
Qed.

(** The bytes of a packet whose payload has a checksum of any length; the size field may announce less than there is. *)
Definition any_enc P p (size : N) (e : bytes) : Prop :=
  exists tail,
    Forall (block_ok (pr_blocks P)) (p_blocks p) /\
    match p_payload p with
    | None => tail = []
    | Some pl => exists body crc, payload_ok (pr_kinds P) pl body crc /\ tail = ph_bytes (mk_pheader (pl_sig pl) crc (blen body)) ++ body
    end /\
    let blocks := concat (map bk_encode (p_blocks p)) in
    size <= blen blocks + blen tail /\ blen blocks + blen tail < two63 /\
    e = layout_header size (blen blocks) (match p_payload p with Some _ => true | None => false end) ++ blocks ++ tail.
Lemma enc_any P p e : packet_enc P p e -> exists size, any_enc P p size e.
Proof.
  intros (tail & HB & HT & HL & ->). eexists. exists tail. split; [exact HB|]. split; [|split; [apply N.le_refl|split; [exact HL|reflexivity]]].
  destruct (p_payload p); [|exact HT]. destruct HT as (body & crc & ? & _ & ?). eauto.
Qed.

Lemma pkt_try_read_any P p size e c rest :
  proto_ok P -> any_enc P p size e -> (length (p_blocks p) <= 256)%nat ->
  c_ok c -> c_rest c = e ++ rest ->
  let c' := c_seek (c_pos c + blen e) c in
  pkt_try_read P c = (Ok (Success p), c') /\ c_rest c' = rest /\ c_ok c'.
Proof.
  intros HP (tail & HB & HT & HZ & HL & EE) H256 O V c'.
  set (blocks := concat (map bk_encode (p_blocks p))) in *.
  assert (LE : blen e = 29 + (blen blocks + blen tail)).
  { rewrite EE, !blen_app. unfold blen at 1. rewrite layout_length. lia. }
  assert (CE : c_rest c' = rest /\ c_ok c').
  { destruct (cursor_read_ok c e rest O V) as (_ & ? & ?). auto. }
  split; [|exact CE]. pose proof V as V0. rewrite EE, <- !app_assoc in V.
  unfold pkt_try_read. rewrite c_available_ok by easy. cbn [sbind].
  assert (EH : hdr_try_read c = (Ok (Success (mkh size (blen blocks) (flag_of p))), c_seek (c_pos c + 29) c)
     /\ c_rest (c_seek (c_pos c + 29) c) = blocks ++ tail ++ rest /\ c_ok (c_seek (c_pos c + 29) c)).
  { unfold hdr_try_read. rewrite c_available_ok by easy. cbn [sbind].
    replace (blen (c_rest c) <? N.of_nat hdr_size) with false
      by (rewrite V0, blen_app, LE; unfold hdr_size; lia).
    destruct (hdr_read_rt cursor_reader c_rest c_ok (lawful_okl _ _ _ cursor_lawful) c _ _ _ _ O V) as (c1 & E1 & V1 & O1).
    { apply two63_64. lia. } { apply two63_64. lia. }
    rewrite E1. cbn [sbind]. fold (flag_of p).
    assert (D : forall n c2 a c3, cursor_read_exact n c2 = (Ok a, c3) -> c3 = c_seek (c_pos c2 + n) c2).
    { intros n c2 a c3 Q. unfold cursor_read_exact in Q. destruct (n <=? _); inversion Q; subst; easy. }
    assert (EC : c1 = c_seek (c_pos c + 29) c).
    { unfold hdr_read in E1.
      Local Ltac dd E D := match type of E with context [rd_exact cursor_reader ?n ?s] =>
        let a := fresh "a" in let c2 := fresh "c" in let Q := fresh "Q" in
        change (rd_exact cursor_reader n s) with (cursor_read_exact n s) in E;
        destruct (cursor_read_exact n s) as [[a| |] c2] eqn:Q; cbn [sbind] in E; try easy; apply D in Q end.
      dd E1 D. destruct (negb _); [easy|]. dd E1 D. dd E1 D. dd E1 D. dd E1 D.
      destruct (bytes_eqb _ _); [|easy]. apply (f_equal snd) in E1. cbn [snd] in E1. subst.
      unfold c_seek. cbn [c_pos c_data]. f_equal. lia. }
    subst c1. auto. }
  destruct EH as (EH & V1 & O1). rewrite EH. cbn [stbind mkh h_size h_blocks_len h_payload].
  replace (blen (c_rest c) <? size) with false by (rewrite V0, blen_app; lia).
  set (c1 := c_seek (c_pos c + 29) c) in *.
  set (c2 := c_seek (c_pos c1 + blen blocks) c1).
  assert (EB : (if 0 <? blen blocks then blocks_loop_try block_fuel (pr_blocks P) (blen blocks) 0 [] c1
          else (Ok (Success []), c1)) = (Ok (Success (p_blocks p)), c2) /\ c_rest c2 = tail ++ rest /\ c_ok c2).
  { destruct (0 <? blen blocks) eqn:EZ.
    - destruct (loop_try_rt (pr_blocks P) (proj1 HP) (p_blocks p) block_fuel (blen blocks) 0 [] c1 (tail ++ rest)) as (Q1 & Q2 & Q3); auto.
      + intros Q. unfold blocks in EZ. rewrite Q in EZ. easy.
    - pose proof (enc_blocks_zero _ _ HB EZ) as Q. unfold c2. unfold blocks in V1 |- *. rewrite Q in V1 |- *. cbn [map concat app] in *.
      change (blen []) with 0. rewrite N.add_0_r, c_seek_eta. auto. }
  destruct EB as (EB & V2 & O2). rewrite EB. unfold flag_of.
  destruct p as [pbs ppl]. cbn [p_payload p_blocks] in *. destruct ppl as [pl|].
  - destruct HT as (body & crc & HPL & ET).
    pose proof (payload_ok_hdr _ _ _ _ HPL) as HH. unfold pl_hdr in HH.
    rewrite ET, <- app_assoc in V2.
    destruct (ph_try_read_rt _ c2 _ HH O2 V2) as (E3 & V3 & O3). rewrite E3. cbn [sbind].
    set (c3 := c_seek _ c2) in *. rewrite pl_try_read_eq by easy. cbn [ph_len].
    replace (blen (c_rest c3) <? blen body) with false by (rewrite V3, blen_app; lia).
    destruct (pl_read_rt _ _ _ (lawful_okl _ _ _ cursor_lawful) cursor_io_only (pr_kinds P) pl body crc c3 rest (proj2 HP) HPL O3 V3)
      as (c4 & E4 & V4 & O4).
    unfold pl_hdr in E4. rewrite E4. cbn [pmap].
    assert (EC : c4 = c').
    { (* the data is unchanged and the position follows from the rest *)
      assert (DT : c_data c4 = c_data c3).
      { assert (DD : forall (V0 : Type) (k : pkind V0) h v c0, pk_read cursor_reader k h c3 = (Ok v, c0) -> c_data c0 = c_data c3).
        { intros V9 k h v c0 Q. unfold pk_read in Q. destruct (negb _); [easy|].
          simpl rd_exact in Q. unfold cursor_read_exact in Q.
          destruct (_ <=? _); cbn [sbind] in Q; [|easy].
          destruct (pk_decode k _); cbn [sbind io] in Q; [|easy]. destruct (pk_crc k a); cbn [sbind io] in Q; [|easy].
          destruct (bytes_eqb _ _); inversion Q; subst; easy. }
        rewrite pl_read_pick in E4 by apply cursor_io_only. unfold pl_pick in E4.
        destruct (find _ _) as [k|].
        - destruct (pk_read cursor_reader k _ c3) as [[v| |] c9] eqn:Q; cbn [pmap] in E4; inversion E4; subst. eapply DD; eauto.
        - destruct (bytes_eqb _ _).
          + destruct (pk_read cursor_reader bytes_kind _ c3) as [[v| |] c9] eqn:Q; cbn [pmap] in E4; inversion E4; subst. eapply DD; eauto.
          + destruct (bytes_eqb _ _); [|easy].
            destruct (pk_read cursor_reader string_kind _ c3) as [[v| |] c9] eqn:Q; cbn [pmap] in E4; inversion E4; subst. eapply DD; eauto. }
      assert (DC : c_data c3 = c_data c) by reflexivity.
      destruct CE as (VC & OC).
      apply cur_eq; [now rewrite DT, DC|exact O4|exact OC|now rewrite V4, VC]. }
    now rewrite EC.
  - subst tail. rewrite blen_nil in LE.
    assert (EC : c2 = c') by (unfold c2, c1, c', c_seek; cbn [c_pos c_data]; f_equal; lia).
    now rewrite EC.
Qed.

Lemma pkt_try_read_rt P p e c rest :
  proto_ok P -> packet_enc P p e -> (length (p_blocks p) <= 256)%nat ->
  c_ok c -> c_rest c = e ++ rest ->
  let c' := c_seek (c_pos c + blen e) c in
  pkt_try_read P c = (Ok (Success p), c') /\ c_rest c' = rest /\ c_ok c'.
Proof. intros HP HE. destruct (enc_any _ _ _ HE) as (size & HA). now apply (pkt_try_read_any P p size). Qed.

Lemma pkt_try_read_buf_any P p size e cur evs :
  proto_ok P -> any_enc P p size e -> (length (p_blocks p) <= 256)%nat ->
  pkt_try_read_buf P (mk_bufsrc (e ++ cur) evs) = (Ok (Success p), mk_bufsrc cur evs).
Proof.
  intros HP (tail & HB & HT & HZ & HL & EE) H256.
  set (blocks := concat (map bk_encode (p_blocks p))) in *.
  assert (LE : blen e = 29 + (blen blocks + blen tail)).
  { rewrite EE, !blen_app. unfold blen at 1. rewrite layout_length. lia. }
  unfold pkt_try_read_buf.
  assert (F : fill_buf (mk_bufsrc (e ++ cur) evs) = (Ok (e ++ cur), mk_bufsrc (e ++ cur) evs)).
  { destruct e; [rewrite blen_nil in LE; lia|]. reflexivity. }
  rewrite F. cbn [sbind]. rewrite blen_app.
  replace (blen e + blen cur <? N.of_nat hdr_size) with false by (unfold hdr_size; lia).
  assert (EH : hdr_read_from_slice (e ++ cur) = Ok (mkh size (blen blocks) (flag_of p))).
  { rewrite EE, <- !app_assoc. apply hdr_slice_rt; apply two63_64; lia. }
  rewrite EH. cbn [sbind mkh h_size h_blocks_len h_payload].
  replace (blen e + blen cur <? size) with false by lia.
  assert (EC : consume hdr_size (mk_bufsrc (e ++ cur) evs) = mk_bufsrc (blocks ++ tail ++ cur) evs).
  { unfold consume. cbn [b_cur b_evs]. rewrite EE, <- !app_assoc. unfold hdr_size.
    rewrite skipn_app_exact by (now rewrite layout_length). reflexivity. }
  rewrite EC.
  assert (EB : (if 0 <? blen blocks
          then blocks_loop_buf block_fuel (pr_blocks P) (blen blocks) 0 [] (mk_bufsrc (blocks ++ tail ++ cur) evs)
          else (Ok (Success []), mk_bufsrc (blocks ++ tail ++ cur) evs)) = (Ok (Success (p_blocks p)), mk_bufsrc (tail ++ cur) evs)).
  { destruct (0 <? blen blocks) eqn:EZ.
    - unfold blocks. rewrite loop_buf_rt; auto; [apply HP|].
      + intros Q. unfold blocks in EZ. rewrite Q in EZ. easy.
    - pose proof (enc_blocks_zero _ _ HB EZ) as Q. unfold blocks. rewrite Q. reflexivity. }
  rewrite EB. cbn [stbind]. unfold flag_of. destruct p as [pbs ppl]. cbn [p_payload p_blocks] in *. destruct ppl as [pl|].
  - destruct HT as (body & crc & HPL & ->).
    pose proof (payload_ok_hdr _ _ _ _ HPL) as HH. unfold pl_hdr in HH. rewrite <- app_assoc.
    set (h := mk_pheader (pl_sig pl) crc (blen body)) in *.
    unfold ph_try_read_buf.
    assert (F2 : fill_buf (mk_bufsrc (ph_bytes h ++ body ++ cur) evs)
       = (Ok (ph_bytes h ++ body ++ cur), mk_bufsrc (ph_bytes h ++ body ++ cur) evs)) by reflexivity.
    rewrite F2. cbn [sbind]. rewrite ph_peek_rt by easy. cbn [sbind].
    unfold consume. cbn [b_cur b_evs]. rewrite skipn_app_exact by (now rewrite ph_bytes_length).
    rewrite pl_try_read_buf_eq.
    destruct (pl_read_rt _ _ _ (cur_okl evs) buf_io_only (pr_kinds P) pl body crc (mk_bufsrc (body ++ cur) evs) cur (proj2 HP) HPL eq_refl eq_refl)
      as (s2 & E2 & V2 & O2).
    unfold pl_hdr in E2. fold h in E2. rewrite E2. cbn [pmap stbind]. now rewrite (cur_state _ _ _ O2 V2).
  - now subst tail.
Qed.
Lemma pkt_try_read_buf_rt P p e cur evs :
  proto_ok P -> packet_enc P p e -> (length (p_blocks p) <= 256)%nat ->
  pkt_try_read_buf P (mk_bufsrc (e ++ cur) evs) = (Ok (Success p), mk_bufsrc cur evs).
Proof. intros HP HE. destruct (enc_any _ _ _ HE) as (size & HA). now apply (pkt_try_read_buf_any P p size). Qed.
End Packets.
