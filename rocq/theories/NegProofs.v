(** * Lemmas behind the partial and refuted wire properties (PropsWireNeg.v). *)
From Coq Require Import ZifyBool ZifyNat ZifyN.
From Verif Require Import Base Crc32 Io Block Payload Packet Rules Spec BaseProofs CrcProofs BlockProofs
  DispatchProofs PayloadProofs PayloadEnumProofs PacketProofs PacketSafeProofs WireProofs.
Ltac Zify.zify_post_hook ::= Z.div_mod_to_equations.
Open Scope list_scope.

Lemma hdr_try_rt c size bl fl rest : c_ok c -> size < two64 -> bl < two64 ->
  c_rest c = layout_header size bl fl ++ rest ->
  let c' := c_seek (c_pos c + 29) c in
  hdr_try_read c = (Ok (Success (mkh size bl fl)), c') /\ c_rest c' = rest /\ c_ok c'.
Proof.
  intros O H1 H2 V c'. unfold hdr_try_read. rewrite c_available_ok by easy. cbn [sbind].
  replace (blen (c_rest c) <? N.of_nat hdr_size) with false
    by (rewrite V, blen_app; unfold blen; rewrite layout_length; unfold hdr_size; lia).
  destruct (hdr_read_rt cursor_reader c_rest c_ok (lawful_okl _ _ _ cursor_lawful) c _ _ _ _ O V) as (c1 & E1 & V1 & O1); auto.
  rewrite E1. cbn [sbind].
  assert (D : forall n c2 a c3, cursor_read_exact n c2 = (Ok a, c3) -> c3 = c_seek (c_pos c2 + n) c2).
  { intros n c2 a c3 Q. unfold cursor_read_exact in Q. destruct (n <=? _); inversion Q; subst; easy. }
  assert (EC : c1 = c').
  { unfold hdr_read in E1.
    Local Ltac dd E D := match type of E with context [rd_exact cursor_reader ?n ?s] =>
      let a := fresh "a" in let c2 := fresh "c" in let Q := fresh "Q" in
      change (rd_exact cursor_reader n s) with (cursor_read_exact n s) in E;
      destruct (cursor_read_exact n s) as [[a| |] c2] eqn:Q; cbn [sbind] in E; try easy; apply D in Q end.
    dd E1 D. destruct (negb _); [easy|]. dd E1 D. dd E1 D. dd E1 D. dd E1 D.
    destruct (bytes_eqb _ _); [|easy]. apply (f_equal snd) in E1. cbn [snd] in E1. subst.
    unfold c', c_seek. cbn [c_pos c_data]. f_equal. lia. }
  subst c1. auto.
Qed.

(** A truncated block: [NotEnoughData] with an honest count; the data is untouched. *)
Lemma bk_try_trunc scs (ND : NoDup (map blk_sig scs)) b c : block_ok scs b -> c_ok c ->
  strict_prefix (c_rest c) (bk_encode b) ->
  exists n p, bk_try_read scs c = (Ok (NotEnough n), c_seek p c) /\ 0 < n /\
    n <= blen (bk_encode b) - blen (c_rest c).
Proof.
  intros HB O SP. pose proof (prefix_short _ _ SP) as LT. pose proof (bk_encode_pos _ _ HB) as L8.
  pose proof HB as (HI & HS & HV).
  destruct (N.lt_ge_cases (blen (c_rest c)) 4) as [L4|G4].
  - exists (4 - blen (c_rest c)), (c_pos c). rewrite bk_try_short; auto.
    + rewrite c_seek_same. split; [reflexivity|]. unfold blen in *. lia.
    + intros ->. contradiction.
  - assert (SG : firstn 4 (c_rest c) = blk_sig (bk_ty b)).
    { destruct SP as (r & _ & E).
      assert (K : firstn 4 (c_rest c ++ r) = firstn 4 (c_rest c)).
      { rewrite firstn_app. replace (4 - length (c_rest c))%nat with 0%nat by (unfold blen in *; lia). cbn [firstn]. apply app_nil_r. }
      rewrite <- K, <- E. unfold bk_encode, blk_encode. rewrite firstn_app_exact by (now rewrite blk_sig_length). reflexivity. }
    rewrite bk_try_pick by easy. rewrite SG, (pick_in _ _ HI ND).
    destruct (blk_try_read_spec (bk_ty b) c O) as (_ & Q).
    destruct (Q (blk_sig (bk_ty b)) (skipn 4 (c_rest c))) as (_ & Q2 & _).
    { rewrite <- SG. now rewrite firstn_skipn. } { apply blk_sig_length. }
    pose proof (bk_encode_length _ _ HB) as LE.
    rewrite Q2; [|easy|unfold blen in *; lia]. cbn [lift_st].
    eexists _, _. split; [reflexivity|]. unfold blen in *. lia.
Qed.

Lemma loop_try_trunc scs (ND : NoDup (map blk_sig scs)) bs : forall fuel total rd acc c,
  Forall (block_ok scs) bs -> (length bs <= fuel)%nat ->
  rd + blen (concat (map bk_encode bs)) = total ->
  c_ok c -> strict_prefix (c_rest c) (concat (map bk_encode bs)) ->
  exists n p, blocks_loop_try fuel scs total rd acc c = (Ok (NotEnough n), c_seek p c) /\ 0 < n /\
    n <= blen (concat (map bk_encode bs)) - blen (c_rest c).
Proof.
  induction bs as [|b bs IH]; intros fuel total rd acc c F LF HT O SP.
  { apply prefix_short in SP. cbn [map concat] in SP. rewrite blen_nil in SP. lia. }
  inversion F; subst. destruct fuel as [|fuel]; [cbn [length] in LF; lia|].
  cbn [map concat] in SP |- *. cbn [blocks_loop_try].
  pose proof SP as SP0. apply prefix_split in SP0. destruct SP0 as [LT|(q' & EQ & SP')].
  - assert (SPB : strict_prefix (c_rest c) (bk_encode b)).
    { destruct SP as (r & NR & E). exists (skipn (length (c_rest c)) (bk_encode b)).
      assert (EB : bk_encode b = c_rest c ++ skipn (length (c_rest c)) (bk_encode b)).
      { rewrite <- (firstn_skipn (length (c_rest c)) (bk_encode b)) at 1. f_equal.
        transitivity (firstn (length (c_rest c)) (bk_encode b ++ concat (map bk_encode bs))).
        - rewrite firstn_app. replace (length (c_rest c) - length (bk_encode b))%nat with 0%nat by (unfold blen in *; lia).
          cbn [firstn]. now rewrite app_nil_r.
        - rewrite E. now rewrite firstn_app_exact. }
      split; [|exact EB]. intros Q. rewrite Q, app_nil_r in EB. rewrite EB in LT. lia. }
    destruct (bk_try_trunc scs ND b c H1 O SPB) as (n & p & -> & N0 & N1). cbn [stbind].
    exists n, p. split; [reflexivity|]. rewrite blen_app. lia.
  - destruct (bk_try_rt scs ND b c _ H1 O EQ) as (E & W & O1). rewrite E. cbn [stbind].
    rewrite (bk_size_len _ _ H1). cbn [map concat]. rewrite !blen_app.
    set (c1 := c_seek _ c) in *. pose proof (prefix_short _ _ SP') as LT'.
    replace (rd + blen (bk_encode b) =? rd + (blen (bk_encode b) + blen (concat (map bk_encode bs)))) with false by lia.
    rewrite <- W in SP'.
    destruct (IH fuel (rd + (blen (bk_encode b) + blen (concat (map bk_encode bs)))) (rd + blen (bk_encode b)) (acc ++ [b]) c1)
      as (n & p & E2 & N0 & N1); auto.
    { cbn [length] in LF; lia. } { lia. }
    rewrite E2. exists n, p. split; [reflexivity|]. split; [easy|]. rewrite EQ, blen_app. rewrite W in N1. lia.
Qed.

Lemma try_read_truncated {U} (P : proto U) (p : packet U) e c :
  proto_ok P -> packet_enc P p e -> (length (p_blocks p) <= 256)%nat ->
  c_ok c -> strict_prefix (c_rest c) e ->
  exists n, 0 < n /\ n <= blen e - blen (c_rest c) /\
    (blen (c_rest c) < 29 -> pkt_try_read P c = (Ok (NotEnough n), c)) /\
    (29 <= blen (c_rest c) -> blen (c_rest c) < blen e - 29 ->
       pkt_try_read P c = (Ok (NotEnough n), c_seek (c_pos c + 29) c)) /\
    (29 <= blen (c_rest c) -> blen e - 29 <= blen (c_rest c) ->
       pkt_try_read P c = (Ok (NotEnough n), c) \/ pkt_try_read P c = (Err (ENotEnoughData n), c)).
Proof.
  intros HP (tail & HB & HT & HL & EE) H256 O SP. pose proof (prefix_short _ _ SP) as LT.
  set (blocks := concat (map bk_encode (p_blocks p))) in *.
  assert (LE : blen e = 29 + (blen blocks + blen tail)).
  { rewrite EE, !blen_app. unfold blen at 1. rewrite layout_length. lia. }
  destruct (N.lt_ge_cases (blen (c_rest c)) 29) as [L29|G29].
  { exists (29 - blen (c_rest c)). split; [lia|split; [lia|split; [|split; lia]]]. intros _.
    unfold pkt_try_read, hdr_try_read. rewrite !c_available_ok by easy. cbn [sbind].
    rewrite !c_available_ok by easy. cbn [sbind].
    replace (blen (c_rest c) <? N.of_nat hdr_size) with true by (unfold hdr_size; lia). reflexivity. }
  pose proof SP as SP0. rewrite EE in SP0. apply prefix_split in SP0. destruct SP0 as [Q|(q' & EQ & SP')].
  { exfalso. unfold blen at 2 in Q. rewrite layout_length in Q. lia. }
  assert (LQ : blen (c_rest c) = 29 + blen q') by (rewrite EQ, blen_app; unfold blen; rewrite layout_length; lia).
  assert (HB64 : blen blocks < two64) by (apply two63_64; lia).
  destruct (hdr_try_rt c _ _ _ _ O (two63_64 _ HL) HB64 EQ) as (EH & V1 & O1).
  unfold pkt_try_read. rewrite c_available_ok by easy. cbn [sbind]. rewrite EH. cbn [stbind mkh h_size h_blocks_len h_payload].
  set (c1 := c_seek (c_pos c + 29) c) in *.
  destruct (blen (c_rest c) <? blen blocks + blen tail) eqn:ESZ.
  { exists (blen blocks + blen tail - blen (c_rest c)). split; [lia|split; [lia|split; [lia|split; [reflexivity|lia]]]]. }
  fold (flag_of p). pose proof SP' as SP2. apply prefix_split in SP2.
  assert (CB : forall x, c_seek (c_pos c) (c_seek x c1) = c) by (intros x; unfold c1; rewrite c_seek_seek; apply c_seek_back).
  destruct SP2 as [LTB|(q2 & EQ2 & SP2)].
  - assert (SPB : strict_prefix (c_rest c1) blocks).
    { rewrite V1. destruct SP' as (r & NR & E). exists (skipn (length q') blocks).
      assert (EB : blocks = q' ++ skipn (length q') blocks).
      { rewrite <- (firstn_skipn (length q') blocks) at 1. f_equal.
        transitivity (firstn (length q') (blocks ++ tail)).
        - rewrite firstn_app. replace (length q' - length blocks)%nat with 0%nat by (unfold blen in *; lia).
          cbn [firstn]. now rewrite app_nil_r.
        - rewrite E. now rewrite firstn_app_exact. }
      split; [|exact EB]. intros Q. rewrite Q, app_nil_r in EB. rewrite EB in LTB. lia. }
    replace (0 <? blen blocks) with true by lia.
    destruct (loop_try_trunc (pr_blocks P) (proj1 HP) (p_blocks p) block_fuel (blen blocks) 0 [] c1) as (n & x & E & N0 & N1); auto.
    rewrite E. fold blocks in N1. rewrite V1 in N1. exists n. split; [easy|split; [lia|split; [lia|split; [lia|]]]].
    intros _ _. left. now rewrite CB.
  - set (c2 := c_seek (c_pos c1 + blen blocks) c1).
    assert (CB2 : forall x, c_seek (c_pos c) (c_seek x c2) = c) by (intros x; unfold c2; rewrite c_seek_seek; apply CB).
    assert (EB : (if 0 <? blen blocks then blocks_loop_try block_fuel (pr_blocks P) (blen blocks) 0 [] c1
            else (Ok (Success []), c1)) = (Ok (Success (p_blocks p)), c2) /\ c_rest c2 = q2 /\ c_ok c2).
    { rewrite EQ2 in V1. destruct (0 <? blen blocks) eqn:EZ.
      - destruct (loop_try_rt (pr_blocks P) (proj1 HP) (p_blocks p) block_fuel (blen blocks) 0 [] c1 q2) as (Q1 & Q2 & Q3); auto.
        + intros Q. unfold blocks in EZ. rewrite Q in EZ. easy.
      - pose proof (enc_blocks_zero _ _ HB EZ) as Q. unfold c2. unfold blocks in V1 |- *. rewrite Q in V1 |- *. cbn [map concat app] in *.
        change (blen []) with 0. rewrite N.add_0_r, c_seek_eta. auto. }
    destruct EB as (EB & V2 & O2). rewrite EB. unfold flag_of.
    assert (LQ2 : blen (c_rest c) = 29 + (blen blocks + blen q2)) by (rewrite LQ, EQ2, blen_app; lia).
    destruct p as [pbs ppl]. cbn [p_payload p_blocks] in *. destruct ppl as [pl|].
    + destruct HT as (body & crc & HPL & L4 & ET).
      pose proof (payload_ok_hdr _ _ _ _ HPL) as HH. unfold pl_hdr in HH.
      rewrite ET in SP2. set (ph := mk_pheader _ _ _) in *. 
      assert (LTL : blen tail = blen (ph_bytes ph) + blen body) by (rewrite ET, blen_app; lia).
      pose proof SP2 as SP3. apply prefix_split in SP3. destruct SP3 as [LTP|(q3 & EQ3 & SP3)].
      * assert (SPP : strict_prefix (c_rest c2) (ph_bytes ph)).
        { rewrite V2. destruct SP2 as (r & NR & E). exists (skipn (length q2) (ph_bytes ph)).
          assert (EBB : ph_bytes ph = q2 ++ skipn (length q2) (ph_bytes ph)).
          { rewrite <- (firstn_skipn (length q2) (ph_bytes ph)) at 1. f_equal.
            transitivity (firstn (length q2) (ph_bytes ph ++ body)).
            - rewrite firstn_app. replace (length q2 - length (ph_bytes ph))%nat with 0%nat by (unfold blen in *; lia).
              cbn [firstn]. now rewrite app_nil_r.
            - rewrite E. now rewrite firstn_app_exact. }
          split; [|exact EBB]. intros Q. rewrite Q, app_nil_r in EBB. rewrite EBB in LTP. lia. }
        destruct (ph_try_read_truncated _ c2 HH O2 SPP) as (n & E3 & N0 & N1 & _). rewrite E3. cbn [sbind].
        rewrite V2 in N1. exists n. split; [easy|split; [lia|split; [lia|split; [lia|]]]]. intros _ _. right.
        rewrite <- (c_seek_same c2), CB2. reflexivity.
      * rewrite EQ3 in V2. destruct (ph_try_read_rt _ c2 _ HH O2 V2) as (E3 & V3 & O3). rewrite E3. cbn [sbind].
        set (c3 := c_seek _ c2) in *. rewrite pl_try_read_eq by easy.
        change (ph_len ph) with (blen body). pose proof (prefix_short _ _ SP3) as LT3.
        replace (blen (c_rest c3) <? blen body) with true by (rewrite V3; lia).
        assert (LQ3 : blen q2 = blen (ph_bytes ph) + blen q3) by (rewrite EQ3, blen_app; lia).
        exists (blen body - blen (c_rest c3)). rewrite V3. split; [lia|split; [lia|split; [lia|split; [lia|]]]].
        intros _ _. left. rewrite <- (c_seek_same c3) at 1. unfold c3. rewrite c_seek_seek, CB2. reflexivity.
    + exfalso. cbn [payload_part] in HT. rewrite HT in SP2. apply prefix_short in SP2. rewrite blen_nil in SP2. lia.
Qed.

(** The buffered reader, up to the last 29 bytes of the packet. *)
Lemma try_read_buf_truncated {U} (P : proto U) (p : packet U) e s buf s' :
  packet_enc P p e -> fill_buf s = (Ok buf, s') -> strict_prefix buf e -> blen buf < 29 \/ blen buf < blen e - 29 ->
  exists n, 0 < n /\ n <= blen e - blen buf /\ pkt_try_read_buf P s = (Ok (NotEnough n), s').
Proof.
  intros (tail & HB & HT & HL & EE) F SP L. pose proof (prefix_short _ _ SP) as LT.
  set (blocks := concat (map bk_encode (p_blocks p))) in *.
  assert (LE : blen e = 29 + (blen blocks + blen tail)).
  { rewrite EE, !blen_app. unfold blen at 1. rewrite layout_length. lia. }
  unfold pkt_try_read_buf. rewrite F. cbn [sbind]. change (N.of_nat hdr_size) with 29.
  destruct (blen buf <? 29) eqn:E29; [exists (29 - blen buf); split; [lia|split; [lia|reflexivity]]|].
  pose proof SP as SP0. rewrite EE in SP0. apply prefix_split in SP0. destruct SP0 as [Q|(q' & EQ & SP')].
  { exfalso. unfold blen at 2 in Q. rewrite layout_length in Q. lia. }
  assert (HB64 : blen blocks < two64) by (apply two63_64; lia).
  assert (EH : hdr_read_from_slice buf = Ok (mkh (blen blocks + blen tail) (blen blocks) (flag_of p))).
  { rewrite EQ. apply hdr_slice_rt; [exact (two63_64 _ HL)|exact HB64]. }
  rewrite EH. cbn [sbind mkh h_size].
  replace (blen buf <? blen blocks + blen tail) with true by lia.
  exists (blen blocks + blen tail - blen buf). split; [lia|split; [lia|reflexivity]].
Qed.

(** read_from_slice without the signature: exact bytes are never accepted, four more
    bytes in front are. *)
Lemma slice_fields_end ts : forall src off vs e, slice_fields ts src off = Ok (vs, e) -> e = (off + sum_sizes ts)%nat.
Proof.
  induction ts as [|t ts IH]; intros src off vs e; cbn [slice_fields].
  - intros H. inversion H; subst. cbn. lia.
  - destruct (checked_slice src off (ty_size t)); cbn [rbind]; try discriminate.
    destruct (dec_slice t a); cbn [rbind]; try discriminate.
    destruct (slice_fields ts src (off + ty_size t)) as [[vs' e']| |] eqn:E; cbn [rbind]; try discriminate.
    intros H. inversion H; subst. apply IH in E. cbn [sum_sizes fold_right]. fold (sum_sizes ts). lia.
Qed.

Lemma skip_exact_never sc src vs : length src = (body_size sc + 4)%nat -> blk_read_from_slice sc src true <> Ok vs.
Proof.
  intros L. unfold blk_read_from_slice. cbn [rbind].
  destruct (_ <? _)%nat; [discriminate|].
  destruct (slice_fields (s_tys sc) src 4) as [[vs' e]| |] eqn:E; cbn [rbind]; try discriminate.
  apply slice_fields_end in E. unfold checked_slice.
  replace (e + 4 <=? length src)%nat with false by (unfold body_size in L; lia). discriminate.
Qed.

Lemma skip_padded sc vs pad rest : schema_ok sc -> vals_ok sc vs -> length pad = 4%nat ->
  blk_read_from_slice sc (pad ++ fields_bytes (s_tys sc) vs ++ blk_crc sc vs ++ rest) true = Ok vs.
Proof.
  intros HS HV LP.
  assert (LR : length (fields_bytes (s_tys sc) vs) = body_size sc) by now apply fields_bytes_length.
  assert (LC : length (blk_crc sc vs) = 4%nat) by apply blk_crc_length.
  pose proof (blk_slice_spec sc (blk_sig sc) _ _ rest (blk_sig_length _) LR LC) as Q.
  rewrite bytes_eqb_refl, (blk_parse_rt _ _ _ good_slice HS HV) in Q.
  unfold blk_read_from_slice in *. cbn [rbind].
  replace (length (blk_sig sc ++ fields_bytes (s_tys sc) vs ++ blk_crc sc vs ++ rest) <? 4)%nat with false in Q
    by (rewrite app_length, blk_sig_length; lia).
  rewrite firstn_app_exact, bytes_eqb_refl in Q by (now rewrite blk_sig_length). cbn [rbind] in Q.
  replace (length (blk_sig sc ++ fields_bytes (s_tys sc) vs ++ blk_crc sc vs ++ rest) <? ssize sc)%nat with false in Q
    by (rewrite !app_length, blk_sig_length, ssize_eq; lia).
  replace (length (pad ++ fields_bytes (s_tys sc) vs ++ blk_crc sc vs ++ rest) <? ssize sc - 4)%nat with false
    by (rewrite !app_length, ssize_eq; lia).
  pose proof (slice_fields_spec (s_tys sc) (blk_sig sc) _ (blk_crc sc vs ++ rest) LR) as S1.
  pose proof (slice_fields_spec (s_tys sc) pad _ (blk_crc sc vs ++ rest) LR) as S2.
  rewrite LP in S2. rewrite blk_sig_length in S1. rewrite S1 in Q. rewrite S2.
  destruct (fields_parse dec_slice (s_tys sc) (fields_bytes (s_tys sc) vs)) as [vs'| |]; cbn [rbind] in Q |- *; try discriminate.
  unfold checked_slice in *.
  replace (4 + sum_sizes (s_tys sc) + 4 <=? length (blk_sig sc ++ fields_bytes (s_tys sc) vs ++ blk_crc sc vs ++ rest))%nat with true in Q
    by (rewrite !app_length, blk_sig_length; unfold body_size in LR; lia).
  replace (4 + sum_sizes (s_tys sc) + 4 <=? length (pad ++ fields_bytes (s_tys sc) vs ++ blk_crc sc vs ++ rest))%nat with true
    by (rewrite !app_length; unfold body_size in LR; lia).
  assert (SL : forall a : bytes, length a = 4%nat ->
     slice (a ++ fields_bytes (s_tys sc) vs ++ blk_crc sc vs ++ rest) (4 + sum_sizes (s_tys sc)) 4 = blk_crc sc vs).
  { intros a LA. rewrite app_assoc. apply slice_app_exact; [|easy]. rewrite app_length. unfold body_size in LR. lia. }
  rewrite (SL _ (blk_sig_length sc)) in Q. rewrite (SL _ LP). exact Q.
Qed.

(** What a block reader accepts: signature, some bytes, checksum of the values. *)
Definition canon_ty (t : fty) : Prop :=
  match t with TBool => False | TLinked l => forall b v, l_of l b = Some v -> l_to l v = b | _ => True end.

Lemma dec_canon t raw v : canon_ty t -> length raw = ty_size t ->
  (dec_slice t raw = Ok v \/ dec_stream t raw = Ok v) -> to_bytes t v = raw.
Proof.
  intros C L H.
  destruct t as [w|w|w| |n|l]; cbn [canon_ty] in C; try contradiction; cbn [dec_slice dec_stream ty_size] in *.
  - destruct H as [H|H]; inversion H; subst; cbn [to_bytes]; rewrite <- L; apply le_unle.
  - destruct H as [H|H]; inversion H; subst; cbn [to_bytes].
    all: rewrite <- (le_unle raw) at 2; rewrite L; f_equal.
    all: pose proof (unle_bound raw) as B; unfold blen in B; rewrite L in B.
    all: apply n_roundtrip; [destruct w; cbn; lia|exact B].
  - destruct H as [H|H]; inversion H; subst; cbn [to_bytes]; rewrite <- L; apply le_unle.
  - destruct H as [H|H]; inversion H; subst; reflexivity.
  - destruct raw as [|b [|]]; try discriminate. cbn [first_byte] in H.
    destruct (l_of l b) eqn:E; destruct H as [H|H]; inversion H; subst; cbn [to_bytes]; now rewrite (C _ _ E).
Qed.

Lemma fields_canon D ts : (forall t raw v, D t raw = Ok v -> dec_slice t raw = Ok v \/ dec_stream t raw = Ok v) ->
  Forall canon_ty ts -> forall raw vs, length raw = sum_sizes ts -> fields_parse D ts raw = Ok vs -> fields_bytes ts vs = raw.
Proof.
  intros HD F. induction F as [|t ts C F IH]; intros raw vs L E.
  - cbn [fields_parse] in E. inversion E; subst. destruct raw; [reflexivity|discriminate].
  - cbn [fields_parse] in E. cbn [sum_sizes fold_right] in L. fold (sum_sizes ts) in L.
    destruct (D t (firstn (ty_size t) raw)) as [v| |] eqn:E1; cbn [rbind] in E; try discriminate.
    destruct (fields_parse D ts (skipn (ty_size t) raw)) as [vs'| |] eqn:E2; cbn [rbind] in E; try discriminate.
    inversion E; subst. cbn [fields_bytes].
    rewrite (dec_canon t (firstn (ty_size t) raw) v C); [|rewrite firstn_length; lia|auto].
    assert (L2 : length (skipn (ty_size t) raw) = sum_sizes ts) by (rewrite skipn_length; lia).
    rewrite (IH _ _ L2 E2). apply firstn_skipn.
Qed.

Lemma fields_parse_len D ts : forall raw vs, fields_parse D ts raw = Ok vs -> length vs = length ts.
Proof.
  induction ts as [|t ts IH]; intros raw vs E; cbn [fields_parse] in E.
  - inversion E; reflexivity.
  - destruct (D t _); cbn [rbind] in E; try discriminate.
    destruct (fields_parse D ts _) eqn:E2; cbn [rbind] in E; try discriminate. inversion E; subst.
    cbn [length]. now rewrite (IH _ _ E2).
Qed.

Lemma blk_parse_canon D sc raw crc vs :
  (forall t raw v, D t raw = Ok v -> dec_slice t raw = Ok v \/ dec_stream t raw = Ok v) ->
  schema_ok sc -> Forall canon_ty (s_tys sc) -> length raw = body_size sc ->
  blk_parse D sc raw crc = Ok vs -> fields_bytes (s_tys sc) vs = raw /\ blk_crc sc vs = crc.
Proof.
  intros HD HS HC LR E. unfold blk_parse in E.
  destruct (fields_parse D (s_tys sc) raw) as [vs'| |] eqn:EF; cbn [rbind] in E; try discriminate.
  rewrite capture_ok in E; [|easy|now apply fields_parse_len in EF].
  destruct (bytes_eqb (blk_crc sc vs') crc) eqn:EC; [|discriminate]. inversion E; subst.
  split; [|now apply bytes_eqb_eq]. eapply fields_canon; eauto.
Qed.

Lemma block_canonical_slice sc src vs : schema_ok sc -> Forall canon_ty (s_tys sc) ->
  blk_read_from_slice sc src false = Ok vs -> exists rest, src = blk_encode sc vs ++ rest.
Proof.
  intros HS HC E. destruct (le_lt_dec (ssize sc) (length src)) as [L|L].
  - destruct (split_block sc src L) as (sg & raw & crc & rest & -> & L1 & L2 & L3).
    rewrite blk_slice_spec in E by easy. destruct (bytes_eqb sg (blk_sig sc)) eqn:EB; [|discriminate].
    apply bytes_eqb_eq in EB. subst sg. apply blk_parse_canon in E as [E1 E2]; auto.
    exists rest. unfold blk_encode. now rewrite E1, E2, <- !app_assoc.
  - destruct (blk_slice_short sc src L) as (e & Q). congruence.
Qed.

Lemma block_canonical_stream {S} (R : reader S) view okst (L : lawful R view okst) sc s vs s' :
  schema_ok sc -> Forall canon_ty (s_tys sc) -> okst s ->
  blk_read R sc false s = (Ok vs, s') -> view s = blk_encode sc vs ++ view s'.
Proof.
  intros HS HC O E. destruct (blk_read_inv L _ _ _ _ _ O E) as (raw & crc & V & L1 & L2 & EP & _).
  apply blk_parse_canon in EP as [E1 E2]; auto. rewrite V. unfold blk_encode. now rewrite E1, E2, <- !app_assoc.
Qed.

Lemma list_eight {A} (l : list A) : length l = 8%nat ->
  exists a b c d e f g h, l = [a; b; c; d; e; f; g; h].
Proof.
  intros L. do 8 (destruct l as [|? l]; [discriminate|]). destruct l; [|discriminate].
  now repeat eexists.
Qed.

(** What the packet header reader accepts: the written header, up to the flag byte. *)
Lemma header_canonical buf h : hdr_read_from_slice buf = Ok h ->
  exists fl rest, buf = firstn 24 (hdr_bytes h) ++ [fl] ++ skipn 25 (hdr_bytes h) ++ rest
    /\ h_payload h = (b2n fl =? 1).
Proof.
  intros E. destruct (le_lt_dec 29 (length buf)) as [L|L].
  - destruct (split_hdr _ L) as (sg & sz & bl & fl & crc & rest & -> & L1 & L2 & L3 & L4 & L5).
    rewrite hdr_slice_spec in E by easy. destruct (bytes_eqb sg packet_sig) eqn:EB; [|discriminate].
    apply bytes_eqb_eq in EB. subst sg. destruct (hdr_parse_inv _ _ _ _ _ L2 L3 L4 L5 E) as (-> & EC & _).
    destruct fl as [|f [|]]; try discriminate. cbn [first_byte] in *. exists f, rest. split; [|reflexivity].
    unfold hdr_bytes, mkh. cbn [h_size h_blocks_len h_payload h_crc].
    assert (E1 : le 8 (unle sz) = sz) by (rewrite <- L2; apply le_unle).
    assert (E2 : le 8 (unle bl) = bl) by (rewrite <- L3; apply le_unle). rewrite E1, E2.
    fold (flag_byte (b2n f =? 1)). unfold crc32_le in EC. rewrite <- EC.
    destruct (list_eight _ L2) as (a1 & a2 & a3 & a4 & a5 & a6 & a7 & a8 & ->).
    destruct (list_eight _ L3) as (b1 & b2 & b3 & b4 & b5 & b6 & b7 & b8 & ->). reflexivity.
  - unfold hdr_read_from_slice in E. replace (length buf <? hdr_size)%nat with true in E by (unfold hdr_size; lia). discriminate.
Qed.

(** ** Damaged payloads of any type with the default checksum *)

Lemma damaged_payload {V S} (k : pkind V) (R : reader S) view okst (L : lawful R view okst) v body body' s rest :
  auto_crc k -> pk_body k v = IOk body -> blen body' = blen body -> okst s -> view s = body' ++ rest ->
  exists o s', pk_read R k (mk_pheader (pk_sig k) (crc32_le body) (blen body)) s = (o, s') /\ view s' = rest /\
  match o with
  | Ok v' => pk_decode k body' = IOk v' /\ exists b, pk_body k v' = IOk b /\ crc32_le b = crc32_le body
  | Err _ => True
  | Panic _ => False
  end.
Proof.
  intros A B LB O W. unfold pk_read. cbn [ph_sig ph_len ph_crc]. rewrite bytes_eqb_refl. cbn [negb].
  destruct (lw_ok R view okst L (blen body) s body' rest O W LB) as (s1 & E & W1 & O1). rewrite E. cbn [sbind].
  destruct (pk_decode k body') as [v'|i] eqn:D; cbn [io sbind]; [|now exists (Err (EIo i)), s1].
  rewrite A. unfold default_crc. destruct (pk_body k v') as [b|i] eqn:B'; cbn [io sbind]; [|now exists (Err (EIo i)), s1].
  destruct (bytes_eqb (crc32_le body) (crc32_le b)) eqn:Q.
  - apply bytes_eqb_eq in Q. exists (Ok v'), s1. repeat split; auto. exists b. now split.
  - now exists (Err ECrcDismatch), s1.
Qed.

Lemma burst_blen k a b : burst k a b -> blen a = blen b.
Proof. intros (p & w & w' & q & -> & -> & L & _). rewrite !blen_app. unfold blen. now rewrite L. Qed.

Lemma damaged_payload_refused {V S} (k : pkind V) (R : reader S) view okst (L : lawful R view okst) v body body' s rest :
  auto_crc k -> pk_body k v = IOk body -> burst 4 body body' -> body' <> body ->
  (forall v', pk_decode k body' = IOk v' -> pk_body k v' = IOk body') ->
  okst s -> view s = body' ++ rest ->
  exists e s', pk_read R k (mk_pheader (pk_sig k) (crc32_le body) (blen body)) s = (Err e, s') /\ view s' = rest.
Proof.
  intros A B HB NE C O W.
  destruct (damaged_payload k R view okst L v body body' s rest A B (eq_sym (burst_blen _ _ _ HB)) O W) as (o & s' & E & W' & M).
  destruct o as [v'|e|]; [|now exists e, s'|easy]. exfalso. destruct M as (D & b & B' & Q).
  rewrite (C v' D) in B'. injection B' as <-. destruct HB as (pre & w & w' & post & EB & EB' & LW & L4). apply NE. subst body body'.
  apply eq_sym, le_inj in Q; [|apply crc32_bound|apply crc32_bound]. apply crc32_burst in Q; [|easy|easy]. now subst.
Qed.

Lemma damaged_text {S} (R : reader S) view okst (L : lawful R view okst) t t' s rest :
  burst 4 t t' -> t' <> t -> utf8 t' -> okst s -> view s = t' ++ rest ->
  exists s', pk_read R string_kind (mk_pheader (pk_sig string_kind) (crc32_le t) (blen t)) s = (Err ECrcDismatch, s') /\ view s' = rest.
Proof.
  intros HB NE U8 O W. unfold pk_read. cbn [ph_sig ph_len ph_crc]. rewrite bytes_eqb_refl. cbn [negb].
  destruct (lw_ok R view okst L (blen t) s t' rest O W (eq_sym (burst_blen _ _ _ HB))) as (s1 & E & W1 & O1). rewrite E.
  cbn [sbind pk_decode string_kind io pk_crc default_crc]. rewrite (lossy_valid t' U8).
  destruct (bytes_eqb (crc32_le t) (crc32_le t')) eqn:Q; [|eauto]. exfalso. apply bytes_eqb_eq in Q.
  destruct HB as (pre & w & w' & post & EB & EB' & LW & L4). apply NE. subst t t'.
  apply le_inj in Q; [|apply crc32_bound|apply crc32_bound]. apply crc32_burst in Q; [|easy|easy]. now subst.
Qed.

(** ** Packet headers on their own *)
Lemma hdr_read_cut {S} (R : reader S) view okst (L : lawful R view okst) s size bl fl : okst s ->
  strict_prefix (view s) (layout_header size bl fl) -> exists s', hdr_read R s = (Err (EIo UnexpectedEof), s').
Proof.
  intros O (r & NE & E). rewrite <- (app_nil_r (layout_header _ _ _)), layout_split in E. rewrite !app_nil_r in E.
  assert (LE : (length (view s) < 29)%nat).
  { assert (length (layout_header size bl fl) = length (view s ++ r)) as Q.
    { rewrite <- E, <- (app_nil_r (layout_header _ _ _)), layout_split, !app_nil_r. reflexivity. }
    rewrite layout_length, app_length in Q. destruct r; [easy|]. cbn [length] in Q. lia. }
  unfold hdr_read. destruct (lw_cases L 8 s O) as [(a & b & s1 & V & B & -> & W & O1)|(_ & s1 & ->)]; [|cbn [sbind]; eauto]. cbn [sbind].
  assert (A : a = packet_sig).
  { rewrite V, <- app_assoc in E. apply (f_equal (firstn 8)) in E. rewrite !firstn_app_exact in E by (try reflexivity; unfold blen in B; lia). now symmetry. }
  rewrite A, bytes_eqb_refl. cbn [negb]. rewrite V, app_length in LE. unfold blen in B.
  destruct (lw_cases L 8 s1 O1) as [(a2 & b2 & s2 & V2 & B2 & -> & W2 & O2)|(_ & s2 & ->)]; [|cbn [sbind]; eauto]. cbn [sbind].
  destruct (lw_cases L 8 s2 O2) as [(a3 & b3 & s3 & V3 & B3 & -> & W3 & O3)|(_ & s3 & ->)]; [|cbn [sbind]; eauto]. cbn [sbind].
  destruct (lw_cases L 1 s3 O3) as [(a4 & b4 & s4 & V4 & B4 & -> & W4 & O4)|(_ & s4 & ->)]; [|cbn [sbind]; eauto]. cbn [sbind].
  destruct (lw_cases L 4 s4 O4) as [(a5 & b5 & s5 & V5 & B5 & -> & W5 & O5)|(_ & s5 & ->)]; [|cbn [sbind]; eauto].
  exfalso. unfold blen in *. rewrite <- W, V2, <- W2, V3, <- W3, V4, <- W4, V5, !app_length in LE. lia.
Qed.
