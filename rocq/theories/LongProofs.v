(** * Packets whose payload has a checksum of more than four bytes: the filtering and the streaming reader. *)
From Coq Require Import ZifyBool ZifyNat ZifyN.
From Verif Require Import Base Crc32 Io Block Payload Packet Rules StreamReader Spec SpecJudge BaseProofs CrcProofs IoProofs BlockProofs
  DispatchProofs PayloadProofs PayloadEnumProofs PacketProofs PacketSafeProofs LayoutProofs NegProofs RulesProofs WireProofs CanonProofs
  StreamProofs StreamItemProofs StreamSoundProofs StuckProofs JudgeProofs.
Ltac Zify.zify_post_hook ::= Z.div_mod_to_equations.
Open Scope list_scope.

Section Long.
Context {U : Type} (P : proto U) (HP : proto_ok P).

(** What the size in the packet header leaves of the payload. *)
Definition kept_of (crc body tail : bytes) : bytes := firstn (length tail - (length crc - 4)) tail.

Lemma cut_payload (pl : payload U) body crc : payload_ok (pr_kinds P) pl body crc -> 4 < blen crc ->
  let h := mk_pheader (pl_sig pl) crc (blen body) in let q := kept_of crc body (ph_bytes h ++ body) in
  (blen body + 4 < blen crc -> exists n, ph_peek q = Ok (NotEnough n)) /\
  (blen crc <= blen body + 4 -> q = ph_bytes h ++ firstn (length body + 4 - length crc) body /\
     forall pl' part rest, q = part ++ rest -> ~ payload_taken (pr_kinds P) pl' part).
Proof.
  intros HPL L4 h q. pose proof (payload_ok_hdr _ _ _ _ HPL) as HH. unfold pl_hdr in HH. fold h in HH.
  assert (length (ph_bytes h) = 1 + length (pl_sig pl) + 1 + length crc + 4)%nat as LH.
  { unfold ph_bytes. rewrite !app_length. cbn [h ph_sig ph_crc ph_len]. rewrite le_length. cbn [length]. lia. }
  unfold q, kept_of. rewrite app_length. split.
  - intros S. rewrite firstn_app. replace (length (ph_bytes h) + length body - (length crc - 4) - length (ph_bytes h))%nat with 0%nat by (unfold blen in *; lia).
    rewrite firstn_O, app_nil_r. set (n := (length (ph_bytes h) + length body - (length crc - 4))%nat). assert (n < length (ph_bytes h))%nat as LN by (unfold n, blen in *; lia).
    destruct (ph_peek_truncated h (firstn n (ph_bytes h)) HH) as (m & E & _); [|eauto].
    exists (skipn n (ph_bytes h)). split; [|symmetry; apply firstn_skipn]. intros Q. apply (f_equal (@length byte)) in Q. rewrite skipn_length in Q. cbn [length] in Q. lia.
  - intros S. assert (firstn (length (ph_bytes h) + length body - (length crc - 4)) (ph_bytes h ++ body) = ph_bytes h ++ firstn (length body + 4 - length crc) body) as EQ.
    { rewrite firstn_app, firstn_all2 by (unfold blen in *; lia). do 2 f_equal. unfold blen in *. lia. }
    split; [exact EQ|]. rewrite EQ. intros pl' part rest Q (crc' & body' & C1 & C2 & LB & EP & _).
    set (h' := mk_pheader (pl_sig pl') crc' (blen body')). assert (ph_ok h') as HH' by (repeat split; assumption).
    assert (part = ph_bytes h' ++ body') as EP' by (rewrite EP; unfold h'; now rewrite ph_bytes_layout). rewrite EP', <- app_assoc in Q.
    pose proof (ph_peek_rt h (firstn (length body + 4 - length crc) body) HH) as K1. rewrite Q, ph_peek_rt in K1 by exact HH'.
    assert (h' = h) as EH by congruence. rewrite EH in Q. apply app_inv_head in Q.
    assert (blen body' = blen body) as EB by (change (ph_len h' = ph_len h); now rewrite EH).
    apply (f_equal (@length byte)) in Q. rewrite firstn_length, app_length in Q. unfold blen in *. lia.
Qed.

Lemma parse_body_short rs bs q n : (length bs <= 255)%nat -> Forall (block_ok (pr_blocks P)) bs -> filter_by_blocks rs bs = true -> ph_peek q = Ok (NotEnough n) ->
  let blocks := concat (map bk_encode bs) in
  parse_body P rs (mkh (blen blocks + blen q) (blen blocks) true) (blocks ++ q) = (Err (ENotEnoughData n), Drop).
Proof.
  intros L HB F1 PE blocks. unfold parse_body.
  change (h_blocks_len (mkh (blen blocks + blen q) (blen blocks) true)) with (blen blocks).
  change (h_payload (mkh (blen blocks + blen q) (blen blocks) true)) with true.
  replace (blen (blocks ++ q) <? blen blocks) with false by (rewrite blen_app; lia).
  rewrite to_nat_blen, firstn_app_exact, skipn_app_exact by reflexivity. fold (decoded_blocks P blocks).
  unfold blocks at 1. rewrite (decoded_ok P HP bs L HB). cbv iota beta. rewrite F1. cbn [negb].
  assert (PK : fst (ph_try_read_buf (of_slice q)) = Ok (NotEnough n)).
  { unfold ph_try_read_buf, of_slice, fill_buf. cbn [b_cur b_evs]. destruct q; cbn [sbind fst]; exact PE. }
  now rewrite PK.
Qed.

(** The streaming reader. *)
Lemma long_parse rs (bs : list block) pl body crc : payload_ok (pr_kinds P) pl body crc -> 4 < blen crc -> (length bs <= 255)%nat -> Forall (block_ok (pr_blocks P)) bs ->
  filter_by_blocks rs bs = true -> filter_by_payload rs (firstn (length body + 4 - length crc) body) = true ->
  let blocks := concat (map bk_encode bs) in let q := kept_of crc body (ph_bytes (mk_pheader (pl_sig pl) crc (blen body)) ++ body) in
  exists er, parse_body P rs (mkh (blen blocks + blen q) (blen blocks) true) (blocks ++ q) = (Err er, if blen body + 4 <? blen crc then Drop else Leave).
Proof.
  intros HPL L4 L HB F1 F2 blocks q. destruct (cut_payload pl body crc HPL L4) as (A & B). fold q in A, B.
  destruct (N.ltb_spec (blen body + 4) (blen crc)) as [S|S].
  - destruct (A S) as (n & PE). exists (ENotEnoughData n). now apply parse_body_short.
  - destruct (B S) as (EQ & NT). pose proof (payload_ok_hdr _ _ _ _ HPL) as HH. unfold pl_hdr in HH. rewrite EQ in NT |- *.
    exact (parse_body_refused P HP rs bs _ _ L HB HH F1 F2 NT).
Qed.

(** The filtering reader. *)
Lemma long_filtered {S} (R : reader S) view okst (OK : okl R view okst) rs (bs : list block) pl body crc s rest :
  payload_ok (pr_kinds P) pl body crc -> 4 < blen crc -> Forall (block_ok (pr_blocks P)) bs ->
  filter_by_blocks rs bs = true -> filter_by_payload rs (firstn (length body + 4 - length crc) body) = true ->
  let blocks := concat (map bk_encode bs) in let q := kept_of crc body (ph_bytes (mk_pheader (pl_sig pl) crc (blen body)) ++ body) in
  blen blocks + blen q < two63 -> okst s -> view s = layout_header (blen blocks + blen q) (blen blocks) true ++ blocks ++ q ++ rest ->
  exists er s', filtered R P rs s = (Err er, s') /\ view s' = rest /\ okst s'.
Proof.
  intros HPL L4 HB F1 F2 blocks q HL O V. destruct (cut_payload pl body crc HPL L4) as (A & B). fold q in A, B.
  destruct (hdr_read_rt R view okst OK s _ _ _ _ O V) as (s1 & E1 & V1 & O1).
  { now apply two63_64. } { apply two63_64. lia. }
  unfold filtered. rewrite E1. cbn [sbind mkh h_size h_blocks_len h_payload].
  unfold alloc. replace (blen blocks + blen q <? two63) with true by lia. cbn [sbind].
  destruct (OK (blen blocks + blen q) s1 (blocks ++ q) rest O1) as (s2 & E2 & V2 & O2).
  { now rewrite V1, <- app_assoc. } { now rewrite blen_app. }
  rewrite E2. cbn [sbind].
  assert (EB : (if 0 <? blen blocks
      then blocks_loop_slice (length (blocks ++ q) + 1) (pr_blocks P) (blocks ++ q)
             (N.to_nat (N.min (blen blocks) (blen (blocks ++ q) + 1))) 0 []
      else Ok []) = Ok bs).
  { destruct (0 <? blen blocks) eqn:EZ.
    - rewrite blen_app. replace (N.min (blen blocks) (blen blocks + blen q + 1)) with (blen blocks) by lia.
      rewrite (loop_slice_rt _ (proj1 HP) bs _ _ _ _ _ q); auto.
      + intros Q. unfold blocks in EZ. rewrite Q in EZ. easy.
      + assert (Q : (length bs <= length blocks)%nat).
        { unfold blocks. clear - HB. induction HB as [|b bs H F IH]; [easy|]. cbn [map concat length]. rewrite app_length.
          pose proof (bk_encode_pos _ _ H). lia. }
        rewrite app_length. lia.
      + fold blocks. unfold blen. lia.
    - pose proof (enc_blocks_zero _ _ HB EZ) as Q. now rewrite Q. }
  rewrite EB. cbn [sbind]. rewrite F1. cbn [negb].
  assert (K1 : skipn (N.to_nat (blen blocks)) (blocks ++ q) = q) by (rewrite skipn_app_exact by (unfold blen; lia); reflexivity).
  rewrite K1. destruct (N.lt_ge_cases (blen body + 4) (blen crc)) as [LT|GE].
  - destruct (A LT) as (n & PE). rewrite PE. cbn [rbind sbind]. eauto.
  - destruct (B GE) as (EQ & NT). pose proof (payload_ok_hdr _ _ _ _ HPL) as HH. unfold pl_hdr in HH.
    set (h := mk_pheader (pl_sig pl) crc (blen body)) in *. set (b1 := firstn (length body + 4 - length crc) body) in *.
    destruct (refused_payload P q h b1 HH EQ NT) as (er & ER).
    assert (PK : ph_peek q = Ok (Success h)) by (rewrite EQ; now apply ph_peek_rt). rewrite PK. cbn [rbind].
    assert (K2 : skipn (N.to_nat (blen blocks) + ph_size h) (blocks ++ q) = b1).
    { rewrite EQ, (app_assoc blocks). rewrite skipn_app_exact; [easy|]. rewrite app_length, ph_bytes_length. unfold blen; lia. }
    rewrite K2, F2. cbn [negb]. rewrite ER. cbn [rbind sbind]. eauto.
Qed.
End Long.
