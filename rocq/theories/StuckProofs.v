(** * The streaming reader on packets that it refuses without letting them go. *)
From Coq Require Import ZifyBool ZifyNat ZifyN.
From Verif Require Import Base Crc32 Io Block Payload Packet Rules StreamReader Spec BaseProofs CrcProofs BlockProofs
  DispatchProofs PayloadProofs PayloadEnumProofs PacketProofs PacketSafeProofs RulesProofs WireProofs StreamProofs
  StreamItemProofs StreamSoundProofs LayoutProofs NegProofs CanonProofs.
Ltac Zify.zify_post_hook ::= Z.div_mod_to_equations.
Open Scope list_scope.

(** ** More blocks than the readers allow *)
Lemma loop_buf_over scs (ND : NoDup (map blk_sig scs)) bs : forall fuel total rd acc cur evs,
  Forall (block_ok scs) bs -> (fuel < length bs)%nat ->
  rd + blen (concat (map bk_encode bs)) = total ->
  blocks_loop_buf fuel scs total rd acc (mk_bufsrc (concat (map bk_encode bs) ++ cur) evs)
  = (Err EMaxBlocksCount, mk_bufsrc (concat (map bk_encode (skipn fuel bs)) ++ cur) evs).
Proof.
  induction bs as [|b bs IH]; intros fuel total rd acc cur evs F LF HT; [cbn [length] in LF; lia|].
  destruct fuel as [|fuel]; [reflexivity|]. inversion F; subst. cbn [length] in LF.
  cbn [blocks_loop_buf map concat skipn]. rewrite <- app_assoc, bk_buf_rt by easy. cbn [stbind].
  rewrite (bk_size_len _ _ H1). rewrite !blen_app.
  destruct bs as [|b2 bs]; [cbn [length] in LF; lia|]. inversion H2; subst.
  replace (rd + blen (bk_encode b) =? rd + (blen (bk_encode b) + blen (concat (map bk_encode (b2 :: bs))))) with false.
  - rewrite IH; try easy; lia.
  - cbn [map concat]. rewrite blen_app. pose proof (bk_encode_pos _ _ H3). unfold blen. lia.
Qed.

Lemma loop_try_over scs (ND : NoDup (map blk_sig scs)) bs : forall fuel total rd acc c rest,
  Forall (block_ok scs) bs -> (fuel < length bs)%nat ->
  rd + blen (concat (map bk_encode bs)) = total ->
  c_ok c -> c_rest c = concat (map bk_encode bs) ++ rest ->
  exists p, blocks_loop_try fuel scs total rd acc c = (Err EMaxBlocksCount, c_seek p c).
Proof.
  induction bs as [|b bs IH]; intros fuel total rd acc c rest F LF HT O V; [cbn [length] in LF; lia|].
  destruct fuel as [|fuel]; [exists (c_pos c); cbn [blocks_loop_try]; now rewrite c_seek_same|]. inversion F; subst. cbn [length] in LF.
  cbn [map concat] in V. rewrite <- app_assoc in V.
  destruct (bk_try_rt scs ND b c _ H1 O V) as (E & W & O1).
  cbn [blocks_loop_try map concat]. rewrite E. cbn [stbind].
  assert (SZ : N.of_nat (ssize (bk_ty b)) = blen (bk_encode b)).
  { unfold blen. now rewrite (bk_encode_length _ _ H1). }
  rewrite SZ in *. rewrite (bk_size_len _ _ H1). rewrite !blen_app.
  destruct bs as [|b2 bs]; [cbn [length] in LF; lia|]. inversion H2; subst.
  replace (rd + blen (bk_encode b) =? rd + (blen (bk_encode b) + blen (concat (map bk_encode (b2 :: bs))))) with false
    by (cbn [map concat]; rewrite blen_app; pose proof (bk_encode_pos _ _ H3); unfold blen; lia).
  destruct (IH fuel (rd + (blen (bk_encode b) + blen (concat (map bk_encode (b2 :: bs))))) (rd + blen (bk_encode b))
      (acc ++ [b]) _ rest H2 ltac:(lia) ltac:(lia) O1 W) as (p & E2).
  exists p. rewrite E2. now rewrite c_seek_seek.
Qed.

Lemma reader_blocks_over scs (ND : NoDup (map blk_sig scs)) bs : forall left buf processed acc tail,
  Forall (block_ok scs) bs -> (left < length bs)%nat -> skipn processed buf = concat (map bk_encode bs) ++ tail ->
  (processed <= length buf)%nat -> reader_blocks left scs buf processed acc = (Err EMaxBlocksCount, ClearOnly).
Proof.
  induction bs as [|b bs IH]; intros left buf processed acc tail F LF V LP; [cbn [length] in LF; lia|].
  destruct left as [|left]; [reflexivity|]. inversion F as [|b' bs' HB HF]; subst. cbn [length] in LF.
  cbn [map concat] in V. rewrite <- app_assoc in V. cbn [reader_blocks]. rewrite V, bk_slice_rt by easy.
  rewrite bk_size_nat. pose proof (bk_encode_length _ _ HB) as LB. pose proof (bk_encode_pos _ _ HB) as PB.
  replace (bk_size b =? 0) with false by (unfold bk_size; lia).
  assert (LV : (length buf = processed + ssize (bk_ty b) + length (concat (map bk_encode bs) ++ tail))%nat).
  { apply (f_equal (@length byte)) in V. rewrite skipn_length, app_length, LB in V. lia. }
  assert (V' : skipn (processed + ssize (bk_ty b)) buf = concat (map bk_encode bs) ++ tail).
  { rewrite Nat.add_comm, <- skipn_skipn, V, <- LB. now apply skipn_app_exact. }
  destruct bs as [|b2 bs]; [cbn [length] in LF; lia|].
  replace (_ =? _)%nat with false.
  - apply (IH _ _ _ _ tail HF); [lia|exact V'|lia].
  - inversion HF; subst. cbn [map concat] in LV. rewrite !app_length in LV. pose proof (bk_encode_pos _ _ H1). lia.
Qed.

Section Over.
Context {U : Type}.
Variable P : proto U.
Hypothesis HP : proto_ok P.

Lemma pkt_read_over {S} (R : reader S) view okst (OK : okl R view okst) p e s rest :
  packet_enc P p e -> (256 < length (p_blocks p))%nat -> okst s -> view s = e ++ rest ->
  exists s', pkt_read R P s = (Err EMaxBlocksCount, s') /\ view s' = rest /\ okst s'.
Proof.
  intros (tail & HB & HT & HL & ->) H256 O V. rewrite <- !app_assoc in V.
  unfold pkt_read. set (blocks := concat (map bk_encode (p_blocks p))) in *.
  destruct (hdr_read_rt R view okst OK s _ _ _ _ O V) as (s1 & E1 & V1 & O1).
  { now apply two63_64. } { apply two63_64. lia. }
  rewrite E1. cbn [sbind mkh h_size h_blocks_len h_payload].
  unfold alloc. replace (blen blocks + blen tail <? two63) with true by lia. cbn [sbind].
  destruct (OK (blen blocks + blen tail) s1 (blocks ++ tail) rest O1) as (s2 & E2 & V2 & O2).
  { now rewrite V1, <- app_assoc. } { now rewrite blen_app. }
  rewrite E2. cbn [sbind]. unfold of_slice. exists s2. split; [|auto].
  destruct (0 <? blen blocks) eqn:EZ.
  - unfold blocks. rewrite loop_buf_over; auto. apply HP.
  - apply (enc_blocks_zero _ _ HB) in EZ. rewrite EZ in H256. cbn [length] in H256. lia.
Qed.

Lemma pkt_try_read_over p e c rest : packet_enc P p e -> (256 < length (p_blocks p))%nat -> c_ok c -> c_rest c = e ++ rest ->
  pkt_try_read P c = (Err EMaxBlocksCount, c).
Proof.
  intros (tail & HB & HT & HL & EE) H256 O V. set (blocks := concat (map bk_encode (p_blocks p))) in *.
  assert (LE : blen e = 29 + (blen blocks + blen tail)).
  { rewrite EE, !blen_app. unfold blen at 1. rewrite layout_length. lia. }
  pose proof V as V0. rewrite EE, <- !app_assoc in V.
  unfold pkt_try_read. rewrite c_available_ok by easy. cbn [sbind].
  destruct (hdr_try_rt c (blen blocks + blen tail) (blen blocks) (flag_of p) _ O ltac:(apply two63_64; exact HL) ltac:(apply two63_64; lia) V) as (EH & V1 & O1).
  rewrite EH. cbn [stbind mkh h_size h_blocks_len h_payload].
  replace (blen (c_rest c) <? blen blocks + blen tail) with false by (rewrite V0, blen_app; lia).
  destruct (0 <? blen blocks) eqn:EZ.
  - destruct (loop_try_over (pr_blocks P) (proj1 HP) (p_blocks p) block_fuel (blen blocks) 0 [] (c_seek (c_pos c + 29) c) (tail ++ rest) HB) as (q & E);
      [exact H256|unfold blocks; lia|exact O1|exact V1|].
    rewrite E. f_equal. rewrite !c_seek_seek. apply c_seek_same.
  - apply (enc_blocks_zero _ _ HB) in EZ. rewrite EZ in H256. cbn [length] in H256. lia.
Qed.

Lemma pkt_try_read_buf_over p e cur evs : packet_enc P p e -> (256 < length (p_blocks p))%nat ->
  exists tail, payload_part (pr_kinds P) (p_payload p) tail /\
  pkt_try_read_buf P (mk_bufsrc (e ++ cur) evs)
  = (Err EMaxBlocksCount, mk_bufsrc (concat (map bk_encode (skipn 256 (p_blocks p))) ++ tail ++ cur) evs).
Proof.
  intros (tail & HB & HT & HL & EE) H256. exists tail. split; [exact HT|].
  set (blocks := concat (map bk_encode (p_blocks p))) in *.
  assert (LE : blen e = 29 + (blen blocks + blen tail)).
  { rewrite EE, !blen_app. unfold blen at 1. rewrite layout_length. lia. }
  unfold pkt_try_read_buf.
  assert (F : fill_buf (mk_bufsrc (e ++ cur) evs) = (Ok (e ++ cur), mk_bufsrc (e ++ cur) evs)).
  { destruct e; [rewrite blen_nil in LE; lia|]. reflexivity. }
  rewrite F. cbn [sbind]. rewrite blen_app.
  replace (blen e + blen cur <? N.of_nat hdr_size) with false by (unfold hdr_size; lia).
  assert (EH : hdr_read_from_slice (e ++ cur) = Ok (mkh (blen blocks + blen tail) (blen blocks) (flag_of p))).
  { rewrite EE, <- !app_assoc. apply hdr_slice_rt; apply two63_64; lia. }
  rewrite EH. cbn [sbind mkh h_size h_blocks_len h_payload].
  replace (blen e + blen cur <? blen blocks + blen tail) with false by lia.
  assert (EC : consume hdr_size (mk_bufsrc (e ++ cur) evs) = mk_bufsrc (blocks ++ tail ++ cur) evs).
  { unfold consume. cbn [b_cur b_evs]. rewrite EE, <- !app_assoc. unfold hdr_size.
    rewrite skipn_app_exact by (now rewrite layout_length). reflexivity. }
  rewrite EC.
  destruct (0 <? blen blocks) eqn:EZ.
  - unfold blocks. rewrite loop_buf_over; auto. apply HP.
  - apply (enc_blocks_zero _ _ HB) in EZ. rewrite EZ in H256. cbn [length] in H256. lia.
Qed.

Lemma parse_body_over rs bs tail flag : (255 < length bs)%nat -> Forall (block_ok (pr_blocks P)) bs ->
  let blocks := concat (map bk_encode bs) in
  parse_body P rs (mkh (blen blocks + blen tail) (blen blocks) flag) (blocks ++ tail) = (Err EMaxBlocksCount, ClearOnly).
Proof.
  intros L HB blocks. unfold parse_body.
  change (h_blocks_len (mkh (blen blocks + blen tail) (blen blocks) flag)) with (blen blocks).
  replace (blen (blocks ++ tail) <? blen blocks) with false by (rewrite blen_app; lia).
  rewrite to_nat_blen, firstn_app_exact by reflexivity.
  assert (Q : reader_blocks (N.to_nat max_blocks_count) (pr_blocks P) blocks 0 [] = (Err EMaxBlocksCount, ClearOnly)).
  { apply (reader_blocks_over (pr_blocks P) (proj1 HP) bs _ _ _ _ [] HB).
    - change (N.to_nat max_blocks_count) with 255%nat. exact L.
    - now rewrite app_nil_r.
    - lia. }
  destruct blocks as [|x b] eqn:EQ; [|now rewrite Q]. exfalso.
  destruct bs as [|b bs]; [cbn [length] in L; lia|]. inversion HB; subst.
  assert (QE : concat (map bk_encode (b :: bs)) = []) by exact EQ. cbn [map concat] in QE. apply app_eq_nil in QE as (QE & _).
  pose proof (bk_encode_pos _ _ H1) as K. rewrite QE in K. cbn [length] in K. lia.
Qed.

(** ** A payload whose header is read but which is refused *)
Lemma refused_payload cur h body : ph_ok h -> cur = ph_bytes h ++ body ->
  (forall pl part rest, cur = part ++ rest -> ~ payload_taken (pr_kinds P) pl part) ->
  exists er, fst (pl_try_read_buf (pr_kinds P) h (of_slice body)) = Err er.
Proof.
  intros HH E NT. rewrite pl_try_read_buf_eq. unfold of_slice.
  destruct (pl_read buf_reader (pr_kinds P) h (mk_bufsrc body [])) as [[pl|er|w] s] eqn:EP; cbn [pmap fst]; [exfalso|eauto|exfalso].
  - destruct (ph_read_rt buf_reader b_cur (fun s => b_evs s = []) (cur_okl []) h (mk_bufsrc cur []) body) as (s' & E1 & V & O); try easy.
    destruct (payload_taken_inv (pr_kinds P) cur pl s) as (part & rest & T & Q).
    + rewrite E1. cbn [sbind]. now rewrite (cur_state [] s' _ O V).
    + exact (NT pl part rest Q T).
  - exact (pl_read_nopanic buf_reader buf_io_only _ _ slice_lawful _ _ (mk_bufsrc body []) _ _ eq_refl EP).
Qed.

Lemma parse_body_refused rs bs h body : (length bs <= 255)%nat -> Forall (block_ok (pr_blocks P)) bs -> ph_ok h ->
  filter_by_blocks rs bs = true -> filter_by_payload rs body = true ->
  (forall pl part rest, ph_bytes h ++ body = part ++ rest -> ~ payload_taken (pr_kinds P) pl part) ->
  let blocks := concat (map bk_encode bs) in
  exists er, parse_body P rs (mkh (blen blocks + blen (ph_bytes h ++ body)) (blen blocks) true) (blocks ++ ph_bytes h ++ body)
    = (Err er, Leave).
Proof.
  intros L HB HH F1 F2 NT blocks. destruct (refused_payload _ h body HH eq_refl NT) as (er & E). exists er.
  set (tail := ph_bytes h ++ body) in *. unfold parse_body.
  change (h_blocks_len (mkh (blen blocks + blen tail) (blen blocks) true)) with (blen blocks).
  change (h_payload (mkh (blen blocks + blen tail) (blen blocks) true)) with true.
  replace (blen (blocks ++ tail) <? blen blocks) with false by (rewrite blen_app; lia).
  rewrite to_nat_blen, firstn_app_exact, skipn_app_exact by reflexivity. fold (decoded_blocks P blocks).
  unfold blocks at 1. rewrite (decoded_ok P HP bs L HB). cbv iota beta. rewrite F1. cbn [negb].
  assert (PK : fst (ph_try_read_buf (of_slice tail)) = Ok (Success h)).
  { unfold ph_try_read_buf, of_slice, fill_buf. cbn [b_cur b_evs]. pose proof (ph_peek_rt h body HH) as Q. fold tail in Q.
    destruct tail; cbn [sbind fst]; exact Q. }
  rewrite PK.
  assert (K2 : skipn (length blocks + ph_size h) (blocks ++ tail) = body).
  { unfold tail. rewrite (app_assoc blocks). rewrite skipn_app_exact; [easy|]. now rewrite app_length, ph_bytes_length. }
  rewrite K2, F2. cbn [negb]. now rewrite E.
Qed.

(** What the reader has found when it says [o] and what becomes of the packet. *)
Definition held (rs : rules U) (e : bytes) (o : res (next U)) (f : fate) : Prop :=
  exists size bl flag body, e = layout_header size bl flag ++ body /\ blen body = size /\ size < two63 /\ bl < two64 /\
    parse_body P rs (mkh size bl flag) body = (o, f).

Lemma held_over rs p e : packet_enc P p e -> (255 < length (p_blocks p))%nat -> held rs e (Err EMaxBlocksCount) ClearOnly.
Proof.
  intros (tail & HB & HT & HL & ->) L. eexists _, _, _, _. split; [reflexivity|]. split; [apply blen_app|]. split; [exact HL|].
  split; [apply two63_64; lia|]. now apply parse_body_over.
Qed.

Lemma held_refused rs bs body e : NoDup (map id_of rs) -> payload_refused P bs body e ->
  (forall f, In (RFilterByBlocks f) rs -> f bs = true) -> (forall f, In (RFilterByPayload f) rs -> f body = true) ->
  exists er, held rs e (Err er) Leave.
Proof.
  intros ND (sig & crc & len & L & HB & C1 & C2 & LN & NT & HL & ->) F1 F2. set (h := mk_pheader sig crc len).
  assert (EL : payload_header_layout sig crc len = ph_bytes h) by (now rewrite ph_bytes_layout). rewrite EL in *.
  destruct (parse_body_refused rs bs h body L HB) as (er & E); auto.
  - now repeat split.
  - destruct (has IdFilterByBlocks rs) eqn:E.
    + apply has_in in E as (x & I & E). destruct x; try discriminate. rewrite (filter_by_blocks_some rs f) by easy. now apply F1.
    + apply filter_by_blocks_none. intros f I. assert (Q : has IdFilterByBlocks rs = true) by (apply has_in; eauto). congruence.
  - destruct (has IdFilterByPayload rs) eqn:E.
    + apply has_in in E as (x & I & E). destruct x; try discriminate. rewrite (filter_by_payload_some rs f) by easy. now apply F2.
    + apply filter_by_payload_none. intros f I. assert (Q : has IdFilterByPayload rs = true) by (apply has_in; eauto). congruence.
  - exists er. eexists _, _, _, _. split; [reflexivity|]. split; [apply blen_app|]. split; [exact HL|]. split; [apply two63_64; lia|]. exact E.
Qed.

(** ** A packet wholly in the buffer *)
Lemma whole_step rs g size bl flag body more evs o f b l :
  parse_body P rs (mkh size bl flag) body = (o, f) -> blen body = size -> bl < two64 ->
  clean g (layout_header size bl flag ++ body) ->
  let c := g ++ layout_header size bl flag ++ body ++ more in blen c < two63 ->
  pr_read P (mk_preader (mk_bufsrc c evs) rs HEmpty b l) =
  (o, mk_preader (mk_bufsrc (match f with Drop => more | _ => c end) evs) rs HEmpty []
        (logs rs (noted (0 <? length g)%nat g) l)).
Proof.
  intros EP EB BL C c LC. unfold pr_read. cbn [r_state]. unfold resolve_empty, pr_fill. cbn [set_buffered set_state set_src r_src r_rules r_state r_log].
  assert (LL : length c = (length g + 29 + length body + length more)%nat).
  { unfold c. rewrite !app_length, layout_length. lia. }
  assert (NE : exists x c', c = x :: c') by (destruct c; [cbn [length] in LL; lia|eauto]).
  assert (FB : fill_buf (mk_bufsrc c evs) = (Ok c, mk_bufsrc c evs)).
  { destruct NE as (x & c' & Q). rewrite Q. reflexivity. }
  rewrite FB. cbn [sbind]. destruct NE as (x & c' & Q). rewrite Q. cbv iota. rewrite <- Q.
  replace (length c <? hdr_size)%nat with false by (unfold hdr_size; lia).
  assert (SZ : size < two63). { unfold blen in *. lia. }
  destruct (header_item c [] g (layout_header size bl flag ++ body) more size bl flag body C eq_refl SZ BL) as [(L1 & E)|[(L1 & E)|(L1 & E)]].
  { rewrite app_nil_r. unfold c. now rewrite <- !app_assoc. } 2,3: lia.
  rewrite E. cbn [sbind]. change (h_size (mkh size bl flag)) with size.
  replace (two64 <=? size + N.of_nat (length g + 29)) with false.
  2: { unfold blen in *. change two64 with (2 * two63). lia. }
  replace (blen c <? size + N.of_nat (length g + 29)) with false by (unfold blen in *; lia).
  assert (SB : firstn (N.to_nat size) (skipn (length g + 29) c) = body).
  { unfold c. rewrite (app_assoc g), skipn_app_exact by (rewrite app_length, layout_length; lia).
    apply firstn_app_exact. unfold blen in EB. lia. }
  rewrite SB. unfold finish.
  set (r1 := note _ _ _). assert (ER : r_rules r1 = rs) by (unfold r1, note; destruct (_ <? _)%nat; reflexivity).
  rewrite ER, EP. f_equal.
  assert (E1 : r_src r1 = mk_bufsrc c evs /\ r_state r1 = HEmpty /\ r_buffered r1 = [] /\ r_log r1 = logs rs (noted (0 <? length g)%nat g) l).
  { unfold r1, note, noted. assert (FG : firstn (length g) c = g) by (unfold c; now apply firstn_app_exact). rewrite FG.
    destruct (0 <? length g)%nat; repeat split. }
  destruct E1 as (S1 & S2 & S3 & S4). destruct f.
  - rewrite S1, S2, S4. f_equal. unfold consume. cbn [b_cur b_evs]. f_equal. unfold c.
    rewrite (app_assoc g), (app_assoc (g ++ _)). apply skipn_app_exact. rewrite !app_length, layout_length. unfold blen in EB. lia.
  - now rewrite S1, S2, S4.
  - clearbody r1. destruct r1 as [r1 r2 r3 r4 r5]. cbn [r_src r_rules r_state r_buffered r_log] in *. now subst.
Qed.

Lemma fresh_buffered rs c evs : c <> [] -> pr_read P (fresh rs (Chunk c :: evs)) = pr_read P (mk_preader (mk_bufsrc c evs) rs HEmpty [] []).
Proof. intros N. destruct c as [|x c]; [easy|]. reflexivity. Qed.

Lemma whole_stuck rs g size bl flag body more evs o f :
  parse_body P rs (mkh size bl flag) body = (o, f) -> f <> Drop -> blen body = size -> bl < two64 ->
  clean g (layout_header size bl flag ++ body) ->
  let c := g ++ layout_header size bl flag ++ body ++ more in blen c < two63 ->
  forall n, fst (pr_reads P n (fresh rs (Chunk c :: evs))) = repeat o n /\
    r_log (snd (pr_reads P n (fresh rs (Chunk c :: evs)))) = logs rs (concat (repeat (noted (0 <? length g)%nat g) n)) [].
Proof.
  intros EP ND EB BL C c LC.
  assert (ST : forall b l, pr_read P (mk_preader (mk_bufsrc c evs) rs HEmpty b l)
    = (o, mk_preader (mk_bufsrc c evs) rs HEmpty [] (logs rs (noted (0 <? length g)%nat g) l))).
  { intros b l. pose proof (whole_step rs g size bl flag body more evs o f b l EP EB BL C LC) as Q. fold c in Q. destruct f; [easy|exact Q|exact Q]. }
  assert (G : forall n b l, fst (pr_reads P n (mk_preader (mk_bufsrc c evs) rs HEmpty b l)) = repeat o n /\
     r_log (snd (pr_reads P n (mk_preader (mk_bufsrc c evs) rs HEmpty b l))) = logs rs (concat (repeat (noted (0 <? length g)%nat g) n)) l).
  { induction n as [|n IH]; intros b l; [split; reflexivity|]. cbn [pr_reads repeat concat]. rewrite ST.
    destruct (IH [] (logs rs (noted (0 <? length g)%nat g) l)) as (A & B).
    destruct (pr_reads P n _) as [os r]. cbn [fst snd] in *. rewrite A, B, logs_app. split; reflexivity. }
  intros [|n]; [split; reflexivity|]. cbn [pr_reads]. rewrite fresh_buffered.
  2: { unfold c. intros Q. apply (f_equal (@length byte)) in Q. rewrite !app_length, layout_length in Q. cbn [length] in Q. lia. }
  pose proof (G (S n) [] []) as Q. cbn [pr_reads] in Q. exact Q.
Qed.

Local Ltac rcbn := unfold set_src, set_buffered, set_state; cbn [r_src r_rules r_state r_log r_buffered].
(** ** A packet that comes in pieces *)
Lemma empty_buffered r b : r_state r = HEmpty -> pr_read P (set_buffered b r) = pr_read P r.
Proof. intros E. unfold pr_read. destruct r as [r1 r2 r3 r4 r5]. cbn [set_buffered r_state] in *. subst. reflexivity. Qed.

Lemma ready_chunks rs h log evs : forall cs buffered c more,
  Forall (fun x => x <> []) cs -> c <> [] -> blen buffered + blen (concat cs) + blen c = h_size h ->
  exists ns b,
  pr_reads P (length cs + 1) (mk_preader (mk_bufsrc [] (map Chunk cs ++ Chunk (c ++ more) :: evs)) rs (HReady h) buffered log)
  = (map (fun n => Ok (NNotEnough n)) ns ++ [fst (parse_body P rs h (buffered ++ concat cs ++ c))],
     mk_preader (mk_bufsrc more evs) rs HEmpty b log) /\ length ns = length cs.
Proof.
  induction cs as [|x cs IH]; intros buffered c more FC NC SZ.
  - cbn [length Nat.add map app concat pr_reads] in *. unfold pr_read. cbn [r_state]. unfold resolve_ready, pr_fill.
    rcbn.
    assert (FB : fill_buf (mk_bufsrc [] (Chunk (c ++ more) :: evs)) = (Ok (c ++ more), mk_bufsrc (c ++ more) evs)) by reflexivity.
    rewrite FB. cbn [sbind]. rcbn.
    change (blen []) with 0 in SZ. rewrite blen_app.
    replace (blen buffered + (blen c + blen more) <? h_size h) with false by lia.
    replace (h_size h <? blen buffered) with false by lia.
    assert (RE : (N.to_nat (h_size h) - length buffered = length c)%nat) by (unfold blen in SZ; lia).
    cbv zeta. unfold finish, eat. rcbn. rewrite RE.
    rewrite firstn_app_exact by reflexivity.
    exists [], (match snd (parse_body P rs h (buffered ++ c)) with Leave => buffered ++ c | _ => [] end). split; [|reflexivity].
    cbn [map app]. unfold consume. cbn [b_cur b_evs]. rewrite skipn_app_exact by reflexivity.
    destruct (parse_body P rs h (buffered ++ c)) as [o f]. cbn [fst snd]. destruct f; reflexivity.
  - inversion FC as [|? ? NX FC']; subst. cbn [length Nat.add map app concat pr_reads] in *. rewrite blen_app in SZ.
    unfold pr_read. cbn [r_state]. unfold resolve_ready, pr_fill.
    rcbn.
    assert (FB : fill_buf (mk_bufsrc [] (Chunk x :: map Chunk cs ++ Chunk (c ++ more) :: evs)) = (Ok x, mk_bufsrc x (map Chunk cs ++ Chunk (c ++ more) :: evs))) by reflexivity.
    rewrite FB. cbn [sbind]. rcbn.
    assert (PC : 0 < blen c) by (destruct c; [easy|unfold blen; cbn [length]; lia]).
    replace (blen buffered + blen x <? h_size h) with true by lia.
    unfold eat. rcbn. unfold consume. cbn [b_cur b_evs].
    rewrite skipn_all. destruct (IH (buffered ++ x) c more FC' NC) as (ns & b & E & L). { rewrite blen_app. lia. }
    rewrite E. exists (h_size h - (blen buffered + blen x) :: ns), b. split; [|cbn [length]; now rewrite L].
    cbn [map app]. now rewrite <- !app_assoc.
Qed.

(** The first piece [a] has the header and not all of the packet; then the packet goes on in pieces and ends in the last. *)
Lemma pieces_run rs size bl flag body a cs c more evs :
  blen body = size -> size < two63 -> bl < two64 -> a ++ concat cs ++ c = layout_header size bl flag ++ body -> (29 <= length a)%nat ->
  Forall (fun x => x <> []) cs -> c <> [] ->
  exists ns b,
  pr_reads P (length cs + 2) (fresh rs (Chunk a :: map Chunk cs ++ Chunk (c ++ more) :: evs))
  = (map (fun n => Ok (NNotEnough n)) ns ++ [fst (parse_body P rs (mkh size bl flag) body)],
     mk_preader (mk_bufsrc more evs) rs HEmpty b []) /\ length ns = (length cs + 1)%nat.
Proof.
  intros EB SZ BL EE LA FC NC.
  replace (length cs + 2)%nat with (S (length cs + 1)) by lia. cbn [pr_reads]. rewrite fresh_buffered by (destruct a; [cbn [length] in LA; lia|easy]).
  set (evs2 := map Chunk cs ++ Chunk (c ++ more) :: evs).
  assert (EA : a = layout_header size bl flag ++ skipn 29 a).
  { rewrite <- (firstn_skipn 29 a) at 1. f_equal. apply (f_equal (firstn 29)) in EE.
    rewrite firstn_app_le in EE by exact LA. rewrite EE. apply firstn_app_exact. now rewrite layout_length. }
  set (a2 := skipn 29 a) in *. rewrite EA, <- app_assoc in EE. apply app_inv_head in EE.
  assert (LT : blen a2 + blen (concat cs) + blen c = size) by (rewrite <- EB, <- EE, !blen_app; lia).
  assert (PC : 0 < blen c) by (destruct c; [easy|unfold blen; cbn [length]; lia]).
  assert (S1 : pr_read P (mk_preader (mk_bufsrc a evs2) rs HEmpty [] []) =
     (Ok (NNotEnough (size + 29 - blen a)), mk_preader (mk_bufsrc [] evs2) rs (HReady (mkh size bl flag)) a2 [])).
  { unfold pr_read. cbn [r_state]. unfold resolve_empty, pr_fill. rcbn.
    assert (NE : exists x c', a = x :: c') by (destruct a; [cbn [length] in LA; lia|eauto]). destruct NE as (x & c' & Q).
    assert (FB : fill_buf (mk_bufsrc a evs2) = (Ok a, mk_bufsrc a evs2)) by (rewrite Q; reflexivity).
    rewrite FB. cbn [sbind]. rewrite Q. cbv iota. rewrite <- Q.
    replace (length a <? hdr_size)%nat with false by (unfold hdr_size; lia).
    assert (RH : read_header a = Ok (FFound (mkh size bl flag) 0 29)).
    { destruct (header_item a (concat cs ++ c) [] (layout_header size bl flag ++ body) [] size bl flag body (clean_nil _) eq_refl SZ BL)
        as [(L1 & E)|[(L1 & E)|(L1 & E)]]; [|exact E|cbn [length] in L1; lia|cbn [length] in L1; lia].
      cbn [app]. rewrite app_nil_r. rewrite EA at 1. rewrite <- app_assoc. now rewrite EE. }
    rewrite RH. cbn [sbind]. change (h_size (mkh size bl flag)) with size. unfold note. cbn [Nat.ltb Nat.leb].
    replace (two64 <=? size + N.of_nat 29) with false by (change two64 with (2 * two63); change two63 with 9223372036854775808 in *; lia).
    assert (LAA : blen a = 29 + blen a2) by (rewrite EA at 1; rewrite blen_app; unfold blen at 1; rewrite layout_length; lia).
    replace (blen a <? size + N.of_nat 29) with true by lia. fold a2.
    unfold eat. rcbn. unfold consume. cbn [b_cur b_evs].
    rewrite skipn_all. do 3 f_equal. }
  rewrite S1. destruct (ready_chunks rs (mkh size bl flag) [] evs cs a2 c more FC NC LT) as (ns & b & E & L).
  unfold evs2. rewrite E. exists (size + 29 - blen a :: ns), b. split; [|cbn [length]; lia]. cbn [map app]. now rewrite EE.
Qed.

(** Afterwards the reader goes on as if the packet had not been there. *)
Lemma pieces_then rs size bl flag body a cs c more evs :
  blen body = size -> size < two63 -> bl < two64 -> a ++ concat cs ++ c = layout_header size bl flag ++ body -> (29 <= length a)%nat ->
  Forall (fun x => x <> []) cs -> c <> [] ->
  exists ns, length ns = (length cs + 1)%nat /\ forall n,
    let (os, r) := pr_reads P (S n) (mk_preader (mk_bufsrc more evs) rs HEmpty [] []) in
    pr_reads P (length cs + 2 + S n) (fresh rs (Chunk a :: map Chunk cs ++ Chunk (c ++ more) :: evs))
    = (map (fun n => Ok (NNotEnough n)) ns ++ fst (parse_body P rs (mkh size bl flag) body) :: os, r).
Proof.
  intros EB SZ BL EE LA FC NC. destruct (pieces_run rs size bl flag body a cs c more evs EB SZ BL EE LA FC NC) as (ns & b & E & L).
  exists ns. split; [exact L|]. intros n. rewrite reads_app, E. cbn [pr_reads].
  rewrite <- (empty_buffered (mk_preader (mk_bufsrc more evs) rs HEmpty [] []) b eq_refl). rcbn.
  destruct (pr_read P _) as [o r]. destruct (pr_reads P n r) as [os r2]. now rewrite <- app_assoc.
Qed.

Lemma held_stuck rs g e more evs o f : held rs e o f -> f <> Drop -> no_signature g e -> blen (g ++ e ++ more) < two63 ->
  forall n, let r := pr_reads P n (fresh rs (Chunk (g ++ e ++ more) :: evs)) in
    fst r = repeat o n /\ r_log (snd r) = logs rs (concat (repeat (noted (0 <? length g)%nat g) n)) [].
Proof.
  intros (size & bl & flag & body & -> & EB & SZ & BL & EP) ND C LC n. apply clean_spec in C.
  rewrite <- app_assoc in *. exact (whole_stuck rs g size bl flag body more evs o f EP ND EB BL C LC n).
Qed.

Lemma held_pieces rs e o f a cs c more evs : held rs e o f -> a ++ concat cs ++ c = e -> (29 <= length a)%nat ->
  Forall (fun x => x <> []) cs -> c <> [] ->
  exists ns, length ns = (length cs + 1)%nat /\ forall n,
    let (os, r) := pr_reads P (S n) (mk_preader (mk_bufsrc more evs) rs HEmpty [] []) in
    pr_reads P (length cs + 2 + S n) (fresh rs (Chunk a :: map Chunk cs ++ Chunk (c ++ more) :: evs))
    = (map (fun n => Ok (NNotEnough n)) ns ++ o :: os, r).
Proof.
  intros (size & bl & flag & body & -> & EB & SZ & BL & EP) EE LA FC NC.
  destruct (pieces_then rs size bl flag body a cs c more evs EB SZ BL EE LA FC NC) as (ns & L & E). exists ns. split; [exact L|].
  intros n. specialize (E n). rewrite EP in E. exact E.
Qed.

Lemma logs_repeat (rs : rules U) g n : NoDup (map id_of rs) ->
  (forall t, In (RIgnored t) rs -> logs rs (concat (repeat (noted (0 <? length g)%nat g) n)) [] = match g with [] => [] | _ => repeat (t, g) n end) /\
  ((forall t, ~ In (RIgnored t) rs) -> logs rs (concat (repeat (noted (0 <? length g)%nat g) n)) [] = []).
Proof.
  intros ND. split.
  - intros t I. rewrite (logs_some rs t) by assumption. cbn [app]. destruct g as [|x g].
    + unfold noted. cbn [length Nat.ltb Nat.leb]. induction n as [|n IH]; [reflexivity|exact IH].
    + unfold noted. cbn [length Nat.ltb Nat.leb]. induction n as [|n IH]; [reflexivity|]. cbn [repeat concat map app]. now rewrite IH.
  - intros NI. now apply logs_none.
Qed.

(** ** A header with a wrong checksum *)
Lemma header_wrong g e w : clean g e -> wrong_header e -> read_header (g ++ e ++ w) = Err ECrcDismatch /\ length e = 29%nat.
Proof.
  intros C (sz & bl & fl & crc & -> & L1 & L2 & L3 & NE). change (map n2b [236; 37; 94; 136; 236; 37; 94; 136]) with packet_sig in *.
  set (e := packet_sig ++ sz ++ bl ++ [fl] ++ crc) in *.
  assert (LE : length e = 29%nat).
  { unfold e. rewrite !app_length. change (length packet_sig) with 8%nat. cbn [length]. lia. }
  split; [|exact LE]. unfold read_header, get_pos. rewrite (get_pos_go_some (length g)).
  - cbn [Nat.add]. rewrite skipn_app_exact by reflexivity. rewrite app_length.
    replace (length e + length w <? hdr_size)%nat with false by (unfold hdr_size; lia).
    unfold e. rewrite <- !app_assoc. rewrite (hdr_slice_spec packet_sig sz bl [fl] crc w) by (reflexivity || assumption).
    rewrite bytes_eqb_refl. destruct (hdr_parse sz bl [fl] crc) as [h|er|x] eqn:E; cbn [rbind].
    + exfalso. destruct (hdr_parse_inv sz bl [fl] crc h L1 L2 eq_refl L3 E) as (_ & Q & _). cbn [first_byte] in Q. apply NE. rewrite Q.
      now destruct (b2n fl =? 1).
    + unfold hdr_parse in E. destruct (bytes_eqb _ _); [discriminate|]. now inversion E.
    + unfold hdr_parse in E. destruct (bytes_eqb _ _); discriminate.
  - rewrite !app_length. lia.
  - rewrite skipn_app_exact by reflexivity. unfold e. rewrite <- !app_assoc. apply starts_with_self.
  - intros o L. rewrite app_assoc, skipn_app. rewrite starts_with_prefix; [now apply C|].
    rewrite skipn_length, app_length. change (length packet_sig) with 8%nat. lia.
Qed.

Lemma header_stuck rs g e w evs : clean g e -> wrong_header e ->
  forall n, fst (pr_reads P n (fresh rs (Chunk (g ++ e ++ w) :: evs))) = repeat (Err ECrcDismatch) n /\
    r_log (snd (pr_reads P n (fresh rs (Chunk (g ++ e ++ w) :: evs)))) = [].
Proof.
  intros C W. destruct (header_wrong g e w C W) as (RH & LE). set (c := g ++ e ++ w) in *.
  assert (LC : (29 <= length c)%nat) by (unfold c; rewrite !app_length; lia).
  set (r1 := mk_preader (mk_bufsrc c evs) rs HEmpty [] []).
  assert (S1 : pr_read P r1 = (Err ECrcDismatch, r1)).
  { unfold r1, pr_read. cbn [r_state]. unfold resolve_empty, pr_fill. rcbn.
    assert (NE : exists x c', c = x :: c') by (destruct c; [cbn [length] in LC; lia|eauto]). destruct NE as (x & c' & Q).
    assert (FB : fill_buf (mk_bufsrc c evs) = (Ok c, mk_bufsrc c evs)) by (rewrite Q; reflexivity).
    rewrite FB. cbn [sbind]. rewrite Q. cbv iota. rewrite <- Q.
    replace (length c <? hdr_size)%nat with false by (unfold hdr_size; lia). rewrite RH. reflexivity. }
  assert (F : pr_read P (fresh rs (Chunk c :: evs)) = (Err ECrcDismatch, r1)).
  { rewrite fresh_buffered; [exact S1|]. destruct c; [cbn [length] in LC; lia|easy]. }
  intros [|n]; [split; reflexivity|]. cbn [pr_reads]. rewrite F, (stuck_forever P r1 _ S1). split; reflexivity.
Qed.

Lemma refill_chunks rs evs : forall cs buf, Forall (fun x => x <> []) cs -> (length buf + length (concat cs) < 29)%nat ->
  exists ns, pr_reads P (length cs) (mk_preader (mk_bufsrc [] (map Chunk cs ++ evs)) rs (HRefill buf (29 - length buf)) [] [])
  = (map (fun n => Ok (NNotEnough n)) ns,
     mk_preader (mk_bufsrc [] evs) rs (HRefill (buf ++ concat cs) (29 - length (buf ++ concat cs))) [] []) /\ length ns = length cs.
Proof.
  induction cs as [|x cs IH]; intros buf FC LL.
  { exists []. cbn [map concat app length pr_reads]. now rewrite app_nil_r. }
  inversion FC as [|? ? NX FC']; subst. cbn [length map app concat pr_reads] in *. rewrite app_length in LL.
  unfold pr_read. cbn [r_state]. unfold resolve_refill, pr_fill. rcbn.
  assert (FB : fill_buf (mk_bufsrc [] (Chunk x :: map Chunk cs ++ evs)) = (Ok x, mk_bufsrc x (map Chunk cs ++ evs))) by reflexivity.
  rewrite FB. cbn [sbind]. destruct x as [|y x]; [easy|]. set (z := y :: x) in *.
  assert (LZ : (0 < length z)%nat) by (unfold z; cbn [length]; lia).
  replace (length z <? 29 - length buf)%nat with true by lia.
  unfold eat. rcbn. unfold consume. cbn [b_cur b_evs]. rewrite skipn_all.
  destruct (IH (buf ++ z) FC' ltac:(rewrite app_length; lia)) as (ns & E & L).
  replace (29 - length buf - length z)%nat with (29 - length (buf ++ z))%nat by (rewrite app_length; lia). rewrite E.
  exists (N.of_nat (29 - length (buf ++ z)) :: ns). rewrite <- app_assoc. split; [reflexivity|cbn [length]; now rewrite L].
Qed.

Lemma header_pieces rs a cs b w evs : a <> [] -> Forall (fun x => x <> []) cs -> b <> [] -> wrong_header (a ++ concat cs ++ b) ->
  exists ns, length ns = (length cs + 1)%nat /\ forall n,
    let (os, r) := pr_reads P n (mk_preader (mk_bufsrc (b ++ w) evs) rs HEmpty [] []) in
    pr_reads P (length cs + 2 + n) (fresh rs (Chunk a :: map Chunk cs ++ Chunk (b ++ w) :: evs))
    = (map (fun n => Ok (NNotEnough n)) ns ++ Err ECrcDismatch :: os, r).
Proof.
  intros NA FC NB W. set (e := a ++ concat cs ++ b) in *.
  destruct (header_wrong [] e [] (clean_nil _) W) as (RH & LE). cbn [app] in RH. rewrite app_nil_r in RH.
  assert (LL : (length a + length (concat cs) + length b = 29)%nat) by (rewrite <- LE; unfold e; rewrite !app_length; lia).
  assert (LB : (0 < length b)%nat) by (destruct b; [easy|cbn [length]; lia]).
  set (evs2 := Chunk (b ++ w) :: evs).
  assert (S1 : pr_read P (fresh rs (Chunk a :: map Chunk cs ++ evs2)) =
    (Ok (NNotEnough (N.of_nat (29 - length a))), mk_preader (mk_bufsrc [] (map Chunk cs ++ evs2)) rs (HRefill a (29 - length a)) [] [])).
  { rewrite fresh_buffered by exact NA. unfold pr_read. cbn [r_state]. unfold resolve_empty, pr_fill. rcbn.
    destruct a as [|y a']; [easy|]. set (z := y :: a') in *.
    assert (FB : fill_buf (mk_bufsrc z (map Chunk cs ++ evs2)) = (Ok z, mk_bufsrc z (map Chunk cs ++ evs2))) by reflexivity.
    rewrite FB. cbn [sbind]. unfold z at 1. cbv iota.
    replace (length z <? hdr_size)%nat with true by (unfold hdr_size; lia). unfold eat. rcbn. unfold consume. cbn [b_cur b_evs].
    now rewrite skipn_all. }
  destruct (refill_chunks rs evs2 cs a FC ltac:(lia)) as (ns & E2 & L2).
  assert (S3 : pr_read P (mk_preader (mk_bufsrc [] evs2) rs (HRefill (a ++ concat cs) (29 - length (a ++ concat cs))) [] [])
    = (Err ECrcDismatch, mk_preader (mk_bufsrc (b ++ w) evs) rs HEmpty [] [])).
  { unfold pr_read. cbn [r_state]. unfold resolve_refill, pr_fill. rcbn.
    assert (FB : fill_buf (mk_bufsrc [] evs2) = (Ok (b ++ w), mk_bufsrc (b ++ w) evs)) by reflexivity. rewrite FB. cbn [sbind].
    assert (RE : (29 - length (a ++ concat cs) = length b)%nat) by (rewrite app_length; lia). rewrite RE.
    rewrite firstn_app_exact by reflexivity. rewrite app_length.
    replace (length b + length w <? length b)%nat with false by lia.
    replace ((a ++ concat cs) ++ b) with e by (unfold e; now rewrite app_assoc). rewrite RH.
    destruct b as [|y b]; [easy|]. reflexivity. }
  exists (N.of_nat (29 - length a) :: ns). split; [cbn [length]; lia|]. intros n.
  destruct (pr_reads P n (mk_preader (mk_bufsrc (b ++ w) evs) rs HEmpty [] [])) as [os r] eqn:EN.
  replace (length cs + 2 + n)%nat with (S (length cs + S n)) by lia. cbn [pr_reads]. rewrite S1, reads_app, E2. cbn [pr_reads].
  rewrite S3, EN. reflexivity.
Qed.
End Over.
