(** * Lemmas behind C74: what a buffered source shows at each place of a packet *)
From Coq Require Import ZifyBool ZifyNat ZifyN.
From Verif Require Import Base Crc32 Io Block Payload Packet Rules Spec BaseProofs CrcProofs BlockProofs
  DispatchProofs PayloadProofs PayloadEnumProofs PacketProofs PacketSafeProofs WireProofs.
Ltac Zify.zify_post_hook ::= Z.div_mod_to_equations.
Open Scope list_scope.

Lemma to_end_shift l : forall o d k, to_end (ends_of (o + d) l) (k + d) = to_end (ends_of o l) k.
Proof.
  induction l as [|x l IH]; intros o d k; cbn [ends_of to_end]; [reflexivity|].
  replace (o + d + blen x) with (o + blen x + d) by lia. rewrite IH.
  replace (k + d <? o + blen x + d) with (k <? o + blen x) by lia. destruct (k <? o + blen x); [lia|reflexivity].
Qed.

(** [s'] is [s] with [a] taken. *)
Definition taken (s : bufsrc) (a : bytes) (s' : bufsrc) : Prop :=
  b_ok s' /\ b_view s = a ++ b_view s' /\ forall k, shown s' k = shown s (blen a + k).

Lemma taken_nil s : b_ok s -> taken s [] s.
Proof. intros H. split; [exact H|]. split; [reflexivity|]. intros k. f_equal. Qed.

Lemma taken_trans s a s1 b s2 : taken s a s1 -> taken s1 b s2 -> taken s (a ++ b) s2.
Proof.
  intros (H1 & V1 & S1) (H2 & V2 & S2). split; [exact H2|]. split; [now rewrite V1, V2, app_assoc|].
  intros k. rewrite S2, S1, blen_app. f_equal. lia.
Qed.

Lemma taken_cur a cur evs : Forall ev_ok evs -> taken (mk_bufsrc (a ++ cur) evs) a (mk_bufsrc cur evs).
Proof.
  intros H. split; [exact H|]. split; [unfold b_view; cbn [b_cur b_evs]; now rewrite app_assoc|].
  intros k. unfold shown. cbn [b_cur b_evs ends_of to_end]. rewrite blen_app, !N.add_0_l.
  replace (blen a + k <? blen a + blen cur) with (k <? blen cur) by lia. destruct (k <? blen cur); [lia|].
  rewrite (N.add_comm (blen a) k), (N.add_comm (blen a) (blen cur)). now rewrite to_end_shift.
Qed.

Lemma taken_next bs evs : ev_ok (Chunk bs) -> Forall ev_ok evs -> taken (mk_bufsrc [] (Chunk bs :: evs)) [] (mk_bufsrc bs evs).
Proof.
  intros H F. split; [exact F|]. split; [reflexivity|]. intros k. unfold shown. cbn [b_cur b_evs map ev_bytes ends_of to_end].
  change (blen []) with 0. rewrite !N.add_0_l. replace (k <? 0) with false by lia. reflexivity.
Qed.

Lemma taken_go evs : forall cur n acc a b, Forall ev_ok evs -> cur ++ concat (map ev_bytes evs) = a ++ b -> blen a = n ->
  exists s', buf_read_exact_go evs cur n acc = (Ok (acc ++ a), s') /\ taken (mk_bufsrc cur evs) a s' /\ b_view s' = b.
Proof.
  induction evs as [|e evs IH]; intros cur n acc a b F V L.
  - cbn [map concat] in V. rewrite app_nil_r in V. subst cur. cbn [buf_read_exact_go].
    replace (n <=? blen (a ++ b)) with true by (rewrite blen_app; lia).
    subst n. rewrite to_nat_blen, firstn_app_exact, skipn_app_exact by easy. eexists. split; [reflexivity|].
    split; [now apply taken_cur|]. unfold b_view. cbn. apply app_nil_r.
  - destruct (N.le_gt_cases n (blen cur)) as [C|C].
    + assert (exists c2, cur = a ++ c2 /\ b = c2 ++ concat (map ev_bytes (e :: evs))) as (c2 & -> & ->).
      { exists (skipn (length a) cur). assert (firstn (length a) cur = a) as Q.
        { transitivity (firstn (length a) (a ++ b)); [|now rewrite firstn_app_exact].
          rewrite <- V, firstn_app. replace (length a - length cur)%nat with 0%nat by (unfold blen in *; lia). cbn. now rewrite app_nil_r. }
        split; [rewrite <- Q at 1; now rewrite firstn_skipn|].
        transitivity (skipn (length a) (a ++ b)); [now rewrite skipn_app_exact|]. rewrite <- V, skipn_app.
        now replace (length a - length cur)%nat with 0%nat by (unfold blen in *; lia). }
      cbn [buf_read_exact_go]. replace (n <=? blen (a ++ c2)) with true by lia.
      subst n. rewrite to_nat_blen, firstn_app_exact, skipn_app_exact by easy. eexists. split; [reflexivity|].
      split; [now apply taken_cur|reflexivity].
    + cbn [buf_read_exact_go]. replace (n <=? blen cur) with false by lia. inversion F as [|? ? Fe Fr]; subst.
      destruct e as [[|x xs]|k]; try easy.
      assert (exists a2, a = cur ++ a2) as (a2 & ->).
      { exists (skipn (length cur) a). assert (firstn (length cur) a = cur) as Q.
        { transitivity (firstn (length cur) (a ++ b)); [|rewrite <- V; now rewrite firstn_app_exact].
          rewrite firstn_app. replace (length cur - length a)%nat with 0%nat by (unfold blen in *; lia). cbn. now rewrite app_nil_r. }
        rewrite <- Q at 1. now rewrite firstn_skipn. }
      rewrite <- app_assoc in V. apply app_inv_head in V.
      destruct (IH (x :: xs) (blen (cur ++ a2) - blen cur) (acc ++ cur) a2 b Fr V) as (s' & E & T & W); [rewrite blen_app; lia|].
      exists s'. rewrite E, app_assoc. split; [reflexivity|]. split; [|exact W].
      apply (taken_trans _ cur (mk_bufsrc (x :: xs) evs)); [|exact T].
      rewrite <- (app_nil_r cur) at 2. apply (taken_trans _ cur (mk_bufsrc [] (Chunk (x :: xs) :: evs))); [|now apply taken_next].
      rewrite <- (app_nil_r cur) at 1. now apply taken_cur.
Qed.

(** The states reached by taking bytes from [s0]. *)
Definition from (s0 s : bufsrc) : Prop := exists a, taken s0 a s.

Lemma from_lawful s0 : lawful buf_reader b_view (from s0).
Proof.
  split.
  - intros n s a b (pre & T) V L. pose proof T as (OK & _).
    destruct (taken_go (b_evs s) (b_cur s) n [] a b OK V L) as (s' & E & T' & W).
    exists s'. split; [exact E|]. split; [exact W|]. exists (pre ++ a). destruct s. exact (taken_trans _ _ _ _ _ T T').
  - intros n s (pre & (OK & _)) L. exact (lw_short _ _ _ buf_lawful n s OK L).
Qed.

Lemma from_taken s0 a s : taken s0 a s -> from s0 s.
Proof. intros T. now exists a. Qed.

(** A state is known by what is left. *)
Lemma from_at s0 s pre : from s0 s -> b_view s0 = pre ++ b_view s -> taken s0 pre s.
Proof. intros (a & T) V. pose proof T as (_ & V' & _). rewrite V in V'. apply app_inv_tail in V'. now subst. Qed.

Lemma fill_shown s : b_ok s -> b_view s <> [] -> exists buf s1, fill_buf s = (Ok buf, s1) /\ taken s [] s1 /\ b_cur s1 = buf /\
  blen buf = shown s 0 /\ buf <> [] /\ fill_buf s1 = (Ok buf, s1).
Proof.
  intros H NE. destruct s as [[|x cur] evs]; unfold fill_buf; cbn [b_cur b_evs].
  - destruct evs as [|e evs]; [elim NE; reflexivity|]. inversion H as [|? ? He Hr]; cbn [b_evs] in *; subst.
    destruct e as [[|x xs]|k]; try easy. exists (x :: xs), (mk_bufsrc (x :: xs) evs). split; [reflexivity|].
    split; [now apply taken_next|]. split; [reflexivity|]. split; [|split; [discriminate|reflexivity]].
    unfold shown. cbn [b_cur b_evs map ev_bytes ends_of to_end]. change (blen []) with 0. rewrite !N.add_0_l. cbn [N.ltb N.compare].
    replace (0 <? blen (x :: xs)) with true by (unfold blen; cbn [length]; lia). lia.
  - exists (x :: cur), (mk_bufsrc (x :: cur) evs). split; [reflexivity|]. split; [now apply taken_nil|]. split; [reflexivity|].
    split; [|split; [discriminate|reflexivity]].
    unfold shown. cbn [b_cur b_evs map ev_bytes ends_of to_end]. rewrite N.add_0_l.
    replace (0 <? blen (x :: cur)) with true by (unfold blen; cbn [length]; lia). lia.
Qed.

Lemma view_cur s : b_view s = b_cur s ++ concat (map ev_bytes (b_evs s)).
Proof. reflexivity. Qed.

(** Taking bytes that are shown. *)
Lemma consume_shown s a rest : b_ok s -> b_view s = a ++ rest -> blen a <= blen (b_cur s) ->
  taken s a (consume (length a) s) /\ b_view (consume (length a) s) = rest.
Proof.
  intros H V L. destruct s as [cur evs]. cbn [b_cur] in L. unfold b_view in V. cbn [b_cur b_evs] in V.
  assert (exists c2, cur = a ++ c2) as (c2 & ->).
  { exists (skipn (length a) cur). assert (firstn (length a) cur = a) as Q.
    { transitivity (firstn (length a) (a ++ rest)); [|now rewrite firstn_app_exact].
      rewrite <- V, firstn_app. replace (length a - length cur)%nat with 0%nat by (unfold blen in *; lia). cbn. now rewrite app_nil_r. }
    rewrite <- Q at 1. now rewrite firstn_skipn. }
  unfold consume. cbn [b_cur b_evs]. rewrite skipn_app_exact by reflexivity. split; [now apply taken_cur|].
  rewrite <- app_assoc in V. now apply app_inv_head in V.
Qed.

(** ** One block *)
Section Block.
Variables (scs : list schema) (ND : NoDup (map blk_sig scs)).

Lemma short_block s b rest : block_ok scs b -> b_ok s -> b_view s = bk_encode b ++ rest -> shown s 0 < 4 ->
  exists s', bk_try_read_buf scs s = (Ok (NotEnough (4 - shown s 0)), s') /\ taken s [] s'.
Proof.
  intros HB O V SH. pose proof (bk_encode_pos _ _ HB) as PL.
  destruct (fill_shown s O) as (buf & s1 & F & T & C & LB & NE & _).
  { rewrite V. destruct (bk_encode b); [cbn in PL; lia|discriminate]. }
  exists s1. split; [|exact T]. destruct HB as (IN & _). destruct scs as [|sc r]; [easy|].
  cbn [bk_try_read_buf]. unfold blk_try_read_buf. rewrite F. cbn [sbind].
  replace (length buf <? 4)%nat with true by (unfold blen in LB; lia). now rewrite LB.
Qed.

Lemma whole_block s b rest : block_ok scs b -> b_ok s -> b_view s = bk_encode b ++ rest -> 4 <= shown s 0 ->
  exists s', bk_try_read_buf scs s = (Ok (Success b), s') /\ taken s (bk_encode b) s' /\ b_view s' = rest.
Proof.
  intros HB O V SH. pose proof (bk_encode_pos _ _ HB) as PL. pose proof HB as (HI & HS & HV).
  destruct (fill_shown s O) as (buf & s1 & F & T & C & LB & NE & F1).
  { rewrite V. destruct (bk_encode b); [cbn in PL; lia|discriminate]. }
  assert (NS : scs <> []) by (intros ->; easy).
  rewrite (bk_buf_pick _ _ _ _ F) by (try easy; unfold blen in LB; lia).
  pose proof T as (O1 & V1 & _). cbn [app] in V1. rewrite V1 in V.
  unfold bk_encode, blk_encode in V. rewrite <- !app_assoc in V.
  assert (F4 : firstn 4 buf = blk_sig (bk_ty b)).
  { rewrite view_cur, C in V. apply (f_equal (firstn 4)) in V. rewrite firstn_app in V.
    replace (4 - length buf)%nat with 0%nat in V by (unfold blen in LB; lia). rewrite firstn_O, app_nil_r in V.
    rewrite V. apply firstn_app_exact. now rewrite blk_sig_length. }
  rewrite F4, pick_in by easy. unfold blk_try_read_buf. rewrite F1. cbn [sbind].
  replace (length buf <? 4)%nat with false by (unfold blen in LB; lia).
  rewrite starts_with_firstn, blk_sig_length, F4, bytes_eqb_refl. cbn [negb].
  destruct (consume_shown s1 (blk_sig (bk_ty b)) _ O1 V) as (T2 & V2).
  { rewrite C. unfold blen at 1. rewrite blk_sig_length. lia. }
  rewrite blk_sig_length in T2, V2.
  pose proof (blk_read_skip_spec (from_lawful s1) (bk_ty b) (consume 4 s1) _ _ _ (from_taken _ _ _ T2) V2 (fields_bytes_length _ _ HV) (blk_crc_length _ _)) as Q.
  rewrite (blk_parse_rt dec_stream) in Q by (easy || apply good_stream). destruct Q as (s2 & E & W & FR).
  rewrite E. cbn [sbind lift_st]. rewrite bk_eta. exists s2. split; [reflexivity|]. split; [|exact W].
  assert (T3 : taken s1 (bk_encode b) s2).
  { apply from_at; [exact FR|]. rewrite V, W. unfold bk_encode, blk_encode. now rewrite <- !app_assoc. }
  exact (taken_trans _ _ _ _ _ T T3).
Qed.

(** Some blocks, each of them shown when its turn comes. *)
Lemma some_blocks bs : forall fuel total rd acc s rest,
  Forall (block_ok scs) bs -> bs <> [] -> (length bs <= fuel)%nat ->
  rd + blen (concat (map bk_encode bs)) = total -> b_ok s -> b_view s = concat (map bk_encode bs) ++ rest ->
  (forall pre x post, bs = pre ++ x :: post -> 4 <= shown s (blen (concat (map bk_encode pre)))) ->
  exists s', blocks_loop_buf fuel scs total rd acc s = (Ok (Success (acc ++ bs)), s') /\
    taken s (concat (map bk_encode bs)) s' /\ b_view s' = rest.
Proof.
  induction bs as [|b bs IH]; intros fuel total rd acc s rest F NE LF HT O V SH; [easy|].
  inversion F as [|? ? Hb Hbs]; subst. destruct fuel as [|fuel]; [cbn [length] in LF; lia|].
  cbn [blocks_loop_buf map concat]. cbn [map concat] in V. rewrite <- app_assoc in V.
  destruct (whole_block s b _ Hb O V (SH [] b bs eq_refl)) as (s1 & E & T & V1). rewrite E. cbn [stbind].
  rewrite (bk_size_len _ _ Hb). rewrite !blen_app.
  destruct bs as [|b2 bs].
  - cbn [map concat]. rewrite blen_nil. replace (rd + blen (bk_encode b) =? rd + (blen (bk_encode b) + 0)) with true by lia.
    exists s1. split; [reflexivity|]. rewrite app_nil_r. split; [exact T|exact V1].
  - replace (rd + blen (bk_encode b) =? rd + (blen (bk_encode b) + blen (concat (map bk_encode (b2 :: bs))))) with false.
    2:{ cbn [map concat]. rewrite blen_app. inversion Hbs as [|? ? Hb2 ?]; subst. pose proof (bk_encode_pos _ _ Hb2). unfold blen. lia. }
    pose proof T as (O1 & _ & S1).
    destruct (IH fuel (rd + (blen (bk_encode b) + blen (concat (map bk_encode (b2 :: bs))))) (rd + blen (bk_encode b)) (acc ++ [b]) s1 rest Hbs) as (s' & E' & T' & V');
      [discriminate|cbn [length] in *; lia|lia|exact O1|exact V1| |].
    + intros pre x post EP. rewrite S1. replace (blen (bk_encode b) + blen (concat (map bk_encode pre))) with (blen (concat (map bk_encode (b :: pre)))) by (cbn [map concat]; now rewrite blen_app).
      apply (SH (b :: pre) x post). now rewrite EP.
    + exists s'. rewrite E', <- app_assoc. split; [reflexivity|]. split; [exact (taken_trans _ _ _ _ _ T T')|exact V'].
Qed.

(** The first block that is not shown. *)
Lemma short_blocks bs b bs' : forall fuel total rd acc s rest,
  Forall (block_ok scs) (bs ++ b :: bs') -> (length bs < fuel)%nat ->
  rd + blen (concat (map bk_encode (bs ++ b :: bs'))) = total -> b_ok s -> b_view s = concat (map bk_encode (bs ++ b :: bs')) ++ rest ->
  (forall pre x post, bs = pre ++ x :: post -> 4 <= shown s (blen (concat (map bk_encode pre)))) ->
  shown s (blen (concat (map bk_encode bs))) < 4 ->
  exists s', blocks_loop_buf fuel scs total rd acc s = (Ok (NotEnough (4 - shown s (blen (concat (map bk_encode bs))))), s') /\
    taken s (concat (map bk_encode bs)) s'.
Proof.
  induction bs as [|b1 bs IH]; intros fuel total rd acc s rest F LF HT O V SH NS.
  - destruct fuel as [|fuel]; [cbn [length] in LF; lia|]. cbn [app map concat] in *. change (blen []) with 0 in *.
    rewrite <- app_assoc in V. inversion F as [|? ? Hb Hbs]; subst.
    destruct (short_block s b _ Hb O V NS) as (s' & E & T). cbn [blocks_loop_buf]. rewrite E. cbn [stbind]. eauto.
  - cbn [app] in F. inversion F as [|? ? Hb Hbs]; subst. destruct fuel as [|fuel]; [cbn [length] in LF; lia|].
    cbn [blocks_loop_buf map concat app] in *. rewrite <- app_assoc in V.
    destruct (whole_block s b1 _ Hb O V (SH [] b1 bs eq_refl)) as (s1 & E & T & V1). rewrite E. cbn [stbind].
    rewrite (bk_size_len _ _ Hb). rewrite !blen_app in *.
    replace (rd + blen (bk_encode b1) =? rd + (blen (bk_encode b1) + blen (concat (map bk_encode (bs ++ b :: bs'))))) with false.
    2:{ rewrite map_app, concat_app, blen_app. cbn [map concat]. rewrite blen_app. apply Forall_app in Hbs as (_ & Hb2). inversion Hb2 as [|? ? Hb3 ?]; subst.
        pose proof (bk_encode_pos _ _ Hb3). unfold blen. lia. }
    pose proof T as (O1 & _ & S1).
    destruct (IH fuel (rd + (blen (bk_encode b1) + blen (concat (map bk_encode (bs ++ b :: bs'))))) (rd + blen (bk_encode b1)) (acc ++ [b1]) s1 rest Hbs) as (s' & E' & T');
      [cbn [length] in *; lia|lia|exact O1|exact V1| | |].
    + intros pre x post EP. rewrite S1. replace (blen (bk_encode b1) + blen (concat (map bk_encode pre))) with (blen (concat (map bk_encode (b1 :: pre)))) by (cbn [map concat]; now rewrite blen_app).
      apply (SH (b1 :: pre) x post). now rewrite EP.
    + now rewrite S1.
    + exists s'. rewrite E', S1. split; [reflexivity|]. exact (taken_trans _ _ _ _ _ T T').
Qed.
End Block.

(** ** A packet *)
Lemma pieces {U} (P : proto U) (p : packet U) e s rest :
  proto_ok P -> packet_enc P p e -> (length (p_blocks p) <= 256)%nat -> b_ok s -> b_view s = e ++ rest ->
  let size := blen e - 29 in
  let before bs := 29 + blen (concat (map bk_encode bs)) in
  let gives r n := exists s', pkt_try_read_buf P s = (r, s') /\ b_view s' = skipn (N.to_nat n) (b_view s) /\ b_ok s' in
  (shown s 0 < 29 -> gives (Ok (NotEnough (29 - shown s 0))) 0) /\
  (29 <= shown s 0 -> shown s 0 < size -> gives (Ok (NotEnough (size - shown s 0))) 0) /\
  (29 <= shown s 0 -> size <= shown s 0 ->
     (forall bs b bs', p_blocks p = bs ++ b :: bs' -> (forall pre x post, bs = pre ++ x :: post -> 4 <= shown s (before pre)) ->
        shown s (before bs) < 4 -> gives (Ok (NotEnough (4 - shown s (before bs)))) (before bs)) /\
     ((forall pre x post, p_blocks p = pre ++ x :: post -> 4 <= shown s (before pre)) ->
        (p_payload p = None -> gives (Ok (Success p)) (blen e)) /\
        (p_payload p <> None -> exists h body, ph_ok h /\ skipn (N.to_nat (before (p_blocks p))) e = ph_bytes h ++ body /\
           (shown s (before (p_blocks p)) < blen (ph_bytes h) ->
              gives (Err (ENotEnoughData (to_end (pheader_ends h) (shown s (before (p_blocks p)))))) (before (p_blocks p))) /\
           (blen (ph_bytes h) <= shown s (before (p_blocks p)) -> gives (Ok (Success p)) (blen e))))).
Proof.
  intros HP (tail & HB & HT & HL & EE) H256 O V size before gives.
  set (blocks := concat (map bk_encode (p_blocks p))) in *.
  assert (LE : blen e = 29 + (blen blocks + blen tail)).
  { rewrite EE, !blen_app. unfold blen at 1. rewrite layout_length. lia. }
  assert (ESZ : size = blen blocks + blen tail) by (unfold size; lia).
  assert (HB64 : blen blocks < two64) by (apply two63_64; lia).
  set (hd := layout_header (blen blocks + blen tail) (blen blocks) (flag_of p)) in *.
  assert (EE' : e = hd ++ blocks ++ tail) by exact EE. clear EE. rename EE' into EE.
  assert (LH : length hd = 29%nat) by apply layout_length.
  destruct (fill_shown s O) as (buf & s1 & F & T & C & LB & NE & _).
  { rewrite V, EE. destruct hd; [discriminate LH|discriminate]. }
  pose proof T as (O1 & V1 & S1). cbn [app] in V1. change (blen []) with 0 in S1.
  assert (G0 : forall r, pkt_try_read_buf P s = (r, s1) -> gives r 0).
  { intros r E. exists s1. split; [exact E|]. split; [cbn [N.to_nat skipn]; now symmetry|exact O1]. }
  assert (U0 : pkt_try_read_buf P s = pkt_try_read_buf P s) by reflexivity. unfold pkt_try_read_buf at 2 in U0. rewrite F in U0. cbn [sbind] in U0.
  change (N.of_nat hdr_size) with 29 in U0. rewrite LB in U0.
  split; [|split].
  - intros L. apply G0. rewrite U0. now replace (shown s 0 <? 29) with true by lia.
  - intros L1 L2. apply G0. rewrite U0. replace (shown s 0 <? 29) with false by lia.
    assert (EB : exists b2, buf = hd ++ b2).
    { rewrite V, EE, <- !app_assoc in V1. rewrite view_cur, C in V1. exists (skipn 29 buf).
      rewrite <- (firstn_skipn 29 buf) at 1. f_equal. apply (f_equal (firstn 29)) in V1. rewrite firstn_app_exact in V1 by (now rewrite LH).
      rewrite firstn_app in V1. replace (29 - length buf)%nat with 0%nat in V1 by (unfold blen in LB; lia). rewrite firstn_O, app_nil_r in V1. now symmetry. }
    destruct EB as (b2 & EB). rewrite EB. unfold hd. rewrite hdr_slice_rt by (try exact HB64; apply two63_64; lia). cbn [sbind mkh h_size].
    rewrite <- ESZ. now replace (shown s 0 <? size) with true by lia.
  - intros L1 L2. replace (shown s 0 <? 29) with false in U0 by lia.
    assert (EB : exists b2, buf = hd ++ b2).
    { rewrite V, EE, <- !app_assoc in V1. rewrite view_cur, C in V1. exists (skipn 29 buf).
      rewrite <- (firstn_skipn 29 buf) at 1. f_equal. apply (f_equal (firstn 29)) in V1. rewrite firstn_app_exact in V1 by (now rewrite LH).
      rewrite firstn_app in V1. replace (29 - length buf)%nat with 0%nat in V1 by (unfold blen in LB; lia). rewrite firstn_O, app_nil_r in V1. now symmetry. }
    destruct EB as (b2 & EB). rewrite EB in U0. unfold hd in U0 at 1. rewrite hdr_slice_rt in U0 by (try exact HB64; apply two63_64; lia).
    cbn [sbind mkh h_size h_blocks_len h_payload] in U0. rewrite <- ESZ in U0. replace (shown s 0 <? size) with false in U0 by lia.
    unfold hdr_size in U0. rewrite V1, EE, <- !app_assoc in V.
    destruct (consume_shown s1 hd _ O1 V) as (T2 & V2). { rewrite C, EB, blen_app. lia. }
    rewrite LH in T2, V2. set (s2 := consume 29 s1) in *.
    pose proof (taken_trans _ _ _ _ _ T T2) as T02. cbn [app] in T02. pose proof T2 as (O2 & _ & S2).
    assert (SB : forall n, shown s2 n = shown s (29 + n)).
    { intros n. rewrite S2, S1. unfold blen. rewrite LH. reflexivity. }
    assert (GV : forall r a s', taken s a s' -> pkt_try_read_buf P s = (r, s') -> gives r (blen a)).
    { intros r a s' (Oa & Va & _) E. exists s'. split; [exact E|]. split; [|exact Oa]. rewrite Va, to_nat_blen, skipn_app_exact by reflexivity. reflexivity. }
    assert (BH : forall bs, before bs = blen (hd ++ concat (map bk_encode bs))).
    { intros bs. unfold before. rewrite blen_app. unfold blen at 2. now rewrite LH. }
    split.
    + intros bs b bs' EP SH NS. rewrite (BH bs).
      assert (NZ : 0 < blen blocks).
      { unfold blocks. rewrite EP, map_app, concat_app, blen_app. cbn [map concat]. rewrite blen_app. rewrite EP in HB. apply Forall_app in HB as (_ & HB).
        inversion HB as [|? ? Hb ?]; subst. pose proof (bk_encode_pos _ _ Hb). unfold blen. lia. }
      replace (0 <? blen blocks) with true in U0 by lia.
      destruct (short_blocks (pr_blocks P) (proj1 HP) bs b bs' block_fuel (blen blocks) 0 [] s2 (tail ++ rest)) as (s' & E & T').
      { now rewrite <- EP. }
      { rewrite EP, app_length in H256. cbn [length] in H256. unfold block_fuel. change (N.to_nat (max_blocks_count + 1)) with 256%nat. lia. }
      { unfold blocks. now rewrite EP, N.add_0_l. }
      { exact O2. }
      { rewrite V2. unfold blocks. now rewrite EP. }
      { intros pre x post Q. rewrite SB. exact (SH pre x post Q). }
      { rewrite SB. exact NS. }
      rewrite E in U0. cbn [stbind] in U0. rewrite SB in U0. fold (before bs) in U0.
      rewrite <- (BH bs) at 1. apply (GV _ _ s'); [|exact U0]. exact (taken_trans _ _ _ _ _ T02 T').
    + intros SH.
      assert (EBL : exists s3, (if 0 <? blen blocks then blocks_loop_buf block_fuel (pr_blocks P) (blen blocks) 0 [] s2 else (Ok (Success []), s2))
                = (Ok (Success (p_blocks p)), s3) /\ taken s2 blocks s3 /\ b_view s3 = tail ++ rest).
      { destruct (0 <? blen blocks) eqn:EZ.
        - destruct (some_blocks (pr_blocks P) (proj1 HP) (p_blocks p) block_fuel (blen blocks) 0 [] s2 (tail ++ rest) HB) as (s3 & E & T3 & V3).
          { intros Q. unfold blocks in EZ. rewrite Q in EZ. discriminate EZ. }
          { unfold block_fuel. change (N.to_nat (max_blocks_count + 1)) with 256%nat. exact H256. }
          { reflexivity. }
          { exact O2. }
          { exact V2. }
          { intros pre x post Q. rewrite SB. exact (SH pre x post Q). }
          exists s3. cbn [app] in E. auto.
        - pose proof (enc_blocks_zero _ _ HB EZ) as Q. rewrite Q. exists s2. split; [reflexivity|].
          assert (blocks = []) as -> by (unfold blocks; now rewrite Q). split; [now apply taken_nil|exact V2]. }
      destruct EBL as (s3 & EBL & T3 & V3). rewrite EBL in U0. cbn [stbind] in U0.
      pose proof (taken_trans _ _ _ _ _ T02 T3) as T03. pose proof T3 as (O3 & _ & S3). pose proof T03 as (_ & _ & S03). fold blocks in HT.
      assert (BP : before (p_blocks p) = blen (hd ++ blocks)) by apply BH.
      destruct p as [pbs ppl]. cbn [p_payload p_blocks] in *. unfold flag_of in *. cbn [p_payload] in *. split.
      * intros ->. cbn [payload_part] in HT. subst tail. rewrite app_nil_r in EE. rewrite EE. apply (GV _ _ s3 T03). exact U0.
      * intros NP. destruct ppl as [pl|]; [|easy]. destruct HT as (body & crc & HPL & L4 & ET).
        pose proof (payload_ok_hdr _ _ _ _ HPL) as HH. unfold pl_hdr in HH.
        set (h := mk_pheader (pl_sig pl) crc (blen body)) in *. exists h, body. split; [exact HH|].
        rewrite BP. split. { rewrite EE, app_assoc, to_nat_blen, skipn_app_exact by reflexivity. exact ET. }
        unfold ph_try_read_buf in U0.
        destruct (fill_shown s3 O3) as (buf3 & s4 & F3 & T4 & C4 & LB4 & NE4 & _).
        { rewrite V3, ET. unfold ph_bytes. discriminate. }
        rewrite F3 in U0. cbn [sbind] in U0. rewrite S03, N.add_0_r in LB4.
        pose proof T4 as (O4 & V4 & _). cbn [app] in V4. rewrite V3, ET, <- app_assoc in V4.
        split.
        -- intros SL. assert (SP : strict_prefix buf3 (ph_bytes h)).
           { rewrite view_cur, C4 in V4. exists (skipn (length buf3) (ph_bytes h)).
             assert (firstn (length buf3) (ph_bytes h) = buf3) as Q.
             { transitivity (firstn (length buf3) (ph_bytes h ++ body ++ rest)).
               - rewrite firstn_app. replace (length buf3 - length (ph_bytes h))%nat with 0%nat by (unfold blen in *; lia). now rewrite firstn_O, app_nil_r.
               - rewrite V4. now rewrite firstn_app_exact. }
             split; [|rewrite <- Q at 1; now rewrite firstn_skipn].
             intros Q2. apply (f_equal (@length byte)) in Q2. rewrite skipn_length in Q2. cbn [length] in Q2. unfold blen in *. lia. }
           destruct (ph_peek_truncated h buf3 HH SP) as (n & EP & _ & _ & EN). rewrite EP in U0. cbn [sbind] in U0. rewrite EN, LB4 in U0.
           apply (GV _ _ s4); [|exact U0]. rewrite <- (app_nil_r (hd ++ blocks)). exact (taken_trans _ _ _ _ _ T03 T4).
        -- intros SL. assert (EB4 : exists b5, buf3 = ph_bytes h ++ b5).
           { rewrite view_cur, C4 in V4. exists (skipn (length (ph_bytes h)) buf3).
             rewrite <- (firstn_skipn (length (ph_bytes h)) buf3) at 1. f_equal.
             transitivity (firstn (length (ph_bytes h)) (buf3 ++ concat (map ev_bytes (b_evs s4)))).
             - rewrite firstn_app. replace (length (ph_bytes h) - length buf3)%nat with 0%nat by (unfold blen in *; lia). now rewrite firstn_O, app_nil_r.
             - rewrite <- V4. now rewrite firstn_app_exact. }
           destruct EB4 as (b5 & EB4). rewrite EB4, ph_peek_rt in U0 by exact HH. cbn [sbind] in U0.
           destruct (consume_shown s4 (ph_bytes h) (body ++ rest) O4) as (T5 & V5); [now symmetry|rewrite C4, EB4, blen_app; lia|].
           rewrite ph_bytes_length in T5, V5. rewrite pl_try_read_buf_eq in U0.
           destruct (pl_read_rt _ _ _ (lawful_okl _ _ _ (from_lawful s)) buf_io_only (pr_kinds P) pl body crc (consume (ph_size h) s4) rest (proj2 HP) HPL) as (s6 & E6 & V6 & (a6 & T6)).
           { apply (from_taken _ ((hd ++ blocks) ++ [] ++ ph_bytes h)). exact (taken_trans _ _ _ _ _ T03 (taken_trans _ _ _ _ _ T4 T5)). }
           { exact V5. }
           unfold pl_hdr in E6. fold h in E6. rewrite E6 in U0. cbn [pmap stbind] in U0.
           pose proof T6 as (O6 & VV & _).
           exists s6. split; [exact U0|]. split; [|exact O6].
           rewrite V6. rewrite V1, V. rewrite !app_assoc, <- (app_assoc hd), <- EE. now rewrite to_nat_blen, skipn_app_exact.
Qed.
