(** * What the streaming reader reports for packets, and whole streams of them. *)
From Coq Require Import ZifyBool ZifyNat ZifyN.
From Verif Require Import Base Crc32 Io Block Payload Packet Rules StreamReader Spec BaseProofs CrcProofs BlockProofs
  DispatchProofs PayloadProofs PayloadEnumProofs PacketProofs PacketSafeProofs RulesProofs WireProofs StreamProofs.
Ltac Zify.zify_post_hook ::= Z.div_mod_to_equations.
Open Scope list_scope.

(** ** Blocks *)
Lemma reader_blocks_rt scs (ND : NoDup (map blk_sig scs)) bs : forall left buf processed acc tail,
  Forall (block_ok scs) bs -> (length bs <= left)%nat ->
  skipn processed buf = concat (map bk_encode bs) ++ tail -> (processed <= length buf)%nat ->
  (bs <> [] -> tail = [] -> reader_blocks left scs buf processed acc = (Ok (acc ++ bs), Drop)) /\
  (tail <> [] -> reader_blocks left scs buf processed acc =
     reader_blocks (left - length bs) scs buf (processed + length (concat (map bk_encode bs))) (acc ++ bs)).
Proof.
  induction bs as [|b bs IH]; intros left buf processed acc tail F LF V LP.
  { split; [easy|]. intros _. cbn [map concat length]. rewrite Nat.sub_0_r, Nat.add_0_r, app_nil_r. reflexivity. }
  inversion F as [|b' bs' HB HF]; subst. destruct left as [|left]; [cbn [length] in LF; lia|].
  cbn [map concat] in V. rewrite <- app_assoc in V. cbn [reader_blocks]. rewrite V, bk_slice_rt by easy.
  rewrite bk_size_nat. pose proof (bk_encode_length _ _ HB) as LB. pose proof (bk_encode_pos _ _ HB) as PB.
  replace (bk_size b =? 0) with false by (unfold bk_size; lia).
  assert (LV : (length buf = processed + ssize (bk_ty b) + length (concat (map bk_encode bs) ++ tail))%nat).
  { apply (f_equal (@length byte)) in V. rewrite skipn_length, app_length, LB in V. lia. }
  assert (V' : skipn (processed + ssize (bk_ty b)) buf = concat (map bk_encode bs) ++ tail).
  { rewrite Nat.add_comm, <- skipn_skipn, V, <- LB. now apply skipn_app_exact. }
  cbn [length] in LF.
  destruct (IH left buf (processed + ssize (bk_ty b))%nat (acc ++ [b]) tail HF ltac:(lia) V' ltac:(lia)) as (A & B).
  cbn [map concat]. rewrite app_length, LB. split.
  - intros _ ->. rewrite app_nil_r in *. destruct bs as [|b2 bs].
    + cbn [map concat length] in LV. replace (_ =? _)%nat with true by lia. reflexivity.
    + replace (_ =? _)%nat with false.
      * rewrite A by easy. now rewrite <- app_assoc.
      * inversion HF; subst. cbn [map concat] in LV. rewrite app_length in LV. pose proof (bk_encode_pos _ _ H1). lia.
  - intros NT. replace (_ =? _)%nat with false.
    + rewrite B by exact NT. rewrite <- app_assoc. cbn [app length]. f_equal; lia.
    + rewrite app_length in LV. destruct tail; [easy|]. cbn [length] in LV. lia.
Qed.

Section Items.
Context {U : Type}.
Variable P : proto U.
Hypothesis HP : proto_ok P.

Definition passes (rs : rules U) (p : packet U) (body : bytes) : bool :=
  filter_by_blocks rs (p_blocks p) && (match p_payload p with Some _ => filter_by_payload rs body | None => true end)
  && filter_packet rs p.

Definition decoded_blocks (blocks : bytes) : res (list block) * fate :=
  match blocks with [] => (Ok [], Drop) | _ => reader_blocks (N.to_nat max_blocks_count) (pr_blocks P) blocks 0 [] end.

Lemma parse_body_gen rs p tail body blocks : decoded_blocks blocks = (Ok (p_blocks p), Drop) ->
  payload_part (pr_kinds P) (p_payload p) tail -> raw_body (pr_kinds P) (p_payload p) body ->
  parse_body P rs (mkh (blen blocks + blen tail) (blen blocks) (flag_of p)) (blocks ++ tail)
  = (Ok (if passes rs p body then NFound p else NSkipped), Drop).
Proof.
  intros EB HT HR. unfold parse_body.
  change (h_blocks_len (mkh (blen blocks + blen tail) (blen blocks) (flag_of p))) with (blen blocks).
  change (h_payload (mkh (blen blocks + blen tail) (blen blocks) (flag_of p))) with (flag_of p).
  replace (blen (blocks ++ tail) <? blen blocks) with false by (rewrite blen_app; lia).
  rewrite to_nat_blen, firstn_app_exact, skipn_app_exact by reflexivity. fold (decoded_blocks blocks).
  rewrite EB. unfold passes. destruct (filter_by_blocks rs (p_blocks p)); cbn [negb andb]; [|reflexivity].
  unfold flag_of. destruct p as [pbs ppl]. cbn [p_payload p_blocks] in *. destruct ppl as [pl|].
  - destruct HT as (body' & crc & HPL & L4 & ET). destruct HR as (crc' & HPL').
    assert (QB : body = body') by exact (payload_body_fun _ _ _ _ _ _ HPL' HPL). subst body'.
    pose proof (payload_ok_hdr _ _ _ _ HPL) as HH. unfold pl_hdr in HH.
    subst tail. set (h := mk_pheader (pl_sig pl) crc (blen body)) in *.
    unfold ph_try_read_buf, of_slice, fill_buf. cbn [b_cur b_evs].
    assert (PK : fst (do (buf, s) <- match ph_bytes h ++ body with
       | [] => (Ok [], mk_bufsrc [] []) | _ :: _ => (Ok (ph_bytes h ++ body), mk_bufsrc (ph_bytes h ++ body) []) end; (ph_peek buf, s)) = Ok (Success h)).
    { pose proof (ph_peek_rt h body HH) as Q. destruct (ph_bytes h ++ body); cbn [sbind fst]; exact Q. }
    match goal with |- context [fst (sbind ?m ?k)] => replace (fst (sbind m k)) with (Ok (Success h) : res (status pheader)) end.
    assert (K2 : skipn (length blocks + ph_size h) (blocks ++ ph_bytes h ++ body) = body).
    { rewrite (app_assoc blocks). rewrite skipn_app_exact; [easy|]. now rewrite app_length, ph_bytes_length. }
    rewrite K2. destruct (filter_by_payload rs body); cbn [negb andb]; [|easy].
    rewrite pl_try_read_buf_eq.
    destruct (pl_read_rt _ _ _ (cur_okl []) buf_io_only (pr_kinds P) pl body crc (mk_bufsrc body []) [] (proj2 HP) HPL eq_refl) as (s3 & E3 & _ & _).
    { cbn [b_cur]. now rewrite app_nil_r. }
    unfold pl_hdr in E3. fold h in E3. rewrite E3. cbn [pmap fst].
    destruct (filter_packet rs _); reflexivity.
  - cbn [andb]. destruct (filter_packet rs _); reflexivity.
Qed.

Lemma decoded_ok bs : (length bs <= 255)%nat -> Forall (block_ok (pr_blocks P)) bs ->
  decoded_blocks (concat (map bk_encode bs)) = (Ok bs, Drop).
Proof.
  intros FB HB. unfold decoded_blocks. destruct bs as [|b bs]; [reflexivity|].
  set (blocks := concat (map bk_encode (b :: bs))).
  assert (Q : reader_blocks (N.to_nat max_blocks_count) (pr_blocks P) blocks 0 [] = (Ok (b :: bs), Drop)).
  { destruct (reader_blocks_rt (pr_blocks P) (proj1 HP) (b :: bs) (N.to_nat max_blocks_count) blocks 0 [] [] HB) as (A & _).
    - exact FB.
    - now rewrite app_nil_r.
    - lia.
    - now apply A. }
  destruct blocks as [|x blocks'] eqn:EQ; [|exact Q]. exfalso. inversion HB; subst.
  assert (QE : concat (map bk_encode (b :: bs)) = []) by (exact EQ). cbn [map concat] in QE. apply app_eq_nil in QE as (QE & _).
  pose proof (bk_encode_pos _ _ H1) as K. rewrite QE in K. cbn [length] in K. lia.
Qed.

Lemma parse_body_rt rs p tail body : few_blocks p ->
  Forall (block_ok (pr_blocks P)) (p_blocks p) -> payload_part (pr_kinds P) (p_payload p) tail ->
  raw_body (pr_kinds P) (p_payload p) body ->
  let blocks := concat (map bk_encode (p_blocks p)) in
  parse_body P rs (mkh (blen blocks + blen tail) (blen blocks) (flag_of p)) (blocks ++ tail)
  = (Ok (if passes rs p body then NFound p else NSkipped), Drop).
Proof. intros FB HB HT HR blocks. apply parse_body_gen; [now apply decoded_ok|exact HT|exact HR]. Qed.


Lemma passes_accepts rs p body : NoDup (map id_of rs) -> raw_body (pr_kinds P) (p_payload p) body ->
  (passes rs p body = true <-> accepts P rs p).
Proof.
  intros ND HR. unfold passes, accepts. rewrite !andb_true_iff. split.
  - intros ((A & B) & C). split; [|split].
    + intros f I. now rewrite <- (filter_by_blocks_some rs f).
    + intros f pl b crc I EP HB. rewrite EP in *. destruct HR as (crc' & HR).
      rewrite <- (payload_body_fun _ _ _ _ _ _ HR HB). now rewrite <- (filter_by_payload_some rs f).
    + intros f I. now rewrite <- (filter_packet_some rs f).
  - intros (A & B & C). split; [split|].
    + destruct (has IdFilterByBlocks rs) eqn:E.
      * apply has_in in E as (x & I & E). destruct x; try discriminate. rewrite (filter_by_blocks_some rs f) by easy. now apply A.
      * apply filter_by_blocks_none. intros f I. assert (Q : has IdFilterByBlocks rs = true) by (apply has_in; eauto). congruence.
    + destruct (p_payload p) as [pl|] eqn:EP; [|reflexivity]. destruct HR as (crc & HR).
      destruct (has IdFilterByPayload rs) eqn:E.
      * apply has_in in E as (x & I & E). destruct x; try discriminate. rewrite (filter_by_payload_some rs f) by easy. now apply (B f pl body crc).
      * apply filter_by_payload_none. intros f I. assert (Q : has IdFilterByPayload rs = true) by (apply has_in; eauto). congruence.
    + destruct (has IdFilter rs) eqn:E.
      * apply has_in in E as (x & I & E). destruct x; try discriminate. rewrite (filter_packet_some rs f) by easy. now apply C.
      * apply filter_packet_none. intros f I. assert (Q : has IdFilter rs = true) by (apply has_in; eauto). congruence.
Qed.

Lemma raw_body_ex p tail : payload_part (pr_kinds P) (p_payload p) tail -> exists body, raw_body (pr_kinds P) (p_payload p) body.
Proof.
  unfold payload_part, raw_body. destruct (p_payload p) as [pl|]; [|now exists []]. intros (body & crc & H & _). eauto.
Qed.

Lemma sees_packet rs p e : NoDup (map id_of rs) -> packet_enc P p e -> few_blocks p ->
  exists o, sees P rs e o /\ verdict P rs p o.
Proof.
  intros ND (tail & HB & HT & HL & EE) FB.
  destruct (raw_body_ex p tail HT) as (body & HR).
  set (blocks := concat (map bk_encode (p_blocks p))) in *. fold (flag_of p) in EE.
  exists (Ok (if passes rs p body then NFound p else NSkipped)). split.
  - exists (blen blocks + blen tail), (blen blocks), (flag_of p), (blocks ++ tail).
    split; [exact EE|]. split; [apply blen_app|]. split; [exact HL|]. split; [apply two63_64; lia|].
    now apply parse_body_rt.
  - destruct (passes rs p body) eqn:E.
    + apply verdict_found. now apply (passes_accepts rs p body).
    + apply verdict_skipped. intros A. apply (passes_accepts rs p body ND HR) in A. congruence.
Qed.

Lemma verdict_reports rs p o : verdict P rs p o -> quiet o = false.
Proof. now intros []. Qed.

(** A stream as the specification describes it, and the corresponding items. *)
Definition stream_bytes (items : list (bytes * bytes)) (last : bytes) : bytes :=
  concat (map (fun i => fst i ++ snd i) items) ++ last.

Lemma sbytes_eq (its : list (@item U)) last : sbytes its last = stream_bytes (map fst its) last.
Proof.
  unfold stream_bytes. induction its as [|[[g e] o] its IH]; [reflexivity|]. cbn [sbytes map fst snd concat]. rewrite IH, <- !app_assoc. reflexivity.
Qed.

Lemma foreign_eq (its : list (@item U)) last : foreign its last = concat (map (fun i => fst (fst i)) its) ++ last.
Proof. induction its as [|[[g e] o] its IH]; [reflexivity|]. cbn [foreign map fst concat]. now rewrite IH, <- app_assoc. Qed.

Lemma clean_spec g nx : clean g nx <-> no_signature g nx.
Proof.
  unfold clean, no_signature. split; intros H i L; specialize (H i L).
  - intros Q. rewrite starts_with_firstn in H. apply bytes_eqb_neq in H. now apply H.
  - rewrite starts_with_firstn. apply bytes_eqb_neq. exact H.
Qed.

Lemma inv_begin rs tl (fin any : Prop) its last cs : Forall (item_ok P rs tl) its -> (fin -> clean last []) ->
  (tight its \/ ample tl any cs) -> cut_into cs (sbytes its last) ->
  inv P rs tl fin any its last (fresh rs (map Chunk cs ++ tl)).
Proof.
  intros F C PC (E & FC). split; [reflexivity|]. split; [exact F|]. split; [exact C|]. exists cs.
  cbn [fresh r_src r_state b_evs b_cur app]. split; [reflexivity|]. split; [exact FC|]. split; [reflexivity|]. split; [exact PC|exact E].
Qed.

Lemma pure_tight (its : list (@item U)) last : pure its last -> tight its.
Proof. intros (F & _). induction F as [|i its H F IH]; constructor; [rewrite H; cbn [length]; lia|exact IH]. Qed.

Lemma inv_start rs tl (fin : Prop) its last cs : Forall (item_ok P rs tl) its -> (fin -> clean last []) ->
  (tight its \/ Forall (fun c => (29 <= length c)%nat) cs) -> cut_into cs (sbytes its last) ->
  inv P rs tl fin False its last (fresh rs (map Chunk cs ++ tl)).
Proof.
  intros F C PC CU. apply inv_begin; [exact F|exact C| |exact CU].
  destruct PC as [PC|PC]; [now left|right; now right].
Qed.

Lemma no_data_again r : r_state r = HEmpty -> b_view (r_src r) = [] -> b_evs (r_src r) = [] ->
  forall k, fst (pr_reads P k r) = repeat (Ok NNoData) k.
Proof.
  intros S V E k. revert r S V E. induction k as [|k IH]; intros r S V E; [reflexivity|]. cbn [pr_reads].
  unfold pr_read. rewrite S. unfold resolve_empty, pr_fill. cbn [set_buffered set_state r_src].
  unfold b_view in V. rewrite E in V. cbn [map concat] in V. rewrite app_nil_r in V.
  unfold fill_buf. rewrite V, E. cbn [sbind].
  set (r1 := set_src (r_src r) _). specialize (IH r1).
  destruct (pr_reads P k r1) as [os r2]. cbn [fst repeat]. f_equal. apply IH; unfold r1; [reflexivity| |exact E].
  unfold b_view. cbn [set_src r_src]. now rewrite V, E.
Qed.

Lemma read_no_data_again r : r_state r = HEmpty -> b_view (r_src r) = [] -> b_evs (r_src r) = [] ->
  forall k, pr_reads P k r = (repeat (Ok NNoData) k, snd (pr_reads P k r)).
Proof. intros. rewrite <- no_data_again with (r := r) by assumption. now destruct (pr_reads P k r). Qed.

(** The log of the ignore callback. *)
Lemma logs_some (rs : rules U) t bufs l : NoDup (map id_of rs) -> In (RIgnored t) rs -> logs rs bufs l = l ++ map (pair t) bufs.
Proof.
  intros ND I. revert l. unfold logs. induction bufs as [|b bufs IH]; intros l; cbn [fold_left map]; [now rewrite app_nil_r|].
  rewrite (ignore_some rs t) by easy. rewrite IH, <- app_assoc. reflexivity.
Qed.
Lemma logs_none (rs : rules U) bufs l : (forall t, ~ In (@RIgnored U t) rs) -> logs rs bufs l = l.
Proof.
  intros I. revert l. unfold logs. induction bufs as [|b bufs IH]; intros l; cbn [fold_left]; [easy|]. rewrite ignore_none by easy. apply IH.
Qed.
Lemma concat_nonnil (bufs : list bytes) : Forall (fun b => b <> []) bufs -> concat bufs = [] -> bufs = [].
Proof. intros [|b r H F] E; [reflexivity|]. cbn [concat] in E. apply app_eq_nil in E as (E & _). contradiction. Qed.

(** Forall2 of verdicts gives items. *)
Lemma items_of rs tl gs ps es : NoDup (map id_of rs) ->
  Forall2 (packet_enc P) ps es -> Forall few_blocks ps -> Forall2 (fun g e => no_signature g e) gs es ->
  (tl = [] \/ Forall (fun e => (29 < length e)%nat) es) ->
  exists its, Forall (item_ok P rs tl) its /\ map fst its = combine gs es /\
    Forall2 (verdict P rs) ps (map snd its).
Proof.
  intros ND F. revert gs. induction F as [|p e ps es HE F IH]; intros gs FB FS TL.
  - inversion FS; subst. exists []. cbn [map combine]. auto.
  - inversion FS as [|g e' gs' es' HS FS']; subst. inversion FB; subst.
    destruct (IH gs' H2 FS') as (its & A & B & C). { destruct TL as [TL|TL]; [now left|right; now inversion TL]. }
    destruct (sees_packet rs p e ND HE H1) as (o & S & V).
    exists ((g, e, o) :: its). split; [constructor; [|exact A]|].
    + split; [now apply clean_spec|]. split; [exact S|]. destruct TL as [TL|TL]; [now left|right; now inversion TL].
    + cbn [map fst snd combine]. rewrite B. split; [reflexivity|]. constructor; auto.
Qed.

Lemma verdicts_report rs ps os : Forall2 (verdict P rs) ps os -> Forall (fun o => quiet o = false) os.
Proof. induction 1 as [|p o ps os V F IH]; constructor; [now apply (verdict_reports rs p)|exact IH]. Qed.

(** Streams of packets and foreign bytes. *)
Lemma mixed_stream ops gs ps es last cs :
  let rs := rule_history ops in
  Forall2 (packet_enc P) ps es -> Forall few_blocks ps ->
  Forall2 (fun g e => no_signature g e) gs es -> no_signature last [] ->
  cut_into cs (stream_bytes (combine gs es) last) ->
  (Forall (fun g => (length g < 21)%nat) gs \/ Forall (fun c => (29 <= length c)%nat) cs) ->
  exists outs r',
    pr_reads P (length outs + 1) (fresh rs (map Chunk cs)) = (outs ++ [Ok NNoData], r') /\
    (forall k, fst (pr_reads P (length outs + 1 + k) (fresh rs (map Chunk cs))) = outs ++ repeat (Ok NNoData) (k + 1)) /\
    Forall2 (verdict P rs) ps (reports outs) /\
    (forall t, In (RIgnored t) rs -> exists bufs, r_log r' = map (pair t) bufs /\ Forall (fun b => b <> []) bufs /\ concat bufs = concat gs ++ last) /\
    ((forall t, ~ In (RIgnored t) rs) -> r_log r' = []).
Proof.
  intros rs F FB FS FL CU PC. pose proof (history_nodup ops) as ND. fold rs in ND.
  destruct (items_of rs [] gs ps es ND F FB FS (or_introl eq_refl)) as (its & A & B & C).
  assert (LG : map (fun i => fst (fst i)) its = gs).
  { rewrite <- map_map, B. clear - FS. induction FS; cbn [combine map fst]; congruence. }
  assert (I : inv P rs [] True False its last (fresh rs (map Chunk cs ++ []))).
  { apply inv_start; [exact A|intros _; now apply clean_spec| |now rewrite sbytes_eq, B].
    destruct PC as [PC|PC]; [left|now right].
    rewrite <- LG in PC. apply Forall_map in PC. exact PC. }
  rewrite app_nil_r in I.
  destruct (run_stream P rs [] True False its last _ (fun x => x) eq_refl Logic.I I) as (outs & r' & bufs & R1 & R2 & R3 & R4 & R5 & R6 & R7 & R8).
  { pose proof (verdicts_report _ _ _ C) as Q. apply Forall_map in Q. exact Q. }
  exists outs, r'. split; [exact R1|]. split.
  { intros k. rewrite reads_app, R1. rewrite (read_no_data_again r' R4 R3 R5). cbn [fst]. rewrite <- app_assoc. f_equal.
    rewrite Nat.add_1_r. reflexivity. }
  split; [unfold reports; rewrite R2; exact C|]. cbn [fresh r_log] in R6. split.
  - intros t IT. exists bufs. rewrite R6, (logs_some rs t) by easy. split; [reflexivity|]. split; [exact R7|].
    rewrite R8, foreign_eq, LG. reflexivity.
  - intros NI. rewrite R6. now apply logs_none.
Qed.

(** The same for chunks of any length. *)
Lemma any_stream ops gs ps es last cs :
  let rs := rule_history ops in
  Forall2 (packet_enc P) ps es -> Forall few_blocks ps ->
  Forall2 (fun g e => no_signature g e) gs es -> no_signature last [] ->
  cut_into cs (stream_bytes (combine gs es) last) ->
  exists outs o r' ps1 ps2 bufs,
    pr_reads P (length outs + 1) (fresh rs (map Chunk cs)) = (outs ++ [o], r') /\
    ps = ps1 ++ ps2 /\ Forall2 (verdict P rs) ps1 (reports outs) /\
    r_log r' = logs rs bufs [] /\ Forall (fun b => b <> []) bufs /\
    (o = Ok NNoData -> forall k, fst (pr_reads P (length outs + 1 + k) (fresh rs (map Chunk cs))) = outs ++ repeat (Ok NNoData) (k + 1)) /\
    ((ps2 = [] /\ o = Ok NNoData /\ concat bufs = concat gs ++ last) \/
     exists p ps3 g e, ps2 = p :: ps3 /\ nth_error gs (length ps1) = Some g /\ nth_error es (length ps1) = Some e /\ (21 <= length g)%nat /\
       (o = Panic POverflow /\ concat bufs = concat (firstn (length ps1 + 1) gs) \/
        o = Ok NNoData /\ ps3 = [] /\ (length e + length last <= 36)%nat /\ concat bufs = concat gs ++ e ++ last)).
Proof.
  intros rs F FB FS FL CU. pose proof (history_nodup ops) as ND. fold rs in ND.
  destruct (items_of rs [] gs ps es ND F FB FS (or_introl eq_refl)) as (its & A & B & C).
  assert (LG : map (fun i => fst (fst i)) its = gs).
  { rewrite <- map_map, B. clear - FS. induction FS; cbn [combine map fst]; congruence. }
  assert (LE : map (fun i => snd (fst i)) its = es).
  { rewrite <- (map_map fst snd), B. clear - FS. induction FS; cbn [combine map snd]; congruence. }
  change (map gap its = gs) in LG.
  assert (I : inv P rs [] True True its last (fresh rs (map Chunk cs ++ []))).
  { apply inv_begin; [exact A|intros _; now apply clean_spec| |now rewrite sbytes_eq, B]. right; left; auto. }
  rewrite app_nil_r in I.
  destruct (run_any P rs [] True True eq_refl Logic.I _ its last _ (Nat.lt_succ_diag_r _) I) as (outs & o & r' & bufs & R1 & R2 & R3 & R4).
  { pose proof (verdicts_report _ _ _ C) as Q. apply Forall_map in Q. exact Q. }
  cbn [fresh r_log] in R2.
  assert (AG : forall k, o = Ok NNoData -> b_view (r_src r') = [] -> b_evs (r_src r') = [] -> r_state r' = HEmpty ->
    fst (pr_reads P (length outs + 1 + k) (fresh rs (map Chunk cs))) = outs ++ repeat (Ok NNoData) (k + 1)).
  { intros k -> VW EV ST. rewrite reads_app, R1. rewrite (read_no_data_again r' ST VW EV). cbn [fst]. rewrite <- app_assoc. f_equal.
    rewrite Nat.add_1_r. reflexivity. }
  assert (SP : forall its1 i its2, its = its1 ++ i :: its2 -> exists ps1 p ps3, ps = ps1 ++ p :: ps3 /\ length ps1 = length its1 /\ length ps3 = length its2 /\
    Forall2 (verdict P rs) ps1 (map snd its1) /\ nth_error gs (length ps1) = Some (gap i) /\ nth_error es (length ps1) = Some (snd (fst i)) /\
    firstn (length ps1 + 1) gs = map gap (its1 ++ [i])).
  { intros its1 i its2 E. rewrite E, map_app in C. apply Forall2_app_inv_r in C as (ps1 & ps2 & C1 & C2 & ->). cbn [map] in C2.
    inversion C2 as [|p o2 ps3 os V1 V2]; subst ps2. exists ps1, p, ps3. split; [reflexivity|].
    assert (LL : forall a b, Forall2 (verdict P rs) a b -> length a = length b) by (clear; induction 1; cbn [length]; congruence).
    pose proof (LL _ _ C1) as L1. pose proof (LL _ _ V2) as L3. rewrite map_length in L1, L3.
    split; [exact L1|]. split; [exact L3|]. split; [exact C1|]. rewrite <- LG, <- LE, E, L1, !map_app. cbn [map].
    rewrite !nth_error_app2 by (rewrite map_length; lia). rewrite !map_length, Nat.sub_diag. cbn [nth_error]. split; [reflexivity|]. split; [reflexivity|].
    change (gap i :: map gap its2) with ([gap i] ++ map gap its2). rewrite app_assoc. apply firstn_app_exact. now rewrite app_length, map_length. }
  destruct R4 as [outs bufs r' K1 K2 K3 K4 K5|outs bufs r' its1 i its2 _ K1 K2 K3 K4|outs bufs r' its1 i _ K1 K2 K3 K4 K5 K6 K7 K8].
  - exists outs, (Ok NNoData), r', ps, [], bufs. split; [exact R1|]. split; [now rewrite app_nil_r|].
    split; [unfold reports; rewrite K1; exact C|]. split; [exact R2|]. split; [exact R3|]. split; [intros _ k; now apply AG|]. left.
    split; [reflexivity|]. split; [reflexivity|]. rewrite K2, foreign_eq, <- LG. reflexivity.
  - destruct (SP _ _ _ K1) as (ps1 & p & ps3 & E & L1 & L3 & V & G & EE & FN).
    exists outs, (Panic POverflow), r', ps1, (p :: ps3), bufs. split; [exact R1|]. split; [exact E|].
    split; [unfold reports; rewrite K2; exact V|]. split; [exact R2|]. split; [exact R3|]. split; [discriminate|]. right.
    exists p, ps3, (gap i), (snd (fst i)). split; [reflexivity|]. split; [exact G|]. split; [exact EE|]. split; [exact K3|]. left. split; [reflexivity|].
    now rewrite FN.
  - destruct (SP _ _ _ K1) as (ps1 & p & ps3 & E & L1 & L3 & V & G & EE & FN). destruct ps3; [|discriminate].
    exists outs, (Ok NNoData), r', ps1, [p], bufs. split; [exact R1|]. split; [exact E|].
    split; [unfold reports; rewrite K2; exact V|]. split; [exact R2|]. split; [exact R3|]. split; [intros _ k; now apply AG|]. right.
    exists p, [], (gap i), (snd (fst i)). split; [reflexivity|]. split; [exact G|]. split; [exact EE|]. split; [exact K3|]. right. split; [reflexivity|].
    split; [reflexivity|]. split; [exact K4|]. rewrite K5, <- LG, K1, map_app, concat_app. cbn [map concat]. now rewrite app_nil_r, <- app_assoc.
Qed.

(** Whatever follows the last packet, the packets come first. *)
Lemma mixed_then ops gs ps es last cs :
  let rs := rule_history ops in
  Forall2 (packet_enc P) ps es -> Forall few_blocks ps ->
  Forall2 (fun g e => no_signature g e) gs es ->
  cut_into cs (stream_bytes (combine gs es) last) ->
  Forall (fun c => (29 <= length c)%nat) cs ->
  exists outs r', pr_reads P (length outs) (fresh rs (map Chunk cs)) = (outs, r') /\ Forall2 (verdict P rs) ps (reports outs).
Proof.
  intros rs F FB FS CU PC. pose proof (history_nodup ops) as ND. fold rs in ND.
  destruct (items_of rs [] gs ps es ND F FB FS (or_introl eq_refl)) as (its & A & B & C).
  assert (I : inv P rs [] False False its last (fresh rs (map Chunk cs ++ []))).
  { apply inv_start; [exact A|intros []|now right|now rewrite sbytes_eq, B]. }
  rewrite app_nil_r in I.
  destruct (run_items P rs [] False False (fun x => x) _ its last _ (Nat.lt_succ_diag_r _) I) as (outs & r' & bufs & last' & R1 & _ & R2 & _).
  { pose proof (verdicts_report _ _ _ C) as Q. apply Forall_map in Q. exact Q. }
  exists outs, r'. split; [exact R1|]. unfold reports. rewrite R2. exact C.
Qed.
End Items.
