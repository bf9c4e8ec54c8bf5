(** * The streaming reader in a release build. *)
From Coq Require Import ZifyBool ZifyNat ZifyN.
From Verif Require Import Base Crc32 Io Block Payload Packet Rules StreamReader Release ReleaseStream Spec SpecReleaseStream BaseProofs CrcProofs BlockProofs
  DispatchProofs PayloadProofs PayloadEnumProofs PacketProofs PacketSafeProofs RulesProofs WireProofs StreamProofs StreamSoundProofs StreamSafeProofs
  StreamItemProofs.
Ltac Zify.zify_post_hook ::= Z.div_mod_to_equations.
Open Scope list_scope.

Lemma hdr_size_bound bs h : hdr_read_from_slice bs = Ok h -> h_size h < two64.
Proof.
  unfold hdr_read_from_slice. destruct (_ <? _)%nat; [discriminate|]. destruct (negb _); [discriminate|]. cbv zeta.
  destruct (bytes_eqb _ _); [|discriminate]. intros E. apply (f_equal (fun x => match x with Ok h => h_size h | _ => 0 end)) in E. cbn [h_size] in E.
  rewrite <- E. pose proof (unle_bound (slice bs 8 8)) as Q. unfold blen, slice in Q. rewrite firstn_length in Q.
  eapply N.lt_le_trans; [exact Q|]. change two64 with (2 ^ 64). apply N.pow_le_mono_r; lia.
Qed.

Section ReleaseStream.
Context {U : Type}.
Variable P : proto U.

Lemma mod_wrap a b : a < two64 -> b < two64 -> wsub a b = if b <=? a then a - b else two64 + a - b.
Proof.
  intros A B. unfold wsub. destruct (b <=? a) eqn:E.
  - replace (a + two64 - b) with (a - b + 1 * two64) by lia. rewrite N.mod_add by discriminate. apply N.mod_small. lia.
  - replace (a + two64 - b) with (two64 + a - b) by lia. apply N.mod_small. lia.
Qed.

Lemma eat_usize_ok n (r : preader U) : eat_usize (N.of_nat n) r = eat n r.
Proof.
  unfold eat_usize, eat, consume, blen. destruct (_ <=? N.of_nat n) eqn:E; [|now rewrite Nat2N.id].
  do 2 f_equal. rewrite skipn_all. symmetry. apply skipn_all2. lia.
Qed.

Lemma eat_usize_all n (r : preader U) : blen (b_cur (r_src r)) <= n -> eat_usize n r = set_src (mk_bufsrc [] (b_evs (r_src r))) r.
Proof. intros L. unfold eat_usize, eat, consume. replace (_ <=? n) with true by lia. now rewrite skipn_all. Qed.

(** ** Where the builds agree *)
Lemma rel_found_same h from to buf buffered (r : preader U) o r' : N.of_nat to < two64 -> N.of_nat buffered < two64 ->
  refill_found h from to buf buffered r = (o, r') -> o <> Panic POverflow -> rel_refill_found h from to buf buffered r = (o, r').
Proof.
  intros LT LB. unfold refill_found, rel_refill_found, usub. destruct (buffered <=? to)%nat eqn:E; cbn [sbind]; intros Q NP; [|congruence].
  rewrite mod_wrap by easy. replace (N.of_nat buffered <=? N.of_nat to) with true by lia.
  rewrite <- Nat2N.inj_sub, eat_usize_ok. exact Q.
Qed.

Lemma rel_read_same D r ps o r' : blen D < two63 -> sound P D r ps -> pr_read P r = (o, r') -> o <> Panic POverflow -> rel_pr_read P r = (o, r').
Proof.
  intros L63 (pre & pend & ED & SE & ST) E NP. unfold rel_pr_read, pr_read in *.
  destruct (r_state r) as [h|buf needed|] eqn:SR; [exact E| |].
  - destruct ST as (-> & BE). unfold resolve_refill in E. unfold rel_resolve_refill.
    destruct (pr_fill (set_state HEmpty r)) as [[ext|e|w] r1] eqn:EF; cbn [sbind] in *; [|exact E|exact E].
    apply fill_view in EF as (VW & RU & S1 & BF & CU & _). specialize (CU ext eq_refl). cbn [set_state r_src] in VW.
    assert (LL : forall k, N.of_nat (length (buf ++ firstn k ext)) < two64).
    { intros k. rewrite ED, <- VW, !blen_app in L63. unfold b_view in L63. rewrite blen_app, CU in L63.
      unfold blen in L63. rewrite app_length, firstn_length. unfold two63, two64 in *. lia. }
    assert (LB : N.of_nat (length buf) < two64) by (specialize (LL 0%nat); rewrite app_length in LL; lia).
    destruct ext as [|x ext']; [exact E|]. set (ext := x :: ext') in *. destruct (_ <? needed)%nat; [exact E|].
    assert (SA : forall h from to k, read_header (buf ++ firstn k ext) = Ok (FFound h from to) ->
      refill_found h from to (buf ++ firstn k ext) (length buf) r1 = (o, r') -> rel_refill_found h from to (buf ++ firstn k ext) (length buf) r1 = (o, r')).
    { intros h from to k RH Q. apply read_header_found in RH as (_ & LT & _). specialize (LL k). apply rel_found_same; [lia|exact LB|exact Q|exact NP]. }
    destruct (read_header (buf ++ firstn needed ext)) as [[|from nd|h from to]|e|w] eqn:RH; cbn [sbind] in *; try exact E; [| |now apply SA].
    all: destruct (read_header (buf ++ ext)) as [[|from1 nd1|h from1 to]|e|w] eqn:RH1; cbn [sbind] in *; try exact E.
    all: rewrite <- (firstn_all ext) in RH1, E |- *; rewrite firstn_all in E |- *; rewrite <- (firstn_all ext) in E |- *; now apply SA.
  - unfold resolve_empty in E. unfold rel_resolve_empty.
    destruct (pr_fill (set_buffered [] (set_state HEmpty r))) as [[buf|e|w] r1] eqn:EF; cbn [sbind] in *; [|exact E|exact E].
    destruct buf as [|x buf']; [exact E|]. set (buf := x :: buf') in *. destruct (_ <? hdr_size)%nat; [exact E|].
    destruct (read_header buf) as [[|from nd|h from to]|e|w] eqn:RH; cbn [sbind] in *; try exact E.
    apply read_header_found in RH as (_ & LT & _).
    destruct (two64 <=? h_size h + N.of_nat to) eqn:E64; [congruence|].
    unfold wadd. rewrite N.mod_small by lia. destruct (blen buf <? h_size h + N.of_nat to) eqn:EB; [exact E|].
    replace (h_size h + N.of_nat to <? N.of_nat to) with false by lia.
    replace (N.to_nat (h_size h + N.of_nat to)) with (to + N.to_nat (h_size h))%nat by lia.
    replace (to + N.to_nat (h_size h) - to)%nat with (N.to_nat (h_size h)) by lia. exact E.
Qed.

Lemma rel_reads_same D n : blen D < two63 -> forall r ps, sound P D r ps ->
  ~ In (Panic POverflow) (fst (pr_reads P n r)) -> rel_pr_reads P n r = pr_reads P n r.
Proof.
  intros L63. induction n as [|n IH]; intros r ps S NI; cbn [pr_reads rel_pr_reads] in *; [reflexivity|].
  pose proof (sound_read P D r ps L63 S) as S1. pose proof (rel_read_same D r ps (fst (pr_read P r)) (snd (pr_read P r)) L63 S) as SA.
  destruct (pr_read P r) as [o r1]. cbn [fst snd] in *. specialize (IH r1 _ S1). destruct (pr_reads P n r1) as [os r2]. cbn [fst] in *.
  rewrite SA; [|reflexivity|intros ->; apply NI; now left]. rewrite IH; [reflexivity|]. intros H. apply NI. now right.
Qed.

Lemma sound_fresh rs evs : sound P (concat (map ev_bytes evs)) (fresh rs evs) [].
Proof. exists [], []. cbn [app fresh r_src r_state]. split; [reflexivity|]. split; [constructor|exact I]. Qed.

Lemma rel_stream_same rs evs n : blen (concat (map ev_bytes evs)) < two63 ->
  ~ In (Panic POverflow) (fst (pr_reads P n (fresh rs evs))) -> rel_pr_reads P n (fresh rs evs) = pr_reads P n (fresh rs evs).
Proof. intros L NI. exact (rel_reads_same _ n L _ _ (sound_fresh rs evs) NI). Qed.

(** ** Where the other build panics *)
Lemma finish_no_overflow h body n (r : preader U) : fst (finish P h body n r) <> Panic POverflow.
Proof.
  destruct (blen body <? h_blocks_len h) eqn:E.
  - unfold finish, parse_body. now rewrite E.
  - pose proof (finish_nopanic P h body n r ltac:(lia)) as Q. intros H. now rewrite H in Q.
Qed.

Lemma refill_found_panics h from to B buf ext (r : preader U) k r' :
  B = buf ++ firstn k ext -> read_header B = Ok (FFound h from to) -> N.of_nat (length buf) < two64 -> blen ext < two63 -> blen buf < two63 -> b_cur (r_src r) = ext -> ext <> [] ->
  r_state r = HEmpty -> r_buffered r = [] ->
  refill_found h from to B (length buf) r = (Panic POverflow, r') ->
  exists a hdr x, buf = a ++ hdr ++ x /\ x <> [] /\ length hdr = 29%nat /\ hdr_read_from_slice hdr = Ok h /\ from = length a /\
    r_src r' = r_src r /\ r_rules r' = r_rules r /\
    rel_refill_found h from to B (length buf) r = (Ok (NNotEnough 0), mk_preader (mk_bufsrc [] (b_evs (r_src r'))) (r_rules r') (HReady h) [] (r_log r')).
Proof.
  intros EB RH L64 LE L63 CU NE ST BF E. apply read_header_found in RH as (-> & LT & HH). unfold refill_found, usub in E. unfold rel_refill_found.
  destruct (note_fields (0 <? from)%nat (firstn from B) r) as (N1 & N2 & N3 & N4).
  destruct (length buf <=? from + 29)%nat eqn:EL; cbn [sbind] in E; [discriminate|]. injection E as <-.
  assert (HB : firstn 29 (skipn from B) = firstn 29 (skipn from buf)).
  { rewrite EB, skipn_app, firstn_app, skipn_length. replace (29 - (length buf - from))%nat with 0%nat by lia. now rewrite firstn_O, app_nil_r. }
  exists (firstn from buf), (firstn 29 (skipn from buf)), (skipn (from + 29) buf).
  split. { rewrite <- (firstn_skipn from buf) at 1. f_equal. rewrite <- (firstn_skipn 29 (skipn from buf)) at 1. f_equal. rewrite skipn_skipn. f_equal. lia. }
  split. { intros Q. apply (f_equal (@length byte)) in Q. rewrite skipn_length in Q. cbn [length] in Q. lia. }
  split; [rewrite firstn_length, skipn_length; lia|]. split; [now rewrite <- HB|]. split; [rewrite firstn_length; lia|]. split; [exact N1|]. split; [exact N4|].
  f_equal. rewrite eat_usize_all.
  - unfold set_state, set_src. cbn [r_src r_rules r_buffered r_log]. now rewrite N3, BF.
  - rewrite N1, CU, mod_wrap by (try lia; unfold blen, two63, two64 in *; lia). replace (N.of_nat (length buf) <=? N.of_nat (from + 29)) with false by lia.
    unfold blen, two63, two64 in *. lia.
Qed.

Lemma rel_overflow D r ps r' : blen D < two63 -> sound P D r ps -> pr_read P r = (Panic POverflow, r') ->
  (exists buf needed a hdr x h, r_state r = HRefill buf needed /\ buf = a ++ hdr ++ x /\ x <> [] /\ length hdr = 29%nat /\ hdr_read_from_slice hdr = Ok h /\
     b_cur (r_src r') <> [] /\ b_view (r_src r') = b_view (r_src r) /\ r_rules r' = r_rules r /\
     (exists k, read_header (buf ++ firstn k (b_cur (r_src r'))) = Ok (FFound h (length a) (length a + 29))) /\
     rel_pr_read P r = (Ok (NNotEnough 0), mk_preader (mk_bufsrc [] (b_evs (r_src r'))) (r_rules r') (HReady h) [] (r_log r'))) \/
  (r_state r = HEmpty /\ rel_pr_read P r = (Panic PIndex, r')).
Proof.
  intros L63 (pre & pend & ED & SE & ST) E. unfold rel_pr_read, pr_read in *.
  destruct (r_state r) as [h|buf needed|] eqn:SR.
  - exfalso. unfold resolve_ready in E.
    destruct (pr_fill (set_state HEmpty r)) as [[ext|e|w] r1] eqn:EF; cbn [sbind] in *; [|discriminate|].
    + destruct (_ <? h_size h); [discriminate|]. destruct (h_size h <? _); [discriminate|]. pose proof (finish_no_overflow h) as Q.
      eapply Q. rewrite E. reflexivity.
    + apply fill_view in EF as (_ & _ & _ & _ & _ & []).
  - left. destruct ST as (-> & BE). unfold resolve_refill in E. unfold rel_resolve_refill.
    destruct (pr_fill (set_state HEmpty r)) as [[ext|e|w] r1] eqn:EF; cbn [sbind] in *; [|discriminate|].
    2: { apply fill_view in EF as (_ & _ & _ & _ & _ & []). }
    apply fill_view in EF as (VW & RU & S1 & BF & CU & _). specialize (CU ext eq_refl). cbn [set_state r_src r_state r_buffered r_rules] in VW, RU, S1, BF.
    assert (LL : blen ext < two63 /\ blen buf < two63).
    { rewrite ED, <- VW, !blen_app in L63. unfold b_view in L63. rewrite blen_app, CU in L63. lia. }
    destruct LL as (LE & LB).
    destruct ext as [|x ext']; [discriminate|]. assert (NE : x :: ext' <> []) by discriminate. set (ext := x :: ext') in *. clearbody ext.
    destruct (_ <? needed)%nat; [discriminate|].
    assert (SA : forall h from to k, read_header (buf ++ firstn k ext) = Ok (FFound h from to) ->
      refill_found h from to (buf ++ firstn k ext) (length buf) r1 = (Panic POverflow, r') ->
      exists buf0 needed0 a hdr x h0, HRefill buf needed = HRefill buf0 needed0 /\ buf0 = a ++ hdr ++ x /\ x <> [] /\ length hdr = 29%nat /\ hdr_read_from_slice hdr = Ok h0 /\
       b_cur (r_src r') <> [] /\ b_view (r_src r') = b_view (r_src r) /\ r_rules r' = r_rules r /\
       (exists k, read_header (buf0 ++ firstn k (b_cur (r_src r'))) = Ok (FFound h0 (length a) (length a + 29))) /\
       rel_refill_found h from to (buf ++ firstn k ext) (length buf) r1 =
         (Ok (NNotEnough 0), mk_preader (mk_bufsrc [] (b_evs (r_src r'))) (r_rules r') (HReady h0) [] (r_log r'))).
    { intros h from to k RH Q.
      destruct (refill_found_panics h from to _ buf ext r1 k r' eq_refl RH ltac:(unfold blen, two63, two64 in *; lia) LE LB CU NE S1 ltac:(now rewrite BF) Q)
        as (a & hdr & y & A1 & A2 & A3 & A4 & A5 & A6 & A7 & A8).
      exists buf, needed, a, hdr, y, h. rewrite A6, A7, CU. split; [reflexivity|]. split; [exact A1|]. split; [exact A2|]. split; [exact A3|]. split; [exact A4|].
      split; [exact NE|]. split; [exact VW|]. split; [exact RU|]. split; [|rewrite A6, A7 in A8; exact A8].
      exists k. pose proof (read_header_found _ _ _ _ RH) as (ET & _). now rewrite RH, ET, A5. }
    destruct (read_header (buf ++ firstn needed ext)) as [[|from nd|h from to]|e|w] eqn:RH; cbn [sbind] in *; try discriminate; [| |now apply SA|].
    3: { now apply read_header_nopanic in RH. }
    all: destruct (read_header (buf ++ ext)) as [[|from1 nd1|h from1 to]|e|w] eqn:RH1; cbn [sbind] in *; try discriminate.
    2,4: now apply read_header_nopanic in RH1.
    all: specialize (SA h from1 to (length ext)); rewrite firstn_all in SA; now apply SA.
  - right. split; [reflexivity|]. unfold resolve_empty in E. unfold rel_resolve_empty.
    destruct (pr_fill (set_buffered [] (set_state HEmpty r))) as [[buf|e|w] r1] eqn:EF; cbn [sbind] in *; [|discriminate|].
    2: { apply fill_view in EF as (_ & _ & _ & _ & _ & []). }
    apply fill_view in EF as (VW & RU & S1 & BF & CU & _). specialize (CU buf eq_refl). cbn [set_state set_buffered r_src r_state r_buffered r_rules] in VW, RU, S1, BF.
    assert (LB : blen buf < two63).
    { rewrite ED, <- VW, !blen_app in L63. unfold b_view in L63. rewrite blen_app, CU in L63. lia. }
    destruct buf as [|x buf']; [discriminate|]. set (buf := x :: buf') in *. clearbody buf. destruct (_ <? hdr_size)%nat; [discriminate|].
    destruct (read_header buf) as [[|from nd|h from to]|e|w] eqn:RH; cbn [sbind] in *; try discriminate.
    2: { now apply read_header_nopanic in RH. }
    apply read_header_found in RH as (ET & LT & HH).
    destruct (two64 <=? h_size h + N.of_nat to) eqn:E64.
    2: { exfalso. destruct (blen buf <? _); [discriminate|]. eapply finish_no_overflow. rewrite E. reflexivity. }
    injection E as <-.
    assert (HS : h_size h < two64) by (eapply hdr_size_bound; exact HH).
    unfold wadd. replace (h_size h + N.of_nat to) with (h_size h + N.of_nat to - two64 + 1 * two64) by lia.
    rewrite N.mod_add by discriminate. rewrite N.mod_small by (unfold blen, two63, two64 in *; lia).
    replace (blen buf <? h_size h + N.of_nat to - two64) with false by (unfold blen, two63, two64 in *; lia).
    replace (h_size h + N.of_nat to - two64 <? N.of_nat to) with true by lia. reflexivity.
Qed.

(** ** Packets that are found *)
Lemma rel_sound_read D r ps : blen D < two63 -> sound P D r ps ->
  exists D', (D' = D \/ exists a hdr x b h, length hdr = 29%nat /\ hdr_read_from_slice hdr = Ok h /\ D = a ++ hdr ++ x ++ b /\ D' = a ++ hdr ++ b) /\
    sound P D' (snd (rel_pr_read P r)) (ps ++ gain (fst (rel_pr_read P r))).
Proof.
  intros L63 S. pose proof (sound_read P D r ps L63 S) as S1. destruct (pr_read P r) as [o r1] eqn:E. cbn [fst snd] in S1.
  assert (DE : o = Panic POverflow \/ o <> Panic POverflow).
  { destruct o as [?|?|[]]; try (right; discriminate). now left. }
  destruct DE as [->|NP].
  2: { rewrite (rel_read_same D r ps o r1 L63 S E NP). exists D. split; [now left|exact S1]. }
  destruct (rel_overflow D r ps r1 L63 S E) as [(buf & needed & a & hdr & x & h & SR & EB & NX & LH & HH & NC & VW & RU & _ & ER)|(_ & ER)]; rewrite ER; cbn [fst snd gain] in *.
  2: { exists D. split; [now left|exact S1]. }
  destruct S as (pre & pend & ED & SE & ST). rewrite SR in ST. destruct ST as (-> & BE). rewrite EB, <- VW in ED.
  rewrite app_nil_r. exists ((pre ++ a) ++ hdr ++ b_view (mk_bufsrc [] (b_evs (r_src r1)))). split.
  - right. exists (pre ++ a), hdr, (x ++ b_cur (r_src r1)), (b_view (mk_bufsrc [] (b_evs (r_src r1)))), h.
    split; [exact LH|]. split; [exact HH|]. split; [|reflexivity]. rewrite ED. unfold b_view. cbn [b_cur b_evs app]. now rewrite <- !app_assoc.
  - exists (pre ++ a), hdr. cbn [r_src r_state r_buffered]. split; [reflexivity|]. split; [now apply sections_app|]. exists hdr. now rewrite app_nil_r.
Qed.

Lemma left_out_len kept D : left_out kept D -> blen kept <= blen D.
Proof. induction 1 as [D|a hdr x b D h L H S IH]; [lia|]. rewrite !blen_app in *. lia. Qed.

Lemma rel_sound_reads D n : blen D < two63 -> forall r ps D1, left_out D1 D -> sound P D1 r ps ->
  exists D2, left_out D2 D /\ sound P D2 (snd (rel_pr_reads P n r)) (ps ++ found_packets (fst (rel_pr_reads P n r))).
Proof.
  intros L63. induction n as [|n IH]; intros r ps D1 LO S; cbn [rel_pr_reads]; [exists D1; cbn [fst snd found_packets map concat]; now rewrite app_nil_r|].
  pose proof (left_out_len _ _ LO) as LL. destruct (rel_sound_read D1 r ps ltac:(lia) S) as (D2 & K & S2).
  destruct (rel_pr_read P r) as [o r1]. cbn [fst snd] in S2.
  assert (LO2 : left_out D2 D). { destruct K as [->|(a & hdr & x & b & h & LH & HH & -> & ->)]; [exact LO|]. eapply lo_more; eassumption. }
  destruct (IH r1 _ D2 LO2 S2) as (D3 & LO3 & S3). exists D3. split; [exact LO3|]. destruct (rel_pr_reads P n r1) as [os r2]. cbn [fst snd] in *.
  rewrite <- app_assoc in S3. exact S3.
Qed.

Lemma rel_found rs evs n : let D := concat (map ev_bytes evs) in blen D < two63 ->
  exists kept, left_out kept D /\ sections P kept (found_packets (fst (rel_pr_reads P n (fresh rs evs)))).
Proof.
  intros D L63. destruct (rel_sound_reads D n L63 (fresh rs evs) [] D (lo_none D) (sound_fresh rs evs)) as (kept & LO & pre & pend & E & S & _).
  exists kept. split; [exact LO|]. cbn [app] in S. rewrite E. now apply sections_app.
Qed.

(** ** No panics *)
Definition spots (D : bytes) (r : preader U) : Prop :=
  match r_state r with
  | HEmpty => exists pre, D = pre ++ b_view (r_src r)
  | HRefill buf _ => b_cur (r_src r) = [] /\ exists pre, D = pre ++ buf ++ b_view (r_src r)
  | HReady h => h_blocks_len h <= h_size h /\ exists pre, D = pre ++ b_view (r_src r)
  end.

Lemma view_eat n (r : preader U) D pre : D = pre ++ b_view (r_src r) -> exists pre', D = pre' ++ b_view (r_src (eat n r)).
Proof. intros E. exists (pre ++ firstn n (b_cur (r_src r))). unfold eat. cbn [set_src r_src]. now rewrite E, (view_consume n), <- app_assoc. Qed.

Lemma view_all (r : preader U) buf : b_cur (r_src r) = buf -> b_view (r_src r) = buf ++ b_view (consume (length buf) (r_src r)) /\ b_cur (consume (length buf) (r_src r)) = [].
Proof. intros <-. split; [rewrite (view_consume (length (b_cur (r_src r)))) at 1; now rewrite firstn_all|]. unfold consume. cbn [b_cur]. apply skipn_all. Qed.

Lemma rel_safe_finish D h body n (q : preader U) o r' : finish P h body n q = (o, r') -> (exists pre, D = pre ++ b_view (r_src q)) -> r_state q = HEmpty ->
  h_blocks_len h <= blen body -> no_panic o /\ spots D r'.
Proof.
  intros EF (pre & EQ) SQ LB. pose proof (finish_nopanic P h body n q LB) as NP. rewrite EF in NP. split; [exact NP|].
  unfold finish in EF. destruct (parse_body P (r_rules q) h body) as [o1 f]. injection EF as _ <-. unfold spots.
  destruct f; cbn [r_state r_src]; rewrite SQ; [destruct n as [n|]|..]; try (now exists pre).
  destruct (view_eat n q D pre EQ) as (pre' & E'). now exists pre'.
Qed.

Lemma rel_safe_found D h from B buf ext k (r : preader U) o r' : honest_headers D -> (exists pre, D = pre ++ buf ++ b_view (r_src r)) ->
  b_cur (r_src r) = ext -> B = buf ++ firstn k ext -> read_header B = Ok (FFound h from (from + 29)) ->
  rel_refill_found h from (from + 29) B (length buf) r = (o, r') -> no_panic o /\ spots D r'.
Proof.
  intros HN (pre & ED) CU EB RH E. apply read_header_found in RH as (_ & LT & HH). unfold rel_refill_found in E. injection E as <- <-. split; [exact I|].
  destruct (note_fields (0 <? from)%nat (firstn from B) r) as (N1 & _). unfold spots. cbn [set_state r_state r_src].
  assert (HD : exists post, D = (pre ++ firstn from B) ++ firstn 29 (skipn from B) ++ post).
  { exists (skipn 29 (skipn from B) ++ skipn k ext ++ b_view (consume (length ext) (r_src r))).
    rewrite <- app_assoc, (app_assoc (firstn 29 _)), firstn_skipn, (app_assoc (firstn from B)), firstn_skipn.
    rewrite ED, (proj1 (view_all r ext CU)), EB, <- !app_assoc. f_equal. f_equal. now rewrite app_assoc, firstn_skipn. }
  destruct HD as (post & HD). split.
  - eapply (honest_at D); [exact HN|exact HD| |exact HH]. rewrite firstn_length, skipn_length. lia.
  - unfold eat_usize. eapply view_eat with (pre := pre ++ buf). rewrite N1, <- app_assoc. exact ED.
Qed.

Lemma rel_safe_read D r : blen D < two63 -> honest_headers D -> spots D r -> no_panic (fst (rel_pr_read P r)) /\ spots D (snd (rel_pr_read P r)).
Proof.
  intros L63 HN SP. destruct (rel_pr_read P r) as [o r'] eqn:E. cbn [fst snd]. unfold rel_pr_read in E. unfold spots in SP.
  destruct (r_state r) as [h|buf needed|] eqn:SR.
  - destruct SP as (B1 & pre & ED). unfold resolve_ready in E.
    destruct (pr_fill (set_state HEmpty r)) as [[buf|e|w] r1] eqn:EF; apply fill_view in EF as (VW & RU & S1 & BF & CU & NP); cbn [sbind] in E; [| |contradiction];
      cbn [set_state r_src r_state] in *; rewrite <- VW in ED.
    2: { injection E as <- <-. split; [exact I|]. unfold spots. rewrite S1. now exists pre. }
    destruct (_ <? h_size h) eqn:EA.
    { injection E as <- <-. split; [exact I|]. unfold spots. cbn [set_state r_state]. split; [exact B1|]. cbn [r_src]. eapply view_eat. cbn [set_buffered r_src]. exact ED. }
    destruct (h_size h <? blen (r_buffered r1)) eqn:EB.
    { injection E as <- <-. split; [exact I|]. unfold spots. rewrite S1. now exists pre. }
    eapply rel_safe_finish; [exact E|eapply view_eat; cbn [set_buffered r_src]; exact ED|exact S1|].
    unfold eat. cbn [set_src set_buffered r_buffered]. unfold blen in *. rewrite app_length, firstn_length. lia.
  - destruct SP as (CE & pre & ED). unfold rel_resolve_refill in E.
    destruct (pr_fill (set_state HEmpty r)) as [[ext|e|w] r1] eqn:EF; apply fill_view in EF as (VW & RU & S1 & BF & CU & NP); cbn [sbind] in E; [| |contradiction];
      cbn [set_state r_src r_state] in *; rewrite <- VW in ED.
    2: { injection E as <- <-. split; [exact I|]. unfold spots. rewrite S1. exists (pre ++ buf). now rewrite <- app_assoc. }
    specialize (CU ext eq_refl). destruct (view_all r1 ext CU) as (VA & CN).
    assert (NT : forall c b, spots D (note c b r1)).
    { intros c b. destruct (note_fields c b r1) as (N1 & N2 & _). unfold spots. rewrite N2, S1, N1. exists (pre ++ buf). now rewrite <- app_assoc. }
    destruct ext as [|x ext']; [injection E as <- <-; split; [exact I|]; apply (NT true buf)|]. set (ext := x :: ext') in *. clearbody ext.
    assert (TR : forall c b k n', spots D (set_state (HRefill (skipn k (buf ++ ext)) n') (eat (length ext) (note c b r1)))).
    { intros c b k n'. destruct (note_fields c b r1) as (N1 & _). unfold spots, eat. cbn [set_state set_src r_state r_src]. rewrite N1. split; [exact CN|].
      exists (pre ++ firstn k (buf ++ ext)). rewrite <- app_assoc, (app_assoc (firstn k _)), firstn_skipn, <- app_assoc, <- VA. exact ED. }
    destruct (length ext <? needed)%nat.
    { injection E as <- <-. split; [exact I|]. apply (TR false [] 0%nat). }
    assert (FD : forall h from to k, read_header (buf ++ firstn k ext) = Ok (FFound h from to) ->
       rel_refill_found h from to (buf ++ firstn k ext) (length buf) r1 = (o, r') -> no_panic o /\ spots D r').
    { intros h from to k RH EE. pose proof (read_header_found _ _ _ _ RH) as (-> & _). eapply rel_safe_found; [exact HN|exists pre; exact ED|exact CU|reflexivity|exact RH|exact EE]. }
    assert (LO : (do (f, r) <- (read_header (buf ++ ext), r1);
            match f with
            | FFound h from to => rel_refill_found h from to (buf ++ ext) (length buf) r
            | FNotEnough from needed =>
                let r := note (0 <? from)%nat (firstn from (buf ++ ext)) r in
                (Ok (NNotEnough (N.of_nat needed)), set_state (HRefill (skipn from (buf ++ ext)) needed) (eat (length ext) r))
            | FNotFound =>
                let cut := (length (buf ++ ext) - hdr_size)%nat in
                let r := note (hdr_size <? length (buf ++ ext))%nat (firstn cut (buf ++ ext)) r in
                (Ok NNotFound, set_state (HRefill (skipn cut (buf ++ ext)) hdr_size) (eat (length ext) r))
            end) = (o, r') -> no_panic o /\ spots D r').
    { destruct (read_header (buf ++ ext)) as [[|from nd|h from to]|e|w] eqn:RH; cbn [sbind]; intros EE.
      - injection EE as <- <-. split; [exact I|]. apply TR.
      - injection EE as <- <-. split; [exact I|]. apply TR.
      - specialize (FD h from to (length ext)). rewrite firstn_all in FD. now apply FD.
      - injection EE as <- <-. split; [exact I|]. apply (NT false []).
      - now apply read_header_nopanic in RH. }
    destruct (read_header (buf ++ firstn needed ext)) as [[|from nd|h from to]|e|w] eqn:RH; cbn [sbind] in E; try (now apply LO).
    + eapply FD; [exact RH|exact E].
    + injection E as <- <-. split; [exact I|]. apply (NT false []).
    + now apply read_header_nopanic in RH.
  - destruct SP as (pre & ED). unfold rel_resolve_empty in E.
    destruct (pr_fill (set_buffered [] (set_state HEmpty r))) as [[buf|e|w] r1] eqn:EF; apply fill_view in EF as (VW & RU & S1 & BF & CU & NP); cbn [sbind] in E; [| |contradiction];
      cbn [set_state set_buffered r_src r_state] in *; rewrite <- VW in ED.
    2: { injection E as <- <-. split; [exact I|]. unfold spots. rewrite S1. now exists pre. }
    specialize (CU buf eq_refl). destruct (view_all r1 buf CU) as (VA & CN).
    assert (NT : forall c b, spots D (note c b r1)).
    { intros c b. destruct (note_fields c b r1) as (N1 & N2 & _). unfold spots. rewrite N2, S1, N1. now exists pre. }
    destruct buf as [|x buf']; [injection E as <- <-; split; [exact I|]; apply (NT false [])|]. set (buf := x :: buf') in *. clearbody buf.
    assert (TR : forall c b k n', spots D (eat (length buf) (set_state (HRefill (skipn k buf) n') (note c b r1)))).
    { intros c b k n'. destruct (note_fields c b r1) as (N1 & _). unfold spots, eat. cbn [set_state set_src r_state r_src]. rewrite N1. split; [exact CN|].
      exists (pre ++ firstn k buf). rewrite <- app_assoc, (app_assoc (firstn k _)), firstn_skipn, <- VA. exact ED. }
    destruct (length buf <? hdr_size)%nat eqn:LB.
    { apply pair_equal_spec in E as (<- & <-). split; [exact I|]. apply (TR false [] 0%nat). }
    destruct (read_header buf) as [[|from nd|h from to]|e|w] eqn:RH; cbn [sbind] in E.
    + apply pair_equal_spec in E as (<- & <-). split; [exact I|]. apply TR.
    + injection E as <- <-. split; [exact I|]. apply TR.
    + apply read_header_found in RH as (-> & LT & HH).
      assert (LHD : length (firstn 29 (skipn from buf)) = 29%nat) by (rewrite firstn_length, skipn_length; lia).
      assert (SB : buf = firstn from buf ++ firstn 29 (skipn from buf) ++ skipn (from + 29) buf).
      { rewrite <- (firstn_skipn from buf) at 1. f_equal. rewrite <- (firstn_skipn 29 (skipn from buf)) at 1. f_equal.
        rewrite skipn_skipn. f_equal. lia. }
      assert (ED' : D = (pre ++ firstn from buf) ++ firstn 29 (skipn from buf) ++ skipn (from + 29) buf ++ b_view (consume (length buf) (r_src r1))).
      { rewrite ED, VA. rewrite SB at 1. now rewrite <- !app_assoc. }
      destruct (honest_at _ _ _ _ _ HN ED' LHD HH) as (B1 & B2).
      destruct (note_fields (0 <? from)%nat (firstn from buf) r1) as (N1 & N2 & N3 & N4).
      assert (LN : h_size h + N.of_nat (from + 29) < two64).
      { assert (two63 + two63 = two64) by reflexivity. rewrite ED, VA, !blen_app in L63. unfold blen in L63. lia. }
      unfold wadd in E. rewrite N.mod_small in E by exact LN.
      destruct (blen buf <? _) eqn:EN.
      * injection E as <- <-. split; [exact I|]. unfold spots, eat. cbn [set_state set_src set_buffered r_src r_state]. rewrite N1. split; [exact B1|].
        exists (pre ++ buf). rewrite <- app_assoc, <- VA. exact ED.
      * destruct (_ <? N.of_nat (from + 29)) eqn:EQ; [lia|].
        eapply rel_safe_finish; [exact E|exists pre; rewrite N1; exact ED|now rewrite N2|]. unfold blen in *. rewrite firstn_length, skipn_length. lia.
    + injection E as <- <-. split; [exact I|]. apply (NT false []).
    + now apply read_header_nopanic in RH.
Qed.

Lemma rel_safe_reads D n : blen D < two63 -> honest_headers D -> forall r, spots D r -> Forall no_panic (fst (rel_pr_reads P n r)).
Proof.
  intros L63 HN. induction n as [|n IH]; intros r S; cbn [rel_pr_reads]; [constructor|].
  pose proof (rel_safe_read D r L63 HN S) as (NP & S1). destruct (rel_pr_read P r) as [o r1]. cbn [fst snd] in *.
  specialize (IH r1 S1). destruct (rel_pr_reads P n r1) as [os r2]. now constructor.
Qed.

Lemma rel_no_panic rs evs n : let D := concat (map ev_bytes evs) in blen D < two63 -> honest_headers D ->
  Forall no_panic (fst (rel_pr_reads P n (fresh rs evs))).
Proof. intros D L63 HN. apply (rel_safe_reads D n L63 HN). exists []. reflexivity. Qed.

(** When bytes were kept for an incomplete header, everything the source had delivered is consumed: the next [fill_buf] reads a
    new chunk and starts at its first byte. *)
Lemma refill_drained r buf needed : r_state (snd (rel_pr_read P r)) = HRefill buf needed -> b_cur (r_src (snd (rel_pr_read P r))) = [].
Proof.
  assert (FI : forall h body n q, r_state q = HEmpty -> r_state (snd (finish P h body n q)) <> HRefill buf needed).
  { intros h body n q SQ. unfold finish. destruct (parse_body P (r_rules q) h body) as [o f]. cbn [snd]. destruct f; cbn [r_state]; rewrite SQ; discriminate. }
  unfold rel_pr_read. destruct (r_state r) as [h|b nd|].
  - unfold resolve_ready. destruct (pr_fill (set_state HEmpty r)) as [[ext|e|w] r1] eqn:EF; apply fill_view in EF as (_ & _ & S1 & _ & _ & _); cbn [sbind snd];
      cbn [set_state r_state] in S1; try (rewrite S1; discriminate).
    destruct (_ <? h_size h); [discriminate|]. destruct (h_size h <? _); [cbn [snd]; rewrite S1; discriminate|]. intros Q. now apply FI in Q.
  - unfold rel_resolve_refill. destruct (pr_fill (set_state HEmpty r)) as [[ext|e|w] r1] eqn:EF; apply fill_view in EF as (_ & _ & S1 & _ & CU & _); cbn [sbind snd];
      cbn [set_state r_state] in S1; try (rewrite S1; discriminate). specialize (CU ext eq_refl).
    assert (NT : forall c x, r_state (note c x r1) <> HRefill buf needed) by (intros c x; destruct (note_fields c x r1) as (_ & -> & _); rewrite S1; discriminate).
    assert (TR : forall c x, b_cur (consume (length ext) (r_src (note c x r1))) = []).
    { intros c x. destruct (note_fields c x r1) as (-> & _). unfold consume. cbn [b_cur]. rewrite CU. apply skipn_all. }
    destruct ext as [|x ext']; [cbn [snd]; intros Q; now apply NT in Q|]. set (ext := x :: ext') in *. clearbody ext.
    destruct (_ <? nd)%nat; [intros _; apply (TR false [])|].
    destruct (read_header (b ++ firstn nd ext)) as [[|? ?|? ? ?]|e|w]; cbn [sbind snd]; try discriminate; try (intros Q; now apply (NT false []) in Q).
    all: destruct (read_header (b ++ ext)) as [[|? ?|? ? ?]|e|w]; cbn [sbind snd]; try discriminate; try (intros Q; now apply (NT false []) in Q); intros _; apply TR.
  - unfold rel_resolve_empty. destruct (pr_fill (set_buffered [] (set_state HEmpty r))) as [[ext|e|w] r1] eqn:EF; apply fill_view in EF as (_ & _ & S1 & _ & CU & _); cbn [sbind snd];
      cbn [set_state set_buffered r_state] in S1; try (rewrite S1; discriminate). specialize (CU ext eq_refl).
    assert (NT : forall c x, r_state (note c x r1) <> HRefill buf needed) by (intros c x; destruct (note_fields c x r1) as (_ & -> & _); rewrite S1; discriminate).
    assert (TR : forall c x, b_cur (consume (length ext) (r_src (note c x r1))) = []).
    { intros c x. destruct (note_fields c x r1) as (-> & _). unfold consume. cbn [b_cur]. rewrite CU. apply skipn_all. }
    destruct ext as [|x ext']; [cbn [snd]; intros Q; now apply (NT false []) in Q|]. set (ext := x :: ext') in *. clearbody ext.
    destruct (_ <? hdr_size)%nat; [intros _; apply (TR false [])|].
    destruct (read_header ext) as [[|? ?|h from to]|e|w]; cbn [sbind snd]; try (intros Q; now apply (NT false []) in Q); try (intros _; apply TR).
    destruct (blen ext <? _); [discriminate|]. destruct (_ <? N.of_nat to); [cbn [snd]; intros Q; now apply NT in Q|].
    intros Q. apply FI in Q; [contradiction|]. destruct (note_fields (0 <? from)%nat (firstn from ext) r1) as (_ & -> & _). exact S1.
Qed.
End ReleaseStream.
