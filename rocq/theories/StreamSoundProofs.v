(** * The streaming reader on arbitrary input: no invented packets, termination. *)
From Coq Require Import ZifyBool ZifyNat ZifyN.
From Verif Require Import Base Crc32 Io Block Payload Packet Rules StreamReader Spec BaseProofs CrcProofs BlockProofs
  DispatchProofs PayloadProofs PayloadEnumProofs PacketProofs PacketSafeProofs RulesProofs WireProofs StreamProofs.
Ltac Zify.zify_post_hook ::= Z.div_mod_to_equations.
Open Scope list_scope.

(** ** Slices *)
Lemma blk_slice_ext sc src more vs : blk_read_from_slice sc src false = Ok vs -> blk_read_from_slice sc (src ++ more) false = Ok vs.
Proof.
  intros E. destruct (Nat.lt_ge_cases (length src) (ssize sc)) as [L|L].
  { destruct (blk_slice_short sc src L) as (e & Q). congruence. }
  destruct (split_block sc src L) as (sig & raw & crc & rest & -> & L1 & L2 & L3).
  rewrite <- !app_assoc. rewrite blk_slice_spec in * by easy. exact E.
Qed.

Lemma bk_slice_ext scs src more b : bk_read_from_slice scs src false = Ok b -> bk_read_from_slice scs (src ++ more) false = Ok b.
Proof.
  intros E. pose proof (bk_slice_inv _ _ _ E) as (_ & _ & L). rewrite ssize_eq in L.
  rewrite bk_slice_pick in * by (rewrite ?app_length; lia).
  replace (firstn 4 (src ++ more)) with (firstn 4 src).
  2: { rewrite firstn_app. replace (4 - length src)%nat with 0%nat by lia. now rewrite firstn_O, app_nil_r. }
  destruct (pick scs (firstn 4 src)) as [sc|]; [|discriminate].
  destruct (blk_read_from_slice sc src false) as [vs|e|w] eqn:EB; cbn [rbind] in E; try discriminate.
  rewrite (blk_slice_ext _ _ _ _ EB). exact E.
Qed.

Lemma hdr_slice_firstn buf h : hdr_read_from_slice buf = Ok h -> hdr_read_from_slice (firstn 29 buf) = Ok h.
Proof.
  intros E. assert (L : (29 <= length buf)%nat).
  { unfold hdr_read_from_slice, hdr_size in E. destruct (length buf <? 29)%nat eqn:Q; [discriminate|lia]. }
  destruct (split_hdr _ L) as (sg & sz & bl & fl & crc & rest & -> & L1 & L2 & L3 & L4 & L5).
  rewrite hdr_slice_spec in E by easy.
  replace (firstn 29 _) with (sg ++ sz ++ bl ++ fl ++ crc ++ []).
  - now rewrite hdr_slice_spec by easy.
  - rewrite app_nil_r. replace (sg ++ sz ++ bl ++ fl ++ crc ++ rest) with ((sg ++ sz ++ bl ++ fl ++ crc) ++ rest) by now rewrite <- !app_assoc.
    symmetry. apply firstn_app_exact. rewrite !app_length. lia.
Qed.

Lemma hdr_stream_slice hdr h body : hdr_read_from_slice hdr = Ok h -> length hdr = 29%nat ->
  hdr_read stream_reader (hdr ++ body) = (Ok h, body).
Proof.
  intros E LH. destruct (split_hdr hdr ltac:(lia)) as (sg & sz & bl & fl & crc & rest & EQ & L1 & L2 & L3 & L4 & L5).
  assert (rest = []). { apply (f_equal (@length byte)) in EQ. rewrite !app_length in EQ. destruct rest; [reflexivity|cbn [length] in EQ; lia]. }
  subst rest hdr. rewrite hdr_slice_spec in E by easy.
  pose proof (hdr_read_spec stream_reader (fun s => s) (fun _ => True) (lawful_okl _ _ _ stream_lawful)
    ((sg ++ sz ++ bl ++ fl ++ crc ++ []) ++ body) sg sz bl fl crc body I) as Q.
  rewrite <- !app_assoc in *. cbn [app] in *. specialize (Q eq_refl L1 L2 L3 L4 L5).
  destruct (bytes_eqb sg packet_sig); [|discriminate]. destruct Q as (s' & V & _ & Q). cbv beta in V. subst s'. rewrite Q, E. reflexivity.
Qed.

Lemma read_header_found buf h from to : read_header buf = Ok (FFound h from to) ->
  to = (from + 29)%nat /\ (to <= length buf)%nat /\ hdr_read_from_slice (firstn 29 (skipn from buf)) = Ok h.
Proof.
  unfold read_header, hdr_size. destruct (get_pos buf) as [off|]; [|discriminate].
  destruct (length (skipn off buf) <? 29)%nat eqn:L; [discriminate|].
  destruct (hdr_read_from_slice (skipn off buf)) as [h'|e|w] eqn:E; cbn [rbind]; try discriminate.
  intros Q. injection Q as -> -> <-. rewrite skipn_length in L. split; [reflexivity|]. split; [lia|]. now apply hdr_slice_firstn.
Qed.

Section Sound.
Context {U : Type}.
Variable P : proto U.

(** ** One packet *)
Lemma blocks_sound scs body bl : (bl <= length body)%nat -> forall left rd acc bs f,
  (rd <= bl)%nat -> reader_blocks left scs (firstn bl body) rd acc = (Ok bs, f) ->
  forall fuel, (bl - rd < fuel)%nat -> blocks_loop_slice fuel scs body bl rd acc = Ok bs.
Proof.
  intros LB. assert (LF : length (firstn bl body) = bl) by (rewrite firstn_length; lia).
  induction left as [|left IH]; intros rd acc bs f LR E fuel LU; [discriminate|].
  destruct fuel as [|fuel]; [lia|]. cbn [reader_blocks blocks_loop_slice] in *.
  destruct (bk_read_from_slice scs (skipn rd (firstn bl body)) false) as [b|e|w] eqn:EB; try discriminate.
  assert (EX : skipn rd body = skipn rd (firstn bl body) ++ skipn bl body).
  { rewrite <- (firstn_skipn bl body) at 1. rewrite skipn_app, LF. replace (rd - bl)%nat with 0%nat by lia. reflexivity. }
  rewrite EX, (bk_slice_ext _ _ _ _ EB). cbn [rbind].
  pose proof (bk_slice_inv _ _ _ EB) as (_ & _ & LS). rewrite skipn_length, LF in LS. rewrite ssize_eq in LS.
  destruct (bk_size b =? 0) eqn:Z; [discriminate|]. rewrite LF in E.
  destruct (rd + N.to_nat (bk_size b) =? bl)%nat eqn:ED; [congruence|].
  assert (SB : N.to_nat (bk_size b) = ssize (bk_ty b)) by (unfold bk_size; lia). rewrite ssize_eq in SB.
  eapply IH; [|exact E|]; lia.
Qed.

Lemma found_filtered rs h hdr body p f : parse_body P rs h body = (Ok (NFound p), f) ->
  hdr_read_from_slice hdr = Ok h -> length hdr = 29%nat -> blen body = h_size h -> h_size h < two63 ->
  filtered stream_reader P [] (hdr ++ body) = (Ok (Accepted (h_size h) p), []).
Proof.
  intros E HH LH LB L63. unfold filtered. rewrite (hdr_stream_slice hdr h body HH LH). cbn [sbind].
  unfold alloc. replace (h_size h <? two63) with true by lia. cbn [sbind]. cbn [stream_reader rd_exact].
  unfold stream_read_exact. rewrite <- LB. replace (blen body <=? blen body) with true by lia.
  rewrite to_nat_blen, firstn_all, skipn_all. cbn [sbind].
  unfold parse_body in E. destruct (blen body <? h_blocks_len h) eqn:EL; [discriminate|].
  set (bl := N.to_nat (h_blocks_len h)) in *.
  assert (LBL : (bl <= length body)%nat) by (unfold bl, blen in *; lia).
  destruct (match firstn bl body with [] => (Ok [], Drop) | _ => reader_blocks (N.to_nat max_blocks_count) (pr_blocks P) (firstn bl body) 0 [] end)
    as [[bs|e|w] f0] eqn:EB; try discriminate.
  assert (BS : (if 0 <? h_blocks_len h then blocks_loop_slice (length body + 1) (pr_blocks P) body
             (N.to_nat (N.min (h_blocks_len h) (blen body + 1))) 0 [] else Ok []) = Ok bs).
  { destruct (0 <? h_blocks_len h) eqn:Z.
    - replace (N.to_nat (N.min (h_blocks_len h) (blen body + 1))) with bl by (unfold bl; lia).
      assert (EB' : reader_blocks (N.to_nat max_blocks_count) (pr_blocks P) (firstn bl body) 0 [] = (Ok bs, f0)).
      { destruct (firstn bl body) eqn:EF; [|exact EB].
        apply (f_equal (@length byte)) in EF. rewrite firstn_length in EF. cbn [length] in EF. unfold bl in *. lia. }
      apply (blocks_sound _ _ _ LBL _ _ _ _ _ (Nat.le_0_l _) EB'). lia.
    - replace bl with 0%nat in EB by (unfold bl; lia). rewrite firstn_O in EB. congruence. }
  rewrite BS. cbn [sbind filter_by_blocks find negb].
  destruct (negb (filter_by_blocks rs bs)); [discriminate|].
  assert (FF : forall q, (if negb (filter_packet rs q) then (Ok NSkipped, Drop) else (Ok (NFound q), Drop)) = (Ok (NFound p), f) -> q = p).
  { intros q Q. destruct (filter_packet rs q); cbn [negb] in Q; [congruence|discriminate]. }
  destruct (h_payload h).
  - unfold ph_try_read_buf in E. assert (PK : fst (do (buf, s) <- fill_buf (of_slice (skipn bl body)); (ph_peek buf, s)) = ph_peek (skipn bl body)).
    { unfold of_slice, fill_buf. cbn [b_cur b_evs]. destruct (skipn bl body); reflexivity. }
    rewrite PK in E. destruct (ph_peek (skipn bl body)) as [[ph|n]|e|w]; try discriminate. cbn [rbind].
    destruct (negb (filter_by_payload rs _)); [discriminate|].
    replace (negb (filter_by_payload ([] : rules U) (skipn (bl + ph_size ph) body))) with false by reflexivity.
    destruct (fst (pl_try_read_buf (pr_kinds P) ph (of_slice (skipn (bl + ph_size ph) body)))) as [[pl|n]|e|w]; try discriminate.
    apply FF in E. subst p. reflexivity.
  - apply FF in E. subst p. reflexivity.
Qed.

(** ** Sections *)
Lemma sections_app D D' ps : sections P D ps -> sections P (D ++ D') ps.
Proof.
  induction 1 as [|skip hdr body rest h p ps H1 H2 H3 H4 H5 IH]; [constructor|].
  rewrite <- !app_assoc. econstructor; eassumption.
Qed.

Lemma sections_snoc D ps skip hdr body h p : sections P D ps ->
  hdr_read_from_slice hdr = Ok h -> length hdr = 29%nat -> blen body = h_size h ->
  filtered stream_reader P [] (hdr ++ body) = (Ok (Accepted (h_size h) p), []) ->
  sections P (D ++ skip ++ hdr ++ body) (ps ++ [p]).
Proof.
  intros H A B C E. induction H as [D|skip' hdr' body' rest' h' p' ps H1 H2 H3 H4 H5 IH].
  - cbn [app]. replace (D ++ skip ++ hdr ++ body) with ((D ++ skip) ++ hdr ++ body ++ []) by (rewrite app_nil_r, <- app_assoc; reflexivity).
    econstructor; try eassumption. constructor.
  - rewrite <- !app_assoc. cbn [app]. econstructor; eassumption.
Qed.

(** ** The invariant *)
Definition sound (D : bytes) (r : preader U) (ps : list (packet U)) : Prop :=
  exists pre pend, D = pre ++ pend ++ b_view (r_src r) /\ sections P pre ps /\
    match r_state r with
    | HEmpty => True
    | HRefill buf _ => pend = buf /\ r_buffered r = []
    | HReady h => exists hdr, pend = hdr ++ r_buffered r /\ hdr_read_from_slice hdr = Ok h /\ length hdr = 29%nat
    end.

Lemma fill_view (r : preader U) o r1 : pr_fill r = (o, r1) ->
  b_view (r_src r1) = b_view (r_src r) /\ r_rules r1 = r_rules r /\ r_state r1 = r_state r /\ r_buffered r1 = r_buffered r /\
  (forall buf, o = Ok buf -> b_cur (r_src r1) = buf) /\ no_panic o.
Proof.
  unfold pr_fill, fill_buf, b_view. destruct r as [[cur evs] rl sta bf lg]. cbn [r_src b_cur b_evs].
  destruct cur as [|c cur]; [destruct evs as [|[bs|k] evs]|]; intros E; injection E as <- <-;
    cbn [set_src r_src r_rules r_state r_buffered b_cur b_evs map concat ev_bytes app no_panic];
    (split; [reflexivity|]); (split; [reflexivity|]); (split; [reflexivity|]); (split; [reflexivity|]); split; try exact I;
    intros buf Q; congruence.
Qed.

Lemma view_consume n s : b_view s = firstn n (b_cur s) ++ b_view (consume n s).
Proof. unfold b_view, consume. cbn [b_cur b_evs]. now rewrite app_assoc, firstn_skipn. Qed.

Lemma note_fields c b (r : preader U) : r_src (note c b r) = r_src r /\ r_state (note c b r) = r_state r /\
  r_buffered (note c b r) = r_buffered r /\ r_rules (note c b r) = r_rules r.
Proof. unfold note. destruct c; cbn; auto. Qed.

Definition gain (o : res (next U)) : list (packet U) := match o with Ok (NFound p) => [p] | _ => [] end.

(** Everything still to be accounted for is skipped. *)
Lemma sound_skip D pre pend (r : preader U) : D = pre ++ pend ++ b_view (r_src r) -> forall ps, sections P pre ps -> r_state r = HEmpty -> sound D r ps.
Proof. intros E ps S H. exists pre, pend. rewrite H. auto. Qed.

(** A packet that ends where the source now stands. *)
Lemma sound_finish D pre ps skip hdr body h rs n (r : preader U) o r' : blen D < two63 ->
  D = pre ++ skip ++ hdr ++ body ++ b_view (match n with Some n => consume n (r_src r) | None => r_src r end) ->
  sections P pre ps -> hdr_read_from_slice hdr = Ok h -> length hdr = 29%nat -> blen body = h_size h ->
  r_rules r = rs -> r_state r = HEmpty -> (exists pend, D = pre ++ pend ++ b_view (r_src r)) ->
  finish P h body n r = (o, r') -> sound D r' (ps ++ gain o).
Proof.
  intros L63 ED S HH LH LB RU ST (pend & EP) E. unfold finish in E.
  destruct (parse_body P (r_rules r) h body) as [o1 f] eqn:EB. injection E as <- <-.
  assert (FD : forall p, o1 = Ok (NFound p) -> f = Drop).
  { intros p ->. unfold parse_body in EB.
    repeat match type of EB with
    | (if ?x then _ else _) = _ => destruct x; try discriminate
    | (match ?x with _ => _ end) = _ => destruct x; try discriminate
    end; congruence. }
  destruct o1 as [[n1| | | |p]|e|w]; cbn [gain]; rewrite ?app_nil_r;
    try (destruct f; [exists pre, (skip ++ hdr ++ body)|exists pre, pend|exists pre, pend]; cbn [r_src r_state]; rewrite ST;
         (split; [rewrite <- ?app_assoc; assumption|split; [exact S|exact I]])).
  rewrite (FD p eq_refl). exists (pre ++ skip ++ hdr ++ body), []. cbn [r_src r_state app]. rewrite ST.
  split; [now rewrite <- !app_assoc|]. split; [|exact I].
  apply (sections_snoc pre ps skip hdr body h p S HH LH LB).
  rewrite (FD p eq_refl) in EB. eapply found_filtered; try eassumption.
  rewrite ED, !blen_app in L63. lia.
Qed.

Lemma sound_ready D h r0 ps o r' : blen D < two63 -> sound D (set_state (HReady h) r0) ps ->
  resolve_ready P h (set_state HEmpty r0) = (o, r') -> sound D r' (ps ++ gain o).
Proof.
  intros L63 (pre & pend & ED & S & hdr & -> & HH & LH) E. cbn [set_state r_src r_buffered] in ED.
  unfold resolve_ready in E. destruct (pr_fill (set_state HEmpty r0)) as [[buf|e|w] r1] eqn:EF;
    apply fill_view in EF as (VW & RU & ST & BF & CU & NP); cbn [set_state r_src r_rules r_state r_buffered] in *; cbn [sbind] in E; [| |contradiction].
  2: { injection E as <- <-. cbn [gain]. rewrite app_nil_r. eapply sound_skip; [|exact S|exact ST]. rewrite VW. exact ED. }
  specialize (CU buf eq_refl). rewrite BF in *. rewrite <- VW in ED.
  destruct (_ <? h_size h) eqn:EA.
  { injection E as <- <-. cbn [gain]. rewrite app_nil_r. exists pre, (hdr ++ r_buffered r0 ++ buf).
    unfold eat. cbn [set_state set_src set_buffered r_src r_state r_buffered]. split.
    - rewrite ED, (view_consume (length buf) (r_src r1)), CU, firstn_all, <- !app_assoc. reflexivity.
    - split; [exact S|]. exists hdr. auto. }
  destruct (h_size h <? blen (r_buffered r0)) eqn:EB.
  { injection E as <- <-. cbn [gain]. rewrite app_nil_r. eapply sound_skip; [exact ED|exact S|exact ST]. }
  set (rest := (N.to_nat (h_size h) - length (r_buffered r0))%nat) in *.
  unfold eat in E. cbn [set_state set_src set_buffered r_src r_state r_buffered] in E.
  eapply (sound_finish D pre ps [] hdr (r_buffered r0 ++ firstn rest buf) h (r_rules r1) None); try exact E; try assumption; try reflexivity.
  - cbn [set_state set_src set_buffered r_src r_state r_buffered app].
    rewrite ED, (view_consume rest (r_src r1)), CU, <- !app_assoc. reflexivity.
  - unfold blen in *. rewrite app_length, firstn_length. unfold rest. lia.
  - cbn [set_state set_src set_buffered r_src r_state r_buffered app]. exists (hdr ++ r_buffered r0 ++ firstn rest buf).
    rewrite ED, (view_consume rest (r_src r1)), CU, <- !app_assoc. reflexivity.
Qed.

Lemma sound_refill_found D pre ps h from to buf ext (r : preader U) o r' B :
  D = pre ++ buf ++ b_view (r_src r) -> sections P pre ps -> b_cur (r_src r) = ext -> r_state r = HEmpty -> r_buffered r = [] ->
  (exists k, B = buf ++ firstn k ext) -> read_header B = Ok (FFound h from to) ->
  refill_found h from to B (length buf) r = (o, r') -> sound D r' (ps ++ gain o).
Proof.
  intros ED S CU ST BF (k & EB) RH E. apply read_header_found in RH as (-> & LT & HH).
  unfold refill_found in E. destruct (note_fields (0 <? from)%nat (firstn from B) r) as (N1 & N2 & N3 & N4).
  set (r1 := note (0 <? from)%nat (firstn from B) r) in *. unfold usub in E.
  destruct (length buf <=? from + 29)%nat eqn:EL; cbn [sbind] in E; injection E as <- <-; cbn [gain]; rewrite app_nil_r.
  2: { eapply sound_skip; [|exact S|now rewrite N2]. rewrite N1. exact ED. }
  exists (pre ++ firstn from B), (firstn 29 (skipn from B)). unfold eat. cbn [set_state set_src r_src r_state r_buffered]. rewrite N1, N3, BF.
  assert (LB : (length B <= length buf + length ext)%nat) by (rewrite EB, app_length, firstn_length; lia).
  split.
  - rewrite ED, (view_consume (from + 29 - length buf) (r_src r)), CU, <- !app_assoc. f_equal. rewrite !app_assoc. f_equal.
    rewrite <- (firstn_skipn (from + 29) B) in EB. 
    assert (Q : firstn from B ++ firstn 29 (skipn from B) = firstn (from + 29) B).
    { rewrite <- (firstn_skipn from (firstn (from + 29) B)). f_equal; [now rewrite firstn_firstn, Nat.min_l by lia|].
      rewrite skipn_firstn_comm. f_equal. lia. }
    rewrite Q. apply (f_equal (firstn (from + 29))) in EB. rewrite firstn_skipn in EB. rewrite EB, firstn_app, (firstn_all2 buf) by lia. f_equal.
    rewrite firstn_firstn. f_equal.
    assert (length (firstn (from + 29) B) = from + 29)%nat by (rewrite firstn_length; lia).
    rewrite EB, firstn_app, app_length, (firstn_all2 buf), firstn_firstn, firstn_length in H by lia.
    lia.
  - split; [now apply sections_app|]. exists (firstn 29 (skipn from B)). rewrite app_nil_r. split; [reflexivity|]. split; [exact HH|].
    rewrite firstn_length, skipn_length. lia.
Qed.

Lemma sound_refill D buf needed r0 ps o r' : sound D (set_state (HRefill buf needed) r0) ps ->
  resolve_refill buf needed (set_state HEmpty r0) = (o, r') -> sound D r' (ps ++ gain o).
Proof.
  intros (pre & pend & ED & S & -> & BE) E. cbn [set_state r_src r_buffered] in ED, BE.
  unfold resolve_refill in E. destruct (pr_fill (set_state HEmpty r0)) as [[ext|e|w] r1] eqn:EF;
    apply fill_view in EF as (VW & RU & ST & BF & CU & NP); cbn [set_state r_src r_rules r_state r_buffered] in *; cbn [sbind] in E; [| |contradiction].
  2: { injection E as <- <-. cbn [gain]. rewrite app_nil_r. eapply sound_skip; [|exact S|exact ST]. rewrite VW. exact ED. }
  specialize (CU ext eq_refl). rewrite BE in *. rewrite <- VW in ED.
  assert (SK : forall c b, sound D (note c b r1) ps).
  { intros c b. destruct (note_fields c b r1) as (N1 & N2 & N3 & N4). eapply sound_skip; [|exact S|now rewrite N2]. rewrite N1. exact ED. }
  destruct ext as [|x ext']; [injection E as <- <-; cbn [gain]; rewrite app_nil_r; apply (SK true buf)|].
  set (ext := x :: ext') in *. assert (VC : b_view (r_src r1) = ext ++ b_view (consume (length ext) (r_src r1))).
  { rewrite (view_consume (length ext) (r_src r1)) at 1. rewrite CU, firstn_all. reflexivity. }
  destruct (length ext <? needed)%nat.
  { injection E as <- <-. cbn [gain]. rewrite app_nil_r. exists pre, (buf ++ ext). unfold eat. cbn [set_state set_src r_src r_state r_buffered].
    rewrite ED, VC, <- app_assoc. auto. }
  assert (FD : forall h from to B, (exists k, B = buf ++ firstn k ext) -> read_header B = Ok (FFound h from to) ->
    refill_found h from to B (length buf) r1 = (o, r') -> sound D r' (ps ++ gain o)).
  { intros h from to B HB RH EE. eapply sound_refill_found; try eassumption. }
  assert (RE : forall B e, (Err e, r1) = (o, r') -> read_header B = Err e -> sound D r' (ps ++ gain o)).
  { intros B e Q _. injection Q as <- <-. cbn [gain]. rewrite app_nil_r. apply (SK false []). }
  assert (RP : forall w, (Panic w, r1) = (o, r') -> sound D r' (ps ++ gain o)).
  { intros w Q. injection Q as <- <-. cbn [gain]. rewrite app_nil_r. apply (SK false []). }
  assert (LO : (do (f, r) <- (read_header (buf ++ ext), r1);
            match f with
            | FFound h from to => refill_found h from to (buf ++ ext) (length buf) r
            | FNotEnough from needed =>
                let r := note (0 <? from)%nat (firstn from (buf ++ ext)) r in
                (Ok (NNotEnough (N.of_nat needed)), set_state (HRefill (skipn from (buf ++ ext)) needed) (eat (length ext) r))
            | FNotFound =>
                let cut := (length (buf ++ ext) - hdr_size)%nat in
                let r := note (hdr_size <? length (buf ++ ext))%nat (firstn cut (buf ++ ext)) r in
                (Ok NNotFound, set_state (HRefill (skipn cut (buf ++ ext)) hdr_size) (eat (length ext) r))
            end) = (o, r') -> sound D r' (ps ++ gain o)).
  { assert (NX : forall c b k m o1, gain o1 = [] ->
      (o1, set_state (HRefill (skipn k (buf ++ ext)) m) (eat (length ext) (note c b r1))) = (o, r') -> sound D r' (ps ++ gain o)).
    { intros c b k m o1 G Q. injection Q as <- <-. rewrite G, app_nil_r. destruct (note_fields c b r1) as (N1 & N2 & N3 & N4).
      exists (pre ++ firstn k (buf ++ ext)), (skipn k (buf ++ ext)). unfold eat. cbn [set_state set_src r_src r_state r_buffered]. rewrite N1, N3.
      split; [|split; [now apply sections_app|split; [reflexivity|exact BF]]].
      rewrite ED, VC, <- !app_assoc. f_equal. rewrite (app_assoc (firstn k _)), firstn_skipn, <- app_assoc. reflexivity. }
    destruct (read_header (buf ++ ext)) as [[|from nd|h from to]|e|w] eqn:RH; cbn [sbind]; intros EE.
    - eapply NX; [|exact EE]; reflexivity.
    - eapply NX; [|exact EE]; reflexivity.
    - eapply FD; [|exact RH|exact EE]. exists (length ext). now rewrite firstn_all.
    - eapply RE; [exact EE|exact RH].
    - eapply RP; exact EE. }
  destruct (read_header (buf ++ firstn needed ext)) as [[|from nd|h from to]|e|w] eqn:RH; cbn [sbind] in E.
  - now apply LO.
  - now apply LO.
  - eapply FD; [|exact RH|exact E]. now exists needed.
  - eapply RE; [exact E|exact RH].
  - eapply RP; exact E.
Qed.

Lemma sound_empty D r0 ps o r' : blen D < two63 -> sound D (set_state HEmpty r0) ps ->
  resolve_empty P (set_state HEmpty r0) = (o, r') -> sound D r' (ps ++ gain o).
Proof.
  intros L63 (pre0 & pend0 & ED & S0 & _) E. cbn [set_state r_src r_buffered] in ED. rewrite app_assoc in ED.
  set (pre := pre0 ++ pend0) in *. assert (S : sections P pre ps) by (now apply sections_app). clearbody pre. clear S0 pre0 pend0.
  unfold resolve_empty in E. destruct (pr_fill (set_buffered [] (set_state HEmpty r0))) as [[buf|e|w] r1] eqn:EF;
    apply fill_view in EF as (VW & RU & ST & BF & CU & NP); cbn [set_state set_buffered r_src r_rules r_state r_buffered] in *; cbn [sbind] in E; [| |contradiction].
  2: { injection E as <- <-. cbn [gain]. rewrite app_nil_r. apply (sound_skip D pre []); [|exact S|exact ST]. rewrite VW. exact ED. }
  specialize (CU buf eq_refl). rewrite <- VW in ED.
  assert (SK : forall c b, sound D (note c b r1) ps).
  { intros c b. destruct (note_fields c b r1) as (N1 & N2 & N3 & N4). apply (sound_skip D pre []); [|exact S|now rewrite N2]. rewrite N1. exact ED. }
  destruct buf as [|x buf']; [injection E as <- <-; cbn [gain]; rewrite app_nil_r; apply (SK false [])|].
  set (buf := x :: buf') in *. assert (VC : b_view (r_src r1) = buf ++ b_view (consume (length buf) (r_src r1))).
  { rewrite (view_consume (length buf) (r_src r1)) at 1. rewrite CU, firstn_all. reflexivity. }
  assert (NX : forall c b k m o1, gain o1 = [] ->
      (o1, eat (length buf) (set_state (HRefill (skipn k buf) m) (note c b r1))) = (o, r') -> sound D r' (ps ++ gain o)).
  { intros c b k m o1 G Q. injection Q as <- <-. rewrite G, app_nil_r. destruct (note_fields c b r1) as (N1 & N2 & N3 & N4).
    exists (pre ++ firstn k buf), (skipn k buf). unfold eat. cbn [set_state set_src r_src r_state r_buffered]. rewrite N1, N3.
    split; [|split; [now apply sections_app|split; [reflexivity|exact BF]]].
    rewrite ED, VC, <- !app_assoc. f_equal. rewrite (app_assoc (firstn k _)), firstn_skipn. reflexivity. }
  destruct (length buf <? hdr_size)%nat; [eapply (NX false [] 0%nat); [|exact E]; reflexivity|].
  destruct (read_header buf) as [[|from nd|h from to]|e|w] eqn:RH; cbn [sbind] in E.
  - eapply NX; [|exact E]; reflexivity.
  - eapply NX; [|exact E]; reflexivity.
  - apply read_header_found in RH as (-> & LT & HH).
    assert (LHD : length (firstn 29 (skipn from buf)) = 29%nat) by (rewrite firstn_length, skipn_length; lia).
    assert (SP : buf = firstn from buf ++ firstn 29 (skipn from buf) ++ skipn (from + 29) buf).
    { rewrite <- (firstn_skipn from buf) at 1. f_equal. rewrite <- (firstn_skipn 29 (skipn from buf)) at 1. f_equal.
      rewrite skipn_skipn. f_equal. lia. }
    destruct (note_fields (0 <? from)%nat (firstn from buf) r1) as (N1 & N2 & N3 & N4).
    set (r2 := note (0 <? from)%nat (firstn from buf) r1) in *.
    destruct (two64 <=? _); [injection E as <- <-; cbn [gain]; rewrite app_nil_r; apply (SK (0 <? from)%nat (firstn from buf))|].
    destruct (blen buf <? _) eqn:EN.
    + injection E as <- <-. cbn [gain]. rewrite app_nil_r. unfold eat.
      exists (pre ++ firstn from buf), (firstn 29 (skipn from buf) ++ skipn (from + 29) buf).
      cbn [set_state set_src set_buffered r_src r_state r_buffered]. rewrite N1.
      split; [|split; [now apply sections_app|exists (firstn 29 (skipn from buf)); auto]].
      rewrite ED, VC, SP at 1. now rewrite <- !app_assoc.
    + set (size := N.to_nat (h_size h)) in *.
      assert (LS : (from + 29 + size <= length buf)%nat) by (unfold size, blen in *; lia).
      eapply (sound_finish D pre ps (firstn from buf) (firstn 29 (skipn from buf)) (firstn size (skipn (from + 29) buf)) h (r_rules r2)
                (Some (from + 29 + size)%nat)); try exact E; try assumption; try reflexivity.
      * rewrite N1, ED, (view_consume (from + 29 + size) (r_src r1)), CU. f_equal. rewrite !app_assoc. f_equal.
        rewrite SP at 1. rewrite !app_assoc, firstn_app. rewrite app_length, LHD, firstn_length, Nat.min_l by lia.
        rewrite firstn_all2 by (rewrite app_length, LHD, firstn_length; lia). f_equal. f_equal. lia.
      * unfold blen. rewrite firstn_length, skipn_length. unfold size in *. lia.
      * now rewrite N2.
      * exists []. rewrite N1. exact ED.
  - injection E as <- <-. cbn [gain]. rewrite app_nil_r. apply (SK false []).
  - injection E as <- <-. cbn [gain]. rewrite app_nil_r. apply (SK false []).
Qed.

Lemma sound_read D r ps : blen D < two63 -> sound D r ps -> sound D (snd (pr_read P r)) (ps ++ gain (fst (pr_read P r))).
Proof.
  intros L63 S. destruct (pr_read P r) as [o r'] eqn:E. cbn [fst snd]. unfold pr_read in E.
  destruct r as [src rl sta bf lg]. destruct sta as [h|buf needed|]; cbn [r_state] in E.
  - eapply sound_ready; [exact L63| |exact E]. exact S.
  - eapply sound_refill; [|exact E]. exact S.
  - eapply sound_empty; [exact L63| |exact E]. exact S.
Qed.

Lemma sound_reads D n : blen D < two63 -> forall r ps, sound D r ps ->
  sound D (snd (pr_reads P n r)) (ps ++ found_packets (fst (pr_reads P n r))).
Proof.
  intros L63. induction n as [|n IH]; intros r ps S; cbn [pr_reads]; [cbn [fst snd]; unfold found_packets; cbn [map concat]; now rewrite app_nil_r|].
  pose proof (sound_read D r ps L63 S) as S1. destruct (pr_read P r) as [o r1]. cbn [fst snd] in S1.
  specialize (IH r1 _ S1). destruct (pr_reads P n r1) as [os r2]. cbn [fst snd] in *.
  unfold found_packets in *. cbn [map concat]. rewrite app_assoc. exact IH.
Qed.

Lemma no_invention rs evs n : blen (concat (map ev_bytes evs)) < two63 ->
  sections P (concat (map ev_bytes evs)) (found_packets (fst (pr_reads P n (fresh rs evs)))).
Proof.
  intros L63. destruct (sound_reads (concat (map ev_bytes evs)) n L63 (fresh rs evs) []) as (pre & pend & ED & S & _).
  - exists [], []. cbn [app fresh r_src r_state]. split; [reflexivity|]. split; [constructor|exact I].
  - cbn [app] in S. rewrite ED. now apply sections_app.
Qed.
(** ** Termination *)
Definition goes_on (o : res (next U)) : bool := match o with Ok NNoData => false | Ok _ => true | _ => false end.
Definition live (r : preader U) : Prop := exists cs, b_evs (r_src r) = map Chunk cs /\ Forall (fun c => c <> []) cs.
Definition weight (x : hstate) : nat := match x with HReady _ => 1 | HRefill _ _ => 2 | HEmpty => 0 end.
Definition mu (r : preader U) : nat := (3 * length (b_view (r_src r)) + weight (r_state r))%nat.

Lemma fill_live r : live r -> exists r1, pr_fill r = (Ok (b_cur (r_src r1)), r1) /\ live r1 /\
  (b_cur (r_src r1) = [] -> r1 = r /\ b_view (r_src r) = []).
Proof.
  intros (cs & EV & F). unfold pr_fill, fill_buf. destruct r as [[cur evs] rl sta bf lg]. cbn [r_src b_cur b_evs] in *. subst evs.
  destruct cur as [|c cur].
  - destruct F as [|c cs NC F]; cbn [map].
    + match goal with |- exists r1, (_, ?x) = _ /\ _ => exists x end. split; [reflexivity|]. cbn [set_src r_src b_cur]. split; [exists []; auto|]. intros _. auto.
    + match goal with |- exists r1, (_, ?x) = _ /\ _ => exists x end. split; [reflexivity|]. cbn [set_src r_src b_cur]. split; [exists cs; auto|]. intros Q. contradiction.
  - match goal with |- exists r1, (_, ?x) = _ /\ _ => exists x end. split; [reflexivity|]. cbn [set_src r_src b_cur]. split; [exists cs; auto|]. discriminate.
Qed.

Lemma live_consume n (r : preader U) : live r -> exists cs, b_evs (consume n (r_src r)) = map Chunk cs /\ Forall (fun c => c <> []) cs.
Proof. intros (cs & A & B). exists cs. auto. Qed.

Lemma view_shrinks n s : (n <= length (b_cur s))%nat -> (length (b_view (consume n s)) + n = length (b_view s))%nat.
Proof. intros L. rewrite (view_consume n s), app_length, firstn_length. lia. Qed.

Definition progress (o : res (next U)) (r r' : preader U) : Prop :=
  goes_on o = false \/ (live r' /\ (mu r' < mu r)%nat) \/ (r' = r /\ exists k, 0 < k /\ o = Ok (NNotEnough k)).

Lemma finish_goes h body n r o r' : finish P h body n r = (o, r') -> goes_on o = true ->
  r_src r' = match n with Some n => consume n (r_src r) | None => r_src r end /\ r_state r' = r_state r.
Proof.
  unfold finish. destruct (parse_body P (r_rules r) h body) as [o1 f] eqn:EB. intros E G. injection E as <- <-.
  assert (f = Drop); [|subst f; auto]. unfold parse_body in EB.
  repeat match type of EB with
    | (if ?x then _ else _) = _ => destruct x; try discriminate
    | (match ?x with _ => _ end) = _ => destruct x; try discriminate
    end; injection EB as <- <-; try reflexivity; cbn [goes_on] in G; discriminate.
Qed.

Lemma read_progress r : live r -> progress (fst (pr_read P r)) r (snd (pr_read P r)).
Proof.
  intros LV. destruct (pr_read P r) as [o r'] eqn:E. cbn [fst snd]. unfold progress.
  destruct (goes_on o) eqn:G; [right|now left]. unfold pr_read in E.
  assert (LV0 : live (set_state HEmpty r)) by exact LV.
  assert (M0 : mu r = (3 * length (b_view (r_src r)) + weight (r_state r))%nat) by reflexivity.
  destruct (r_state r) as [h|buf needed|] eqn:ST; cbn [weight] in M0.
  - unfold resolve_ready in E. destruct (fill_live _ LV0) as (r1 & EF & LV1 & NB). rewrite EF in E. cbn [sbind] in E.
    pose proof (fill_view _ _ _ EF) as (VW & RU & S1 & BF & _). cbn [set_state r_src r_state r_buffered] in *.
    destruct (_ <? h_size h) eqn:EA.
    + injection E as <- <-. destruct (b_cur (r_src r1)) as [|x cur] eqn:EC.
      * right. destruct (NB eq_refl) as (-> & _). rewrite app_nil_r. split.
        -- destruct r as [[c0 e0] rl sta bf lg]. cbn [set_state r_state r_src b_cur r_buffered] in *. subst sta c0. reflexivity.
        -- eexists. split; [|reflexivity]. lia.
      * left. split; [now apply live_consume|]. unfold mu at 1; unfold eat. cbn [set_state set_src set_buffered r_src r_state weight].
        rewrite M0, <- VW. pose proof (view_shrinks (length (x :: cur)) (r_src r1)) as Q. rewrite EC in Q. cbn [length] in *. lia.
    + destruct (h_size h <? _); [injection E as <- <-; discriminate|]. left.
      apply finish_goes in E as (ES & ET); [|exact G]. unfold eat in ES, ET. cbn [set_state set_src set_buffered r_src r_state] in ES, ET.
      split; [unfold live; rewrite ES; now apply live_consume|]. unfold mu at 1. rewrite ES, ET, S1, M0, <- VW. cbn [weight].
      rewrite (view_consume (N.to_nat (h_size h) - length (r_buffered r1)) (r_src r1)). rewrite app_length. lia.
  - left. unfold resolve_refill in E. destruct (fill_live _ LV0) as (r1 & EF & LV1 & NB). rewrite EF in E. cbn [sbind] in E.
    pose proof (fill_view _ _ _ EF) as (VW & RU & S1 & BF & _). cbn [set_state r_src r_state r_buffered] in *.
    destruct (b_cur (r_src r1)) as [|x cur] eqn:EC; [injection E as <- <-; discriminate|].
    set (ext := x :: cur) in *.
    assert (EA : forall r2, r_src r2 = consume (length ext) (r_src r1) -> live r2 /\ (mu r2 < mu r)%nat).
    { intros r2 Q. split; [unfold live; rewrite Q; now apply live_consume|]. unfold mu at 1. rewrite Q, M0, <- VW.
      pose proof (view_shrinks (length ext) (r_src r1)) as V. rewrite EC in V. unfold ext in *. cbn [length] in *.
      assert (weight (r_state r2) <= 2)%nat by (destruct (r_state r2); cbn [weight]; lia). lia. }
    assert (FD : forall h from to B, refill_found h from to B (length buf) r1 = (o, r') -> live r' /\ (mu r' < mu r)%nat).
    { intros h from to B EE. unfold refill_found in EE. destruct (note_fields (0 <? from)%nat (firstn from B) r1) as (N1 & N2 & N3 & N4).
      set (r2 := note (0 <? from)%nat (firstn from B) r1) in *. unfold usub in EE.
      destruct (_ <=? to)%nat; cbn [sbind] in EE; injection EE as <- <-; [|discriminate].
      unfold eat, live; unfold mu at 1. cbn [set_state set_src r_src r_state weight]. rewrite N1. split; [now apply live_consume|].
      rewrite M0, <- VW. rewrite (view_consume (to - length buf) (r_src r1)). rewrite app_length. lia. }
    assert (NS : forall c b k (r2 : preader U), r_src (set_state k (eat (length ext) (note c b r1))) = consume (length ext) (r_src r1)).
    { intros c b k _. unfold eat. cbn [set_state set_src r_src]. destruct (note_fields c b r1) as (N1 & _). now rewrite N1. }
    assert (LO : (do (f, r) <- (read_header (buf ++ ext), r1);
            match f with
            | FFound h from to => refill_found h from to (buf ++ ext) (length buf) r
            | FNotEnough from needed =>
                let r := note (0 <? from)%nat (firstn from (buf ++ ext)) r in
                (Ok (NNotEnough (N.of_nat needed)), set_state (HRefill (skipn from (buf ++ ext)) needed) (eat (length ext) r))
            | FNotFound =>
                let cut := (length (buf ++ ext) - hdr_size)%nat in
                let r := note (hdr_size <? length (buf ++ ext))%nat (firstn cut (buf ++ ext)) r in
                (Ok NNotFound, set_state (HRefill (skipn cut (buf ++ ext)) hdr_size) (eat (length ext) r))
            end) = (o, r') -> live r' /\ (mu r' < mu r)%nat).
    { destruct (read_header (buf ++ ext)) as [[|from nd|h from to]|e|w] eqn:RH; cbn [sbind]; intros EE.
      - injection EE as <- <-. apply EA, (NS _ _ _ r).
      - injection EE as <- <-. apply EA, (NS _ _ _ r).
      - eapply FD; exact EE.
      - injection EE as <- <-. discriminate.
      - injection EE as <- <-. discriminate. }
    destruct (length ext <? needed)%nat; [injection E as <- <-; apply EA; reflexivity|].
    destruct (read_header (buf ++ firstn needed ext)) as [[|from nd|h from to]|e|w] eqn:RH; cbn [sbind] in E; try (now apply LO).
    + eapply FD; exact E.
    + injection E as <- <-. discriminate.
    + injection E as <- <-. discriminate.
  - left. unfold resolve_empty in E. destruct (fill_live (set_buffered [] (set_state HEmpty r)) LV0) as (r1 & EF & LV1 & NB). rewrite EF in E. cbn [sbind] in E.
    pose proof (fill_view _ _ _ EF) as (VW & RU & S1 & BF & _). cbn [set_state set_buffered r_src r_state r_buffered] in *.
    destruct (b_cur (r_src r1)) as [|x cur] eqn:EC; [injection E as <- <-; discriminate|].
    set (ext := x :: cur) in *.
    assert (EA : forall n r2, (0 < n <= length ext)%nat -> r_src r2 = consume n (r_src r1) -> live r2 /\ (mu r2 < mu r)%nat).
    { intros n r2 LN Q. split; [unfold live; rewrite Q; now apply live_consume|]. unfold mu at 1. rewrite Q, M0, <- VW.
      pose proof (view_shrinks n (r_src r1)) as V. rewrite EC in V. fold ext in V.
      assert (weight (r_state r2) <= 2)%nat by (destruct (r_state r2); cbn [weight]; lia). lia. }
    assert (LX : (0 < length ext)%nat) by (unfold ext; cbn [length]; lia).
    assert (NN : forall c b, r_src (note c b r1) = r_src r1) by (intros c b; now destruct (note_fields c b r1)).
    destruct (length ext <? hdr_size)%nat; [injection E as <- <-; apply (EA (length ext)); [lia|reflexivity]|].
    destruct (read_header ext) as [[|from nd|h from to]|e|w] eqn:RH; cbn [sbind] in E.
    + injection E as <- <-. apply (EA (length ext)); [lia|]. unfold eat. cbn [set_state set_src r_src]. now rewrite NN.
    + injection E as <- <-. apply (EA (length ext)); [lia|]. unfold eat. cbn [set_state set_src r_src]. now rewrite NN.
    + apply read_header_found in RH as (-> & LT & HH).
      destruct (two64 <=? _); [injection E as <- <-; discriminate|].
      destruct (blen ext <? _) eqn:EN.
      * injection E as <- <-. apply (EA (length ext)); [lia|]. unfold eat. cbn [set_state set_src set_buffered r_src]. now rewrite NN.
      * apply finish_goes in E as (ES & ET); [|exact G]. rewrite NN in ES. eapply EA; [|exact ES]. unfold blen in EN. lia.
    + injection E as <- <-. discriminate.
    + injection E as <- <-. discriminate.
Qed.

Lemma stuck_forever r o : pr_read P r = (o, r) -> forall m, pr_reads P m r = (repeat o m, r).
Proof. intros E. induction m as [|m IH]; [reflexivity|]. cbn [pr_reads repeat]. now rewrite E, IH. Qed.

Lemma ends_or_waits : forall n r, live r -> (mu r <= n)%nat ->
  exists m outs r', (m <= n)%nat /\ pr_reads P m r = (outs, r') /\ Forall (fun o => goes_on o = true) outs /\
    (goes_on (fst (pr_read P r')) = false \/
     exists k, 0 < k /\ forall j, pr_reads P j r' = (repeat (Ok (NNotEnough k)) j, r')).
Proof.
  induction n as [|n IH]; intros r LV M; destruct (read_progress r LV) as [G|[(LV1 & M1)|(E & k & LK & EK)]].
  - exists 0%nat, [], r. cbn [pr_reads]. auto.
  - lia.
  - exists 0%nat, [], r. cbn [pr_reads]. split; [lia|]. split; [reflexivity|]. split; [constructor|]. right. exists k. split; [exact LK|].
    apply stuck_forever. destruct (pr_read P r) as [o1 r1]. cbn [fst snd] in *. congruence.
  - exists 0%nat, [], r. cbn [pr_reads]. split; [lia|]. auto.
  - destruct (goes_on (fst (pr_read P r))) eqn:G; [|exists 0%nat, [], r; cbn [pr_reads]; split; [lia|auto]].
    destruct (IH _ LV1 ltac:(lia)) as (m & outs & r' & L & R & F & Q). destruct (pr_read P r) as [o r1] eqn:ER. cbn [fst snd] in *.
    exists (S m), (o :: outs), r'. split; [lia|]. cbn [pr_reads]. rewrite ER, R. auto.
  - exists 0%nat, [], r. cbn [pr_reads]. split; [lia|]. split; [reflexivity|]. split; [constructor|]. right. exists k. split; [exact LK|].
    apply stuck_forever. destruct (pr_read P r) as [o1 r1]. cbn [fst snd] in *. congruence.
Qed.
End Sound.
