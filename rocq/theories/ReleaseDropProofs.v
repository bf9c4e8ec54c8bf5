(** * Mixed streams in a release build. *)
From Coq Require Import ZifyBool ZifyNat ZifyN.
From Verif Require Import Base Crc32 Io Block Payload Packet Rules StreamReader Release ReleaseStream Spec SpecReleaseStream BaseProofs CrcProofs BlockProofs
  DispatchProofs PayloadProofs PayloadEnumProofs PacketProofs PacketSafeProofs RulesProofs WireProofs StreamProofs StreamSoundProofs StreamSafeProofs
  StreamItemProofs ReleaseStreamProofs.
Ltac Zify.zify_post_hook ::= Z.div_mod_to_equations.
Open Scope list_scope.

Section Drop.
Context {U : Type}.
Variable P : proto U.

(** ** The log does not matter *)
Definition but_log (a b : preader U) : Prop := r_src a = r_src b /\ r_rules a = r_rules b /\ r_state a = r_state b /\ r_buffered a = r_buffered b.

Lemma but_log_eq a b : but_log a b -> exists l, a = mk_preader (r_src b) (r_rules b) (r_state b) (r_buffered b) l.
Proof. destruct a as [s1 ru1 st1 bf1 l]. intros (E1 & E2 & E3 & E4). cbn [r_src r_rules r_state r_buffered] in *. subst. now exists l. Qed.

Lemma but_log_refl a : but_log a a.
Proof. repeat split. Qed.

Lemma note_log_only c b l (r : preader U) : but_log (note c b (mk_preader (r_src r) (r_rules r) (r_state r) (r_buffered r) l)) (note c b r).
Proof. unfold note. destruct c; repeat split. Qed.

Definition alike (x y : res (next U) * preader U) : Prop := fst x = fst y /\ but_log (snd x) (snd y).

Lemma finish_log h body n a b : but_log a b -> alike (finish P h body n a) (finish P h body n b).
Proof.
  intros (E1 & E2 & E3 & E4). unfold finish, alike. rewrite E2. destruct (parse_body P (r_rules b) h body) as [o f]. cbn [fst snd].
  split; [reflexivity|]. destruct f; [destruct n|..]; unfold but_log; cbn [r_src r_rules r_state r_buffered]; rewrite ?E1, ?E2, ?E3, ?E4; auto.
Qed.

Lemma note_but c x a b : but_log a b -> but_log (note c x a) (note c x b).
Proof.
  intros (E1 & E2 & E3 & E4). unfold but_log. destruct (note_fields c x a) as (-> & -> & -> & ->). destruct (note_fields c x b) as (-> & -> & -> & ->). auto.
Qed.
Lemma state_but s a b : but_log a b -> but_log (set_state s a) (set_state s b).
Proof. intros (E1 & E2 & E3 & E4). unfold but_log, set_state. cbn [r_src r_rules r_state r_buffered]. auto. Qed.
Lemma buffered_but s a b : but_log a b -> but_log (set_buffered s a) (set_buffered s b).
Proof. intros (E1 & E2 & E3 & E4). unfold but_log, set_buffered. cbn [r_src r_rules r_state r_buffered]. auto. Qed.
Lemma eat_but n a b : but_log a b -> but_log (eat n a) (eat n b).
Proof. intros (E1 & E2 & E3 & E4). unfold but_log, eat, set_src. cbn [r_src r_rules r_state r_buffered]. rewrite E1. auto. Qed.
Lemma eat_usize_but n a b : but_log a b -> but_log (eat_usize n a) (eat_usize n b).
Proof. intros E. unfold eat_usize. rewrite (proj1 E). now apply eat_but. Qed.
Lemma fill_but a b : but_log a b -> fst (pr_fill a) = fst (pr_fill b) /\ but_log (snd (pr_fill a)) (snd (pr_fill b)).
Proof.
  intros (E1 & E2 & E3 & E4). unfold pr_fill. rewrite E1. destruct (fill_buf (r_src b)) as [o s]. cbn [fst snd]. split; [reflexivity|].
  unfold but_log, set_src. cbn [r_src r_rules r_state r_buffered]. auto.
Qed.

Lemma rel_read_log a b : but_log a b -> alike (rel_pr_read P a) (rel_pr_read P b).
Proof.
  intros E. unfold rel_pr_read. rewrite (proj1 (proj2 (proj2 E))). destruct (r_state b) as [h|buf needed|].
  - unfold resolve_ready. pose proof (fill_but _ _ (state_but HEmpty _ _ E)) as (F1 & F2).
    destruct (pr_fill (set_state HEmpty a)) as [o1 a1], (pr_fill (set_state HEmpty b)) as [o2 b1]. cbn [fst snd] in F1, F2. subst o2.
    destruct o1 as [ext|e|w]; cbn [sbind]; [|split; easy..]. rewrite (proj2 (proj2 (proj2 F2))).
    destruct (_ <? h_size h); [split; [reflexivity|]; cbn [snd]; now apply state_but, eat_but, buffered_but|].
    destruct (h_size h <? _); [split; [reflexivity|exact F2]|]. cbv zeta.
    unfold eat at 1 3. cbn [set_src set_buffered r_buffered]. apply finish_log. now apply eat_but, buffered_but.
  - unfold rel_resolve_refill. pose proof (fill_but _ _ (state_but HEmpty _ _ E)) as (F1 & F2).
    destruct (pr_fill (set_state HEmpty a)) as [o1 a1], (pr_fill (set_state HEmpty b)) as [o2 b1]. cbn [fst snd] in F1, F2. subst o2.
    destruct o1 as [ext|e|w]; cbn [sbind]; [|split; easy..].
    destruct ext as [|x ext']; [split; [reflexivity|now apply note_but]|]. set (ext := x :: ext').
    destruct (_ <? needed)%nat; [split; [reflexivity|]; cbn [snd]; now apply state_but, eat_but|].
    destruct (read_header (buf ++ firstn needed ext)) as [[|? ?|? ? ?]|e|w]; cbn [sbind]; try (split; [reflexivity|]; cbn [snd]; try exact F2; now apply state_but, eat_usize_but, note_but).
    all: destruct (read_header (buf ++ ext)) as [[|? ?|? ? ?]|e|w]; cbn [sbind];
      (split; [reflexivity|]; cbn [snd]; first [exact F2|now apply state_but, eat_usize_but, note_but|now apply state_but, eat_but, note_but]).
  - unfold rel_resolve_empty. pose proof (fill_but _ _ (buffered_but [] _ _ (state_but HEmpty _ _ E))) as (F1 & F2).
    destruct (pr_fill (set_buffered [] (set_state HEmpty a))) as [o1 a1], (pr_fill (set_buffered [] (set_state HEmpty b))) as [o2 b1]. cbn [fst snd] in F1, F2. subst o2.
    destruct o1 as [ext|e|w]; cbn [sbind]; [|split; easy..].
    destruct ext as [|x ext']; [split; [reflexivity|exact F2]|]. set (ext := x :: ext').
    destruct (_ <? hdr_size)%nat; [split; [reflexivity|]; cbn [snd]; now apply eat_but, state_but|].
    destruct (read_header ext) as [[|? ?|h from to]|e|w]; cbn [sbind]; try (split; [reflexivity|]; cbn [snd]; first [exact F2|now apply eat_but, state_but, note_but]).
    destruct (blen ext <? _); [split; [reflexivity|]; cbn [snd]; now apply state_but, eat_but, buffered_but, note_but|].
    destruct (_ <? N.of_nat to); [split; [reflexivity|]; cbn [snd]; now apply note_but|]. now apply finish_log, note_but.
Qed.

Lemma rel_reads_log k : forall a b, but_log a b -> fst (rel_pr_reads P k a) = fst (rel_pr_reads P k b).
Proof.
  induction k as [|k IH]; intros a b E; cbn [rel_pr_reads]; [reflexivity|]. destruct (rel_read_log a b E) as (E1 & E2).
  destruct (rel_pr_read P a) as [o1 a1], (rel_pr_read P b) as [o2 b1]. cbn [fst snd] in E1, E2. specialize (IH a1 b1 E2).
  destruct (rel_pr_reads P k a1), (rel_pr_reads P k b1). cbn [fst] in *. congruence.
Qed.

Lemma rel_reads_app a : forall b r, rel_pr_reads P (a + b) r =
  let (o1, r1) := rel_pr_reads P a r in let (o2, r2) := rel_pr_reads P b r1 in (o1 ++ o2, r2).
Proof.
  induction a as [|a IH]; intros b r; cbn [Nat.add rel_pr_reads app].
  - now destruct (rel_pr_reads P b r).
  - destruct (rel_pr_read P r) as [o r1]. rewrite IH. destruct (rel_pr_reads P a r1) as [os r2]. destruct (rel_pr_reads P b r2). reflexivity.
Qed.

(** ** The events of the source *)
Lemma finish_evs h body n (r : preader U) : b_evs (r_src (snd (finish P h body n r))) = b_evs (r_src r).
Proof. unfold finish. destruct (parse_body P (r_rules r) h body) as [o f]. destruct f; [destruct n|..]; reflexivity. Qed.

Lemma fill_evs (r : preader U) o r1 : pr_fill r = (o, r1) -> exists l, b_evs (r_src r) = l ++ b_evs (r_src r1).
Proof.
  unfold pr_fill, fill_buf. destruct r as [[cur evs] rl sta bf lg]. cbn [r_src b_cur b_evs].
  destruct cur as [|c cur]; [destruct evs as [|[bs|k] evs]|]; intros E; injection E as <- <-; cbn [set_src r_src b_evs].
  - now exists [].
  - now exists [Chunk bs].
  - now exists [Fail k].
  - now exists [].
Qed.

Lemma note_evs c x (r : preader U) : b_evs (r_src (note c x r)) = b_evs (r_src r).
Proof. now destruct (note_fields c x r) as (-> & _). Qed.

Lemma read_evs (r : preader U) : exists l, b_evs (r_src r) = l ++ b_evs (r_src (snd (pr_read P r))).
Proof.
  unfold pr_read. destruct (r_state r) as [h|buf needed|].
  - unfold resolve_ready. destruct (pr_fill (set_state HEmpty r)) as [o r1] eqn:EF. apply fill_evs in EF as (l & EL). exists l. cbn [set_state r_src] in EL. rewrite EL. f_equal.
    destruct o as [ext|e|w]; cbn [sbind]; [|reflexivity..]. destruct (_ <? h_size h); [reflexivity|]. destruct (h_size h <? _); [reflexivity|]. cbv zeta. now rewrite finish_evs.
  - unfold resolve_refill. destruct (pr_fill (set_state HEmpty r)) as [o r1] eqn:EF. apply fill_evs in EF as (l & EL). exists l. cbn [set_state r_src] in EL. rewrite EL. f_equal.
    destruct o as [ext|e|w]; cbn [sbind]; [|reflexivity..]. destruct ext as [|x ext']; [cbn [snd]; now rewrite note_evs|]. set (ext := x :: ext').
    assert (RF : forall h from to B n, b_evs (r_src (snd (refill_found h from to B n r1))) = b_evs (r_src r1)).
    { intros h from to B n. unfold refill_found. destruct (usub to n); cbn [sbind snd]; unfold eat; cbn [set_state set_src r_src consume b_evs]; now rewrite note_evs. }
    destruct (_ <? needed)%nat; [reflexivity|].
    destruct (read_header (buf ++ firstn needed ext)) as [[|? ?|? ? ?]|e|w]; cbn [sbind]; try reflexivity; try (now rewrite RF).
    all: destruct (read_header (buf ++ ext)) as [[|? ?|? ? ?]|e|w]; cbn [sbind]; try reflexivity; try (now rewrite RF).
    all: cbn [snd]; unfold eat; cbn [set_state set_src r_src consume b_evs]; now rewrite note_evs.
  - unfold resolve_empty. destruct (pr_fill (set_buffered [] (set_state HEmpty r))) as [o r1] eqn:EF. apply fill_evs in EF as (l & EL). exists l. cbn [set_state set_buffered r_src] in EL. rewrite EL. f_equal.
    destruct o as [ext|e|w]; cbn [sbind]; [|reflexivity..]. destruct ext as [|x ext']; [reflexivity|]. set (ext := x :: ext').
    destruct (_ <? hdr_size)%nat; [reflexivity|].
    destruct (read_header ext) as [[|? ?|h from to]|e|w]; cbn [sbind]; try reflexivity; try (cbn [snd]; unfold eat; cbn [set_state set_src r_src consume b_evs]; now rewrite note_evs).
    cbv zeta. destruct (two64 <=? _); [cbn [snd]; now rewrite note_evs|].
    destruct (blen ext <? _); [cbn [snd]; unfold eat; cbn [set_state set_src set_buffered r_src consume b_evs]; now rewrite note_evs|]. now rewrite finish_evs, note_evs.
Qed.

Lemma reads_evs n : forall (r : preader U), exists l, b_evs (r_src r) = l ++ b_evs (r_src (snd (pr_reads P n r))).
Proof.
  induction n as [|n IH]; intros r; cbn [pr_reads]; [now exists []|]. destruct (read_evs r) as (l & E). destruct (pr_read P r) as [o r1]. cbn [snd] in E.
  destruct (IH r1) as (l2 & E2). destruct (pr_reads P n r1) as [os r2]. cbn [snd] in *. exists (l ++ l2). now rewrite E, E2, app_assoc.
Qed.

(** ** The items before the place where the other build panics *)
Definition trimmed (rest : list (@item U)) (last : bytes) (its0 : list (@item U)) (last0 : bytes) : Prop :=
  (rest = [] /\ its0 = []) \/ exists y g e o t, rest = (y ++ g, e, o) :: t /\ its0 = (g, e, o) :: t /\ last0 = last.

Lemma walk rs n : forall its last r outs r0, inv P rs [] True True its last r -> Forall (fun i => quiet (snd i) = false) its ->
  pr_reads P n r = (outs, r0) -> Forall (fun o => no_panic o /\ o <> Ok NNoData) outs ->
  exists its1 rest its0 last0, its = its1 ++ rest /\ filter (fun o => negb (quiet o)) outs = map snd its1 /\ inv P rs [] True True its0 last0 r0 /\
    trimmed rest last its0 last0.
Proof.
  induction n as [|n IH]; intros its last r outs r0 IV F E NP; cbn [pr_reads] in E.
  - injection E as <- <-. exists [], its, its, last. split; [reflexivity|]. split; [reflexivity|]. split; [exact IV|].
    destruct its as [|[[g e] o] t]; [left; auto|right]. now exists [], g, e, o, t.
  - pose proof (pr_step P rs [] True True its last r (fun _ => conj eq_refl I) IV) as S. destruct (pr_read P r) as [o r1] eqn:E1.
    destruct (pr_reads P n r1) as [os r2] eqn:E2. injection E as <- <-. pose proof (Forall_inv NP) as (NP1 & NP2). pose proof (Forall_inv_tail NP) as NP'.
    destruct S as [o r1 its' last' bufs ID I1 EI LT PP MV LG NE FO|g e o r1 its' bufs Q I1 LT PP LG NE FO|r1 bufs Q I1 VW ST LG NE FO
      |g e o r1 its' bufs A Q LG2 LG NE FO|g e o r1 A Q LG1 LG2 VW EV ST LG]; [| |congruence|contradiction|congruence].
    + assert (QO : filter (fun o => negb (quiet o)) (o :: os) = filter (fun o => negb (quiet o)) os).
      { assert (quiet o = true) as QT by (destruct ID as [(m & ->)| ->]; reflexivity). cbn [filter]. now rewrite QT. }
      rewrite QO. destruct MV as [(-> & ->)|(g & g' & e & o1 & t & -> & -> & -> & LGG)].
      * destruct (IH [] last' r1 os r2 I1 F E2 NP') as (its1 & rest & its0 & last0 & K1 & K2 & K3 & K4).
        symmetry in K1. apply app_eq_nil in K1 as (-> & ->). destruct K4 as [(_ & ->)|(y & g & e & o1 & t & K & _)]; [|discriminate].
        exists [], [], [], last0. split; [reflexivity|]. split; [exact K2|]. split; [exact K3|]. left; auto.
      * assert (F' : Forall (fun i => quiet (snd i) = false) ((g', e, o1) :: t)).
        { constructor; [exact (Forall_inv F)|exact (Forall_inv_tail F)]. }
        destruct (IH _ last r1 os r2 I1 F' E2 NP') as (its1 & rest & its0 & last0 & K1 & K2 & K3 & K4).
        assert (GG : concat bufs ++ g' = g).
        { cbn [foreign] in FO. rewrite app_assoc in FO. now apply app_inv_tail in FO. }
        destruct its1 as [|i1 its1]; cbn [app] in K1.
        -- subst rest. exists [], ((g, e, o1) :: t), its0, last0. split; [reflexivity|]. split; [exact K2|]. split; [exact K3|].
           destruct K4 as [(K & _)|(y & g2 & e2 & o2 & t2 & K & -> & ->)]; [discriminate|]. injection K as K5 -> -> ->. right.
           exists (concat bufs ++ y), g2, e2, o2, t2. rewrite <- GG, K5, <- app_assoc. auto.
        -- injection K1 as <- ->. exists ((g, e, o1) :: its1), rest, its0, last0. split; [reflexivity|]. split; [exact K2|]. split; [exact K3|exact K4].
    + subst its. pose proof (Forall_inv F) as K. cbn [snd] in K.
      destruct (IH its' last r1 os r2 I1 (Forall_inv_tail F) E2 NP') as (its1 & rest & its0 & last0 & -> & K2 & K3 & K4).
      exists ((g, e, o) :: its1), rest, its0, last0. split; [reflexivity|]. split; [|split; [exact K3|exact K4]].
      cbn [filter map snd]. rewrite K. cbn [negb]. now rewrite K2.
Qed.

Lemma sbytes_split (a b : list (@item U)) last : sbytes (a ++ b) last = sbytes a [] ++ sbytes b last.
Proof. induction a as [|[[g e] o] a IH]; [reflexivity|]. cbn [app sbytes]. now rewrite IH, <- !app_assoc. Qed.

(** The reader at the place where the other build panics. *)
Lemma rel_at_panic rs g e o its last r r' ps D : blen D < two63 -> sound P D r ps -> inv P rs [] True True ((g, e, o) :: its) last r ->
  pr_read P r = (Panic POverflow, r') ->
  exists size bl flag body cs2 c x, e = layout_header size bl flag ++ body /\ blen body = size /\ size < two63 /\ bl < two64 /\
    parse_body P rs (mkh size bl flag) body = (o, Drop) /\ x <> [] /\ c <> [] /\
    b_evs (r_src r) = map Chunk (c :: cs2) /\ b_cur (r_src r) = [] /\
    (g ++ layout_header size bl flag ++ x) ++ c ++ concat cs2 = g ++ e ++ sbytes its last /\
    rel_pr_read P r = (Ok (NNotEnough 0), mk_preader (mk_bufsrc [] (map Chunk cs2)) rs (HReady (mkh size bl flag)) [] (r_log r')).
Proof.
  intros L63 S IV E. pose proof IV as (R & F & C & cs & EV & FC & LC & PC & V).
  pose proof (Forall_inv F) as (I1 & (size & bl & flag & body & Ee & SZ & LS & LBL & PB) & I3).
  destruct (rel_overflow P D r ps r' L63 S E) as [(buf & needed & a & hdr & y & h & SR & EB & NX & LH & HH & NC & VW & RU & (k & RH) & ER)|(SR & ER)].
  - rewrite SR in V. destruct V as (RB & CU & NB & V & _). rewrite CU in V. cbn [app] in V. cbn [sbytes] in V.
    assert (ECC : exists c cs2, cs = c :: cs2 /\ b_cur (r_src r') = c /\ b_evs (r_src r') = map Chunk cs2).
    { assert (Q : exists ext r1, pr_fill (set_state HEmpty r) = (Ok ext, r1) /\ r_src r' = r_src r1).
      { unfold pr_read in E. rewrite SR in E. unfold resolve_refill in E. destruct (pr_fill (set_state HEmpty r)) as [[ext|e1|w] r1] eqn:EF; cbn [sbind] in E; [|discriminate|].
        2: { apply fill_view in EF as (_ & _ & _ & _ & _ & []). }
        exists ext, r1. split; [reflexivity|]. destruct ext as [|z ext']; [discriminate|]. destruct (_ <? needed)%nat; [discriminate|].
        assert (RF : forall h from to B n, refill_found h from to B n r1 = (Panic POverflow, r') -> r_src r' = r_src r1).
        { intros h0 from to B n Q. unfold refill_found in Q. destruct (usub to n) eqn:QU; cbn [sbind] in Q; [discriminate| |].
          - discriminate.
          - injection Q as _ <-. now destruct (note_fields (0 <? from)%nat (firstn from B) r1) as (-> & _). }
        destruct (read_header (buf ++ firstn needed (z :: ext'))) as [[|? ?|? ? ?]|e1|w] eqn:RH1; cbn [sbind] in E; try discriminate; try (now apply RF in E); [| |now apply read_header_nopanic in RH1].
        all: destruct (read_header (buf ++ z :: ext')) as [[|? ?|? ? ?]|e1|w] eqn:RH2; cbn [sbind] in E; try discriminate; try (now apply RF in E); now apply read_header_nopanic in RH2. }
      destruct Q as (ext & r1 & Q & QS). rewrite QS in *. unfold pr_fill, fill_buf in Q. cbn [set_state r_src] in Q. rewrite CU, EV, app_nil_r in Q.
      destruct cs as [|c cs2]; cbn [map] in Q; injection Q as Q1 Q2.
      - exfalso. rewrite <- Q2 in NC. cbn [set_src r_src b_cur] in NC. now apply NC.
      - exists c, cs2. rewrite <- Q2. cbn [set_src r_src b_cur b_evs]. auto. }
    destruct ECC as (c & cs2 & -> & EC & EVS). rewrite EC, EVS in *.
    assert (HI : h = mkh size bl flag /\ length a = length g).
    { destruct (header_item (buf ++ firstn k c) (skipn k c ++ concat cs2) g e (sbytes its last) size bl flag body I1 Ee LS LBL) as [(H1 & H2)|[(H1 & H2)|(H1 & H2)]].
      - rewrite <- app_assoc, (app_assoc (firstn k c)), firstn_skipn. exact V.
      - rewrite RH in H2. injection H2 as H2 H3. split; [exact H2|lia].
      - congruence.
      - congruence. }
    destruct HI as (-> & LA).
    assert (AG : a = g /\ hdr = layout_header size bl flag).
    { assert (Q : a ++ hdr ++ (y ++ concat (c :: cs2)) = g ++ layout_header size bl flag ++ (body ++ sbytes its last)).
      { rewrite EB, Ee in V. rewrite <- !app_assoc in V. exact V. }
      pose proof (f_equal (firstn (length a)) Q) as Q1. rewrite firstn_app_exact in Q1 by reflexivity. rewrite LA, firstn_app_exact in Q1 by reflexivity.
      subst a. split; [reflexivity|]. apply app_inv_head in Q. pose proof (f_equal (firstn 29) Q) as Q1.
      rewrite firstn_app_exact in Q1 by (symmetry; exact LH). rewrite firstn_app_exact in Q1 by (symmetry; apply layout_length). exact Q1. }
    destruct AG as (-> & ->).
    exists size, bl, flag, body, cs2, c, y. split; [exact Ee|]. split; [exact SZ|]. split; [exact LS|]. split; [exact LBL|]. split; [exact PB|]. split; [exact NX|].
    split; [exact NC|]. split; [rewrite EV; apply app_nil_r|]. split; [exact CU|]. split; [rewrite EB in V; cbn [concat] in V; exact V|].
    rewrite ER, RU, R. reflexivity.
  - exfalso. rewrite SR in V. cbn [sbytes] in V. unfold pr_read in E. rewrite SR in E. unfold resolve_empty in E.
    destruct (pr_fill (set_buffered [] (set_state HEmpty r))) as [[buf|e1|w] r1] eqn:EF; cbn [sbind] in E; [|discriminate|].
    2: { apply fill_view in EF as (_ & _ & _ & _ & _ & []). }
    apply fill_view in EF as (VW & _ & _ & _ & CU & _). specialize (CU buf eq_refl). cbn [set_state set_buffered r_src] in VW.
    assert (VR : b_view (r_src r) = g ++ e ++ sbytes its last).
    { unfold b_view. rewrite EV, app_nil_r, concat_chunks. exact V. }
    destruct (view_all r1 buf CU) as (VA & _). rewrite VW, VR in VA.
    assert (LB : blen buf < two63).
    { destruct S as (pre & pend & ED & _). rewrite ED, VR, VA, !blen_app in L63. lia. }
    destruct buf as [|x buf']; [discriminate|]. set (buf := x :: buf') in *. clearbody buf. destruct (_ <? hdr_size)%nat; [discriminate|].
    destruct (header_item buf (b_view (consume (length buf) (r_src r1))) g e (sbytes its last) size bl flag body I1 Ee LS LBL) as [(H1 & H2)|[(H1 & H2)|(H1 & H2)]];
      [now symmetry|rewrite H2 in E; cbn [sbind] in E..]; [|discriminate|discriminate].
    cbn [mkh h_size] in E. destruct (two64 <=? size + N.of_nat (length g + 29)) eqn:E64.
    + unfold blen, two63, two64 in *. lia.
    + destruct (blen buf <? _); [discriminate|]. eapply (finish_no_overflow P). rewrite E. reflexivity.
Qed.

(** ** Reading on behind a dropped chunk *)
Lemma header_alone size bl flag : size < two63 -> bl < two64 -> read_header (layout_header size bl flag) = Ok (FFound (mkh size bl flag) 0 29).
Proof.
  intros LS LB. destruct (header_item (layout_header size bl flag) [] [] (layout_header size bl flag) [] size bl flag []) as [(_ & H)|[(H & _)|(H & _)]].
  - intros o LO. cbn [length] in LO. lia.
  - now rewrite app_nil_r.
  - exact LS.
  - exact LB.
  - reflexivity.
  - exact H.
  - rewrite layout_length in H. cbn [length] in H. lia.
  - rewrite layout_length in H. cbn [length] in H. lia.
Qed.

Lemma drop_long rs size bl flag cs2 l k : 0 < size -> size < two63 -> bl < two64 ->
  fst (rel_pr_reads P k (mk_preader (mk_bufsrc [] (map Chunk cs2)) rs (HReady (mkh size bl flag)) [] l)) =
  tl (fst (rel_pr_reads P (k + 1) (fresh rs (Chunk (layout_header size bl flag) :: map Chunk cs2)))).
Proof.
  intros L0 LS LB. rewrite Nat.add_1_r. cbn [rel_pr_reads]. unfold rel_pr_read. cbn [fresh r_state]. unfold rel_resolve_empty, pr_fill, fill_buf, set_src.
  cbn [set_state set_buffered fresh r_src b_cur b_evs r_rules r_state r_buffered r_log sbind]. pose proof (layout_length size bl flag) as LL.
  pose proof (header_alone size bl flag LS LB) as RH. destruct (layout_header size bl flag) as [|x hd] eqn:EH; [discriminate|].
  rewrite LL. change (29 <? hdr_size)%nat with false. cbv iota. rewrite RH. cbn [sbind]. change (0 <? 0)%nat with false. unfold note. cbv iota zeta.
  cbn [mkh h_size]. unfold wadd.
  assert (WA : (size + N.of_nat 29) mod two64 = size + 29) by (apply N.mod_small; unfold two63, two64 in *; lia).
  rewrite WA. unfold blen. rewrite LL. destruct (N.ltb_spec (N.of_nat 29) (size + 29)) as [_|]; [|lia].
  match goal with |- fst ?a = tl (fst (let (os, r) := rel_pr_reads P k ?R in (?o :: os, r))) => transitivity (fst (rel_pr_reads P k R)); [|now destruct (rel_pr_reads P k R)] end.
  apply rel_reads_log. unfold but_log, eat, set_src, set_state, set_buffered, consume. cbn [r_src r_rules r_state r_buffered b_cur b_evs].
  rewrite !skipn_all2 by (rewrite ?LL; lia). auto.
Qed.

(** Looking for the next chunk once more changes nothing. *)
Lemma fill_first rs cs2 l k : Forall (fun c => c <> []) cs2 ->
  fst (rel_pr_reads P k (mk_preader (snd (fill_buf (mk_bufsrc [] (map Chunk cs2)))) rs HEmpty [] l)) = fst (rel_pr_reads P k (fresh rs (map Chunk cs2))).
Proof.
  intros NE. transitivity (fst (rel_pr_reads P k (mk_preader (snd (fill_buf (mk_bufsrc [] (map Chunk cs2)))) rs HEmpty [] []))).
  { apply rel_reads_log. repeat split. }
  destruct cs2 as [|[|x c] cs2]; [reflexivity|exfalso; now apply (Forall_inv NE)|]. cbn [map fill_buf b_cur b_evs snd]. destruct k as [|k]; [reflexivity|]. reflexivity.
Qed.

Lemma drop_short rs bl flag o cs2 l k : parse_body P rs (mkh 0 bl flag) [] = (o, Drop) -> Forall (fun c => c <> []) cs2 ->
  fst (rel_pr_reads P (S k) (mk_preader (mk_bufsrc [] (map Chunk cs2)) rs (HReady (mkh 0 bl flag)) [] l)) =
  o :: fst (rel_pr_reads P k (fresh rs (map Chunk cs2))).
Proof.
  intros PB NE. cbn [rel_pr_reads]. unfold rel_pr_read. cbn [r_state]. unfold resolve_ready, pr_fill.
  cbn [set_state r_src r_rules r_buffered r_log]. pose proof (fill_first rs cs2 l k NE) as FF.
  assert (EF : exists x, fst (fill_buf (mk_bufsrc [] (map Chunk cs2))) = Ok x) by (destruct cs2; eexists; reflexivity).
  destruct EF as (x & EF). destruct (fill_buf (mk_bufsrc [] (map Chunk cs2))) as [y src]. cbn [fst snd] in EF, FF. subst y. cbn [sbind]. unfold set_src, set_state.
  cbn [r_src r_rules r_state r_buffered r_log]. change (h_size (mkh 0 bl flag)) with 0. destruct (N.ltb_spec (blen (@nil byte) + blen x) 0) as [H|_]; [lia|].
  change (0 <? blen []) with false. cbv iota. change (N.to_nat 0 - length (@nil byte))%nat with 0%nat. cbv zeta. unfold set_buffered. cbn [firstn app r_src r_rules r_state r_buffered r_log].
  unfold finish, eat, set_src. cbn [r_src r_rules r_state r_buffered r_log]. rewrite PB. unfold consume. cbn [skipn].
  assert (SB : mk_bufsrc (b_cur src) (b_evs src) = src) by now destruct src. rewrite SB.
  match goal with |- fst (let (os, r) := ?Q in _) = _ => destruct Q as [os r2] eqn:EQ end. cbn [fst]. f_equal. exact FF.
Qed.

Lemma reads_length n : forall r : preader U, length (fst (pr_reads P n r)) = n.
Proof. induction n as [|n IH]; intros r; cbn [pr_reads]; [reflexivity|]. destruct (pr_read P r) as [o r1]. specialize (IH r1). destruct (pr_reads P n r1). cbn [fst length] in *. now rewrite IH. Qed.

Hypothesis HP : proto_ok P.

(** ** Streams of packets and foreign bytes in chunks of any length *)
Lemma rel_any_stream ops gs ps es last cs :
  let rs := rule_history ops in let start := fresh rs (map Chunk cs) in
  Forall2 (packet_enc P) ps es -> Forall few_blocks ps ->
  Forall2 (fun g e => no_signature g e) gs es -> no_signature last [] ->
  cut_into cs (stream_bytes (combine gs es) last) -> blen (concat cs) < two63 ->
  exists outs o r' ps1 ps2 bufs,
    rel_pr_reads P (length outs + 1) start = (outs ++ [o], r') /\
    ps = ps1 ++ ps2 /\ Forall2 (verdict P rs) ps1 (reports outs) /\
    r_log r' = logs rs bufs [] /\ Forall (fun b => b <> []) bufs /\
    (o = Ok NNoData -> forall k, fst (rel_pr_reads P (length outs + 1 + k) start) = outs ++ repeat (Ok NNoData) (k + 1)) /\
    ((ps2 = [] /\ o = Ok NNoData /\ concat bufs = concat gs ++ last) \/
     exists p ps3 g e, ps2 = p :: ps3 /\ nth_error gs (length ps1) = Some g /\ nth_error es (length ps1) = Some e /\ (21 <= length g)%nat /\
       ((o = Ok (NNotEnough 0) /\ concat bufs = concat (firstn (length ps1 + 1) gs) /\
         exists cs1 c cs2 x, cs = cs1 ++ c :: cs2 /\ x <> [] /\
           concat cs1 = concat (map (fun ge => fst ge ++ snd ge) (firstn (length ps1) (combine gs es))) ++ g ++ firstn 29 e ++ x /\
           ((29 < length e)%nat -> forall k, fst (rel_pr_reads P (length outs + 1 + k) start) =
              outs ++ [o] ++ tl (fst (rel_pr_reads P (k + 1) (fresh rs (map Chunk (firstn 29 e :: cs2)))))) /\
           (length e = 29%nat -> exists v, verdict P rs p v /\ forall k, fst (rel_pr_reads P (length outs + 2 + k) start) =
              outs ++ [o; v] ++ fst (rel_pr_reads P k (fresh rs (map Chunk cs2))))) \/
        o = Ok NNoData /\ ps3 = [] /\ (length e + length last <= 36)%nat /\ concat bufs = concat gs ++ e ++ last)).
Proof.
  intros rs start F FB FS FL CU L63. pose proof (history_nodup ops) as ND. fold rs in ND.
  destruct (any_stream P HP ops gs ps es last cs F FB FS FL CU) as (outs & o & r' & ps1 & ps2 & bufs & R1 & R2 & R3 & R4 & R5 & R6 & R7).
  fold rs in R1, R3, R4, R6. fold start in R1, R6.
  assert (DD : concat (map ev_bytes (map Chunk cs)) = concat cs) by (clear; induction cs as [|c cs IH]; [reflexivity|]; cbn [map ev_bytes concat]; now rewrite IH).
  assert (L63' : blen (concat (map ev_bytes (map Chunk cs))) < two63) by now rewrite DD.
  assert (OU : Forall (fun o => no_panic o /\ o <> Ok NNoData) outs).
  { assert (VV : Forall (fun o => exists p, verdict P rs p o) (reports outs)).
    { clear - R3. induction R3; constructor; eauto. }
    apply Forall_forall. intros a IA. destruct (quiet a) eqn:QA.
    - destruct a as [[]|e|w]; try discriminate QA; split; (exact I || discriminate).
    - assert (IR : In a (reports outs)) by (apply filter_In; rewrite QA; auto).
      apply (proj1 (Forall_forall _ _) VV) in IR as (p & []); split; (exact I || discriminate). }
  assert (NI : ~ In (Panic POverflow) outs). { intros IN. apply (proj1 (Forall_forall _ _) OU) in IN as ([] & _). }
  assert (SAME : o <> Panic POverflow -> rel_pr_reads P (length outs + 1) start = (outs ++ [o], r') /\
    (o = Ok NNoData -> forall k, fst (rel_pr_reads P (length outs + 1 + k) start) = outs ++ repeat (Ok NNoData) (k + 1))).
  { intros NO. split.
    - rewrite <- R1. apply rel_stream_same; [exact L63'|]. fold start. rewrite R1. cbn [fst]. intros IN. apply in_app_iff in IN as [IN|[IN|[]]]; [now apply NI|now apply NO].
    - intros EO k. rewrite <- (R6 EO k). f_equal. apply rel_stream_same; [exact L63'|]. fold start. rewrite (R6 EO k). intros IN.
      apply in_app_iff in IN as [IN|IN]; [now apply NI|]. apply repeat_spec in IN. discriminate. }
  destruct R7 as [R7|(p & ps3 & g & e & K1 & K2 & K3 & K4 & [(K5 & K6)|(K5 & K6)])].
  - destruct R7 as (K1 & K2 & K3). destruct SAME as (S1 & S2); [congruence|]. exists outs, o, r', ps1, ps2, bufs. repeat (split; [assumption|]). left. auto.
  - clear SAME R6. subst o. rewrite Nat.add_1_r in R1. rewrite <- Nat.add_1_r, reads_app in R1. pose proof (reads_length (length outs) start) as LO.
    destruct (pr_reads P (length outs) start) as [os0 r0] eqn:E0. cbn [pr_reads] in R1. destruct (pr_read P r0) as [o1 r1] eqn:E1. cbn [fst] in LO.
    assert (R1' : os0 ++ [o1] = outs ++ [Panic POverflow] /\ r1 = r') by (split; congruence). clear R1. destruct R1' as (R1 & ->).
    apply app_inj_tail in R1 as (-> & ->).
    destruct (items_of P HP rs [] gs ps es ND F FB FS (or_introl eq_refl)) as (its & A & B & C).
    assert (IV : inv P rs [] True True its last start).
    { unfold start. rewrite <- (app_nil_r (map Chunk cs)). apply inv_begin; [exact A|intros _; now apply clean_spec| |now rewrite sbytes_eq, B]. right; left; auto. }
    assert (QI : Forall (fun i => quiet (snd i) = false) its).
    { pose proof (verdicts_report P _ _ _ C) as Q. apply Forall_map in Q. exact Q. }
    destruct (walk rs (length outs) its last start outs r0 IV QI E0 OU) as (its1 & rest & its0 & last0 & W1 & W2 & W3 & W4).
    assert (LL : forall a b, Forall2 (verdict P rs) a b -> length a = length b) by (clear; induction 1; cbn [length]; congruence).
    assert (LI : length its1 = length ps1).
    { rewrite (LL _ _ R3). unfold reports. rewrite W2. now rewrite map_length. }
    assert (SPL : Forall2 (verdict P rs) ps2 (map snd rest)).
    { rewrite W1, map_app, R2 in C. apply Forall2_app_inv_l in C as (m1 & m2 & C1 & C2 & C3).
      apply LL in C1. assert (AE : forall (a b c d : list (res (next U))), length a = length c -> a ++ b = c ++ d -> b = d).
      { clear. induction a as [|x a IH]; intros b [|y c] d LE EQ; try discriminate; [exact EQ|]. injection EQ as _ EQ. injection LE as LE. now apply (IH b c d). }
      apply AE in C3; [rewrite <- C3 in C2; exact C2|]. rewrite <- C1, <- LI. apply map_length. }
    rewrite K1 in SPL. inversion SPL as [|p' v ps3' vs V1 V2 Q1 Q2]. subst p' ps3'. destruct W4 as [(-> & _)|(y & g' & e' & o' & t & -> & -> & ->)]; [discriminate|].
    cbn [map snd] in Q2. injection Q2 as -> _.
    assert (ML : length (map fst its1) = length ps1) by (rewrite <- LI; apply map_length).
    assert (SB : combine gs es = map fst its1 ++ (y ++ g', e') :: map fst t) by (rewrite <- B, W1; apply map_app).
    assert (MF : map fst its1 = firstn (length ps1) (combine gs es)).
    { rewrite SB. symmetry. apply firstn_app_exact. symmetry. exact ML. }
    assert (NTH : nth_error (combine gs es) (length ps1) = Some (y ++ g', e')).
    { rewrite SB, nth_error_app2 by (rewrite ML; lia). now rewrite ML, Nat.sub_diag. }
    assert (GE : g = y ++ g' /\ e = e').
    { assert (Q : forall n (a : list bytes) (b : list bytes) u v, nth_error (combine a b) n = Some (u, v) -> nth_error a n = Some u /\ nth_error b n = Some v).
      { clear. induction n as [|n IH]; intros [|a0 a] [|b0 b] u v; cbn [combine nth_error]; try discriminate; [|apply IH]. intros E. injection E as -> ->. auto. }
      apply Q in NTH as (Q3 & Q4). split; congruence. }
    destruct GE as (-> & <-).
    pose proof (sound_reads P (concat (map ev_bytes (map Chunk cs))) (length outs) L63' start [] (sound_fresh P rs (map Chunk cs))) as SO.
    rewrite E0 in SO. cbn [fst snd] in SO.
    destruct (rel_at_panic rs g' e o' t last r0 r' _ _ L63' SO W3 E1) as (size & bl & flag & body & cs2 & c & x & Ee & SZ & LS & LB & PB & NX & NC & EV & CC & VV & RR).
    destruct (reads_evs (length outs) start) as (l & EL). rewrite E0 in EL. cbn [snd] in EL. rewrite EV in EL. unfold start in EL at 1. cbn [fresh r_src b_evs] in EL.
    apply map_eq_app in EL as (cs1 & cs' & EC & _ & EL). assert (EC2 : cs' = c :: cs2).
    { clear - EL. revert cs' EL. generalize (c :: cs2). induction l as [|a l IH]; intros [|b cs'] EL; try discriminate; [reflexivity|]. cbn [map] in EL. injection EL as -> EL. now rewrite (IH cs' EL). }
    subst cs'.
    assert (H29 : firstn 29 e = layout_header size bl flag). { rewrite Ee. apply firstn_app_exact. symmetry. apply layout_length. }
    assert (PRE : rel_pr_reads P (length outs) start = (outs, r0)).
    { rewrite <- E0. apply rel_stream_same; [exact L63'|]. fold start. rewrite E0. exact NI. }
    set (R := mk_preader (mk_bufsrc [] (map Chunk cs2)) rs (HReady (mkh size bl flag)) [] (r_log r')) in *.
    assert (NEC : Forall (fun c => c <> []) cs2).
    { destruct CU as (_ & CU). rewrite EC in CU. apply Forall_app in CU as (_ & CU). apply Forall_inv_tail in CU. eapply Forall_impl; [|exact CU]. intros a (Q & _). exact Q. }
    assert (CONT : forall k, fst (rel_pr_reads P (length outs + 1 + k) start) = outs ++ [Ok (NNotEnough 0)] ++ fst (rel_pr_reads P k R)).
    { intros k. rewrite <- Nat.add_assoc, rel_reads_app, PRE. cbn [Nat.add rel_pr_reads]. rewrite RR. now destruct (rel_pr_reads P k R). }
    exists outs, (Ok (NNotEnough 0)), R, ps1, ps2, bufs.
    split. { rewrite rel_reads_app, PRE. cbn [rel_pr_reads]. now rewrite RR. }
    split; [exact R2|]. split; [exact R3|]. split; [exact R4|]. split; [exact R5|]. split; [discriminate|]. right.
    exists p, ps3, (y ++ g'), e. repeat (split; [assumption|]). left. split; [reflexivity|]. split; [exact K6|].
    exists cs1, c, cs2, x. split; [exact EC|]. split; [exact NX|]. split.
    { destruct CU as (CU & _). rewrite <- B, <- sbytes_eq, EC, W1, sbytes_split in CU. cbn [sbytes] in CU. rewrite concat_app in CU. cbn [concat] in CU.
      rewrite <- (app_assoc y), <- VV, !app_assoc in CU. apply app_inv_tail in CU. apply app_inv_tail in CU.
      rewrite CU, H29, <- MF, sbytes_eq. unfold stream_bytes. rewrite app_nil_r, <- !app_assoc. reflexivity. }
    split.
    + intros LE k. rewrite CONT, H29. do 2 f_equal. apply drop_long; [|exact LS|exact LB]. rewrite <- SZ. rewrite Ee, app_length, layout_length in LE. unfold blen. lia.
    + intros LE. assert (body = []) as ->. { rewrite Ee, app_length, layout_length in LE. destruct body; [reflexivity|cbn [length] in LE; lia]. }
      cbn [length] in SZ. assert (size = 0) as -> by (rewrite <- SZ; reflexivity). exists o'. split; [exact V1|]. intros k.
      replace (length outs + 2 + k)%nat with (length outs + 1 + S k)%nat by lia. rewrite CONT. unfold R. rewrite (drop_short rs bl flag o' cs2 _ k PB NEC). reflexivity.
  - destruct SAME as (S1 & S2); [congruence|]. exists outs, o, r', ps1, ps2, bufs. repeat (split; [assumption|]). right. exists p, ps3, g, e. repeat (split; [assumption|]). right. auto.
Qed.
End Drop.
