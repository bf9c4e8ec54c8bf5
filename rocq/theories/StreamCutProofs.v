(** * The streaming reader: errors of the source at any place of a stream of packets. *)
From Coq Require Import ZifyBool ZifyNat ZifyN.
From Verif Require Import Base Crc32 Io Block Payload Packet Rules StreamReader Spec BaseProofs CrcProofs BlockProofs
  DispatchProofs PayloadProofs PayloadEnumProofs PacketProofs PacketSafeProofs RulesProofs WireProofs StreamProofs StreamItemProofs.
Ltac Zify.zify_post_hook ::= Z.div_mod_to_equations.
Open Scope list_scope.

Section Cut.
Context {U : Type}.
Variable P : proto U.
Hypothesis HP : proto_ok P.

(** The same reader with other events to come. *)
Definition re (E : list event) (r : preader U) : preader U :=
  mk_preader (mk_bufsrc (b_cur (r_src r)) E) (r_rules r) (r_state r) (r_buffered r) (r_log r).

(** One call of [read] asks the source once. *)
Lemma read_fill E1 E2 x s s' rl sta bf lg : fill_buf s = (Ok x, mk_bufsrc x E1) -> fill_buf s' = (Ok x, mk_bufsrc x E2) ->
  let (o, r1) := pr_read P (mk_preader s rl sta bf lg) in
  pr_read P (mk_preader s' rl sta bf lg) = (o, re E2 r1) /\ b_evs (r_src r1) = E1.
Proof.
  intros F1 F2. unfold pr_read. cbn [r_state set_state r_src r_rules r_buffered r_log]. destruct sta as [h|buf needed|].
  - unfold resolve_ready, pr_fill. cbn [set_state r_src]. rewrite F1, F2. cbn [sbind]. unfold set_src. cbn [r_src r_rules r_state r_buffered r_log].
    destruct (_ <? _); [split; reflexivity|]. destruct (_ <? _); [split; reflexivity|].
    unfold eat, finish, set_buffered, set_src, consume. cbn [r_src r_rules r_state r_buffered r_log b_cur b_evs].
    destruct (parse_body _ _ _ _) as [o []]; split; reflexivity.
  - unfold resolve_refill, pr_fill. cbn [set_state r_src]. rewrite F1, F2. cbn [sbind]. unfold set_src. cbn [r_src r_rules r_state r_buffered r_log].
    destruct x as [|x0 x]; [split; reflexivity|].
    destruct (_ <? _)%nat; [split; reflexivity|].
    unfold refill_found, note, usub, eat, set_src, set_state, consume.
    destruct (read_header _) as [[| |h from to]|e|w]; cbn [sbind]; try (split; reflexivity).
    + destruct (read_header _) as [[| |h from to]|e|w]; cbn [sbind]; try (split; reflexivity).
      * destruct (_ <? _)%nat; split; reflexivity.
      * destruct (_ <? _)%nat; split; reflexivity.
      * destruct (_ <? _)%nat; destruct (_ <=? _)%nat; split; reflexivity.
    + destruct (read_header _) as [[| |h from' to]|e|w]; cbn [sbind]; try (split; reflexivity).
      * destruct (_ <? _)%nat; split; reflexivity.
      * destruct (_ <? _)%nat; split; reflexivity.
      * destruct (_ <? _)%nat; destruct (_ <=? _)%nat; split; reflexivity.
    + destruct (_ <? _)%nat; destruct (_ <=? _)%nat; split; reflexivity.
  - unfold resolve_empty, pr_fill. cbn [set_state set_buffered r_src]. rewrite F1, F2. cbn [sbind]. unfold set_src. cbn [r_src r_rules r_state r_buffered r_log].
    destruct x as [|x0 x]; [split; reflexivity|].
    destruct (_ <? _)%nat; [split; reflexivity|].
    unfold note, eat, set_src, set_state, set_buffered, consume, finish.
    destruct (read_header _) as [[|from needed|h from to]|e|w]; cbn [sbind]; try (split; reflexivity).
    + destruct (_ <? _)%nat; split; reflexivity.
    + destruct (_ <? _)%nat; split; reflexivity.
    + destruct (_ <? _)%nat; (destruct (_ <=? _); [split; reflexivity|]); (destruct (_ <? _); [split; reflexivity|]);
        cbn [r_rules r_src r_state r_log b_cur b_evs]; destruct (parse_body _ _ _ _) as [o []]; split; reflexivity.
Qed.

(** A call that does not need what comes after [cs]. *)
Lemma read_twin cs T T' r : b_evs (r_src r) = map Chunk cs ++ T -> b_cur (r_src r) <> [] \/ cs <> [] ->
  exists cs', let (o, r1) := pr_read P r in
    pr_read P (re (map Chunk cs ++ T') r) = (o, re (map Chunk cs' ++ T') r1) /\ b_evs (r_src r1) = map Chunk cs' ++ T /\
    (b_cur (r_src r) = [] -> exists c, cs = c :: cs') /\ (b_cur (r_src r) <> [] -> cs' = cs).
Proof.
  destruct r as [[cur evs] rl sta bf lg]. unfold re. cbn [r_src r_rules r_state r_buffered r_log b_cur b_evs]. intros -> H.
  destruct cur as [|x cur].
  - destruct cs as [|c cs]; [destruct H; contradiction|]. exists cs.
    pose proof (read_fill (map Chunk cs ++ T) (map Chunk cs ++ T') c (mk_bufsrc [] (map Chunk (c :: cs) ++ T))
      (mk_bufsrc [] (map Chunk (c :: cs) ++ T')) rl sta bf lg eq_refl eq_refl) as Q.
    destruct (pr_read P _) as [o r1]. destruct Q as (Q1 & Q2). split; [exact Q1|]. split; [exact Q2|]. split; [eauto|contradiction].
  - exists cs.
    pose proof (read_fill (map Chunk cs ++ T) (map Chunk cs ++ T') (x :: cur) (mk_bufsrc (x :: cur) (map Chunk cs ++ T))
      (mk_bufsrc (x :: cur) (map Chunk cs ++ T')) rl sta bf lg eq_refl eq_refl) as Q.
    destruct (pr_read P _) as [o r1]. destruct Q as (Q1 & Q2). split; [exact Q1|]. split; [exact Q2|]. split; [discriminate|reflexivity].
Qed.

(** A call that meets an error of the source. *)
Lemma read_fails r k rest : b_cur (r_src r) = [] -> b_evs (r_src r) = Fail k :: rest ->
  exists r', pr_read P r = (Err (EIo k), r') /\
    r' = mk_preader (mk_bufsrc [] rest) (r_rules r) HEmpty (r_buffered r') (r_log r).
Proof.
  destruct r as [[cur evs] rl sta bf lg]. cbn [r_src r_rules r_state r_buffered r_log b_cur b_evs]. intros -> ->.
  destruct sta as [h|buf needed|]; eexists; split; reflexivity.
Qed.

(** In the empty state what is buffered does not matter. *)
Lemma read_forgets s rl bf bf' lg n :
  pr_reads P (S n) (mk_preader s rl HEmpty bf lg) = pr_reads P (S n) (mk_preader s rl HEmpty bf' lg).
Proof. reflexivity. Qed.

Lemma after_error r k rest : b_cur (r_src r) = [] -> b_evs (r_src r) = Fail k :: rest ->
  exists r', pr_read P r = (Err (EIo k), r') /\
    forall n, pr_reads P (S n) r' = pr_reads P (S n) (mk_preader (mk_bufsrc [] rest) (r_rules r) HEmpty [] (r_log r)).
Proof.
  intros C E. destruct (read_fails r k rest C E) as (r' & R & ER). exists r'. split; [exact R|]. intros n. rewrite ER. apply read_forgets.
Qed.

(** ** The run up to the error *)
Variable rs : rules U.

Lemma sbytes_app (its1 its2 : list (@item U)) last : sbytes (its1 ++ its2) last = sbytes its1 (sbytes its2 last).
Proof. induction its1 as [|[[g e] o] its1 IH]; [reflexivity|]. cbn [app sbytes]. now rewrite IH. Qed.

Lemma sbytes_len (its : list (@item U)) last : Forall (item_ok P rs []) its ->
  (29 * length its + length last <= length (sbytes its last))%nat.
Proof.
  induction 1 as [|[[g e] o] its (_ & S & _) F IH]; cbn [sbytes length]; [lia|]. apply sees_len in S. rewrite !app_length. lia.
Qed.

(** With [b] still to come, and no more than [b], the packets before the last are all reported. *)
Lemma only_last its1 e o r b : inv P rs [] True False (its1 ++ [([], e, o)]) [] r -> pure (its1 ++ [([], e, o)]) [] ->
  b_cur (r_src r) = [] -> b_evs (r_src r) = [Chunk b] -> b <> [] -> (length b <= length e)%nat ->
  (length b < length e)%nat \/ (forall its2 i, its1 = its2 ++ [i] -> (29 < length (snd (fst i)))%nat) ->
  its1 = [].
Proof.
  intros (_ & F & _ & cs & EV & FC & _ & _ & V) PU CU EB NB LB LA. rewrite EB, app_nil_r in EV.
  destruct cs as [|c [|? ?]]; try discriminate. injection EV as <-. cbn [concat] in V. rewrite CU, app_nil_r in V. cbn [app] in V.
  assert (F1 : Forall (item_ok P rs []) its1) by (now apply Forall_app in F).
  assert (L : forall j, (29 * length its1 + length e <= j)%nat -> (j <= length e)%nat -> its1 = []).
  { intros j. destruct its1; cbn [length]; intros; [reflexivity|lia]. }
  assert (SL : (29 * length its1 + length e <= length (sbytes (its1 ++ [([], e, o)]) []))%nat).
  { rewrite sbytes_app. pose proof (sbytes_len its1 (sbytes [([], e, o)] []) F1) as Q. cbn [sbytes app] in *. rewrite app_nil_r in *. exact Q. }
  destruct (r_state r) as [h|buf needed|].
  - destruct V as (size & bl & flag & body & o' & its' & EI & _ & _ & _ & _ & _ & V & LT).
    assert (L1 : length (layout_header size bl flag ++ body) = (29 + length body)%nat) by (now rewrite app_length, layout_length).
    generalize dependent (layout_header size bl flag ++ body). intros e1 EI L1.
    destruct its1 as [|i its1]; [reflexivity|exfalso]. cbn [app] in EI. injection EI as -> <-.
    apply (f_equal (@length byte)) in V. rewrite !app_length in V.
    inversion F1 as [|? ? _ F2]; subst.
    rewrite sbytes_app in V. pose proof (sbytes_len its1 (sbytes [([], e, o)] []) F2) as Q. cbn [sbytes app] in Q, V. rewrite !app_nil_r in *.
    destruct LT as [LT|(E1 & E2)]; [lia|]. rewrite E1, E2 in *. cbn [length Nat.add] in V.
    assert (I1 : its1 = []) by (destruct its1; [reflexivity|cbn [length] in Q; lia]). subst its1. cbn [length sbytes] in Q, V.
    destruct LA as [LA|LA]; [lia|]. specialize (LA [] _ eq_refl). cbn [fst snd] in LA. rewrite L1 in LA. cbn [length] in LA. lia.
  - destruct V as (_ & _ & _ & V & LT). apply (f_equal (@length byte)) in V. rewrite app_length in V.
    assert (length buf < 29)%nat.
    { destruct LT as [(LT & _)|(_ & _ & _ & AT & _)]; [exact LT|exfalso]. destruct PU as (PU & _).
      destruct its1 as [|[[g e1] o1] its1]; cbn [app at_tail] in AT; apply Forall_inv in PU; cbn [fst] in PU; subst; cbn [length] in AT; lia. }
    destruct its1 as [|i its1]; [reflexivity|exfalso]. cbn [length] in SL. lia.
  - rewrite V in LB. apply (L _ SL LB).
Qed.

(** The items before the last one are reported, then the error comes. *)
Lemma run_cut b k rest e o (NB : b <> []) (LB : (length b <= length e)%nat) : forall m its1 r cs,
  (msize [] (its1 ++ [([], e, o)]) r < m)%nat -> inv P rs [] True False (its1 ++ [([], e, o)]) [] r -> pure (its1 ++ [([], e, o)]) [] ->
  Forall (fun i => quiet (snd i) = false) its1 -> b_evs (r_src r) = map Chunk cs ++ [Chunk b] ->
  (length b < length e)%nat \/ (forall its2 i, its1 = its2 ++ [i] -> (29 < length (snd (fst i)))%nat) ->
  exists outs r', pr_reads P (length outs + 1) (re (map Chunk cs ++ Fail k :: rest) r) = (outs ++ [Err (EIo k)], r') /\
    reports outs = map snd its1 /\
    r' = mk_preader (mk_bufsrc [] rest) rs HEmpty (r_buffered r') (r_log r).
Proof.
  induction m as [|m IH]; intros its1 r cs LM I PU FQ EV LA; [lia|].
  assert (D : (b_cur (r_src r) = [] /\ cs = []) \/ (b_cur (r_src r) <> [] \/ cs <> [])).
  { destruct (b_cur (r_src r)); [|right; left; discriminate]. destruct cs; [now left|right; right; discriminate]. }
  destruct D as [(CU & ->)|D].
  - cbn [map app] in EV. rewrite (only_last its1 e o r b I PU CU EV NB LB LA) in *.
    destruct (read_fails (re (map Chunk [] ++ Fail k :: rest) r) k rest) as (r' & R & ER); [exact CU|reflexivity|].
    exists [], r'. cbn [length Nat.add pr_reads app]. rewrite R. split; [reflexivity|]. split; [reflexivity|].
    destruct I as (RU & _). rewrite ER at 1. unfold re. cbn [r_rules r_log]. now rewrite RU.
  - destruct (read_twin cs [Chunk b] (Fail k :: rest) r EV D) as (cs' & T).
    pose proof (pr_step P rs [] True False (its1 ++ [([], e, o)]) [] r ltac:(intros Q; destruct its1; discriminate Q) I) as S.
    destruct (pr_read P r) as [o1 r1]. destruct T as (T1 & T2 & _).
    destruct S as [o1 r1 its' last' bufs ID I1 EI [LT|([] & _)] PP _ LG NE FO|g e1 o1 r1 its' bufs EI I1 LT PP LG NE FO|r1 bufs Q _ _ _ _ _|? ? ? ? ? ? [] _ _ _ _ _|? ? ? ? [] _ _ _ _ _ _ _];
      [| |destruct its1; discriminate Q].
    + specialize (PP PU). assert (last' = []) by apply PP. subst last'.
      assert (EI' : its' = its1 ++ [([], e, o)]).
      { destruct PP as (PP & _). destruct PU as (PU & _). revert EI PP PU. generalize (its1 ++ [([], e, o)]). clear.
        induction its' as [|[[g1 e1] o1] its' IH]; intros [|[[g2 e2] o2] l] E P1 P2; try discriminate; [reflexivity|].
        cbn [map ident fst snd] in E. injection E as E1 E2 E3. inversion P1; subst. inversion P2; subst. cbn [fst] in *. subst.
        f_equal. now apply IH. }
      subst its'.
      assert (bufs = []).
      { assert (FN : forall its : list (@item U), pure its [] -> foreign its [] = []).
        { intros its (Q & _). induction Q as [|[[g2 e2] o2] l H F J]; [reflexivity|]. cbn [foreign fst] in *. now rewrite H, J. }
        rewrite (FN _ PU), app_nil_r in FO. now apply concat_nonnil. }
      subst bufs. cbn [logs fold_left] in LG.
      destruct (IH its1 r1 cs' ltac:(lia) I1 PU FQ T2 LA) as (outs & r' & Q1 & Q2 & Q3).
      exists (o1 :: outs), r'. cbn [length Nat.add pr_reads]. rewrite T1, Q1. split; [reflexivity|]. split.
      { unfold reports in *. cbn [filter]. assert (quiet o1 = true) as -> by (destruct ID as [(n & ->)| ->]; reflexivity). exact Q2. }
      rewrite <- LG. exact Q3.
    + destruct its1 as [|i its1].
      * exfalso. cbn [app] in EI. injection EI as <- <- <- <-.
        destruct I1 as (_ & _ & _ & cs2 & EV2 & FC2 & _ & _ & V). rewrite app_nil_r in EV2. rewrite T2 in EV2.
        assert (EC : cs2 = cs' ++ [b]).
        { revert EV2. clear. revert cs'. induction cs2 as [|c cs2 IH]; intros [|c' cs'] E; cbn [map app] in *; try discriminate.
          - injection E as -> E. destruct cs2; [reflexivity|discriminate].
          - injection E as -> E. f_equal. now apply IH. }
        subst cs2. rewrite concat_app in V. cbn [concat] in V. rewrite app_nil_r in V.
        assert (Z : b_cur (r_src r1) ++ concat cs' ++ b = [] -> False).
        { intros Z. apply app_eq_nil in Z as (_ & Z). apply app_eq_nil in Z as (_ & Z). contradiction. }
        destruct (r_state r1) as [h|buf needed|].
        -- destruct V as (? & ? & ? & ? & ? & ? & V & _). discriminate.
        -- destruct V as (_ & _ & NBU & V & _). cbn [sbytes] in V. apply app_eq_nil in V as (V & _). contradiction.
        -- cbn [sbytes] in V. now apply Z.
      * cbn [app] in EI. injection EI as -> <-.
        assert (G0 : g = []) by (destruct PU as (PU & _); now apply Forall_inv in PU). rewrite G0 in FO. apply concat_nonnil in FO; [|exact NE]. subst bufs. cbn [logs fold_left] in LG.
        destruct (IH its1 r1 cs' ltac:(lia) I1 (PP PU) (Forall_inv_tail FQ) T2) as (outs & r' & Q1 & Q2 & Q3).
        { destruct LA as [LA|LA]; [now left|right]. intros its2 i ->. apply (LA ((g, e1, o1) :: its2) i). reflexivity. }
        exists (o1 :: outs), r'. cbn [length Nat.add pr_reads]. rewrite T1, Q1. split; [reflexivity|]. split.
        { unfold reports in *. cbn [filter map snd]. pose proof (Forall_inv FQ) as QQ. cbn [snd] in QQ. rewrite QQ. cbn [negb]. now rewrite Q2. }
        rewrite <- LG. exact Q3.
Qed.
End Cut.

Section CutStream.
Context {U : Type}.
Variable P : proto U.
Hypothesis HP : proto_ok P.

Lemma bare_enc : packet_enc P (mk_packet [] None) (layout_header 0 0 false).
Proof. exists []. split; [constructor|]. split; [reflexivity|]. split; [reflexivity|]. now rewrite app_nil_r. Qed.

Lemma cut_stream ops ps es a cs k rest :
  let rs := rule_history ops in
  Forall2 (packet_enc P) ps es -> Forall few_blocks ps ->
  (a = [] /\ (forall es' e, es = es' ++ [e] -> (29 < length e)%nat)) \/
  (a <> [] /\ exists p b, packet_enc P p (a ++ b) /\ few_blocks p /\ b <> [] /\ blen (a ++ b) < two63) ->
  cut_into cs (concat es ++ a) ->
  exists outs r', pr_reads P (length outs + 1) (fresh rs (map Chunk cs ++ Fail k :: rest)) = (outs ++ [Err (EIo k)], r') /\
    Forall2 (verdict P rs) ps (reports outs) /\
    forall n, pr_reads P (S n) r' = pr_reads P (S n) (fresh rs rest).
Proof.
  intros rs F FB HA (CU & FC). pose proof (history_nodup ops) as ND. fold rs in ND.
  assert (X : exists p b, packet_enc P p (a ++ b) /\ few_blocks p /\ b <> [] /\ blen b < two63 /\
    ((length b < length (a ++ b))%nat \/ (forall es' e, es = es' ++ [e] -> (29 < length e)%nat))).
  { destruct HA as [(-> & HA)|(NA & p & b & HE & HB & NB & LB)].
    - exists (mk_packet [] None), (layout_header 0 0 false). split; [exact bare_enc|]. split; [unfold few_blocks; cbn; lia|].
      split; [intros Q; apply (f_equal (@length byte)) in Q; rewrite layout_length in Q; cbn [length] in Q; lia|]. split; [reflexivity|now right].
    - exists p, b. split; [exact HE|]. split; [exact HB|]. split; [exact NB|]. rewrite blen_app in LB. split; [unfold two63 in *; lia|left]. rewrite app_length. destruct a; [contradiction|cbn [length]; lia]. }
  destruct X as (p & b & HE & HB & NB & LB & HL).
  assert (FS : Forall2 (fun g e => no_signature g e) (map (fun _ => []) es) es).
  { clear. induction es as [|e es IH]; cbn [map]; constructor; [|exact IH]. intros i L. cbn [length] in L. lia. }
  destruct (items_of P HP rs [] _ ps es ND F FB FS (or_introl eq_refl)) as (its & A & B & C).
  destruct (sees_packet P HP rs p (a ++ b) ND HE HB) as (o & S & V).
  assert (PU : pure (its ++ [([], a ++ b, o)]) []).
  { split; [|reflexivity]. apply Forall_app. split; [|repeat constructor].
    assert (Q : Forall (fun i => fst i = []) (map fst its)); [|now apply Forall_map in Q].
    rewrite B. clear. induction es as [|e es IH]; cbn [map combine]; constructor; [reflexivity|exact IH]. }
  assert (SN : map (fun i => snd (fst i)) its = es).
  { rewrite <- (map_map fst snd), B. clear. induction es as [|e es IH]; [reflexivity|]. cbn [map combine snd]. now rewrite IH. }
  assert (SB : sbytes (its ++ [([], a ++ b, o)]) [] = concat (cs ++ [b])).
  { assert (MB : map fst (its ++ [([], a ++ b, o)]) = combine (map (fun _ => []) es) es ++ [([], a ++ b)]) by (rewrite <- B; apply map_app).
    rewrite sbytes_eq, MB. unfold stream_bytes. rewrite map_app, concat_app, app_nil_r, concat_app. cbn [map concat fst snd app]. rewrite CU, !app_nil_r.
    rewrite <- app_assoc. f_equal. clear. induction es as [|e es IH]; [reflexivity|].
    cbn [map combine concat fst snd app]. now rewrite IH. }
  assert (I : inv P rs [] True False (its ++ [([], a ++ b, o)]) [] (fresh rs (map Chunk (cs ++ [b]) ++ []))).
  { apply inv_start; [|intros _; apply clean_nil|left; eapply pure_tight; exact PU|].
    - apply Forall_app. split; [exact A|]. constructor; [|constructor]. split; [apply clean_nil|]. split; [exact S|now left].
    - split; [now symmetry|]. apply Forall_app. split; [exact FC|]. repeat constructor; [exact NB|exact LB]. }
  rewrite app_nil_r, map_app in I. cbn [map] in I.
  destruct (run_cut P rs b k rest (a ++ b) o NB ltac:(rewrite app_length; lia) _ its _ cs (Nat.lt_succ_diag_r _) I PU) as (outs & r' & Q1 & Q2 & Q3).
  { pose proof (verdicts_report _ _ _ _ C) as Q. now apply Forall_map in Q. }
  { reflexivity. }
  { destruct HL as [HL|HL]; [now left|right]. intros its2 i EI. apply (HL (map (fun i => snd (fst i)) its2)).
    rewrite <- SN, EI, map_app. reflexivity. }
  exists outs, r'. split; [exact Q1|]. split; [rewrite Q2; exact C|]. intros n. rewrite Q3. apply read_forgets.
Qed.
End CutStream.
