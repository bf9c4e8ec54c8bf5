(** * Rules changed between two reads of the streaming reader. *)
From Coq Require Import ZifyBool ZifyNat ZifyN.
From Verif Require Import Base Crc32 Io Block Payload Packet Rules StreamReader Spec BaseProofs CrcProofs BlockProofs
  DispatchProofs PayloadProofs PayloadEnumProofs PacketProofs PacketSafeProofs RulesProofs WireProofs StreamProofs StreamItemProofs.
Ltac Zify.zify_post_hook ::= Z.div_mod_to_equations.
Open Scope list_scope.

Section Session.
Context {U : Type}.
Variable P : proto U.
Hypothesis HP : proto_ok P.

Definition enc_of (p : packet U) (i : bytes * bytes * res (next U)) : Prop := packet_enc P p (snd (fst i)) /\ few_blocks p.

(** The reader is somewhere in the stream with the packets [ps] still to be reported. *)
Definition sinv (rs : rules U) (ps : list (packet U)) (n : nat) (r : preader U) : Prop :=
  exists its last, inv P rs [] True False its last r /\ Forall2 enc_of ps its /\ Forall2 (verdict P rs) ps (map snd its) /\
    (msize [] its r <= n)%nat.

(** The same items under other rules. *)
Lemma relabel rs rs' ps (its : list (@item U)) : NoDup (map id_of rs') -> Forall2 enc_of ps its -> Forall (item_ok P rs []) its ->
  exists its', map fst its' = map fst its /\ Forall (item_ok P rs' []) its' /\ Forall2 enc_of ps its' /\ Forall2 (verdict P rs') ps (map snd its').
Proof.
  intros ND F. induction F as [|p [[g e] o] ps its (HE & HB) F IH]; intros FI.
  - exists []. cbn [map]. auto.
  - pose proof (Forall_inv FI) as (I1 & I2 & I3). pose proof (Forall_inv_tail FI) as FI'. destruct (IH FI') as (its' & A & B & C & D).
    destruct (sees_packet P HP rs' p e ND HE HB) as (o' & S & V).
    exists ((g, e, o') :: its'). cbn [map fst snd]. rewrite A. split; [reflexivity|]. split; [constructor; [split; auto|exact B]|].
    split; constructor; auto. split; [exact HE|exact HB].
Qed.

Lemma sbytes_fst (its its' : list (@item U)) last : map fst its' = map fst its -> sbytes its' last = sbytes its last.
Proof. intros E. now rewrite !sbytes_eq, E. Qed.

Lemma layout_inj s b f body s' b' f' body' : s < two64 -> b < two64 -> s' < two64 -> b' < two64 ->
  layout_header s b f ++ body = layout_header s' b' f' ++ body' -> s = s' /\ b = b' /\ f = f' /\ body = body'.
Proof.
  intros H1 H2 H3 H4 E. pose proof (hdr_slice_rt s b f body H1 H2) as A. rewrite E, hdr_slice_rt in A by assumption.
  assert (G : forall x y : header, Ok x = Ok y -> x = y) by (intros x y Q; now injection Q). apply G in A. clear G.
  assert (A1 : s' = s) by exact (f_equal h_size A). assert (A2 : b' = b) by exact (f_equal h_blocks_len A).
  assert (A3 : f' = f) by exact (f_equal h_payload A). clear A. subst. apply app_split in E; [|now rewrite !layout_length]. destruct E as (_ & ->). auto.
Qed.

(** Changing the rules keeps the place in the stream. *)
Lemma sinv_rules rs rs' ps n r r' : NoDup (map id_of rs') -> sinv rs ps n r ->
  r_src r' = r_src r -> r_state r' = r_state r -> r_buffered r' = r_buffered r -> r_rules r' = rs' -> sinv rs' ps n r'.
Proof.
  intros ND (its & last & (R & F & C & cs & EV & FC & LC & PC & V) & FE & FV & MS) ES ET EB ER.
  destruct (relabel rs rs' ps its ND FE F) as (its' & A & B & D & G).
  assert (LL : length its' = length its) by (apply (f_equal (@length _)) in A; now rewrite !map_length in A).
  exists its', last. split; [|split; [exact D|split; [exact G|]]].
  2: { rewrite (msize_eq [] its r cs EV) in MS. rewrite (msize_eq [] its' r' cs) by (rewrite ES; exact EV). rewrite ES. unfold item in *. lia. }
  split; [exact ER|]. split; [exact B|]. split; [exact C|]. exists cs. rewrite ES, ET, EB.
  split; [exact EV|]. split; [exact FC|]. split; [exact LC|]. split.
  { destruct PC as [PC|PC]; [left|now right]. unfold tight in *.
    rewrite Forall_forall in *. intros i HI. assert (Q : In (fst i) (map fst its)) by (rewrite <- A; now apply in_map).
    apply in_map_iff in Q as (j & <- & HJ). now apply PC. }
  rewrite (sbytes_fst its its') by exact A. cbn zeta in V |- *. destruct (r_state r) as [h|buf needed|].
  - destruct V as (size & bl & flag & body & o & its0 & -> & LB & LS & LBL & -> & PB & V & LT).
    destruct its' as [|[[g e] o'] its']; [discriminate|]. cbn [map fst] in A. injection A as -> -> A.
    pose proof (Forall_inv B) as (_ & (size' & bl' & flag' & body' & EE & LB' & LS' & LBL' & PB') & _).
    apply layout_inj in EE; try assumption; try (now apply two63_64).
    destruct EE as (-> & -> & -> & ->).
    exists size', bl', flag', body', o', its'. rewrite (sbytes_fst its0 its') by exact A. auto 10.
  - destruct V as (V1 & V2 & V3 & V4 & V5). split; [exact V1|]. split; [exact V2|]. split; [exact V3|]. split; [exact V4|].
    destruct V5 as [V5|(V5 & V6 & V7 & V8 & V9)]; [now left|right]. split; [exact V5|]. split; [exact V6|]. split; [exact V7|].
    destruct its as [|[[g e] o] its], its' as [|[[g' e'] o'] its']; try discriminate; [split; [exact I|right; now left]|].
    cbn [map fst] in A. injection A as -> _ _. split; [exact V8|]. destruct V9 as [V9|[V9|([] & _)]]; [now left|discriminate].
  - exact V.
Qed.

Lemma enc_ident ps (its its' : list (@item U)) : map ident its' = map ident its -> Forall2 enc_of ps its -> Forall2 enc_of ps its'.
Proof.
  intros E F. revert its' E. induction F as [|p [[g e] o] ps its H F IH]; intros [|[[g' e'] o'] its'] E; try discriminate; constructor.
  - cbn [map ident fst snd] in E. injection E as -> _ _. exact H.
  - apply IH. cbn [map] in E. now injection E.
Qed.

Lemma sinv_read rs ps n r : sinv rs ps n r ->
  let (o, r1) := pr_read P r in
  (quiet o = true /\ exists m, (m < n)%nat /\ sinv rs ps m r1) \/
  (exists p ps', ps = p :: ps' /\ verdict P rs p o /\ exists m, (m < n)%nat /\ sinv rs ps' m r1) \/
  (ps = [] /\ o = Ok NNoData /\ sinv rs [] 0 r1).
Proof.
  intros (its & last & I & FE & FV & MS).
  pose proof (pr_step P rs [] True False its last r (fun _ => conj eq_refl Logic.I) I) as S. destruct (pr_read P r) as [o r1] eqn:E1.
  destruct S as [o r1 its' last' bufs ID I1 EM [LT|([] & _)] PP _ LG NE FO|g e o r1 its' bufs Q I1 LT PP LG NE FO|r1 bufs Q I1 VW ST LG NE FO|? ? ? ? ? ? [] _ _ _ _ _|? ? ? ? [] _ _ _ _ _ _ _].
  - left. split; [destruct ID as [(m & ->)| ->]; reflexivity|]. exists (msize [] its' r1). split; [lia|].
    exists its', last'. split; [exact I1|]. split; [exact (enc_ident _ _ _ EM FE)|]. split; [now rewrite (ident_snd _ _ EM)|apply Nat.le_refl].
  - right; left. subst its. inversion FE as [|p i ps' its0 HE FE']; subst. cbn [map snd] in FV. inversion FV as [|p0 o0 ps0 os0 HV FV']; subst.
    exists p, ps'. split; [reflexivity|]. split; [exact HV|]. exists (msize [] its' r1). split; [lia|].
    exists its', last. split; [exact I1|]. split; [exact FE'|]. split; [exact FV'|apply Nat.le_refl].
  - right; right. subst its. inversion FE; subst. split; [reflexivity|]. split; [reflexivity|].
    exists [], []. split; [exact I1|]. split; [constructor|]. split; [constructor|].
    unfold msize. cbn [length]. rewrite Nat.sub_0_r, firstn_all. replace (mk_bufsrc _ _) with (r_src r1) by (now destruct (r_src r1)). rewrite VW. apply Nat.le_refl.
Qed.

Lemma sinv_zero rs p ps r : ~ sinv rs (p :: ps) 0 r.
Proof. intros (its & last & _ & FE & _ & MS). inversion FE; subst. unfold msize in MS. cbn [length] in MS. lia. Qed.

Lemma session_served : forall ms ops ps n r, sinv (rule_history ops) ps n r ->
  exists rest, served P ps (fst (session P ms ops r)) rest /\ ((n <= length (fst (session P ms ops r)))%nat -> rest = []).
Proof.
  induction ms as [|[|o] ms IH]; intros ops ps n r I; cbn [session].
  - exists ps. split; [constructor|]. cbn [fst length]. intros L. destruct n as [|n]; [|lia]. destruct ps as [|p ps]; [reflexivity|].
    destruct (sinv_zero _ _ _ _ I).
  - pose proof (sinv_read _ _ _ _ I) as S. destruct (pr_read P r) as [o r1].
    destruct S as [(Q & m & LM & I1)|[(p & ps' & -> & V & m & LM & I1)|(-> & -> & I1)]].
    + destruct (IH ops ps m r1 I1) as (rest & A & B). exists rest. destruct (session P ms ops r1) as [os r2]. cbn [fst length] in *.
      split; [now constructor|]. intros L. apply B. lia.
    + destruct (IH ops ps' m r1 I1) as (rest & A & B). exists rest. destruct (session P ms ops r1) as [os r2]. cbn [fst length] in *.
      split; [now constructor|]. intros L. apply B. lia.
    + destruct (IH ops [] 0%nat r1 I1) as (rest & A & B). exists rest. destruct (session P ms ops r1) as [os r2]. cbn [fst length] in *.
      split; [now constructor|]. intros L. apply B. lia.
  - apply IH. eapply sinv_rules; [apply history_nodup|exact I| | | |].
    1-3: destruct o as [x|i]; cbn [change_rule]; [unfold pr_add_rule; destruct (add_rule x (r_rules r))|]; reflexivity.
    assert (R : r_rules r = rule_history ops) by (destruct I as (its & last & (R & _) & _); exact R).
    unfold rule_history. rewrite fold_left_app. fold (rule_history ops). cbn [fold_left]. rewrite <- R.
    destruct o as [x|i]; cbn [change_rule rule_step]; [unfold pr_add_rule; destruct (add_rule x (r_rules r))|]; reflexivity.
Qed.

Lemma session_stream ops gs ps es last cs ms :
  Forall2 (packet_enc P) ps es -> Forall few_blocks ps ->
  Forall2 (fun g e => no_signature g e) gs es -> no_signature last [] ->
  cut_into cs (stream_bytes (combine gs es) last) ->
  (Forall (fun g => (length g < 21)%nat) gs \/ Forall (fun c => (29 <= length c)%nat) cs) ->
  let outs := fst (session P ms ops (fresh (rule_history ops) (map Chunk cs))) in
  exists rest, served P ps outs rest /\ ((length (concat cs) + length ps <= length outs)%nat -> rest = []).
Proof.
  intros F FB FS FL CU PC. pose proof (history_nodup ops) as ND. set (rs := rule_history ops) in *.
  destruct (items_of P HP rs [] gs ps es ND F FB FS (or_introl eq_refl)) as (its & A & B & C).
  assert (LG : map (fun i => fst (fst i)) its = gs).
  { rewrite <- map_map, B. clear - FS. induction FS; cbn [combine map fst]; congruence. }
  assert (I : inv P rs [] True False its last (fresh rs (map Chunk cs ++ []))).
  { apply inv_start; [exact A|intros _; now apply clean_spec| |now rewrite sbytes_eq, B].
    destruct PC as [PC|PC]; [left|now right].
    rewrite <- LG in PC. apply Forall_map in PC. exact PC. }
  assert (FE : Forall2 enc_of ps its).
  { assert (Q : Forall2 (fun p i => packet_enc P p (snd i) /\ few_blocks p) ps (map fst its)).
    { rewrite B. clear - F FB FS. revert gs FS. induction F as [|p e ps es HE F IH]; intros gs FS; inversion FS; subst; cbn [combine]; constructor.
      - split; [exact HE|now inversion FB].
      - apply IH; [now inversion FB|assumption]. }
    clear - Q. remember (map fst its) as l eqn:E. revert its E. induction Q as [|p i ps l H Q IH]; intros [|j its] E; try discriminate; constructor.
    - injection E as -> _. exact H.
    - apply IH. now injection E. }
  destruct (session_served ms ops ps (length (concat cs) + length ps)%nat (fresh rs (map Chunk cs ++ []))) as (rest & Q1 & Q2).
  - exists its, last. split; [exact I|]. split; [exact FE|]. split; [exact C|].
    erewrite msize_eq by reflexivity. cbn [fresh r_src b_cur app]. assert (LE : length ps = length its) by (clear - FE; induction FE; cbn [length]; congruence).
    unfold item in *. lia.
  - rewrite app_nil_r in Q1, Q2. exists rest. split; assumption.
Qed.
End Session.
