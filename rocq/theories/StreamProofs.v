(** * The streaming reader on streams of packets and foreign bytes. *)
From Coq Require Import ZifyBool ZifyNat ZifyN.
From Verif Require Import Base Crc32 Io Block Payload Packet Rules StreamReader Spec BaseProofs CrcProofs BlockProofs
  DispatchProofs PayloadProofs PayloadEnumProofs PacketProofs PacketSafeProofs RulesProofs.
Ltac Zify.zify_post_hook ::= Z.div_mod_to_equations.
Open Scope list_scope.

(** ** Looking for the signature *)
Lemma starts_with_prefix p : forall b v, (length p <= length b)%nat -> starts_with p (b ++ v) = starts_with p b.
Proof.
  induction p as [|x p IH]; intros [|y b] v H; cbn [starts_with app length] in *; try lia; try reflexivity.
  rewrite IH by lia. reflexivity.
Qed.

Lemma get_pos_go_none buf : forall off,
  (forall o, (o + 8 < length buf)%nat -> starts_with packet_sig (skipn o buf) = false) -> get_pos_go buf off = None.
Proof.
  induction buf as [|b buf IH]; intros off H; [reflexivity|]. cbn [get_pos_go].
  destruct (8 <? length (b :: buf))%nat eqn:E; [|reflexivity].
  pose proof (H 0%nat ltac:(lia)) as Q. cbn [skipn] in Q. rewrite Q. apply IH. intros o L. apply (H (S o)). cbn [length]. lia.
Qed.

Lemma get_pos_go_some n : forall buf off, (n + 8 < length buf)%nat ->
  starts_with packet_sig (skipn n buf) = true ->
  (forall o, (o < n)%nat -> starts_with packet_sig (skipn o buf) = false) -> get_pos_go buf off = Some (off + n)%nat.
Proof.
  induction n as [|n IH]; intros [|b buf] off L H1 H2; cbn [length] in L; try lia; cbn [get_pos_go].
  - replace (8 <? length (b :: buf))%nat with true by (cbn [length]; lia). cbn [skipn] in H1. rewrite H1. f_equal. lia.
  - replace (8 <? length (b :: buf))%nat with true by (cbn [length]; lia).
    pose proof (H2 0%nat ltac:(lia)) as Q. cbn [skipn] in Q. rewrite Q. rewrite IH; [f_equal; lia|lia|exact H1|].
    intros o L2. apply (H2 (S o)). lia.
Qed.

(** ** Items of a stream *)
Section Stream.
Context {U : Type}.
Variable P : proto U.
Variable rs : rules U.
Variable tl : list event.
(** Whether the bytes after the last item are known to have no signature. *)
Variable fin : Prop.
(** Whether chunks and foreign bytes may have any length, at the risk of losing packets. *)
Variable any : Prop.

(** Foreign bytes, a packet after them, and what reading it reports. *)
Definition item := (bytes * bytes * res (next U))%type.

Definition sees (e : bytes) (o : res (next U)) : Prop :=
  exists size bl flag body, e = layout_header size bl flag ++ body /\ blen body = size /\
    size < two63 /\ bl < two64 /\ parse_body P rs (mkh size bl flag) body = (o, Drop).

Definition clean (g next : bytes) : Prop :=
  forall o, (o < length g)%nat -> starts_with packet_sig (skipn o (g ++ next)) = false.

Definition item_ok (i : item) : Prop :=
  let '(g, e, o) := i in clean g e /\ sees e o /\ (tl = [] \/ (29 < length e)%nat).

Fixpoint sbytes (its : list item) (last : bytes) : bytes :=
  match its with
  | [] => last
  | (g, e, _) :: r => g ++ e ++ sbytes r last
  end.

Fixpoint foreign (its : list item) (last : bytes) : bytes :=
  match its with
  | [] => last
  | (g, _, _) :: r => g ++ foreign r last
  end.

(** What stays of an item while the foreign bytes before it are consumed. *)
Definition ident (i : item) : bytes * res (next U) := (snd (fst i), snd i).
Lemma ident_snd its its' : map ident its' = map ident its -> map snd its' = map snd its.
Proof. intros E. apply (f_equal (map snd)) in E. rewrite !map_map in E. exact E. Qed.

Definition pure (its : list item) (last : bytes) : Prop := Forall (fun i => fst (fst i) = []) its /\ last = [].

Definition chunk_ok (c : bytes) : Prop := c <> [] /\ blen c < two63.

Definition at_tail (its : list item) : Prop :=
  match its with [] => True | (g, _, _) :: _ => (29 <= length g + 8)%nat end.

(** Few enough foreign bytes before every packet, or chunks long enough, for all packets to be found. *)
Definition tight (its : list item) : Prop := Forall (fun i => (length (fst (fst i)) < 21)%nat) its.
Definition ample (cs : list bytes) : Prop := (any /\ tl = []) \/ Forall (fun c => (29 <= length c)%nat) cs.

Definition inv (its : list item) (last : bytes) (r : preader U) : Prop :=
  r_rules r = rs /\ Forall item_ok its /\ (fin -> clean last []) /\
  exists cs, b_evs (r_src r) = map Chunk cs ++ tl /\ Forall chunk_ok cs /\ blen (b_cur (r_src r)) < two63 /\
    (tight its \/ ample cs) /\
    let v := b_cur (r_src r) ++ concat cs in
    match r_state r with
    | HEmpty => v = sbytes its last
    | HRefill buf needed =>
        r_buffered r = [] /\ b_cur (r_src r) = [] /\ buf <> [] /\ buf ++ v = sbytes its last /\
        (((length buf < 29)%nat /\ needed = (29 - length buf)%nat) \/
         ((29 <= length buf)%nat /\ (length buf + needed = 58)%nat /\ (0 < needed)%nat /\ at_tail its /\
          (length buf = 29%nat \/ its = [] \/ (any /\ tl = []))))
    | HReady h =>
        exists size bl flag body o its',
          its = ([], layout_header size bl flag ++ body, o) :: its' /\ blen body = size /\ size < two63 /\ bl < two64 /\
          h = mkh size bl flag /\ parse_body P rs h body = (o, Drop) /\
          r_buffered r ++ v = body ++ sbytes its' last /\
          ((length (r_buffered r) < length body)%nat \/ (r_buffered r = [] /\ body = []))
    end.

Lemma clean_suffix n g nx : clean g nx -> clean (skipn n g) nx.
Proof.
  intros H o L. rewrite skipn_length in L.
  replace (skipn n g ++ nx) with (skipn n (g ++ nx)).
  - rewrite skipn_skipn. apply H. lia.
  - rewrite skipn_app. replace (n - length g)%nat with 0%nat by lia. reflexivity.
Qed.

Lemma sees_len e o : sees e o -> (29 <= length e)%nat.
Proof. intros (size & bl & flag & body & -> & _). rewrite app_length, layout_length. lia. Qed.

(** What [read_header] finds in a prefix [X] of the stream. *)
Lemma header_none X v last : clean last [] -> X ++ v = last -> read_header X = Ok FNotFound.
Proof.
  intros C E. unfold read_header, get_pos. rewrite get_pos_go_none; [reflexivity|].
  intros o L. rewrite <- (starts_with_prefix _ _ v) by (rewrite skipn_length; change (length packet_sig) with 8%nat; lia).
  replace (skipn o X ++ v) with (skipn o (last ++ [])).
  - apply C. rewrite <- E, app_length. lia.
  - rewrite app_nil_r, <- E, skipn_app. replace (o - length X)%nat with 0%nat by lia. reflexivity.
Qed.

Lemma header_item X v g e w size bl flag body :
  clean g e -> e = layout_header size bl flag ++ body -> size < two63 -> bl < two64 -> X ++ v = g ++ e ++ w ->
  ((length g + 29 <= length X)%nat /\ read_header X = Ok (FFound (mkh size bl flag) (length g) (length g + 29))) \/
  ((length g + 8 < length X < length g + 29)%nat /\ read_header X = Ok (FNotEnough (length g) (29 - (length X - length g)))) \/
  ((length X <= length g + 8)%nat /\ read_header X = Ok FNotFound).
Proof.
  intros C Ee Hs Hb EX.
  assert (L29 : (29 <= length e)%nat) by (rewrite Ee, app_length, layout_length; lia).
  assert (SP : forall o, (o + 8 <= length X)%nat -> starts_with packet_sig (skipn o X) = starts_with packet_sig (skipn o (g ++ e ++ w))).
  { intros o L. rewrite <- EX, skipn_app. replace (o - length X)%nat with 0%nat by lia.
    rewrite starts_with_prefix; [reflexivity|rewrite skipn_length; change (length packet_sig) with 8%nat; lia]. }
  assert (NO : forall o, (o < length g)%nat -> starts_with packet_sig (skipn o (g ++ e ++ w)) = false).
  { intros o L. rewrite app_assoc, skipn_app. rewrite starts_with_prefix; [now apply C|].
    rewrite skipn_length, app_length. change (length packet_sig) with 8%nat. lia. }
  unfold read_header, get_pos.
  destruct (Nat.le_gt_cases (length X) (length g + 8)) as [L|L].
  - right; right. split; [exact L|]. rewrite get_pos_go_none; [reflexivity|].
    intros o L2. rewrite SP by lia. apply NO. lia.
  - rewrite (get_pos_go_some (length g)); [|lia| |].
    2: { rewrite SP by lia. rewrite skipn_app_exact by reflexivity. rewrite Ee, <- app_assoc, layout_split. apply starts_with_self. }
    2: { intros o L2. rewrite SP by lia. now apply NO. }
    cbn [Nat.add]. rewrite skipn_length.
    destruct (length X - length g <? hdr_size)%nat eqn:EL; unfold hdr_size in *.
    + right; left. split; [lia|reflexivity].
    + left. split; [lia|].
      assert (Q : skipn (length g) X = layout_header size bl flag ++ skipn 29 (skipn (length g) X)).
      { rewrite <- (firstn_skipn 29 (skipn (length g) X)) at 1. f_equal.
        assert (Q : firstn 29 (skipn (length g) (X ++ v)) = firstn 29 (skipn (length g) X)).
        { rewrite skipn_app. replace (length g - length X)%nat with 0%nat by lia. cbn [skipn].
          rewrite firstn_app. rewrite skipn_length. replace (29 - (length X - length g))%nat with 0%nat by lia.
          cbn [firstn]. apply app_nil_r. }
        rewrite <- Q, EX, skipn_app_exact by reflexivity. rewrite Ee, <- app_assoc.
        apply firstn_app_exact. now rewrite layout_length. }
      rewrite Q, hdr_slice_rt by (try exact Hb; now apply two63_64). cbn [rbind]. reflexivity.
Qed.

(** ** The source *)
Lemma fill_cases s cs : b_evs s = map Chunk cs ++ tl -> Forall chunk_ok cs -> blen (b_cur s) < two63 ->
  (b_cur s ++ concat cs = [] /\ b_cur s = [] /\ b_evs s = tl) \/
  exists x buf cs', fill_buf s = (Ok (x :: buf), mk_bufsrc (x :: buf) (map Chunk cs' ++ tl)) /\
    (x :: buf) ++ concat cs' = b_cur s ++ concat cs /\ blen (x :: buf) < two63 /\
    (b_cur s = [] -> In (x :: buf) cs) /\ incl cs' cs.
Proof.
  destruct s as [cur evs]; cbn [b_cur b_evs]. intros -> F L. destruct cur as [|x cur].
  - destruct cs as [|c cs].
    + left. cbn. auto.
    + right. inversion F; subst. destruct c as [|x c]; [now destruct H1|]. exists x, c, cs. cbn [fill_buf b_cur b_evs map app].
      split; [reflexivity|]. split; [reflexivity|]. split; [apply H1|]. split; [now left|]. intros y Hy; now right.
  - right. exists x, cur, cs. cbn [fill_buf b_cur]. split; [reflexivity|]. split; [reflexivity|]. split; [exact L|]. split; [discriminate|].
    intros y Hy; exact Hy.
Qed.

(** ** Steps *)
Definition logs (bufs : list bytes) (l : log) : log := fold_left (fun l b => ignore rs b l) bufs l.

Definition msize (its : list item) (r : preader U) : nat :=
  (length (b_view (mk_bufsrc (b_cur (r_src r)) (firstn (length (b_evs (r_src r)) - length tl) (b_evs (r_src r))))) + length its)%nat.

Lemma firstn_evs cs : firstn (length (map Chunk cs ++ tl) - length tl) (map Chunk cs ++ tl) = map Chunk cs.
Proof. apply firstn_app_exact. rewrite app_length. lia. Qed.

Lemma concat_chunks cs : concat (map ev_bytes (map Chunk cs)) = concat cs.
Proof. induction cs as [|c cs IH]; [reflexivity|]. cbn [map concat ev_bytes]. now rewrite IH. Qed.

Lemma msize_eq its r cs : b_evs (r_src r) = map Chunk cs ++ tl ->
  msize its r = (length (b_cur (r_src r) ++ concat cs) + length its)%nat.
Proof. intros E. unfold msize, b_view. rewrite E, firstn_evs. cbn [b_cur b_evs]. now rewrite concat_chunks. Qed.

(** Some of the foreign bytes before the first item may be gone. *)
Definition moved (its : list item) (last : bytes) (its' : list item) (last' : bytes) : Prop :=
  (its = [] /\ its' = []) \/
  exists g g' e o t, its = (g, e, o) :: t /\ its' = (g', e, o) :: t /\ last' = last /\ (length g' <= length g)%nat.

(** Less is left to be read, or as much, but the header is known now. *)
Definition less (its' : list item) (r' : preader U) (its : list item) (r : preader U) : Prop :=
  (msize its' r' < msize its r)%nat \/
  (any /\ msize its' r' = msize its r /\ (exists h, r_state r' = HReady h) /\ exists b n, r_state r = HRefill b n).

(** The result of one call on a stream with remaining items [its]. *)
Inductive step (its : list item) (last : bytes) (r : preader U) : res (next U) -> preader U -> Prop :=
| step_more o r' its' last' bufs :
    (exists n, o = Ok (NNotEnough n)) \/ o = Ok NNotFound ->
    inv its' last' r' -> map ident its' = map ident its -> less its' r' its r ->
    (pure its last -> pure its' last') -> moved its last its' last' ->
    r_log r' = logs bufs (r_log r) -> Forall (fun b => b <> []) bufs -> concat bufs ++ foreign its' last' = foreign its last ->
    step its last r o r'
| step_item g e o r' its' bufs :
    its = (g, e, o) :: its' -> inv its' last r' -> (msize its' r' < msize its r)%nat ->
    (pure its last -> pure its' last) ->
    r_log r' = logs bufs (r_log r) -> Forall (fun b => b <> []) bufs -> concat bufs = g ->
    step its last r o r'
| step_end r' bufs :
    its = [] -> inv [] [] r' -> b_view (r_src r') = [] -> r_state r' = HEmpty ->
    r_log r' = logs bufs (r_log r) -> Forall (fun b => b <> []) bufs -> concat bufs = last ->
    step its last r (Ok NNoData) r'
| step_panic g e o r' its' bufs :
    any -> its = (g, e, o) :: its' -> (21 <= length g <= 28)%nat ->
    r_log r' = logs bufs (r_log r) -> Forall (fun b => b <> []) bufs -> concat bufs = g ->
    step its last r (Panic POverflow) r'
| step_lost g e o r' :
    any -> its = [(g, e, o)] -> (21 <= length g)%nat -> (length g + length e + length last <= 57)%nat ->
    b_view (r_src r') = [] -> b_evs (r_src r') = tl -> r_state r' = HEmpty ->
    r_log r' = logs [g ++ e ++ last] (r_log r) ->
    step its last r (Ok NNoData) r'.

Lemma incl_Forall {A} (Q : A -> Prop) l l' : incl l' l -> Forall Q l -> Forall Q l'.
Proof. intros I F. rewrite Forall_forall in *. auto. Qed.

Lemma ample_incl cs cs' : incl cs' cs -> ample cs -> ample cs'.
Proof. intros I [A|F]; [now left|right; exact (incl_Forall _ _ _ I F)]. Qed.

Lemma tight_tail i its : tight (i :: its) -> tight its.
Proof. exact (@Forall_inv_tail _ _ _ _). Qed.

Lemma tight_moved its last its' last' : moved its last its' last' -> tight its -> tight its'.
Proof.
  intros [(-> & ->)|(g & g' & e & o & t & -> & -> & _ & L)] T; [constructor|].
  constructor; [pose proof (Forall_inv T) as Q; cbn [fst] in *; lia|exact (Forall_inv_tail T)].
Qed.

Lemma moved_refl its last : moved its last its last.
Proof. destruct its as [|[[g e] o] t]; [left; auto|right]. exists g, g, e, o, t. auto. Qed.
Lemma moved_gone g e o its last : moved ((g, e, o) :: its) last (([], e, o) :: its) last.
Proof. right. exists g, [], e, o, its. cbn [length]. split; [reflexivity|]. split; [reflexivity|]. split; [reflexivity|lia]. Qed.

Lemma pure_tail i its last : pure (i :: its) last -> pure its last.
Proof. intros (F & ->). inversion F; subst. now split. Qed.

Lemma finish_drop h body n r o : r_rules r = rs -> parse_body P rs h body = (o, Drop) ->
  finish P h body n r = (o, mk_preader (match n with Some n => consume n (r_src r) | None => r_src r end)
                              (r_rules r) (r_state r) [] (r_log r)).
Proof. intros R E. unfold finish. rewrite R, E. reflexivity. Qed.

Lemma clean_nil nx : clean [] nx.
Proof. intros o L. cbn [length] in L. lia. Qed.

Lemma note_log c buf r : r_rules r = rs -> r_log (note c buf r) = logs (if c then [buf] else []) (r_log r).
Proof. intros R. unfold note. destruct c; cbn [r_log logs fold_left]; [now rewrite R|reflexivity]. Qed.

(** The ready state. *)
Lemma step_ready its last r h : inv its last r -> r_state r = HReady h ->
  let (o, r') := resolve_ready P h (set_state HEmpty r) in step its last r o r'.
Proof.
  intros (R & F & C & cs & EV & FC & LC & PC & V) ST. rewrite ST in V.
  destruct V as (size & bl & flag & body & o & its' & -> & LB & LS & LBL & -> & PB & V & LT).
  pose proof (Forall_inv F) as IO. pose proof (Forall_inv_tail F) as F'. destruct IO as (C1 & S1 & T1).
  unfold resolve_ready, pr_fill. cbn [set_state r_src].
  destruct (fill_cases (r_src r) cs EV FC LC) as [(V0 & C0 & E0)|(x & buf & cs' & EF & EB & LX & IN & INC)].
  - (* the source is exhausted: everything is buffered *)
    rewrite V0, app_nil_r in V.
    assert (LT2 : r_buffered r = [] /\ body = []).
    { destruct LT as [LT|LT]; [|exact LT]. rewrite V, app_length in LT. lia. }
    destruct LT2 as (B0 & ->). rewrite B0 in V. cbn [app] in V.
    assert (TL : tl = []). { destruct T1 as [T1|T1]; [exact T1|]. rewrite app_nil_r, layout_length in T1. lia. }
    assert (EF : fill_buf (r_src r) = (Ok [], r_src r)).
    { unfold fill_buf. rewrite C0, E0, TL. reflexivity. }
    rewrite EF. cbn [sbind set_src set_state r_buffered r_rules r_src r_log]. rewrite B0.
    assert (Z : size = 0) by (rewrite <- LB; reflexivity).
    change (h_size (mkh size bl flag)) with size.
    replace (blen [] + blen [] <? size) with false by (unfold blen; cbn [length]; lia).
    replace (size <? blen []) with false by (unfold blen; cbn [length]; lia).
    rewrite firstn_nil. cbn [app]. replace (N.to_nat size - length (@nil byte))%nat with 0%nat by (cbn [length]; lia).
    erewrite finish_drop; [|exact R|exact PB].
    unfold eat, consume. cbn [set_buffered set_src set_state r_buffered r_src r_rules r_log skipn].
    eapply step_item with (bufs := []); [reflexivity| | | |reflexivity|constructor|reflexivity].
    + split; [exact R|]. split; [exact F'|]. split; [exact C|]. exists cs. cbn [r_src b_evs b_cur r_state]. rewrite C0 in *.
      cbn [app] in *. split; [exact EV|]. split; [exact FC|]. split; [exact LC|]. split; [|now rewrite V0, V].
      destruct PC as [PC|PC]; [left; now apply tight_tail in PC|now right].
    + erewrite !msize_eq by exact EV. cbn [r_src b_cur length]. lia.
    + apply pure_tail.
  - rewrite EF. cbn [sbind set_src set_state r_buffered r_rules r_src r_log]. change (h_size (mkh size bl flag)) with size.
    assert (FC' := incl_Forall _ _ _ INC FC).
    assert (PC' : tight its' \/ ample cs').
    { destruct PC as [PC|PC]; [left; now apply tight_tail in PC|right; exact (ample_incl _ _ INC PC)]. }
    rewrite <- EB in V. set (b := x :: buf) in *.
    destruct (blen (r_buffered r) + blen b <? size) eqn:EA.
    + (* more of the body *)
      eapply step_more with (its' := ([], layout_header size bl flag ++ body, o) :: its') (last' := last) (bufs := []);
        [left; eauto| |reflexivity| |auto|apply moved_refl|reflexivity|constructor|reflexivity].
      * split; [exact R|]. split; [exact F|]. split; [exact C|]. exists cs'.
        unfold eat, consume. cbn [set_buffered set_src set_state r_buffered r_src r_state r_rules r_log b_evs b_cur].
        rewrite skipn_all. cbn [app].
        split; [reflexivity|]. split; [exact FC'|]. split; [reflexivity|].
        split; [destruct PC as [PC|PC]; [now left|right; exact (ample_incl _ _ INC PC)]|].
        exists size, bl, flag, body, o, its'. split; [reflexivity|]. split; [exact LB|]. split; [exact LS|]. split; [exact LBL|].
        split; [reflexivity|]. split; [exact PB|]. split; [now rewrite <- app_assoc|]. left. rewrite app_length. unfold blen in *. lia.
      * left. erewrite !msize_eq; [|exact EV|reflexivity]. unfold eat, consume. cbn [set_buffered set_src set_state r_src b_cur]. rewrite skipn_all.
        rewrite <- EB. cbn [app]. rewrite app_length. unfold b; cbn [length]. lia.
    + replace (size <? blen (r_buffered r)) with false.
      2: { unfold blen in *. destruct LT as [LT|(LT & LT')]; [lia|]. rewrite LT. cbn [length]. lia. }
      set (rest := (N.to_nat size - length (r_buffered r))%nat).
      assert (LR : (rest <= length b)%nat) by (unfold rest, blen in *; lia).
      assert (BODY : r_buffered r ++ firstn rest b = body /\ skipn rest b ++ concat cs' = sbytes its' last).
      { rewrite <- (firstn_skipn rest b), <- app_assoc, app_assoc in V.
        assert (Q := app_eq_app _ _ _ _ V). 
        assert (LQ : length (r_buffered r ++ firstn rest b) = length body).
        { rewrite app_length, firstn_length. unfold rest, blen in *. destruct LT as [LT|(LT & LT')]; [lia|rewrite LT, LT' in *; cbn [length] in *; lia]. }
        destruct Q as (l & [(Q1 & Q2)|(Q1 & Q2)]); rewrite Q1, !app_length in LQ; assert (l = []) by (destruct l; [easy|cbn [length] in LQ; lia]); subst l;
          rewrite app_nil_r in Q1; cbn [app] in Q2; auto. }
      destruct BODY as (B1 & B2).
      erewrite finish_drop; [|exact R|].
      2: { cbn [set_buffered eat set_src set_state r_buffered]. fold rest. rewrite B1. exact PB. }
      unfold eat, consume. cbn [set_buffered set_src set_state r_buffered r_src r_rules r_log b_cur b_evs].
      eapply step_item with (bufs := []); [reflexivity| | | |reflexivity|constructor|reflexivity].
      * split; [exact R|]. split; [exact F'|]. split; [exact C|]. exists cs'. cbn [r_src b_evs b_cur r_state].
        split; [reflexivity|]. split; [exact FC'|]. split; [unfold blen in *; rewrite skipn_length; lia|]. split; [exact PC'|]. exact B2.
      * erewrite !msize_eq; [|exact EV|reflexivity]. cbn [r_src b_cur length]. rewrite <- EB, !app_length, skipn_length. lia.
      * apply pure_tail.
Qed.

Lemma app_split {A} (a b c d : list A) : a ++ b = c ++ d -> length a = length c -> a = c /\ b = d.
Proof.
  revert c. induction a as [|x a IH]; intros [|y c] E L; cbn [length app] in *; try discriminate; [auto|].
  injection E as -> E. destruct (IH c E) as (-> & ->); [lia|auto].
Qed.

Lemma skipn_app_le {A} n (a b : list A) : (n <= length a)%nat -> skipn n (a ++ b) = skipn n a ++ b.
Proof. intros L. rewrite skipn_app. replace (n - length a)%nat with 0%nat by lia. reflexivity. Qed.

Lemma firstn_app_le {A} n (a b : list A) : (n <= length a)%nat -> firstn n (a ++ b) = firstn n a.
Proof. intros L. rewrite firstn_app. replace (n - length a)%nat with 0%nat by lia. cbn [firstn]. apply app_nil_r. Qed.

(** Dropping all but the last 29 bytes of a prefix without a visible signature. *)
Lemma to_tail X v its last : X ++ v = sbytes its last -> (29 <= length X)%nat ->
  match its with [] => True | (g, _, _) :: _ => (length X <= length g + 8)%nat end ->
  Forall item_ok its -> (fin -> clean last []) ->
  exists its' last', skipn (length X - 29) X ++ v = sbytes its' last' /\ at_tail its' /\ Forall item_ok its' /\ (fin -> clean last' []) /\
    map ident its' = map ident its /\ length its' = length its /\ moved its last its' last' /\ (pure its last -> pure its' last') /\
    firstn (length X - 29) X ++ foreign its' last' = foreign its last.
Proof.
  intros E L H F C. set (cut := (length X - 29)%nat).
  assert (LC : (cut <= length X)%nat) by (unfold cut; lia).
  destruct its as [|[[g e] o] its].
  - cbn [sbytes foreign] in *. exists [], (skipn cut last). cbn [sbytes at_tail foreign].
    assert (Q : skipn cut X ++ v = skipn cut last) by (rewrite <- E; symmetry; now apply skipn_app_le).
    split; [exact Q|]. split; [exact I|]. split; [constructor|]. split; [intros K; apply clean_suffix; auto|]. split; [reflexivity|]. split; [reflexivity|].
    split; [left; auto|]. split; [intros (_ & ->); split; [constructor|now rewrite skipn_nil]|].
    rewrite <- (firstn_app_le cut X v) by exact LC. rewrite E. apply firstn_skipn.
  - cbn [sbytes foreign] in *. exists ((skipn cut g, e, o) :: its), last. cbn [sbytes at_tail foreign map snd length].
    assert (LG : (cut <= length g)%nat) by (unfold cut; lia).
    pose proof (Forall_inv F) as (I1 & I2 & I3).
    split; [rewrite <- (skipn_app_le cut X v) by exact LC; rewrite E; now apply skipn_app_le|].
    split; [rewrite skipn_length; unfold cut in *; lia|].
    split; [constructor; [|exact (Forall_inv_tail F)]; split; [now apply clean_suffix|auto]|].
    split; [exact C|]. split; [reflexivity|]. split; [reflexivity|].
    split; [right; exists g, (skipn cut g), e, o, its; rewrite skipn_length; split; [reflexivity|]; split; [reflexivity|]; split; [reflexivity|lia]|].
    split.
    + intros (FP & ->). split; [|reflexivity]. constructor; [|exact (Forall_inv_tail FP)].
      pose proof (Forall_inv FP) as Q. cbn [fst] in *. rewrite Q. apply skipn_nil.
    + rewrite app_assoc. f_equal. rewrite <- (firstn_app_le cut X v) by exact LC. rewrite E.
      rewrite firstn_app_le by exact LG. apply firstn_skipn.
Qed.

Lemma drop_foreign g e o its last X v : X ++ v = sbytes ((g, e, o) :: its) last -> (length g <= length X)%nat ->
  firstn (length g) X = g /\ skipn (length g) X ++ v = sbytes (([], e, o) :: its) last.
Proof.
  intros E L. cbn [sbytes] in *. rewrite <- (firstn_skipn (length g) X), <- app_assoc in E.
  apply app_split in E; [exact E|]. rewrite firstn_length. lia.
Qed.

Lemma item_clean g e o : item_ok (g, e, o) -> item_ok ([], e, o).
Proof. intros (_ & H). split; [apply clean_nil|exact H]. Qed.

Lemma skipn_nonnil {A} n (l : list A) : (n < length l)%nat -> skipn n l <> [].
Proof. intros L Q. assert (K : length (skipn n l) = 0%nat) by (now rewrite Q). rewrite skipn_length in K. lia. Qed.

Lemma note_rest c buf (r : preader U) : r_src (note c buf r) = r_src r /\ r_state (note c buf r) = r_state r /\
  r_rules (note c buf r) = r_rules r /\ r_buffered (note c buf r) = r_buffered r.
Proof. unfold note. destruct c; auto. Qed.

Definition noted (c : bool) (b : bytes) : list bytes := if c then [b] else [].
Lemma noted_ok n b : length b = n -> Forall (fun x => x <> []) (noted (0 <? n)%nat b) /\ concat (noted (0 <? n)%nat b) = b.
Proof.
  intros L. destruct n as [|n]; cbn [Nat.ltb Nat.leb noted].
  - destruct b; [|discriminate]. split; [constructor|reflexivity].
  - split; [constructor; [|constructor]|cbn [concat]; apply app_nil_r]. intros ->. discriminate.
Qed.

(** The header was found at [length g] in [buf ++ X], after [buf] buffered bytes. *)
Lemma step_refill_found its0 last r0 g e o its X buf ext cs' size bl flag body r :
  its0 = (g, e, o) :: its -> e = layout_header size bl flag ++ body -> blen body = size -> size < two63 -> bl < two64 ->
  parse_body P rs (mkh size bl flag) body = (o, Drop) ->
  Forall item_ok its0 -> (fin -> clean last []) -> Forall chunk_ok cs' -> blen ext < two63 ->
  (tight its0 \/ ample cs') ->
  buf ++ ext ++ concat cs' = sbytes its0 last -> (length buf <= length g + 29)%nat ->
  (exists n, X = buf ++ firstn n ext) -> (length g + 29 <= length X)%nat ->
  r_src r = mk_bufsrc ext (map Chunk cs' ++ tl) -> r_rules r = rs -> r_buffered r = [] -> r_log r = r_log r0 ->
  (msize its0 r0 = length ext + length (concat cs') + length its0)%nat ->
  ((length buf < length g + 29)%nat \/ any) -> (exists b n, r_state r0 = HRefill b n) ->
  let (o, r') := refill_found (mkh size bl flag) (length g) (length g + 29) X (length buf) r in step its0 last r0 o r'.
Proof.
  intros E0 Ee LB LS LBL PB F C FC LX PC EB LBG (n & EX) LF ES R RB RL MS LBA SR.
  assert (LXE : (length X <= length buf + length ext)%nat) by (rewrite EX, app_length, firstn_length; lia).
  assert (V : X ++ skipn n ext ++ concat cs' = sbytes its0 last).
  { rewrite EX, <- app_assoc, (app_assoc (firstn n ext)), firstn_skipn. exact EB. }
  rewrite E0 in V. destruct (drop_foreign _ _ _ _ _ _ _ V ltac:(lia)) as (G1 & G2).
  unfold refill_found. destruct (note_rest (0 <? length g)%nat (firstn (length g) X) r) as (N1 & N2 & N3 & N4).
  pose proof (note_log (0 <? length g)%nat (firstn (length g) X) r R) as NL.
  unfold usub. replace (length buf <=? length g + 29)%nat with true by lia. cbn [sbind].
  set (m := (length g + 29 - length buf)%nat).
  assert (LM : (m <= length ext)%nat) by (unfold m; lia).
  destruct (noted_ok (length g) (firstn (length g) X)) as (K1 & K2); [rewrite firstn_length; lia|].
  eapply step_more with (its' := ([], e, o) :: its) (last' := last) (bufs := noted (0 <? length g)%nat (firstn (length g) X)).
  - left. eauto.
  - split; [exact (eq_trans N3 R)|].
    split. { rewrite E0 in F. constructor; [exact (item_clean _ _ _ (Forall_inv F))|exact (Forall_inv_tail F)]. }
    split; [exact C|]. exists cs'. unfold eat, consume.
    cbn [set_state set_src r_src r_state r_buffered b_evs b_cur]. rewrite N1, N4, ES, RB. cbn [b_evs b_cur].
    split; [reflexivity|]. split; [exact FC|]. split; [unfold blen in *; rewrite skipn_length; lia|]. split.
    { destruct PC as [PC|PC]; [left|now right]. rewrite E0 in PC. exact (tight_moved _ _ _ _ (moved_gone _ _ _ _ last) PC). }
    exists size, bl, flag, body, o, its. rewrite <- Ee. split; [reflexivity|]. split; [exact LB|]. split; [exact LS|]. split; [exact LBL|].
    split; [reflexivity|]. split; [exact PB|]. split.
    + cbn [app].
      assert (Q : (buf ++ firstn m ext) ++ skipn m ext ++ concat cs' = (g ++ layout_header size bl flag) ++ body ++ sbytes its last).
      { rewrite <- app_assoc, (app_assoc (firstn m ext)), firstn_skipn, EB, E0. cbn [sbytes]. rewrite Ee, <- !app_assoc. reflexivity. }
      apply app_split in Q; [exact (proj2 Q)|]. rewrite !app_length, firstn_length, layout_length. unfold m. lia.
    + destruct body; [right; auto|left; cbn [length]; lia].
  - rewrite E0. reflexivity.
  - unfold less. rewrite MS, E0. erewrite msize_eq.
    2: { unfold eat, consume. cbn [set_state set_src r_src b_evs]. rewrite N1, ES. reflexivity. }
    unfold eat, consume. cbn [set_state set_src r_src b_cur]. rewrite N1, ES. cbn [b_cur]. rewrite app_length, skipn_length. cbn [length].
    destruct LBA as [LBA|A]; [left; unfold m, item in *; lia|].
    destruct (Nat.eq_dec (length buf) (length g + 29)) as [Q|Q]; [right|left; unfold m, item in *; lia].
    split; [exact A|]. split; [unfold m, item in *; lia|]. split; [eexists; reflexivity|exact SR].
  - intros (FP & LP). split; [|exact LP]. rewrite E0 in FP. constructor; [reflexivity|exact (Forall_inv_tail FP)].
  - rewrite E0. apply moved_gone.
  - cbn [eat set_state set_src r_log]. rewrite NL, RL. reflexivity.
  - exact K1.
  - rewrite K2, E0. cbn [foreign]. now rewrite G1.
Qed.

(** No signature seen in [X]: its last 29 bytes are kept. *)
Lemma step_to_tail its last r0 X cs' r' :
  X ++ concat cs' = sbytes its last -> (29 <= length X)%nat ->
  match its with [] => True | (g, _, _) :: _ => (length X <= length g + 8)%nat end ->
  Forall item_ok its -> (fin -> clean last []) -> Forall chunk_ok cs' ->
  (tight its \/ ample cs') ->
  r_src r' = mk_bufsrc [] (map Chunk cs' ++ tl) -> r_rules r' = rs -> r_buffered r' = [] ->
  r_state r' = HRefill (skipn (length X - 29) X) 29 ->
  r_log r' = logs (if (29 <? length X)%nat then [firstn (length X - 29) X] else []) (r_log r0) ->
  (length (concat cs') + length its < msize its r0)%nat ->
  step its last r0 (Ok NNotFound) r'.
Proof.
  intros E L H F C FC PC ES R RB RS RL MS.
  destruct (to_tail X (concat cs') its last E L H F C) as (its' & last' & T1 & T2 & T3 & T4 & T5 & T6 & TS & T7 & T8).
  set (cut := (length X - 29)%nat) in *.
  destruct (noted_ok cut (firstn cut X)) as (K1 & K2); [rewrite firstn_length; unfold cut; lia|].
  replace (29 <? length X)%nat with (0 <? cut)%nat in RL by (unfold cut; lia).
  eapply step_more with (its' := its') (last' := last') (bufs := noted (0 <? cut)%nat (firstn cut X)).
  - now right.
  - split; [exact R|]. split; [exact T3|]. split; [exact T4|]. exists cs'. rewrite ES, RS, RB. cbn [b_evs b_cur app].
    assert (LS : length (skipn cut X) = 29%nat) by (rewrite skipn_length; unfold cut; lia).
    split; [reflexivity|]. split; [exact FC|]. split; [reflexivity|].
    split; [destruct PC as [PC|PC]; [left; exact (tight_moved _ _ _ _ TS PC)|now right]|].
    split; [reflexivity|]. split; [reflexivity|]. split; [apply skipn_nonnil; unfold cut; lia|]. split; [exact T1|].
    right. rewrite LS. split; [lia|]. split; [reflexivity|]. split; [lia|]. split; [exact T2|now left].
  - exact T5.
  - left. erewrite msize_eq by (rewrite ES; reflexivity). rewrite ES. cbn [b_cur app]. rewrite T6. exact MS.
  - exact T7.
  - exact TS.
  - exact RL.
  - exact K1.
  - rewrite K2. exact T8.
Qed.

(** The signature is visible in [X], the header is not complete. *)
Lemma step_to_small g e o its last r0 X cs' r' n :
  X ++ concat cs' = sbytes ((g, e, o) :: its) last -> (length g + 8 < length X < length g + 29)%nat ->
  Forall item_ok ((g, e, o) :: its) -> (fin -> clean last []) -> Forall chunk_ok cs' ->
  (tight ((g, e, o) :: its) \/ ample cs') ->
  r_src r' = mk_bufsrc [] (map Chunk cs' ++ tl) -> r_rules r' = rs -> r_buffered r' = [] ->
  r_state r' = HRefill (skipn (length g) X) (29 - (length X - length g)) ->
  r_log r' = logs (if (0 <? length g)%nat then [firstn (length g) X] else []) (r_log r0) ->
  (length (concat cs') + length ((g, e, o) :: its) < msize ((g, e, o) :: its) r0)%nat ->
  step ((g, e, o) :: its) last r0 (Ok (NNotEnough n)) r'.
Proof.
  intros E L F C FC PC ES R RB RS RL MS.
  destruct (drop_foreign _ _ _ _ _ _ _ E ltac:(lia)) as (G1 & G2).
  destruct (noted_ok (length g) (firstn (length g) X)) as (K1 & K2); [rewrite firstn_length; lia|].
  assert (PP : pure ((g, e, o) :: its) last -> pure (([], e, o) :: its) last).
  { intros (FP & LP). split; [|exact LP]. constructor; [reflexivity|exact (Forall_inv_tail FP)]. }
  eapply step_more with (its' := ([], e, o) :: its) (last' := last) (bufs := noted (0 <? length g)%nat (firstn (length g) X)).
  - left. eauto.
  - split; [exact R|].
    split; [constructor; [exact (item_clean _ _ _ (Forall_inv F))|exact (Forall_inv_tail F)]|].
    split; [exact C|]. exists cs'. rewrite ES, RS, RB. cbn [b_evs b_cur app].
    split; [reflexivity|]. split; [exact FC|]. split; [reflexivity|].
    split; [destruct PC as [PC|PC]; [left; exact (tight_moved _ _ _ _ (moved_gone _ _ _ _ last) PC)|now right]|].
    split; [reflexivity|]. split; [reflexivity|]. split; [apply skipn_nonnil; lia|]. split; [exact G2|].
    left. rewrite skipn_length. split; lia.
  - reflexivity.
  - left. erewrite msize_eq by (rewrite ES; reflexivity). rewrite ES. cbn [b_cur app]. exact MS.
  - exact PP.
  - apply moved_gone.
  - exact RL.
  - exact K1.
  - rewrite K2, G1. reflexivity.
Qed.

Ltac note_src := match goal with |- context [note ?c ?b ?x] => destruct (note_rest c b x) as (-> & _) end.
Ltac note_rules := match goal with |- context [note ?c ?b ?x] => destruct (note_rest c b x) as (_ & _ & -> & _) end.
Ltac note_buffered := match goal with |- context [note ?c ?b ?x] => destruct (note_rest c b x) as (_ & _ & _ & ->) end.

Lemma step_refill its last r buf needed : (its = [] -> tl = [] /\ fin) -> inv its last r -> r_state r = HRefill buf needed ->
  let (o, r') := resolve_refill buf needed (set_state HEmpty r) in step its last r o r'.
Proof.
  intros TL (R & F & C & cs & EV & FC & LC & PC & V) ST. rewrite ST in V.
  destruct V as (RB & CU & NB & V & ND).
  unfold resolve_refill, pr_fill. cbn [set_state r_src].
  destruct (fill_cases (r_src r) cs EV FC LC) as [(V0 & C0 & E0)|(x & ext0 & cs' & EF & EB & LX & IN & INC)].
  - rewrite V0, app_nil_r in V.
    destruct its as [|[[g e] o] its].
    2: { pose proof (Forall_inv F) as (_ & I2 & _). apply sees_len in I2. cbn [sbytes] in V.
      assert (L : length buf = length (g ++ e ++ sbytes its last)) by (now rewrite V). rewrite !app_length in L.
      destruct ND as [ND|(ND & ND2 & ND3 & AT & [ND4|[ND4|(A & TN)]])]; [lia| |discriminate|]; cbn [at_tail] in AT; [lia|].
      destruct its as [|[[g2 e2] o2] its].
      2: { exfalso. pose proof (Forall_inv (Forall_inv_tail F)) as (_ & J2 & _). apply sees_len in J2. cbn [sbytes] in L. rewrite !app_length in L. lia. }
      cbn [sbytes] in V, L.
      assert (EF : fill_buf (r_src r) = (Ok [], r_src r)).
      { unfold fill_buf. rewrite C0, E0, TN. reflexivity. }
      rewrite EF. cbn [sbind set_src]. unfold note. cbn [set_src set_state r_rules r_src r_state r_buffered r_log].
      eapply step_lost; [exact A|reflexivity|lia|lia| |exact E0|reflexivity|].
      - cbn [r_src]. unfold b_view. rewrite C0, E0, TN. reflexivity.
      - cbn [r_log logs fold_left]. now rewrite R, V. }
    assert (EF : fill_buf (r_src r) = (Ok [], r_src r)).
    { unfold fill_buf. rewrite C0, E0, (proj1 (TL eq_refl)). reflexivity. }
    rewrite EF. cbn [sbind set_src]. unfold note. cbn [set_src set_state r_rules r_src r_state r_buffered r_log].
    eapply step_end with (bufs := [buf]).
    + reflexivity.
    + split; [exact R|]. split; [constructor|]. split; [intros _; apply clean_nil|]. exists cs. cbn [r_src r_state].
      split; [exact EV|]. split; [exact FC|]. split; [exact LC|]. split; [left; constructor|]. exact V0.
    + cbn [r_src]. unfold b_view. rewrite C0, E0, (proj1 (TL eq_refl)). reflexivity.
    + reflexivity.
    + cbn [r_log logs fold_left]. now rewrite R.
    + constructor; [exact NB|constructor].
    + cbn [concat]. now rewrite app_nil_r.
  - rewrite EF. cbn [sbind set_src set_state r_rules r_src r_state r_buffered r_log]. set (ext := x :: ext0) in *.
    assert (FC' := incl_Forall _ _ _ INC FC).
    assert (PC' : tight its \/ ample cs').
    { destruct PC as [PC|PC]; [now left|right; exact (ample_incl _ _ INC PC)]. }
    rewrite CU in EB. cbn [app] in EB. rewrite CU in V. cbn [app] in V. rewrite <- EB in V.
    assert (MS : (msize its r = length ext + length (concat cs') + length its)%nat).
    { erewrite msize_eq by exact EV. rewrite CU. cbn [app]. rewrite <- EB. change (x :: ext0 ++ concat cs') with (ext ++ concat cs'). rewrite app_length. lia. }
    assert (LE : (0 < length ext)%nat) by (unfold ext; cbn [length]; lia).
    specialize (IN CU). clear EB EF. clearbody ext. clear x ext0.
    destruct (length ext <? needed)%nat eqn:EN.
    + (* still too short *)
      assert (SM : ((length buf < 29)%nat /\ needed = (29 - length buf)%nat) \/
        ((29 <= length buf)%nat /\ (length buf + needed = 58)%nat /\ at_tail its /\ (its = [] \/ (any /\ tl = [])))).
      { destruct ND as [ND|(L & N & N0 & AT & K)]; [now left|]. right. split; [exact L|]. split; [exact N|]. split; [exact AT|].
        destruct its as [|[[g e] o] its]; [now left|]. right.
        destruct K as [K|[K|K]]; [|discriminate|exact K]. destruct PC as [FP|[PC|PC]].
        - exfalso. pose proof (Forall_inv FP) as Q. cbn [fst] in Q. cbn [at_tail] in AT. lia.
        - exact PC.
        - exfalso. rewrite Forall_forall in PC. specialize (PC _ IN). lia. }
      eapply step_more with (its' := its) (last' := last) (bufs := []);
        [left; eauto| |reflexivity| |auto|apply moved_refl|reflexivity|constructor|reflexivity].
      * split; [exact R|]. split; [exact F|]. split; [exact C|]. exists cs'. unfold eat, consume.
        cbn [set_src set_state r_src r_state r_buffered b_evs b_cur]. rewrite skipn_all. cbn [app].
        split; [reflexivity|]. split; [exact FC'|]. split; [reflexivity|]. split; [exact PC'|].
        split; [exact RB|]. split; [reflexivity|]. split; [destruct buf; [easy|discriminate]|].
        split; [now rewrite <- app_assoc|]. rewrite app_length.
        destruct SM as [SM|(L & N & AT & K)]; [left; lia|right]. split; [lia|]. split; [lia|]. split; [lia|]. split; [exact AT|now right].
      * left. rewrite MS. erewrite msize_eq by reflexivity. unfold eat, consume. cbn [set_src set_state r_src b_cur]. rewrite skipn_all.
        cbn [app]. lia.
    + set (r1 := mk_preader (mk_bufsrc ext (map Chunk cs' ++ tl)) (r_rules r) HEmpty (r_buffered r) (r_log r)).
      assert (LB29 : (29 <= length buf + needed)%nat) by (destruct ND as [ND|ND]; lia).
      destruct its as [|[[g e] o] its].
      * (* only foreign bytes are left *)
        rewrite (header_none (buf ++ firstn needed ext) (skipn needed ext ++ concat cs') last (C (proj2 (TL eq_refl)))).
        2: { rewrite <- app_assoc, (app_assoc (firstn needed ext)), firstn_skipn. exact V. }
        cbn [sbind]. rewrite (header_none (buf ++ ext) (concat cs') last (C (proj2 (TL eq_refl)))) by (rewrite <- app_assoc; exact V).
        cbn [sbind]. eapply (step_to_tail _ last r (buf ++ ext) cs'); auto.
        -- now rewrite <- app_assoc.
        -- rewrite app_length. lia.
        -- unfold eat, consume. cbn [set_state set_src r_src]. note_src.
           cbn [r1 r_src b_cur b_evs]. now rewrite skipn_all.
        -- cbn [eat set_state set_src r_rules]. now note_rules.
        -- cbn [eat set_state set_src r_buffered]. now note_buffered.
        -- cbn [eat set_state set_src r_log]. now rewrite note_log.
        -- unfold item in *. lia.
      * pose proof (Forall_inv F) as (I1 & (size & bl & flag & body & Ee & SZ & LS & LBL & PB) & I3).
        assert (SR : exists b n, r_state r = HRefill b n) by eauto.
        assert (LBA : (length buf < length g + 29)%nat \/ (any /\ (21 <= length g)%nat /\ (length buf + needed = 58)%nat /\ (0 < needed)%nat)).
        { destruct ND as [ND|(L & N & N0 & AT & [K|[K|(K & _)]])]; [lia| |discriminate|]; cbn [at_tail] in AT; [lia|right].
          split; [exact K|]. lia. }
        destruct (Nat.le_gt_cases (length buf) (length g + 29)) as [LBG|LBG].
        2: { destruct LBA as [LBA|(A & LG & LN & L0)]; [lia|].
          destruct (header_item (buf ++ firstn needed ext) (skipn needed ext ++ concat cs') g e (sbytes its last) size bl flag body I1 Ee LS LBL)
            as [(H1 & ->)|[(H1 & _)|(H1 & _)]]; [| |rewrite app_length, firstn_length in H1; lia..].
          { rewrite <- app_assoc, (app_assoc (firstn needed ext)), firstn_skipn. exact V. }
          cbn [sbind]. unfold refill_found, usub. replace (length buf <=? length g + 29)%nat with false by lia. cbn [sbind].
          destruct (noted_ok (length g) (firstn (length g) (buf ++ firstn needed ext))) as (K1 & K2); [rewrite firstn_length; lia|].
          eapply step_panic with (bufs := noted (0 <? length g)%nat (firstn (length g) (buf ++ firstn needed ext)));
            [exact A|reflexivity|lia| |exact K1|].
          - now rewrite note_log.
          - rewrite K2, firstn_app_le by lia. cbn [sbytes] in V. apply (f_equal (firstn (length g))) in V.
            rewrite !firstn_app_le in V by lia. rewrite V. apply firstn_all. }
        assert (LBA' : (length buf < length g + 29)%nat \/ any) by tauto. clear LBA. rename LBA' into LBA.
        destruct (header_item (buf ++ firstn needed ext) (skipn needed ext ++ concat cs') g e (sbytes its last) size bl flag body I1 Ee LS LBL)
          as [(H1 & ->)|H].
        { rewrite <- app_assoc, (app_assoc (firstn needed ext)), firstn_skipn. exact V. }
        { cbn [sbind]. apply (step_refill_found _ last r g e o its (buf ++ firstn needed ext) buf ext cs' size bl flag body r1 eq_refl); auto. eauto. }
        assert (HD : exists f, read_header (buf ++ firstn needed ext) = Ok f /\ match f with FFound _ _ _ => False | _ => True end).
        { destruct H as [(H1 & ->)|(H1 & ->)]; eexists; split; reflexivity || exact I. }
        destruct HD as (f & -> & NF). cbn [sbind].
        assert (A1 : (buf ++ ext) ++ concat cs' = g ++ e ++ sbytes its last) by (rewrite <- app_assoc; exact V).
        assert (A2 : (29 <= length (buf ++ ext))%nat) by (rewrite app_length; lia).
        assert (A3 : exists n, buf ++ ext = buf ++ firstn n ext) by (exists (length ext); now rewrite firstn_all).
        destruct f as [|? ?|? ? ?]; [| |contradiction]; clear H NF;
          (destruct (header_item (buf ++ ext) (concat cs') g e (sbytes its last) size bl flag body I1 Ee LS LBL A1)
             as [(H1 & ->)|[(H1 & ->)|(H1 & ->)]]; cbn [sbind];
           [ apply (step_refill_found _ last r g e o its (buf ++ ext) buf ext cs' size bl flag body r1 eq_refl); auto
           | apply (step_to_small g e o its last r (buf ++ ext) cs'); auto;
             [ unfold eat, consume; cbn [set_state set_src r_src]; note_src; cbn [r1 r_src b_cur b_evs]; now rewrite skipn_all
             | cbn [eat set_state set_src r_rules]; now note_rules
             | cbn [eat set_state set_src r_buffered]; now note_buffered
             | cbn [eat set_state set_src r_log]; now rewrite note_log
             | unfold item in *; lia ]
           | apply (step_to_tail _ last r (buf ++ ext) cs'); auto;
             [ unfold eat, consume; cbn [set_state set_src r_src]; note_src; cbn [r1 r_src b_cur b_evs]; now rewrite skipn_all
             | cbn [eat set_state set_src r_rules]; now note_rules
             | cbn [eat set_state set_src r_buffered]; now note_buffered
             | cbn [eat set_state set_src r_log]; now rewrite note_log
             | unfold item in *; lia ] ]).
Qed.

Lemma step_empty its last r : (its = [] -> tl = [] /\ fin) -> inv its last r -> r_state r = HEmpty ->
  let (o, r') := resolve_empty P (set_state HEmpty r) in step its last r o r'.
Proof.
  intros TL (R & F & C & cs & EV & FC & LC & PC & V) ST. rewrite ST in V.
  unfold resolve_empty, pr_fill. cbn [set_buffered set_state r_src].
  destruct (fill_cases (r_src r) cs EV FC LC) as [(V0 & C0 & E0)|(x & buf0 & cs' & EF & EB & LX & IN & INC)].
  - rewrite V0 in V.
    destruct its as [|[[g e] o] its].
    2: { exfalso. pose proof (Forall_inv F) as (_ & I2 & _). apply sees_len in I2. cbn [sbytes] in V.
      assert (L : length (@nil byte) = length (g ++ e ++ sbytes its last)) by (now rewrite <- V). rewrite !app_length in L. cbn [length] in L. lia. }
    cbn [sbytes] in V.
    assert (EF : fill_buf (r_src r) = (Ok [], r_src r)).
    { unfold fill_buf. rewrite C0, E0, (proj1 (TL eq_refl)). reflexivity. }
    rewrite EF. cbn [sbind set_src set_buffered set_state r_rules r_src r_state r_buffered r_log].
    eapply step_end with (bufs := []).
    + reflexivity.
    + split; [exact R|]. split; [constructor|]. split; [intros _; apply clean_nil|]. exists cs. cbn [set_src set_buffered set_state r_src r_state].
      split; [exact EV|]. split; [exact FC|]. split; [exact LC|]. split; [left; constructor|]. exact V0.
    + unfold b_view. cbn [set_src set_buffered set_state r_src]. rewrite C0, E0, (proj1 (TL eq_refl)). reflexivity.
    + reflexivity.
    + reflexivity.
    + constructor.
    + exact V.
  - rewrite EF. cbn [sbind set_src set_buffered set_state r_rules r_src r_state r_buffered r_log].
    set (r1 := mk_preader (mk_bufsrc (x :: buf0) (map Chunk cs' ++ tl)) (r_rules r) HEmpty [] (r_log r)).
    set (buf := x :: buf0) in *.
    assert (FC' := incl_Forall _ _ _ INC FC).
    assert (PC' : tight its \/ ample cs').
    { destruct PC as [PC|PC]; [now left|right; exact (ample_incl _ _ INC PC)]. }
    rewrite <- EB in V.
    assert (MS : (msize its r = length buf + length (concat cs') + length its)%nat).
    { erewrite msize_eq by exact EV. rewrite <- EB, app_length. lia. }
    assert (LE : (0 < length buf)%nat) by (unfold buf; cbn [length]; lia).
    assert (R1 : r_rules r1 = rs) by exact R.
    clear EB EF IN.
    destruct (length buf <? hdr_size)%nat eqn:EN.
    + unfold hdr_size in EN.
      eapply step_more with (its' := its) (last' := last) (bufs := []);
        [left; eauto| |reflexivity| |auto|apply moved_refl|reflexivity|constructor|reflexivity].
      * split; [exact R|]. split; [exact F|]. split; [exact C|]. exists cs'. unfold eat, consume.
        cbn [set_src set_state r1 r_src r_state r_buffered b_evs b_cur]. rewrite skipn_all. cbn [app].
        split; [reflexivity|]. split; [exact FC'|]. split; [reflexivity|]. split; [exact PC'|].
        split; [reflexivity|]. split; [reflexivity|]. split; [discriminate|].
        split; [exact V|]. left. unfold hdr_size. lia.
      * left. rewrite MS. erewrite msize_eq by reflexivity. unfold eat, consume. cbn [set_src set_state r1 r_src b_cur]. rewrite skipn_all.
        cbn [app]. lia.
    + unfold hdr_size in EN. clearbody buf. clear x buf0.
      destruct its as [|[[g e] o] its].
      * rewrite (header_none buf (concat cs') last (C (proj2 (TL eq_refl)))) by exact V.
        cbn [sbind]. eapply (step_to_tail _ last r buf cs'); auto.
        -- lia.
        -- unfold eat, consume. cbn [set_state set_src r_src b_cur b_evs]. note_src. cbn [r1 r_src b_cur b_evs]. now rewrite skipn_all.
        -- cbn [eat set_state set_src r_rules]. now note_rules.
        -- cbn [eat set_state set_src r_buffered]. now note_buffered.
        -- cbn [eat set_state set_src r_log]. now rewrite note_log.
        -- unfold item in *. lia.
      * pose proof (Forall_inv F) as (I1 & (size & bl & flag & body & Ee & SZ & LS & LBL & PB) & I3).
        destruct (header_item buf (concat cs') g e (sbytes its last) size bl flag body I1 Ee LS LBL V)
          as [(H1 & ->)|[(H1 & ->)|(H1 & ->)]]; cbn [sbind].
        -- destruct (drop_foreign _ _ _ _ _ _ _ V ltac:(lia)) as (G1 & G2).
           destruct (noted_ok (length g) (firstn (length g) buf)) as (K1 & K2); [rewrite firstn_length; lia|].
           assert (V2 : skipn (length g + 29) buf ++ concat cs' = body ++ sbytes its last).
           { replace (length g + 29)%nat with (29 + length g)%nat by lia. rewrite <- skipn_skipn.
             rewrite <- skipn_app_le by (rewrite skipn_length; lia). rewrite G2. cbn [sbytes app]. rewrite Ee, <- app_assoc.
             apply skipn_app_exact. now rewrite layout_length. }
           change (h_size (mkh size bl flag)) with size.
           replace (two64 <=? size + N.of_nat (length g + 29)) with false by (unfold blen, two63, two64 in *; lia).
           destruct (blen buf <? size + N.of_nat (length g + 29)) eqn:EA.
           ++ eapply step_more with (its' := ([], e, o) :: its) (last' := last) (bufs := noted (0 <? length g)%nat (firstn (length g) buf)).
              ** left. eauto.
              ** split; [cbn [eat set_src set_state set_buffered r_rules]; now note_rules|].
                 split; [constructor; [exact (item_clean _ _ _ (Forall_inv F))|exact (Forall_inv_tail F)]|].
                 split; [exact C|]. exists cs'. unfold eat, consume. cbn [set_state set_src set_buffered r_src r_state r_buffered b_cur b_evs].
                 note_src. cbn [r1 r_src b_cur b_evs]. rewrite skipn_all. cbn [app].
                 split; [reflexivity|]. split; [exact FC'|]. split; [reflexivity|]. split.
                 { destruct PC' as [PC'|PC']; [left; exact (tight_moved _ _ _ _ (moved_gone _ _ _ _ last) PC')|now right]. }
                 exists size, bl, flag, body, o, its. rewrite <- Ee. split; [reflexivity|]. split; [exact SZ|]. split; [exact LS|]. split; [exact LBL|].
                 split; [reflexivity|]. split; [exact PB|]. split; [exact V2|]. left. rewrite skipn_length. unfold blen in *. lia.
              ** reflexivity.
              ** left. erewrite msize_eq.
                 2: { unfold eat, consume. cbn [set_state set_src set_buffered r_src b_evs]. note_src. reflexivity. }
                 unfold eat, consume. cbn [set_state set_src set_buffered r_src b_cur]. note_src. cbn [r1 r_src b_cur]. rewrite skipn_all.
                 cbn [app]. unfold item in *. cbn [length] in *. lia.
              ** intros (FP & LP). split; [|exact LP]. constructor; [reflexivity|exact (Forall_inv_tail FP)].
              ** apply moved_gone.
              ** cbn [eat set_state set_src set_buffered r_log]. now rewrite note_log.
              ** exact K1.
              ** rewrite K2, G1. reflexivity.
           ++ assert (BODY : firstn (N.to_nat size) (skipn (length g + 29) buf) = body /\
                skipn (length g + 29 + N.to_nat size) buf ++ concat cs' = sbytes its last).
              { rewrite (Nat.add_comm (length g + 29)), <- (skipn_skipn (N.to_nat size)).
                rewrite <- (firstn_skipn (N.to_nat size) (skipn (length g + 29) buf)), <- app_assoc in V2.
                apply app_split in V2; [exact V2|]. rewrite firstn_length, skipn_length. unfold blen in *. lia. }
              destruct BODY as (B1 & B2). rewrite B1.
              erewrite finish_drop; [|now note_rules|exact PB].
              eapply step_item with (bufs := noted (0 <? length g)%nat (firstn (length g) buf)).
              ** reflexivity.
              ** split; [cbn [r_rules]; now note_rules|]. split; [exact (Forall_inv_tail F)|]. split; [exact C|]. exists cs'. unfold consume.
                 match goal with |- context [note ?c ?b ?x] => destruct (note_rest c b x) as (N1 & N2 & _) end.
                 cbn [r_src r_state b_evs b_cur]. rewrite N1, N2. cbn [r1 r_src r_state b_evs b_cur].
                 split; [reflexivity|]. split; [exact FC'|]. split; [rewrite skipn_blen; apply N.le_lt_trans with (blen buf); [apply N.le_sub_l|exact LX]|]. split; [|exact B2].
                 destruct PC' as [PC'|PC']; [left; exact (tight_tail _ _ PC')|now right].
              ** erewrite msize_eq.
                 2: { unfold consume. cbn [r_src b_evs]. note_src. reflexivity. }
                 unfold consume. cbn [r_src b_cur]. note_src. cbn [r1 set_src set_buffered set_state r_src b_cur]. rewrite app_length, skipn_length.
                 unfold item in *. cbn [length] in *. lia.
              ** apply pure_tail.
              ** cbn [r_log]. now rewrite note_log.
              ** exact K1.
              ** now rewrite K2, G1.
        -- apply (step_to_small g e o its last r buf cs'); auto.
           ++ unfold eat, consume. cbn [set_state set_src r_src b_cur b_evs]. note_src. cbn [r1 r_src b_cur b_evs]. now rewrite skipn_all.
           ++ cbn [eat set_state set_src r_rules]. now note_rules.
           ++ cbn [eat set_state set_src r_buffered]. now note_buffered.
           ++ cbn [eat set_state set_src r_log]. now rewrite note_log.
           ++ unfold item in *. lia.
        -- apply (step_to_tail _ last r buf cs'); auto.
           ++ lia.
           ++ unfold eat, consume. cbn [set_state set_src r_src b_cur b_evs]. note_src. cbn [r1 r_src b_cur b_evs]. now rewrite skipn_all.
           ++ cbn [eat set_state set_src r_rules]. now note_rules.
           ++ cbn [eat set_state set_src r_buffered]. now note_buffered.
           ++ cbn [eat set_state set_src r_log]. now rewrite note_log.
           ++ unfold item in *. lia.
Qed.

Lemma pr_step its last r : (its = [] -> tl = [] /\ fin) -> inv its last r ->
  let (o, r') := pr_read P r in step its last r o r'.
Proof.
  intros TL I. unfold pr_read. destruct (r_state r) eqn:ST.
  - now apply step_ready.
  - now apply step_refill.
  - now apply step_empty.
Qed.

Lemma logs_app a b l : logs (a ++ b) l = logs b (logs a l).
Proof. apply fold_left_app. Qed.

(** All items are reported, one call after the other. *)
Lemma run_items : ~ any -> forall m its last r, (msize its r < m)%nat -> inv its last r ->
  Forall (fun i => quiet (snd i) = false) its ->
  exists outs r' bufs last', pr_reads P (length outs) r = (outs, r') /\ inv [] last' r' /\
    filter (fun o => negb (quiet o)) outs = map snd its /\
    (pure its last -> last' = []) /\
    r_log r' = logs bufs (r_log r) /\ Forall (fun b => b <> []) bufs /\ concat bufs ++ last' = foreign its last.
Proof.
  intros NA. induction m as [|m IH]; intros its last r LM I F; [lia|].
  destruct its as [|i its].
  { exists [], r, [], last. cbn [length pr_reads filter map foreign concat app]. split; [reflexivity|]. split; [exact I|].
    split; [reflexivity|]. split; [intros (_ & Q); exact Q|]. split; [reflexivity|]. split; [constructor|reflexivity]. }
  pose proof (pr_step (i :: its) last r ltac:(discriminate) I) as S. destruct (pr_read P r) as [o r1] eqn:E1.
  destruct S as [o r1 its' last' bufs ID I1 EI [LT|(NA' & _)] PP _ LG NE FO|g e o r1 its' bufs Q I1 LT PP LG NE FO|r1 bufs Q _ _ _ _ _|? ? ? ? ? ? NA' _ _ _ _ _|? ? ? ? NA' _ _ _ _ _ _ _];
    [|contradiction| |discriminate|contradiction|contradiction].
  - pose proof (ident_snd _ _ EI) as EM. assert (F' : Forall (fun i => quiet (snd i) = false) its').
    { rewrite Forall_forall. intros y Hy. apply (in_map snd) in Hy. rewrite EM in Hy. apply in_map_iff in Hy as (z & <- & Hz).
      rewrite Forall_forall in F. now apply F. }
    destruct (IH its' last' r1 ltac:(lia) I1 F') as (outs & r2 & bufs2 & last2 & Q1 & Q2 & Q3 & Q4 & Q5 & Q6 & Q7).
    exists (o :: outs), r2, (bufs ++ bufs2), last2. cbn [length pr_reads]. rewrite E1, Q1. split; [reflexivity|]. split; [exact Q2|].
    split.
    { assert (quiet o = true) by (destruct ID as [(n & ->)| ->]; reflexivity). cbn [filter]. rewrite H. cbn [negb]. now rewrite Q3, EM. }
    split; [auto|]. split; [now rewrite logs_app, <- LG|]. split; [apply Forall_app; auto|]. rewrite concat_app, <- app_assoc, Q7. exact FO.
  - injection Q as -> ->. destruct (IH its' last r1 ltac:(lia) I1 (Forall_inv_tail F)) as (outs & r2 & bufs2 & last2 & Q1 & Q2 & Q3 & Q4 & Q5 & Q6 & Q7).
    exists (o :: outs), r2, (bufs ++ bufs2), last2. cbn [length pr_reads]. rewrite E1, Q1. split; [reflexivity|]. split; [exact Q2|].
    pose proof (Forall_inv F) as K. cbn [snd] in K.
    split; [cbn [filter map snd]; rewrite K; cbn [negb]; now rewrite Q3|].
    split; [auto|]. split; [now rewrite logs_app, <- LG|]. split; [apply Forall_app; auto|]. rewrite concat_app, <- app_assoc, Q7, FO. reflexivity.
Qed.

(** After the items: the remaining foreign bytes, then [NoData]. *)
Lemma run_end : ~ any -> tl = [] -> fin -> forall m last r, (msize [] r < m)%nat -> inv [] last r ->
  exists outs r' bufs, pr_reads P (length outs + 1) r = (outs ++ [Ok NNoData], r') /\ Forall (fun o : res (next U) => quiet o = true) outs /\
    inv [] [] r' /\ b_view (r_src r') = [] /\ r_state r' = HEmpty /\
    r_log r' = logs bufs (r_log r) /\ Forall (fun b => b <> []) bufs /\ concat bufs = last.
Proof.
  intros NA TL FN. induction m as [|m IH]; intros last r LM I; [lia|].
  pose proof (pr_step [] last r (fun _ => conj TL FN) I) as S. destruct (pr_read P r) as [o r1] eqn:E1.
  destruct S as [o r1 its' last' bufs ID I1 EM [LT|(NA' & _)] PP _ LG NE FO|g e o r1 its' bufs Q I1 LT PP LG NE FO|r1 bufs _ I1 VW ST LG NE FO|? ? ? ? ? ? NA' _ _ _ _ _|? ? ? ? NA' _ _ _ _ _ _ _];
    [|contradiction|discriminate| |contradiction|contradiction].
  - assert (its' = []) by (destruct its'; [reflexivity|discriminate]). subst its'.
    destruct (IH last' r1 ltac:(lia) I1) as (outs & r2 & bufs2 & Q1 & Q2 & Q3 & Q4 & Q5 & Q6 & Q7 & Q8).
    exists (o :: outs), r2, (bufs ++ bufs2). cbn [length Nat.add pr_reads app]. rewrite E1, Q1. split; [reflexivity|].
    split; [constructor; [destruct ID as [(n & ->)| ->]; reflexivity|exact Q2]|]. split; [exact Q3|]. split; [exact Q4|]. split; [exact Q5|].
    split; [now rewrite logs_app, <- LG|]. split; [apply Forall_app; auto|]. rewrite concat_app, Q8. exact FO.
  - exists [], r1, bufs. cbn [length Nat.add pr_reads app]. rewrite E1. split; [reflexivity|]. split; [constructor|]. auto 10.
Qed.

Lemma reads_app a : forall b r, pr_reads P (a + b) r =
  let (o1, r1) := pr_reads P a r in let (o2, r2) := pr_reads P b r1 in (o1 ++ o2, r2).
Proof.
  induction a as [|a IH]; intros b r; cbn [Nat.add pr_reads app].
  - now destruct (pr_reads P b r).
  - destruct (pr_read P r) as [o r1]. rewrite IH. destruct (pr_reads P a r1) as [os r2]. destruct (pr_reads P b r2). reflexivity.
Qed.

Lemma filter_quiet (outs : list (res (next U))) : Forall (fun o => quiet o = true) outs -> filter (fun o => negb (quiet o)) outs = [].
Proof. induction 1 as [|o outs H F IH]; [reflexivity|]. cbn [filter]. now rewrite H. Qed.

(** Whatever the lengths of the chunks: all items are reported, or one behind at least 21 foreign bytes makes the reader panic, or
    the last one is taken for foreign bytes. *)
Definition phase (r : preader U) : nat := match r_state r with HRefill _ _ => 1 | _ => 0 end.
Definition gap (i : item) : bytes := fst (fst i).

Inductive ended (its : list item) (last : bytes) : list (res (next U)) -> res (next U) -> list bytes -> preader U -> Prop :=
| ended_all outs bufs r' : filter (fun o => negb (quiet o)) outs = map snd its -> concat bufs = foreign its last ->
    b_view (r_src r') = [] -> b_evs (r_src r') = [] -> r_state r' = HEmpty -> ended its last outs (Ok NNoData) bufs r'
| ended_panic outs bufs r' its1 i its2 : any -> its = its1 ++ i :: its2 -> filter (fun o => negb (quiet o)) outs = map snd its1 ->
    (21 <= length (gap i))%nat -> concat bufs = concat (map gap (its1 ++ [i])) -> ended its last outs (Panic POverflow) bufs r'
| ended_lost outs bufs r' its1 i : any -> its = its1 ++ [i] -> filter (fun o => negb (quiet o)) outs = map snd its1 ->
    (21 <= length (gap i))%nat -> (length (snd (fst i)) + length last <= 36)%nat ->
    concat bufs = concat (map gap its1) ++ gap i ++ snd (fst i) ++ last ->
    b_view (r_src r') = [] -> b_evs (r_src r') = [] -> r_state r' = HEmpty -> ended its last outs (Ok NNoData) bufs r'.

Lemma run_any : tl = [] -> fin -> forall m its last r, (2 * msize its r + phase r < m)%nat -> inv its last r ->
  Forall (fun i => quiet (snd i) = false) its ->
  exists outs o r' bufs, pr_reads P (length outs + 1) r = (outs ++ [o], r') /\
    r_log r' = logs bufs (r_log r) /\ Forall (fun b => b <> []) bufs /\ ended its last outs o bufs r'.
Proof.
  intros TL FN. induction m as [|m IH]; intros its last r LM I F; [lia|].
  pose proof (pr_step its last r (fun _ => conj TL FN) I) as S. destruct (pr_read P r) as [o r1] eqn:E1.
  destruct S as [o r1 its' last' bufs ID I1 EI LT PP MV LG NE FO|g e o r1 its' bufs Q I1 LT PP LG NE FO|r1 bufs Q I1 VW ST LG NE FO
    |g e o r1 its' bufs A Q LG2 LG NE FO|g e o r1 A Q LG1 LG2 VW EV ST LG].
  - pose proof (ident_snd _ _ EI) as EM. assert (F' : Forall (fun i => quiet (snd i) = false) its').
    { rewrite Forall_forall. intros y Hy. apply (in_map snd) in Hy. rewrite EM in Hy. apply in_map_iff in Hy as (z & <- & Hz).
      rewrite Forall_forall in F. now apply F. }
    assert (LM' : (2 * msize its' r1 + phase r1 < m)%nat).
    { destruct LT as [LT|(_ & EQ & (h & S1) & (b & n & S2))].
      - unfold phase in *. destruct (r_state r1), (r_state r); lia.
      - unfold phase in *. rewrite S1. rewrite S2 in LM. lia. }
    destruct (IH its' last' r1 LM' I1 F') as (outs & o2 & r2 & bufs2 & Q1 & Q2 & Q3 & Q4).
    exists (o :: outs), o2, r2, (bufs ++ bufs2). cbn [length Nat.add pr_reads app]. rewrite E1, Q1. split; [reflexivity|].
    split; [now rewrite logs_app, <- LG|]. split; [apply Forall_app; auto|].
    assert (QO : filter (fun o => negb (quiet o)) (o :: outs) = filter (fun o => negb (quiet o)) outs).
    { assert (quiet o = true) as QT by (destruct ID as [(n & ->)| ->]; reflexivity). cbn [filter]. now rewrite QT. }
    destruct MV as [(-> & ->)|(g & g' & e & o1 & t & -> & -> & -> & LGG)].
    + destruct Q4 as [outs bufs2 r2 K1 K2 K3 K4 K5|outs bufs2 r2 its1 i its2 A K1 K2 K3 K4|outs bufs2 r2 its1 i A K1 K2 K3 K4 K5 K6 K7 K8];
        [|destruct its1; discriminate K1|destruct its1; discriminate K1].
      apply ended_all; auto; [now rewrite QO|now rewrite concat_app, K2].
    + assert (GG : concat bufs ++ g' = g).
      { cbn [foreign] in FO. rewrite app_assoc in FO. now apply app_inv_tail in FO. }
      destruct Q4 as [outs bufs2 r2 K1 K2 K3 K4 K5|outs bufs2 r2 its1 i its2 A K1 K2 K3 K4|outs bufs2 r2 its1 i A K1 K2 K3 K4 K5 K6 K7 K8].
      * apply ended_all; auto; [now rewrite QO|rewrite concat_app, K2; exact FO].
      * destruct its1 as [|i1 its1]; cbn [app] in K1; injection K1 as K1 K1'.
        -- subst i its2. eapply ended_panic with (its1 := []) (i := (g, e, o1)) (its2 := t); auto; [now rewrite QO|cbn [gap fst] in *; lia|].
           rewrite concat_app, K4. cbn [app map concat gap fst]. rewrite !app_nil_r. exact GG.
        -- subst i1 t. eapply ended_panic with (its1 := (g, e, o1) :: its1) (i := i) (its2 := its2); auto; [now rewrite QO|].
           rewrite concat_app, K4. cbn [app map concat gap fst]. rewrite app_assoc, GG. reflexivity.
      * destruct its1 as [|i1 its1]; cbn [app] in K1; injection K1 as K1 K1'.
        -- subst i t. eapply ended_lost with (its1 := []) (i := (g, e, o1)); auto; [now rewrite QO|cbn [gap fst] in *; lia|].
           rewrite concat_app, K5. cbn [app map concat gap fst snd]. now rewrite app_assoc, GG.
        -- subst i1 t. eapply ended_lost with (its1 := (g, e, o1) :: its1) (i := i); auto; [now rewrite QO|].
           rewrite concat_app, K5. cbn [app map concat gap fst snd]. rewrite <- !app_assoc. rewrite (app_assoc (concat bufs)), GG. reflexivity.
  - subst its. assert (LM' : (2 * msize its' r1 + phase r1 < m)%nat).
    { unfold phase in *. destruct (r_state r1), (r_state r); lia. }
    destruct (IH its' last r1 LM' I1 (Forall_inv_tail F)) as (outs & o2 & r2 & bufs2 & Q1 & Q2 & Q3 & Q4).
    exists (o :: outs), o2, r2, (bufs ++ bufs2). cbn [length Nat.add pr_reads app]. rewrite E1, Q1. split; [reflexivity|].
    split; [now rewrite logs_app, <- LG|]. split; [apply Forall_app; auto|].
    pose proof (Forall_inv F) as K. cbn [snd] in K.
    assert (QO : filter (fun o => negb (quiet o)) (o :: outs) = o :: filter (fun o => negb (quiet o)) outs) by (cbn [filter]; now rewrite K).
    destruct Q4 as [outs bufs2 r2 K1 K2 K3 K4 K5|outs bufs2 r2 its1 i its2 A K1 K2 K3 K4|outs bufs2 r2 its1 i A K1 K2 K3 K4 K5 K6 K7 K8].
    + apply ended_all; auto; [rewrite QO, K1; reflexivity|rewrite concat_app, K2, FO; reflexivity].
    + subst its'. eapply ended_panic with (its1 := (g, e, o) :: its1) (i := i) (its2 := its2); auto; [rewrite QO, K2; reflexivity|].
      rewrite concat_app, K4, FO. reflexivity.
    + subst its'. eapply ended_lost with (its1 := (g, e, o) :: its1) (i := i); auto; [rewrite QO, K2; reflexivity|].
      rewrite concat_app, K5, FO. cbn [map concat gap fst]. now rewrite <- app_assoc.
  - subst its. exists [], (Ok NNoData), r1, bufs. cbn [length Nat.add pr_reads app]. rewrite E1. split; [reflexivity|].
    split; [exact LG|]. split; [exact NE|]. apply ended_all; auto.
    destruct I1 as (_ & _ & _ & cs & EV & FC & _ & _ & V). rewrite ST in V. cbn [sbytes] in V. apply app_eq_nil in V as (_ & V).
    assert (cs = []); [|subst; rewrite EV; exact TL]. destruct cs as [|c cs]; [reflexivity|]. apply app_eq_nil in V as (V & _).
    destruct (proj1 (Forall_inv FC) V).
  - subst its. exists [], (Panic POverflow), r1, bufs. cbn [length Nat.add pr_reads app]. rewrite E1. split; [reflexivity|].
    split; [exact LG|]. split; [exact NE|]. eapply ended_panic with (its1 := []); [exact A|reflexivity|reflexivity|cbn [gap fst]; lia|].
    cbn [app map concat gap fst]. now rewrite app_nil_r.
  - subst its. exists [], (Ok NNoData), r1, [g ++ e ++ last]. cbn [length Nat.add pr_reads app]. rewrite E1. split; [reflexivity|].
    split; [exact LG|]. split; [constructor; [|constructor]; destruct g; [cbn [length] in LG1; lia|discriminate]|].
    eapply ended_lost with (its1 := []); [exact A|reflexivity|reflexivity|cbn [gap fst]; lia|cbn [fst snd]; lia| |exact VW|now rewrite EV|exact ST].
    cbn [map concat gap fst snd app]. now rewrite app_nil_r.
Qed.

Lemma run_stream its last r : ~ any -> tl = [] -> fin -> inv its last r -> Forall (fun i => quiet (snd i) = false) its ->
  exists outs r' bufs, pr_reads P (length outs + 1) r = (outs ++ [Ok NNoData], r') /\
    filter (fun o => negb (quiet o)) outs = map snd its /\
    b_view (r_src r') = [] /\ r_state r' = HEmpty /\ b_evs (r_src r') = [] /\
    r_log r' = logs bufs (r_log r) /\ Forall (fun b => b <> []) bufs /\ concat bufs = foreign its last.
Proof.
  intros NA TL FN I F.
  destruct (run_items NA (Datatypes.S (msize its r)) its last r ltac:(lia) I F) as (o1 & r1 & b1 & last1 & A1 & A2 & A3 & _ & A5 & A6 & A7).
  destruct (run_end NA TL FN (Datatypes.S (msize [] r1)) last1 r1 ltac:(lia) A2) as (o2 & r2 & b2 & B1 & B2 & B3 & B4 & B5 & B6 & B7 & B8).
  exists (o1 ++ o2), r2, (b1 ++ b2).
  split. { rewrite app_length, <- Nat.add_assoc, reads_app, A1, B1. now rewrite app_assoc. }
  split. { rewrite filter_app, A3, (filter_quiet _ B2). apply app_nil_r. }
  split; [exact B4|]. split; [exact B5|].
  split. { destruct B3 as (_ & _ & _ & cs & EV & FC & _ & _ & V). rewrite B5 in V. cbn [sbytes] in V. apply app_eq_nil in V as (_ & V).
    assert (cs = []); [|subst; rewrite EV; exact TL]. destruct cs as [|c cs]; [reflexivity|]. apply app_eq_nil in V as (V & _).
    destruct (proj1 (Forall_inv FC) V). }
  split; [now rewrite logs_app, <- A5|]. split; [apply Forall_app; auto|]. now rewrite concat_app, B8.
Qed.
End Stream.
