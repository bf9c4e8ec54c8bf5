(** * Storage readers whose file changes: iterating and reloading *)
From Coq Require Import ZifyBool ZifyNat ZifyN.
From Verif Require Import Base Crc32 Io File Block Payload Packet Rules Slot Storage Spec SpecStorage BaseProofs CrcProofs IoProofs
  BlockProofs PayloadProofs PacketSafeProofs SlotProofs StorageProofs HostileProofs ForeignProofs.
Ltac Zify.zify_post_hook ::= Z.div_mod_to_equations.
Open Scope list_scope.

Lemma combine_split {A B} (l : list (A * B)) : combine (map fst l) (map snd l) = l.
Proof. induction l as [|(a, b) l IH]; cbn [map combine fst snd]; congruence. Qed.
Lemma known_anchored {U} ls (r : sreader U) : known ls r <-> d_slots r = anchored 0 ls.
Proof.
  unfold known. rewrite <- anchored_places. change (map slot_with ls) with (map slot_of ls). rewrite <- (anchored_fst ls 0), combine_split. reflexivity.
Qed.

(** ** The same iterator with more slots to come *)
Definition plus (b : list slot) (t : siter) : siter := mk_siter (t_off t) (t_slots t ++ b) (t_src t) (t_buf t).

(** What the slots to come give first: a panic, or nothing. *)
Definition ending {A} (cut : bool) : option (res A) := if cut then Some (Panic PUnwrap) else None.

Section More.
Context (data : bytes) (b : list slot) (stop : N) (cut : bool).
Context (last : match b with
  | [] => cut = false
  | s :: _ => if cut then slot_width s <> 0 /\ slot_width s < two63 /\ blen data < stop + slot_size s + slot_width s else slot_width s = 0
  end).
(** The slots of the iterator end at [stop]. *)
Definition upto (t : siter) : Prop :=
  c_data (t_src t) = data /\ Forall (fun s => slot_width s <> 0) (t_slots t) /\
  t_off t + sum (map (fun s => slot_width s + slot_size s) (t_slots t)) = stop.

Lemma upto_buf c t : upto t -> upto (mk_siter (t_off t) (t_slots t) (t_src t) c).
Proof. intros U. exact U. Qed.

Lemma fetch_upto range t o t' : t_fetch range t = (o, t') -> c_data (t_src t') = c_data (t_src t) /\ t_off t' = t_off t /\ t_slots t' = t_slots t.
Proof.
  unfold t_fetch. destruct range as (start, end_). destruct (end_ <? start).
  - intros E. apply pair_equal_spec in E as (_ & <-). auto.
  - unfold alloc. destruct (_ <? two63); cbn [sbind].
    + destruct (cursor_read_exact _ _) as [q c] eqn:Q. pose proof (cursor_exact_data _ _ _ _ Q) as D. cbn [c_seek c_data] in D.
      destruct q; intros E; apply pair_equal_spec in E as (_ & <-); auto.
    + intros E. apply pair_equal_spec in E as (_ & <-). auto.
Qed.
Lemma fetch_plus l range t o t' : t_fetch range t = (o, t') -> t_fetch range (plus l t) = (o, plus l t').
Proof.
  unfold t_fetch, plus. destruct range as (start, end_). cbn [t_src t_off t_slots t_buf]. destruct (end_ <? start).
  - intros E. apply pair_equal_spec in E as (<- & <-). reflexivity.
  - unfold alloc. destruct (_ <? two63); cbn [sbind].
    + destruct (cursor_read_exact _ _) as [q c]. destruct q; intros E; apply pair_equal_spec in E as (<- & <-); reflexivity.
    + intros E. apply pair_equal_spec in E as (<- & <-). reflexivity.
Qed.

Lemma ready_plus t : upto t ->
  (forall o t', t_ready t = (Some o, t') -> t_ready (plus b t) = (Some o, plus b t') /\ upto t') /\
  (forall t', t_ready t = (None, t') -> exists t2, t_ready (plus b t) = (ending cut, t2)).
Proof.
  intros (D & F & E). unfold t_ready, t_locate, plus. cbn [t_buf t_slots t_off t_src]. destruct (c_rest (t_buf t)) as [|x l].
  2: { split; [|discriminate]. intros o t' H. apply pair_equal_spec in H as (H & <-). split; [now rewrite <- H|]. split; auto. }
  destruct (t_slots t) as [|s0 l] eqn:ES.
  - split; [discriminate|]. intros t' _. cbn [app map] in *. unfold sum in E. cbn [fold_right] in E.
    destruct b as [|s l]; [rewrite last; eexists; reflexivity|]. destruct cut; [|rewrite last; eexists; reflexivity]. destruct last as (wide & long & past).
    replace (slot_width s =? 0) with false by lia. unfold t_fetch. cbn [t_src t_off].
    replace (t_off t + slot_width s + slot_size s <? t_off t + slot_size s) with false by lia.
    replace (t_off t + slot_width s + slot_size s - (t_off t + slot_size s)) with (slot_width s) by lia.
    unfold alloc. replace (slot_width s <? two63) with true by lia. cbn [sbind]. unfold cursor_read_exact.
    assert (L : blen (c_rest (c_seek (t_off t + slot_size s) (t_src t))) < slot_width s).
    { rewrite rest_skipn. unfold c_seek. cbn [c_pos c_data]. rewrite D. unfold blen in *. rewrite skipn_length. lia. }
    replace (slot_width s <=? _) with false by lia. eexists. reflexivity.
  - cbn [app]. pose proof (Forall_inv F) as F1. pose proof (Forall_inv_tail F) as F2. cbv beta in F1. replace (slot_width s0 =? 0) with false by lia. split.
    + intros o t' H. destruct (t_fetch _ (mk_siter _ l _ _)) as [o1 t1] eqn:EF. apply pair_equal_spec in H as (H & <-).
      apply (f_equal (fun x => match x with Some y => y | None => o end)) in H. subst o1.
      pose proof (fetch_plus b _ _ _ _ EF) as EP. unfold plus at 1 in EP. cbn [t_src t_off t_slots t_buf] in EP. rewrite EP. split; [reflexivity|].
      destruct (fetch_upto _ _ _ _ EF) as (G1 & G2 & G3). cbn [t_src t_off t_slots] in *. split; [congruence|]. rewrite G2, G3. split; [exact F2|].
      unfold sum in *. cbn [map fold_right] in E. lia.
    + destruct (t_fetch _ (mk_siter _ l _ _)). discriminate.
Qed.
End More.

Section MoreIter.
Context {U : Type} (P : proto U) (data : bytes) (b : list slot) (stop : N) (cut : bool).
Context (last : match b with
  | [] => cut = false
  | s :: _ => if cut then slot_width s <> 0 /\ slot_width s < two63 /\ blen data < stop + slot_size s + slot_width s else slot_width s = 0
  end).
Local Notation upto := (upto data stop).

Lemma next_plus t : upto t ->
  (forall o t', t_next P t = (Some o, t') -> t_next P (plus b t) = (Some o, plus b t') /\ upto t') /\
  (forall t', t_next P t = (None, t') -> fst (t_next P (plus b t)) = ending cut).
Proof.
  intros UT. destruct (ready_plus data b stop cut last t UT) as (R1 & R2). unfold t_next at 1 3.
  destruct (t_ready t) as [[q|] t1] eqn:Q.
  - destruct (R1 q t1 eq_refl) as (E & U1). unfold t_next. rewrite E. destruct q as [u|e|w].
    + unfold plus at 1. cbn [t_buf]. destruct (pkt_read cursor_reader P (t_buf t1)) as [o1 c1] eqn:ER. split; [|discriminate].
      intros o t' H. apply pair_equal_spec in H as (H & <-). rewrite <- H. split; [reflexivity|now apply upto_buf].
    + split; [|discriminate]. intros o t' H. apply pair_equal_spec in H as (H & <-). rewrite <- H. auto.
    + split; [|discriminate]. intros o t' H. apply pair_equal_spec in H as (H & <-). rewrite <- H. auto.
  - split; [discriminate|]. intros t' _. destruct (R2 t1 eq_refl) as (t2 & E). unfold t_next. rewrite E. now destruct cut.
Qed.

Lemma filtered_more rs k : forall f t o t', t_next_filtered_go f P rs t = (o, t') -> o <> Some (Panic PFuel) -> t_next_filtered_go (f + k) P rs t = (o, t').
Proof.
  induction f as [|f IH]; intros t o t' E NF; cbn [t_next_filtered_go Nat.add] in *.
  - apply pair_equal_spec in E as (<- & _). now contradiction NF.
  - destruct (t_ready t) as [[[u|e|w]|] t1]; try exact E. destruct (filtered _ P rs (t_buf t1)) as [[[m p|m]|e|w] c]; try exact E. now apply IH.
Qed.

Lemma filtered_plus_go rs : forall f t, upto t ->
  (forall o t', t_next_filtered_go f P rs t = (Some o, t') -> t_next_filtered_go f P rs (plus b t) = (Some o, plus b t') /\ upto t') /\
  (forall t', t_next_filtered_go f P rs t = (None, t') -> fst (t_next_filtered_go f P rs (plus b t)) = ending cut).
Proof.
  induction f as [|f IH]; intros t UT; cbn [t_next_filtered_go].
  - split; [|discriminate]. intros o t' H. apply pair_equal_spec in H as (H & <-). rewrite <- H. auto.
  - destruct (ready_plus data b stop cut last t UT) as (R1 & R2). destruct (t_ready t) as [[q|] t1] eqn:Q.
    + destruct (R1 q t1 eq_refl) as (E & U1). rewrite E. destruct q as [u|e|w].
      * cbn [plus t_buf t_off t_slots t_src]. destruct (filtered cursor_reader P rs (t_buf t1)) as [o1 c1] eqn:ER.
        pose proof (upto_buf data stop c1 t1 U1) as U2. destruct o1 as [[m p|m]|e|w].
        -- split; [|discriminate]. intros o t' H. apply pair_equal_spec in H as (H & <-). rewrite <- H. auto.
        -- exact (IH _ U2).
        -- split; [|discriminate]. intros o t' H. apply pair_equal_spec in H as (H & <-). rewrite <- H. auto.
        -- split; [|discriminate]. intros o t' H. apply pair_equal_spec in H as (H & <-). rewrite <- H. auto.
      * split; [|discriminate]. intros o t' H. apply pair_equal_spec in H as (H & <-). rewrite <- H. auto.
      * split; [|discriminate]. intros o t' H. apply pair_equal_spec in H as (H & <-). rewrite <- H. auto.
    + split; [discriminate|]. intros t' _. destruct (R2 t1 eq_refl) as (t2 & E). rewrite E. now destruct cut.
Qed.

Lemma filtered_plus rs t : upto t ->
  (forall o t', t_next_filtered P rs t = (Some o, t') -> o <> Panic PFuel -> t_next_filtered P rs (plus b t) = (Some o, plus b t') /\ upto t') /\
  (forall t', t_next_filtered P rs t = (None, t') -> fst (t_next_filtered P rs (plus b t)) = ending cut).
Proof.
  intros UT. unfold t_next_filtered.
  set (f := (length (c_data (t_src t)) + length (c_data (t_buf t)) + length (t_slots t) + 1)%nat).
  assert (EF : (length (c_data (t_src (plus b t))) + length (c_data (t_buf (plus b t))) + length (t_slots (plus b t)) + 1)%nat = (f + length b)%nat).
  { unfold f, plus. cbn [t_src t_buf t_slots]. rewrite app_length. lia. }
  rewrite EF. destruct (filtered_plus_go rs f t UT) as (G1 & G2). split.
  - intros o t' E NF. destruct (G1 o t' E) as (H & UT'). split; [|exact UT']. apply filtered_more; [exact H|]. intros Q. apply NF. congruence.
  - intros t' E. specialize (G2 t' E). destruct (t_next_filtered_go f P rs (plus b t)) as [o t2] eqn:Q. cbn [fst] in G2. subst o.
    rewrite (filtered_more rs _ f _ _ _ Q); [reflexivity|]. now destruct cut.
Qed.
End MoreIter.

Lemma yields_until {A} data stop cut (l0 : list slot) (next : siter -> option (res A) * siter) :
  (forall t, upto data stop t ->
     (forall o t', next t = (Some o, t') -> o <> Panic PFuel -> next (plus l0 t) = (Some o, plus l0 t') /\ upto data stop t') /\
     (forall t', next t = (None, t') -> fst (next (plus l0 t)) = ending cut)) ->
  forall t l, yields next t l -> upto data stop t -> Forall (fun o => o <> Panic PFuel) l -> until cut next (plus l0 t) l.
Proof.
  intros H t l Y. induction Y as [t t' E|t o t' l E Y IH]; intros UT F.
  - pose proof (proj2 (H t UT) t' E) as Q. destruct cut; cbn [until ending] in *; [exists (plus l0 t); split; [constructor|exact Q]|].
    destruct (next (plus l0 t)) as [o2 t2] eqn:N. cbn [fst] in Q. subst o2. eapply yields_end. exact N.
  - inversion F as [|? ? F1 F2]; subst. destruct (proj1 (H t UT) o t' E F1) as (E2 & UT2). specialize (IH UT2 F2).
    destruct cut; cbn [until] in *; [|eapply yields_next; eauto]. destruct IH as (t2 & G & Q). exists t2. split; [|exact Q]. eapply gives_next; eauto.
Qed.

(** ** Iterating over a file that has become shorter *)
Lemma within_split len : forall ls off ls1 cut, within len off ls = (ls1, cut) ->
  Forall (fun l => announced l <> 0) ls1 /\ (off <= len -> off + total (map (fun lens => table_len lens + announced lens) ls1) <= len) /\
  exists ls2, ls = ls1 ++ ls2 /\
  if cut then exists lens ls3, ls2 = lens :: ls3 /\ announced lens <> 0 /\ len < off + total (map (fun lens => table_len lens + announced lens) ls1) + table_len lens + announced lens
  else match ls2 with [] => True | lens :: _ => announced lens = 0 end.
Proof.
  induction ls as [|lens ls IH]; intros off ls1 cut E; cbn [within] in E.
  - apply pair_equal_spec in E as (<- & <-). split; [constructor|]. split; [cbn; lia|]. now exists [].
  - cbv zeta in E. destruct (announced lens =? 0) eqn:Z.
    { apply pair_equal_spec in E as (<- & <-). split; [constructor|]. split; [cbn; lia|]. exists (lens :: ls). split; [reflexivity|]. lia. }
    destruct (_ <=? len) eqn:L.
    + destruct (within len _ ls) as (a, c) eqn:W. apply pair_equal_spec in E as (<- & <-). destruct (IH _ _ _ W) as (I1 & I2 & ls2 & -> & I3).
      split; [constructor; [lia|exact I1]|]. cbn [map]. unfold total in *. cbn [fold_right]. split; [intros _; specialize (I2 ltac:(lia)); lia|].
      exists ls2. split; [reflexivity|]. destruct c; [|exact I3]. destruct I3 as (l2 & ls3 & -> & N & Q). exists l2, ls3. split; [reflexivity|]. split; [exact N|]. lia.
    + apply pair_equal_spec in E as (<- & <-). split; [constructor|]. split; [cbn; lia|]. exists (lens :: ls). split; [reflexivity|].
      exists lens, ls. split; [reflexivity|]. split; [lia|]. cbn [map total fold_right]. lia.
Qed.

Lemma contents_cut data ls1 ls2 : Forall (fun l => announced l <> 0) ls1 -> match ls2 with [] => True | lens :: _ => announced lens = 0 end ->
  forall off, contents data off (ls1 ++ ls2) = contents data off ls1.
Proof.
  intros F Z. induction F as [|l ls N F IH]; intros off; cbn [app contents].
  - destruct ls2 as [|lens ls2]; [reflexivity|]. cbn [contents]. now rewrite Z.
  - replace (announced l =? 0) with false by lia. now rewrite IH.
Qed.

Section Cut.
Context {U : Type} (P : proto U).

Lemma iterate_cut data ls (r : sreader U) ls1 cut : blen data < two63 -> Forall (fun l => announced l < two63) ls ->
  d_slots r = anchored 0 ls -> c_data (d_file r) = data -> within (blen data) 0 ls = (ls1, cut) ->
  (exists lss, Forall2 (fun region l => yields (by_packet (pkt_read cursor_reader P)) (mk_cursor region 0) l) (contents data 0 ls1) lss /\
     Forall (harmless data) (concat lss) /\ until cut (t_next P) (d_iter r) (concat lss)) /\
  (exists lss, Forall2 (fun region l => yields (by_packet (filtered cursor_reader P (d_rules r))) (mk_cursor region 0) l) (contents data 0 ls1) lss /\
     Forall (harmless data) (concat lss) /\ until cut (t_next_filtered P (d_rules r)) (d_iter r) (flat_map shown (concat lss))).
Proof.
  intros B FB DS DF W. destruct (within_split _ _ _ _ _ W) as (F & L & ls2 & -> & C). specialize (L ltac:(lia)).
  set (t1 := mk_siter 0 (map slot_of ls1) (d_file r) (mk_cursor [] 0)).
  assert (EI : d_iter r = plus (map slot_of ls2) t1) by (unfold d_iter, plus, t1; cbn [t_off t_slots t_src t_buf]; now rewrite DS, anchored_fst, map_app).
  assert (FT : it_fits data ls1 t1) by (split; [reflexivity|]; split; [exact DF|]; split; [unfold c_ok, c_len; cbn; lia|exact L]).
  set (stop := total (map (fun lens => table_len lens + announced lens) ls1)) in *.
  assert (UT : upto data stop t1).
  { split; [exact DF|]. cbn [t1 t_slots t_off]. split.
    - apply Forall_map. eapply Forall_impl; [|exact F]. intros l H. now rewrite slot_of_width.
    - unfold stop. rewrite map_map, sum_total, N.add_0_l. f_equal. apply map_ext. intros l. rewrite slot_of_width, slot_of_size. lia. }
  assert (LAST : match map slot_of ls2 with
    | [] => cut = false
    | s :: _ => if cut then slot_width s <> 0 /\ slot_width s < two63 /\ blen data < stop + slot_size s + slot_width s else slot_width s = 0
    end).
  { destruct cut.
    - destruct C as (lens & ls3 & -> & NZ & LT). cbn [map]. rewrite slot_of_width, slot_of_size. split; [exact NZ|]. split; [|lia].
      rewrite Forall_forall in FB. apply FB. apply in_elt.
    - destruct ls2 as [|lens ls2]; [reflexivity|]. cbn [map]. now rewrite slot_of_width. }
  rewrite EI. split.
  - destruct (regions_read (pkt_read cursor_reader P) data (read_forward P) ls1 0 L) as (lss & I1 & I2 & I3). exists lss. split; [exact I1|]. split; [exact I3|].
    apply (yields_until data stop cut (map slot_of ls2) (t_next P)).
    + intros t Ut. destruct (next_plus P data (map slot_of ls2) stop cut LAST t Ut) as (N1 & N2). split; [intros o t' E _; auto|exact N2].
    + exact (next_yields P data ls1 t1 B FT [] lss (empty_yields _) I1).
    + exact UT.
    + eapply Forall_impl; [|exact I3]. intros o H E. destruct (H _ E). discriminate.
  - destruct (regions_read (filtered cursor_reader P (d_rules r)) data (filtered_forward P (d_rules r)) ls1 0 L) as (lss & I1 & I2 & I3). exists lss. split; [exact I1|]. split; [exact I3|].
    apply (yields_until data stop cut (map slot_of ls2) (t_next_filtered P (d_rules r))).
    + intros t Ut. exact (filtered_plus P data (map slot_of ls2) stop cut LAST (d_rules r) t Ut).
    + exact (filtered_yields P (d_rules r) data ls1 t1 B FT [] lss (empty_yields _) I1).
    + exact UT.
    + apply Forall_flat_map. eapply Forall_impl; [|exact I3]. intros [[m p|m]|e|w] H; cbn [shown]; repeat constructor; try discriminate.
      intros E. apply (f_equal (fun x => match x with Panic w => w | _ => w end)) in E. subst w. destruct (H _ eq_refl). discriminate.
Qed.
End Cut.

(** ** Reloading *)
Lemma end_read data next c : c_data c = data -> blen data < two63 -> no_table data next ->
  match slot_try_read (c_seek next c) with
  | (Ok (Success _), _) => False
  | (Ok (NotEnough n), c') => c_data c' = data /\ stops data next (Ok tt) /\
      (n = 16 /\ blen (skipn (N.to_nat next) data) < 16 \/
       exists cap body, skipn (N.to_nat next) data = slot_sig ++ le 8 cap ++ body /\ cap <= 1 /\ blen body < 8 * cap + 4 /\ n = 9 - 8 * cap)
  | (Err e, c') => c_data c' = data /\ stops data next (Err (load_error e))
  | (Panic w, c') => c_data c' = data /\ stops data next (Panic w)
  end.
Proof.
  intros D B N. set (c0 := c_seek next c).
  assert (D0 : c_data c0 = data) by exact D. assert (R0 : c_rest c0 = skipn (N.to_nat next) data) by (rewrite rest_skipn; unfold c0, c_seek; cbn [c_data c_pos]; now rewrite D).
  assert (P0 : c_pos c0 = next) by reflexivity. assert (L0 : c_len c0 = blen data) by (unfold c_len; now rewrite D0).
  clearbody c0. destruct (N.le_gt_cases next (blen data)) as [LE|GT].
  - assert (O : c_ok c0) by (unfold c_ok; lia). pose proof (slot_try_total c0 O ltac:(lia)) as Q. rewrite R0 in Q.
    destruct (slot_try_read c0) as [r c1] eqn:E. pose proof (slot_try_data _ _ _ E) as D1. rewrite D0 in D1.
    destruct r as [[s|n]|e|w].
    + destruct Q as (K & V & _). exfalso. apply (N (sl_lengths s) (c_rest c1)); [exact (proj1 (proj2 (proj2 K)))|].
      rewrite table_eq, <- slot_of_ok by exact K. rewrite <- !app_assoc. exact V.
    + destruct Q as (-> & Q). split; [exact D0|]. split.
      * cbn [stops]. split; [exact LE|]. destruct Q as [(Q & _)|(cap & body & V & Q1 & Q2 & _)]; [left; exact Q|right; eauto].
      * destruct Q as [(Q1 & Q2)|(cap & body & Q)]; [left; auto|right; eauto].
    + split; [exact D1|]. cbn [stops]. split; [exact LE|].
      destruct (N.lt_ge_cases (blen (skipn (N.to_nat next) data)) 16) as [S|S].
      { rewrite slot_try_short in E by (assumption || now rewrite R0). discriminate. }
      split; [exact S|]. destruct Q as [(-> & _ & Q)|(-> & l & crc & V & Q1 & Q2 & Q3)]; [left; auto|right; split; [reflexivity|]].
      exists l, crc, (c_rest c1). cbv zeta. unfold slot_crc in Q3. cbn [sl_capacity sl_lengths] in Q3. rewrite <- app_assoc. auto.
    + destruct Q as (-> & Q). split; [exact D1|]. cbn [stops]. split; [reflexivity|right; exact Q].
  - unfold slot_try_read, c_available. replace (c_pos c0 <=? c_len c0) with false by lia. cbn [sbind]. split; [exact D0|]. cbn [stops]. auto.
Qed.

Lemma table_read data off lens rest c : c_data c = data -> blen data < two63 -> Forall (fun n => n < two64) lens ->
  skipn (N.to_nat off) data = table lens ++ rest ->
  exists c', slot_try_read (c_seek off c) = (Ok (Success (slot_of lens)), c') /\ c_data c' = data /\ off + table_len lens <= blen data.
Proof.
  intros D B FL V. pose proof (table_fits _ _ _ _ V) as FI. set (c0 := c_seek off c).
  assert (D0 : c_data c0 = data) by exact D. assert (R0 : c_rest c0 = table lens ++ rest) by (rewrite rest_skipn; unfold c0, c_seek; cbn [c_data c_pos]; now rewrite D).
  assert (O : c_ok c0) by (unfold c_ok, c_len; rewrite D0; unfold c0; cbn [c_seek c_pos]; lia).
  assert (K : slot_ok (slot_of lens)) by (apply slot_of_slot_ok; [unfold table_len in FI; lia|exact FL]).
  rewrite table_eq, <- !app_assoc in R0. destruct (slot_try_ok c0 _ _ O K R0) as (c1 & E & _). pose proof (slot_try_data _ _ _ E) as D1.
  exists c1. split; [exact E|]. split; [congruence|exact FI].
Qed.

(** The last slot has no room, or there is none. *)
Lemma reload_more data ls next : forall off fuel count slots c, c_data c = data -> blen data < two63 ->
  tables data off ls next -> no_table data next -> (0 < fuel)%nat -> blen data + 1 <= N.of_nat fuel + off -> (count <= length slots)%nat ->
  let '(o, (slots', c')) := reload_go fuel None count off slots c in
  c_data c' = data /\ stops data next (un o) /\ ((forall w, o <> Panic w) -> slots' = slots ++ anchored off ls) /\
  (forall x, o = Ok x -> x = if ((length slots + length ls) =? count)%nat then inl 0%nat else inr tt).
Proof.
  induction ls as [|lens ls IH]; intros off fuel count slots c D B T N F0 F CL; destruct fuel as [|f]; try lia; cbn [reload_go].
  - inversion T; subst off0 next. pose proof (end_read data off c D B N) as Q. destruct (slot_try_read (c_seek off c)) as [[[s|n]|e|w] c1].
    + contradiction.
    + destruct Q as (D1 & Q & _). cbn [length anchored]. rewrite app_nil_r, Nat.add_0_r. destruct (length slots =? count)%nat; (split; [exact D1|]; split; [exact Q|]; split; [reflexivity|]; intros x E; congruence).
    + destruct Q as (D1 & Q). split; [exact D1|]. split; [exact Q|]. split; [intros _; cbn [anchored]; now rewrite app_nil_r|discriminate].
    + destruct Q as (D1 & Q). split; [exact D1|]. split; [exact Q|]. split; [|discriminate]. intros H. now contradiction (H w).
  - inversion T as [|? ? ? ? rest FL V T']; subst off0 lens0 ls0 next0. destruct (table_read data off lens rest c D B FL V) as (c1 & E & D1 & FI).
    rewrite E, slot_of_size, slot_of_width. cbv zeta. rewrite N.add_assoc.
    destruct (two64 <=? off + table_len lens + announced lens) eqn:Q.
    + pose proof (tables_le _ _ _ _ T'). split; [exact D1|]. split; [cbn [un rbind stops]; split; [reflexivity|left; unfold two63, two64 in *; lia]|].
      split; [|discriminate]. intros K. now contradiction (K POverflow).
    + specialize (IH (off + table_len lens + announced lens) f count (slots ++ [(slot_of lens, off)]) c1 D1 B T' N).
      unfold table_len in *. rewrite app_length in IH. cbn [length] in *. specialize (IH ltac:(lia) ltac:(lia) ltac:(lia)).
      destruct (reload_go f None count _ _ c1) as [o (slots' & c2)].
      destruct IH as (I1 & I2 & I3 & I4). split; [exact I1|]. split; [exact I2|]. split; [intros H; rewrite (I3 H), <- app_assoc; reflexivity|].
      intros x H. rewrite (I4 x H). now replace (length slots + 1 + length ls)%nat with (length slots + S (length ls))%nat by lia.
Qed.

(** The last slot has room: it is replaced by one table after another, up to one with room. *)
Lemma last_more {A} (x : A) l d : last (x :: l) d = last l x.
Proof.
  assert (G : forall l (y d1 d2 : A), last (y :: l) d1 = last (y :: l) d2).
  { intros l0. induction l0 as [|z l0 IH]; intros y d1 d2; [reflexivity|]. exact (IH z d1 d2). }
  destruct l as [|y l]; [reflexivity|]. exact (G l y d x).
Qed.
Lemma set_last {A} (a : list A) x y : set_nth (length a) y (a ++ [x]) = a ++ [y].
Proof. apply set_mid. Qed.
Lemma room_free lens : match free_slot_index (slot_of lens) with Some i => room lens /\ i = length (before_zero lens) | None => ~ room lens end.
Proof.
  destruct (room_cases lens) as [R|(R & E)].
  - destruct (free_room lens R) as (E & _ & i & F & BZ & L). unfold free_slot_index, free_slot_offset in *. change (sl_lengths (slot_of lens)) with lens in *.
    destruct (slot_is_full (slot_of lens)); [discriminate|]. rewrite F. split; [exact R|]. rewrite BZ, firstn_length. lia.
  - unfold free_slot_index, free_slot_offset in *. change (sl_lengths (slot_of lens)) with lens in *. destruct (slot_is_full (slot_of lens)); [exact R|].
    destruct (free_position lens); [discriminate|exact R].
Qed.

Lemma reload_room data keep place k crc : blen data < two63 -> forall ls next off fuel cur c, c_data c = data ->
  tables data off ls next -> no_table data next -> (0 < fuel)%nat -> blen data + 1 <= N.of_nat fuel + off ->
  let slots x := keep ++ [(slot_of x, place)] in
  let '(o, (slots', c')) := reload_go fuel (Some (k, crc)) (length keep + 1) off (slots cur) c in
  c_data c' = data /\
  forall passed rest, ls = passed ++ rest -> Forall (fun l => ~ room l /\ sl_crc (slot_of l) <> crc) passed ->
  match rest with
  | l :: _ =>
      (sl_crc (slot_of l) = crc -> o = Ok (inl 0%nat) /\ slots' = slots (last passed cur)) /\
      (sl_crc (slot_of l) <> crc -> room l -> o = (if two64 <=? table_len l + announced l then Panic POverflow else Ok (inr tt)) /\ slots' = slots l)
  | [] => stops_room data next (un o) /\ (forall x, o = Ok x -> x = inr tt) /\ ((forall w, o <> Panic w) -> slots' = slots (last passed cur))
  end.
Proof.
  intros B. induction ls as [|lens ls IH]; intros next off fuel cur c D T N F0 F slots; (destruct fuel as [|f]; try lia; cbn [reload_go]);
    (assert (LS : forall x, (length (slots x) =? length keep + 1)%nat = true) by (intros x; unfold slots; rewrite app_length; apply Nat.eqb_refl));
    (assert (NS : forall x, nth_error (slots x) (length keep + 1 - 1) = Some (slot_of x, place)) by (intros x; unfold slots; replace (length keep + 1 - 1)%nat with (length keep) by lia; apply nth_mid));
    (assert (SS : forall x y, set_nth (length keep + 1 - 1) (slot_of y, place) (slots x) = slots y) by (intros x y; unfold slots; replace (length keep + 1 - 1)%nat with (length keep) by lia; apply set_last)).
  - inversion T; subst off0 next. pose proof (end_read data off c D B N) as Q. rewrite LS.
    destruct (slot_try_read (c_seek off c)) as [[[s|n]|e|w] c1].
    + contradiction.
    + destruct Q as (D1 & Q & R). destruct R as [(-> & R)|(cap & body & V & C1 & C2 & ->)].
      * change (16 =? slot_hdr_size) with true. cbv iota. split; [exact D1|]. intros [|? ?] [|? ?] E _; try discriminate. split; [|split; [congruence|reflexivity]].
        cbn [un rbind stops_room]. split; [exact (proj1 Q)|exact R].
      * replace (9 - 8 * cap =? slot_hdr_size) with false by (unfold slot_hdr_size; lia). split; [exact D1|]. intros [|? ?] [|? ?] E _; try discriminate. split; [|split; [discriminate|reflexivity]].
        cbn [un rbind stops_room]. split; [exact (proj1 Q)|]. exists cap, body. auto.
    + destruct Q as (D1 & Q). split; [exact D1|]. intros [|? ?] [|? ?] E _; try discriminate. split; [|split; [discriminate|reflexivity]].
      cbn [un rbind stops_room] in *. destruct Q as (Q1 & Q2 & [(Q3 & Q4)|(Q3 & Q4)]); rewrite Q3; cbn [stops]; (split; [exact Q1|]; split; [exact Q2|]); [left|right]; auto.
    + destruct Q as (D1 & Q). split; [exact D1|]. intros [|? ?] [|? ?] E _; try discriminate. split; [exact Q|]. split; [discriminate|]. intros H. now contradiction (H w).
  - inversion T as [|? ? ? ? rest0 FL V T']; subst off0 lens0 ls0 next0. destruct (table_read data off lens rest0 c D B FL V) as (c1 & E & D1 & FI).
    rewrite E, LS.
    destruct (bytes_eqb crc (sl_crc (slot_of lens))) eqn:EC.
    + apply bytes_eqb_eq in EC. split; [exact D1|]. intros [|p0 passed] rest EL FP.
      * cbn [app] in EL. subst rest. split; [intros _; split; reflexivity|]. intros H _. now contradiction H.
      * apply (f_equal (fun x => hd p0 x)) in EL. cbn [app hd] in EL. subst p0. pose proof (Forall_inv FP) as (_ & H). now contradiction H.
    + assert (NC : sl_crc (slot_of lens) <> crc) by (intros H; rewrite H, bytes_eqb_refl in EC; discriminate).
      rewrite NS, SS. pose proof (room_free lens) as RF. destruct (free_slot_index (slot_of lens)) as [i|].
      * destruct RF as (R & _). rewrite slot_of_size, slot_of_width. split; [exact D1|]. intros [|p0 passed] rest EL FP.
        -- cbn [app] in EL. subst rest. split; [intros H; contradiction|]. intros _ _. split; reflexivity.
        -- apply (f_equal (fun x => hd p0 x)) in EL. cbn [app hd] in EL. subst p0. pose proof (Forall_inv FP) as (H & _). contradiction.
      * rewrite slot_of_size, slot_of_width. cbv zeta. rewrite N.add_assoc.
        destruct (two64 <=? off + table_len lens + announced lens) eqn:Q.
        -- split; [exact D1|]. intros [|p0 passed] rest EL FP.
           ++ cbn [app] in EL. subst rest. split; intros H; [contradiction|]. intros R. contradiction.
           ++ cbn [app] in EL. injection EL as <- EL. pose proof (tables_le _ _ _ _ T') as TL. destruct rest as [|l rest].
              ** split; [|split; [discriminate|intros H; now contradiction (H POverflow)]]. cbn [un rbind stops_room stops]. split; [reflexivity|left; unfold two63, two64 in *; lia].
              ** exfalso. subst ls. apply tables_split in T' as (mid & TA & TB). inversion TB as [|? ? ? ? rest2 FL2 V2 T2]; subst.
                 pose proof (table_fits _ _ _ _ V2). pose proof (tables_le _ _ _ _ TA). unfold two63, two64 in *. lia.
        -- specialize (IH next (off + table_len lens + announced lens) f lens c1 D1 T' N).
           unfold table_len in *. specialize (IH ltac:(lia) ltac:(lia)). cbv zeta in IH.
           destruct (reload_go f (Some (k, crc)) _ _ _ c1) as [o (slots' & c2)]. destruct IH as (I1 & I2). split; [exact I1|].
           intros [|p0 passed] rest EL FP.
           ++ cbn [app] in EL. subst rest. split; intros H; [contradiction|]. intros R. contradiction.
           ++ cbn [app] in EL. injection EL as <- EL. rewrite last_more. exact (I2 passed rest EL (Forall_inv_tail FP)).
Qed.

Lemma located_setup {U} ls (r : sreader U) loc : d_loc r = lc_setup (map slot_of ls) loc -> located ls r.
Proof.
  intros E. unfold located. rewrite E. unfold lc_setup. assert (G : forall ls loc, exists k, lc_next (lc_setup_go (map slot_of ls) loc) = (lc_next loc + k)%nat /\
    ((exists lens, nth_error ls k = Some lens /\ room lens /\ Forall (fun l => ~ room l) (firstn k ls)) \/ Forall (fun l => ~ room l) ls)).
  { clear. induction ls as [|l ls IH]; intros loc; cbn [map lc_setup_go]; [exists 0%nat; split; [lia|right; constructor]|].
    destruct (room_cases l) as [R|(R & F)].
    - rewrite (proj1 (free_room l R)). exists 0%nat. split; [lia|]. left. exists l. split; [reflexivity|]. split; [exact R|constructor].
    - rewrite F. destruct (IH (mk_locator (S (lc_next loc)) (lc_off loc + (slot_size (slot_of l) + slot_width (slot_of l))))) as (k & E & H). exists (S k).
      split; [rewrite E; cbn [lc_next]; lia|]. destruct H as [(lens & H1 & H2 & H3)|H]; [left; exists lens; split; [exact H1|]; split; [exact H2|constructor; assumption]|right; now constructor]. }
  destruct (G ls (mk_locator 0 (lc_off loc))) as (k & E1 & H). rewrite E1. exact H.
Qed.

Lemma count_known {U} ls (r : sreader U) : known ls r -> located ls r ->
  (forall before lens after, ls = before ++ lens :: after -> Forall (fun l => ~ room l) before -> room lens ->
     d_count r = (500 * length before + length (before_zero lens))%nat) /\
  (Forall (fun l => ~ room l) ls -> d_count r = (500 * length ls)%nat).
Proof.
  intros K L. apply known_anchored in K. unfold d_count. cbv zeta. rewrite K, anchored_nth. change default_capacity with 500%nat.
  assert (LL : length (anchored 0 ls) = length ls) by (rewrite <- (map_length fst), anchored_fst; apply map_length). rewrite LL. split.
  - intros before lens after -> F R. destruct L as [(l & H1 & H2 & H3)|H].
    + assert (lc_next (d_loc r) = length before) as E.
      { destruct (lt_eq_lt_dec (lc_next (d_loc r)) (length before)) as [[H|H]|H]; [exfalso|exact H|exfalso].
        - rewrite nth_error_app1 in H1 by exact H. apply nth_error_In in H1. rewrite Forall_forall in F. exact (F l H1 H2).
        - rewrite firstn_app in H3. apply Forall_app in H3 as (_ & H3). replace (lc_next (d_loc r) - length before)%nat with (S (lc_next (d_loc r) - length before - 1)) in H3 by lia.
          cbn [firstn] in H3. exact (Forall_inv H3 R). }
      rewrite E, nth_mid in *. cbn [option_map]. pose proof (room_free lens) as RF. destruct (free_slot_index (slot_of lens)) as [i|]; [|contradiction]. destruct RF as (_ & ->). lia.
    + exfalso. rewrite Forall_forall in H. apply (H lens); [apply in_elt|exact R].
  - intros F. destruct (nth_error ls (lc_next (d_loc r))) as [l|] eqn:N; cbn [option_map]; [|lia].
    apply nth_error_In in N. rewrite Forall_forall in F. pose proof (room_free l) as RF. destruct (free_slot_index (slot_of l)); [destruct RF as (RF & _); now contradiction (F l N)|lia].
Qed.

Lemma anchored_app a b : forall off, anchored off (a ++ b) = anchored off a ++ anchored (off + table_place a (length a)) b.
Proof.
  induction a as [|l a IH]; intros off; cbn [app anchored].
  - unfold table_place. cbn [length firstn map total fold_right]. now rewrite N.add_0_r.
  - rewrite IH. do 3 f_equal. unfold table_place. cbn [length firstn map]. unfold total. cbn [fold_right]. rewrite !firstn_all. lia.
Qed.
Lemma place_app a b : table_place (a ++ b) (length a) = table_place a (length a).
Proof. unfold table_place. now rewrite firstn_app_exact, firstn_all. Qed.

Lemma last_with_room keep lens : room lens -> last_slot (anchored 0 (keep ++ [lens])) =
  (Some (length (before_zero lens), sl_crc (slot_of lens)), table_place (keep ++ [lens]) (length keep)).
Proof.
  intros R. unfold last_slot. rewrite anchored_app, rev_app_distr. cbn [anchored rev app]. rewrite (proj1 (free_room lens R)).
  pose proof (room_free lens) as RF. destruct (free_slot_index (slot_of lens)) as [i|]; [|contradiction]. destruct RF as (_ & ->). now rewrite place_app, N.add_0_l.
Qed.
Lemma last_without ls : (forall keep lens, ls = keep ++ [lens] -> ~ room lens) -> last_slot (anchored 0 ls) = (None, table_place ls (length ls)).
Proof.
  destruct ls as [|lens keep _] using rev_ind; [reflexivity|]. intros NR. specialize (NR keep lens eq_refl). unfold last_slot. rewrite anchored_app, rev_app_distr. cbn [anchored rev app].
  rewrite (no_room lens NR). pose proof (room_free lens) as RF. destruct (free_slot_index (slot_of lens)) as [i|]; [destruct RF; contradiction|].
  rewrite slot_of_width, slot_of_size, app_length. cbn [length]. f_equal. rewrite Nat.add_1_r. rewrite (place_step _ (length keep) lens) by apply nth_mid. rewrite place_app. lia.
Qed.

Section Reload.
Context {U : Type}.

Lemma reload_full data ls (r : sreader U) ls2 next : known ls r -> located ls r -> blen data < two63 -> (forall keep lens, ls = keep ++ [lens] -> ~ room lens) ->
  tables data (table_place ls (length ls)) ls2 next -> no_table data next ->
  let (o, r') := d_reload (d_refresh data r) in
  d_rules r' = d_rules r /\ c_data (d_file r') = data /\ stops data next (un o) /\ ((forall w, o <> Panic w) -> known (ls ++ ls2) r') /\
  forall n, o = Ok n -> located (ls ++ ls2) r' /\
    match rev ls2 with
    | [] => n = 0%nat
    | l :: _ => (room l -> n = length (before_zero l) + 500 * (length ls2 - 1))%nat /\ (~ room l -> n = 500 * (length ls2 - 1))%nat
    end.
Proof.
  intros K L B NR T N. apply known_anchored in K. unfold d_reload. cbn [d_refresh d_slots d_file d_loc d_rules c_data].
  rewrite K, (last_without ls NR).
  assert (LL : forall ls, length (anchored 0 ls) = length ls) by (intros l; rewrite <- (map_length fst), anchored_fst; apply map_length). rewrite LL.
  pose proof (reload_more data ls2 next (table_place ls (length ls)) (length data + 1) (length ls) (anchored 0 ls) (mk_cursor data (c_pos (d_file r))) eq_refl B T N
    ltac:(lia) ltac:(unfold blen; lia) ltac:(rewrite LL; lia)) as Q.
  destruct (reload_go _ None _ _ _ _) as [o (slots & c)]. destruct Q as (Q1 & Q2 & Q3 & Q4). rewrite LL in Q4.
  assert (SL : (forall w, o <> Panic w) -> slots = anchored 0 (ls ++ ls2)) by (intros H; rewrite (Q3 H), anchored_app; reflexivity).
  destruct o as [x|e|w].
  - specialize (SL ltac:(discriminate)). specialize (Q4 x eq_refl). destruct ls2 as [|l2 ls2'] eqn:E2.
    + cbn [length] in Q4. rewrite Nat.add_0_r, Nat.eqb_refl in Q4. subst x. rewrite app_nil_r in *. cbn [d_rules d_file].
      split; [reflexivity|]. split; [exact Q1|]. split; [exact Q2|]. split; [intros _; apply known_anchored; exact SL|].
      intros n E. split; [exact L|]. cbn [rev]. congruence.
    + rewrite <- E2 in *. assert (length ls2 <> 0)%nat as NZ by (rewrite E2; discriminate). clear E2 l2 ls2'.
      replace (length ls + length ls2 =? length ls)%nat with false in Q4 by lia. subst x. cbn [d_rules d_file].
      split; [reflexivity|]. split; [exact Q1|]. split; [exact Q2|]. split; [intros _; apply known_anchored; exact SL|].
      intros n E. split; [eapply located_setup; cbn [d_loc]; rewrite SL, anchored_fst; reflexivity|].
      apply (f_equal (fun x => match x with Ok y => y | _ => 0%nat end)) in E. subst n. unfold reload_count. rewrite SL, LL, app_length.
      replace (length ls + length ls2 =? length ls)%nat with false by lia.
      destruct ls2 as [|l ls3 _] using rev_ind; [easy|]. rewrite rev_app_distr. cbn [rev app]. rewrite app_assoc, anchored_app, rev_app_distr. cbn [anchored rev app].
      pose proof (room_free l) as RF. change default_capacity with 500%nat. rewrite app_length. cbn [length].
      destruct (free_slot_index (slot_of l)) as [i|]; [destruct RF as (RF & ->)|]; (split; intros H; [|]); try contradiction; lia.
  - cbn [d_rules d_file]. split; [reflexivity|]. split; [exact Q1|]. split; [exact Q2|]. split; [intros _; apply known_anchored; apply SL; discriminate|discriminate].
  - cbn [d_rules d_file]. split; [reflexivity|]. split; [exact Q1|]. split; [exact Q2|]. split; [intros H; now contradiction (H w)|discriminate].
Qed.

Lemma reload_with_room data keep lens (r : sreader U) passed rest next : known (keep ++ [lens]) r -> located (keep ++ [lens]) r -> blen data < two63 -> room lens ->
  tables data (table_place (keep ++ [lens]) (length keep)) (passed ++ rest) next -> no_table data next ->
  Forall (fun l => ~ room l /\ sl_crc (slot_of l) <> sl_crc (slot_of lens)) passed ->
  let (o, r') := d_reload (d_refresh data r) in
  d_rules r' = d_rules r /\ c_data (d_file r') = data /\
  match rest with
  | l :: _ =>
      (sl_crc (slot_of l) = sl_crc (slot_of lens) -> o = Ok 0%nat /\ known (keep ++ [last passed lens]) r' /\ located (keep ++ [last passed lens]) r') /\
      (sl_crc (slot_of l) <> sl_crc (slot_of lens) -> room l ->
         (two64 <= table_len l + announced l -> o = Panic POverflow) /\
         (table_len l + announced l < two64 -> o = Ok (length (before_zero l) - length (before_zero lens))%nat /\ known (keep ++ [l]) r' /\ located (keep ++ [l]) r'))
  | [] => stops_room data next (un o) /\ ((forall w, o <> Panic w) -> known (keep ++ [last passed lens]) r') /\
      forall n, o = Ok n -> located (keep ++ [last passed lens]) r' /\ n = match passed with [] => 0%nat | _ => (500 - length (before_zero lens))%nat end
  end.
Proof.
  intros K L B R T N F. apply known_anchored in K. unfold d_reload. cbn [d_refresh d_slots d_file d_loc d_rules c_data].
  rewrite K, (last_with_room keep lens R).
  assert (LL : forall ls, length (anchored 0 ls) = length ls) by (intros l; rewrite <- (map_length fst), anchored_fst; apply map_length). rewrite LL, app_length. cbn [length].
  set (place := table_place (keep ++ [lens]) (length keep)) in *. assert (EA : forall x, anchored 0 (keep ++ [x]) = anchored 0 keep ++ [(slot_of x, place)]).
  { intros x. rewrite anchored_app. cbn [anchored]. unfold place. now rewrite place_app, N.add_0_l. }
  rewrite EA. pose proof (reload_room data (anchored 0 keep) place (length (before_zero lens)) (sl_crc (slot_of lens)) B (passed ++ rest) next place
    (length data + 1) lens (mk_cursor data (c_pos (d_file r))) eq_refl T N ltac:(lia) ltac:(unfold blen; lia)) as Q. cbv zeta in Q. rewrite LL in Q.
  destruct (reload_go _ _ _ _ _ _) as [o (slots & c)]. destruct Q as (Q1 & Q). specialize (Q passed rest eq_refl F).
  assert (LP : forall x, ~ room x \/ x = lens -> forall r', d_loc r' = d_loc r -> located (keep ++ [x]) r' (U := U)).
  { intros x H r' EL. unfold located in *. rewrite EL. destruct H as [H| ->]; [|exact L]. destruct L as [(l & H1 & H2 & H3)|H1].
    - destruct (Nat.lt_ge_cases (lc_next (d_loc r)) (length keep)) as [LT|GE].
      + left. exists l. rewrite nth_error_app1 in * by exact LT. split; [exact H1|]. split; [exact H2|]. rewrite firstn_app in *.
        replace (lc_next (d_loc r) - length keep)%nat with 0%nat in * by lia. exact H3.
      + right. rewrite firstn_app, firstn_all2 in H3 by exact GE. apply Forall_app in H3 as (H3 & _). apply Forall_app. split; [exact H3|]. constructor; [exact H|constructor].
    - right. apply Forall_app in H1 as (H1 & _). apply Forall_app. split; [exact H1|]. constructor; [exact H|constructor]. }
  assert (LC : ~ room (last passed lens) \/ last passed lens = lens).
  { destruct passed as [|p passed'] using rev_ind; [now right|]. rewrite last_last. left. apply Forall_app in F as (_ & F). apply (Forall_inv F). }
  destruct rest as [|l rest].
  - destruct Q as (S & X & SL). destruct o as [x|e|w]; cbn [d_rules d_file].
    + specialize (X x eq_refl). subst x. specialize (SL ltac:(discriminate)). cbn [d_rules d_file]. split; [reflexivity|]. split; [exact Q1|]. split; [exact S|].
      split; [intros _; apply known_anchored; cbn [d_slots]; rewrite EA; exact SL|]. intros n E.
      split; [eapply located_setup; cbn [d_loc]; rewrite SL, <- EA, anchored_fst; reflexivity|].
      apply (f_equal (fun x => match x with Ok y => y | _ => 0%nat end)) in E. subst n. unfold reload_count. rewrite SL, rev_app_distr. cbn [rev app].
      rewrite app_length, LL. cbn [length]. rewrite Nat.eqb_refl. pose proof (room_free (last passed lens)) as RF. change default_capacity with 500%nat.
      destruct passed as [|p passed'] eqn:EP.
      * cbn [last] in *. destruct (free_slot_index (slot_of lens)) as [i|]; [destruct RF as (_ & ->); lia|contradiction].
      * rewrite <- EP in *. assert (NRM : ~ room (last passed lens)).
        { rewrite EP, last_more. rewrite EP in F. clear - F. revert p F. induction passed' as [|q l IH]; intros p F; [exact (proj1 (Forall_inv F))|]. rewrite last_more. exact (IH q (Forall_inv_tail F)). }
        destruct (free_slot_index (slot_of (last passed lens))); [destruct RF; contradiction|reflexivity].
    + specialize (SL ltac:(discriminate)). split; [reflexivity|]. split; [exact Q1|]. split; [exact S|]. split; [intros _; apply known_anchored; cbn [d_slots]; rewrite EA; exact SL|discriminate].
    + split; [reflexivity|]. split; [exact Q1|]. split; [exact S|]. split; [intros H; now contradiction (H w)|discriminate].
  - destruct Q as (S1 & S2). destruct (list_eq_dec Byte.byte_eq_dec (sl_crc (slot_of l)) (sl_crc (slot_of lens))) as [EC|NC].
    + destruct (S1 EC) as (-> & SL). cbn [d_rules d_file]. split; [reflexivity|]. split; [exact Q1|]. split; [|intros H; contradiction]. intros _. split; [reflexivity|].
      split; [apply known_anchored; cbn [d_slots]; rewrite EA; exact SL|]. now apply LP.
    + destruct (room_cases l) as [RL|(RL & _)].
      2: { destruct o as [[n|x]|e|w]; cbn [d_rules d_file]; (split; [reflexivity|]; split; [exact Q1|]; split; [intros H; contradiction|intros _ H; contradiction]). }
      destruct (S2 NC RL) as (-> & SL). destruct (two64 <=? table_len l + announced l) eqn:OV; cbn [d_rules d_file].
      * split; [reflexivity|]. split; [exact Q1|]. split; [intros H; contradiction|]. intros _ _. split; [reflexivity|lia].
      * split; [reflexivity|]. split; [exact Q1|]. split; [intros H; contradiction|]. intros _ _. split; [lia|]. intros _.
        split; [|split; [apply known_anchored; cbn [d_slots]; rewrite EA; exact SL|eapply located_setup; cbn [d_loc]; rewrite SL, <- EA, anchored_fst; reflexivity]].
        f_equal. unfold reload_count. rewrite SL, rev_app_distr. cbn [rev app]. rewrite app_length, LL. cbn [length]. rewrite Nat.eqb_refl.
        pose proof (room_free l) as RF. destruct (free_slot_index (slot_of l)) as [i|]; [destruct RF as (_ & ->); reflexivity|contradiction].
Qed.
End Reload.

(** ** Seeking in a file that has changed *)
Lemma seek_changed {U} data ls (r : sreader U) i lens j : blen data < two63 -> d_slots r = anchored 0 ls -> c_data (d_file r) = data ->
  nth_error ls i = Some lens -> (j < in_use lens)%nat -> entry lens j = true -> total (firstn j lens) < announced lens ->
  table_place ls i + table_len lens + announced lens < two63 ->
  un (d_seek (all_in_use (firstn i ls) + j) r) = if table_place ls i + table_len lens + announced lens <=? blen data then Ok tt else Panic PUnwrap.
Proof.
  intros B DS DF EN J EJ TJ LT.
  assert (LI : (i < length ls)%nat) by (apply nth_error_Some; congruence).
  assert (LS : ls = firstn i ls ++ lens :: skipn (S i) ls).
  { rewrite <- (firstn_skipn i ls) at 1. f_equal. clear -EN. revert i EN. induction ls as [|a ls IH]; intros [|i] E; try discriminate; [cbn in E; injection E as ->; reflexivity|].
    cbn [skipn nth_error] in *. now apply IH. }
  assert (L1 : length (firstn i ls) = i) by (rewrite firstn_length; lia).
  assert (P1 : table_place (firstn i ls) (length (firstn i ls)) = table_place ls i) by (unfold table_place; now rewrite firstn_all).
  unfold d_seek. rewrite DS, anchored_fst. replace (map slot_of ls) with (map slot_of (firstn i ls ++ lens :: skipn (S i) ls)) by now rewrite <- LS.
  rewrite (from_found _ j lens (skipn (S i) ls) J (firstn i ls) 0 0). rewrite P1, L1, N.add_0_l. cbv zeta. rewrite EJ.
  set (s := table_place ls i + table_len lens) in *.
  replace (two64 <=? _) with false by (unfold two63, two64 in *; lia). cbn [rbind].
  replace (s + announced lens) with (s + total (firstn j lens) + (announced lens - total (firstn j lens))) by lia.
  destruct (_ <=? blen data) eqn:LE.
  - match goal with |- context [t_fetch (?a, ?a + ?n) ?t] => destruct (fetch_any a n t) as (c & E & _) end; [cbn [t_src]; rewrite DF; lia|lia|]. rewrite E. reflexivity.
  - unfold t_fetch. replace (_ <? _) with false by lia. unfold alloc. replace (_ <? two63) with true by lia. cbn [sbind t_src]. unfold cursor_read_exact.
    rewrite rest_skipn. unfold c_seek. cbn [c_pos c_data]. rewrite DF.
    assert (blen (skipn (N.to_nat (s + total (firstn j lens))) data) = blen data - (s + total (firstn j lens))) as SK by (unfold blen; rewrite skipn_length; lia).
    replace (_ <=? _) with false by lia. reflexivity.
Qed.

(** ** Files that are long enough *)
Section Longer.
Context {U : Type} (P : proto U).

Lemma within_longer len : forall ls off, off + total (map (fun lens => table_len lens + announced lens) ls) <= len -> snd (within len off ls) = false.
Proof.
  induction ls as [|l ls IH]; intros off L; cbn [within]; [reflexivity|]. cbn [map] in L. unfold total in *. cbn [fold_right] in L. cbv zeta.
  destruct (announced l =? 0); [reflexivity|]. replace (_ <=? len) with true by lia. specialize (IH (off + table_len l + announced l) ltac:(lia)).
  destruct (within len _ ls). exact IH.
Qed.

Lemma longer_iterate data ls (r : sreader U) : blen data < two63 -> d_slots r = anchored 0 ls -> c_data (d_file r) = data -> table_place ls (length ls) <= blen data ->
  (exists l, yields (t_next P) (d_iter r) l /\ Forall (harmless data) l) /\ (exists l, yields (t_next_filtered P (d_rules r)) (d_iter r) l /\ Forall (harmless data) l).
Proof.
  intros B K D L. unfold table_place in L. rewrite firstn_all in L.
  assert (F : Forall (fun l => announced l < two63) ls).
  { apply Forall_forall. intros l I. apply in_split in I as (a & b & ->). rewrite map_app, <- sum_total, sum_app, !sum_total in L. cbn [map] in L. unfold sum, total in L. cbn [fold_right] in L. cbv beta. lia. }
  pose proof (within_longer (blen data) ls 0 ltac:(lia)) as W. destruct (within (blen data) 0 ls) as (ls1, cut) eqn:E. cbn [snd] in W. subst cut.
  destruct (iterate_cut P data ls r ls1 false B F K D E) as ((lss & _ & H2 & H3) & (lss' & _ & H5 & H6)). cbn [until] in *.
  split; [eauto|]. eexists. split; [exact H6|]. apply Forall_forall. intros o I. apply in_flat_map in I as (x & I1 & I2).
  rewrite Forall_forall in H5. specialize (H5 x I1). unfold harmless in *. destruct x as [[m p|m]|e|w]; cbn [shown In] in I2; try (destruct I2 as [<-|[]]); intros w' Q; try discriminate; [easy|].
  apply H5. congruence.
Qed.

Lemma longer_seek data ls (r : sreader U) n : blen data < two63 -> d_slots r = anchored 0 ls -> c_data (d_file r) = data -> Forall no_holes ls ->
  table_place ls (length ls) <= blen data -> (n < all_in_use ls)%nat -> un (d_seek n r) = Ok tt.
Proof.
  intros B K D F L LT. destruct (in_some_table ls n LT) as (i & lens & j & EN & J & ->).
  assert (NH : no_holes lens) by (rewrite Forall_forall in F; apply F; eapply nth_error_In; eauto). destruct (holes_entry lens j NH J) as (H1 & _).
  assert (LI : (i < length ls)%nat) by (apply nth_error_Some; congruence). pose proof (place_le ls (S i) LI) as PL. rewrite (place_step _ _ _ EN) in PL.
  rewrite (seek_changed data ls r i lens j B K D EN J H1).
  - replace (_ <=? _) with true by lia. reflexivity.
  - rewrite (holes_announced lens NH). unfold entry in H1. destruct (nth_error lens j) as [x|] eqn:EJ; [|discriminate].
    apply nth_error_split in EJ as (a & b & -> & <-). rewrite firstn_app_exact by reflexivity. rewrite <- !sum_total, sum_app. unfold sum at 3. cbn [fold_right]. lia.
  - lia.
Qed.
End Longer.
