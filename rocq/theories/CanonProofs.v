(** * Exactly which bytes the stream readers take for a block and for a packet; reading across the types of an enum;
      packets whose payload has a long checksum. *)
From Coq Require Import ZifyBool ZifyNat ZifyN.
From Verif Require Import Base Crc32 Io Block Payload Packet Spec BaseProofs CrcProofs IoProofs BlockProofs DispatchProofs
  PayloadProofs PayloadEnumProofs PacketProofs PacketSafeProofs LayoutProofs NegProofs.
Ltac Zify.zify_post_hook ::= Z.div_mod_to_equations.
Open Scope list_scope.

(** ** Values *)
Lemma b2n_zero x : (b2n x =? 0) = true <-> x = n2b 0.
Proof.
  rewrite N.eqb_eq. split; [|intros ->; reflexivity]. intros E. apply (f_equal n2b) in E. now rewrite n2b_b2n in E.
Qed.
Lemma b2n_one x : (b2n x =? 1) = true <-> x = n2b 1.
Proof.
  rewrite N.eqb_eq. split; [|intros ->; reflexivity]. intros E. apply (f_equal n2b) in E. now rewrite n2b_b2n in E.
Qed.

Lemma dec_stream_means t raw v : ty_ok t -> (length raw = ty_size t /\ dec_stream t raw = Ok v <-> value_bytes t v raw).
Proof.
  intros HT. split.
  - intros (L & E). pose proof (gd_ok _ good_stream t raw v HT L E) as F. split; [exact F|].
    assert (G : canon_ty t -> raw = field_layout t v).
    { intros C. pose proof (dec_canon t raw v C L (or_intror E)) as Q. now rewrite to_bytes_layout in Q by exact F. }
    destruct t as [w|w|w| |n|l]; try (specialize (G I); destruct v; cbn [fval_ok] in F; (contradiction || exact G)).
    + cbn [dec_stream ty_size] in *. destruct raw as [|x [|]]; try discriminate. cbn [first_byte] in E. apply ok_inj in E. subst v.
      exists x. split; [reflexivity|]. rewrite negb_true_iff. rewrite <- b2n_zero. destruct (b2n x =? 0); split; congruence.
    + cbn [dec_stream ty_size] in *. destruct raw as [|x [|]]; try discriminate. cbn [first_byte] in E.
      destruct (l_of l x) as [e|] eqn:EO; [|discriminate]. apply ok_inj in E. subst v. exists x. auto.
  - intros (F & H). destruct t as [w|w|w| |n|l], v as [a|z|b|bs|e]; cbn [fval_ok] in F; try easy;
      try (match goal with |- context [dec_stream ?t _ = Ok ?v] => assert (FV : fval_ok t v) by exact F end;
           subst raw; rewrite <- to_bytes_layout by exact FV; split; [now apply to_bytes_length|apply (gd_rt _ good_stream); exact FV]).
    + destruct H as (x & -> & H). split; [reflexivity|]. cbn [dec_stream first_byte]. do 2 f_equal.
      destruct (b2n x =? 0) eqn:Z; cbn [negb].
      * apply b2n_zero in Z. destruct b; [|reflexivity]. destruct H as [H _]. exfalso. now apply H.
      * destruct b; [reflexivity|]. exfalso. assert (X : x <> n2b 0) by (intros C; apply b2n_zero in C; congruence).
        apply H in X. discriminate.
    + destruct H as (x & -> & H). split; [reflexivity|]. cbn [dec_stream first_byte]. now rewrite H.
Qed.

Lemma fields_means ts : Forall ty_ok ts -> forall raw vs,
  length raw = sum_sizes ts /\ fields_parse dec_stream ts raw = Ok vs <-> values_bytes ts vs raw.
Proof.
  induction 1 as [|t ts HT F IH]; intros raw vs; cbn [fields_parse].
  - split; [intros (L & E); apply ok_inj in E; subst; destruct raw; [constructor|discriminate]|].
    intros H. inversion H; subst. split; reflexivity.
  - cbn [sum_sizes fold_right]. fold (sum_sizes ts). split.
    + intros (L & E). destruct (dec_stream t (firstn (ty_size t) raw)) as [v| |] eqn:E1; cbn [rbind] in E; try discriminate.
      destruct (fields_parse dec_stream ts (skipn (ty_size t) raw)) as [vs'| |] eqn:E2; cbn [rbind] in E; try discriminate.
      apply ok_inj in E. subst vs. rewrite <- (firstn_skipn (ty_size t) raw). constructor.
      * apply (dec_stream_means t _ v HT). split; [rewrite firstn_length; lia|exact E1].
      * apply IH. split; [rewrite skipn_length; lia|exact E2].
    + intros H. inversion H as [|t' v r1 ts' vs' r2 H1 H2]; subst. apply (dec_stream_means t r1 v HT) in H1 as (L1 & E1).
      apply IH in H2 as (L2 & E2). rewrite app_length. split; [lia|].
      rewrite firstn_app_exact, skipn_app_exact by easy. rewrite E1. cbn [rbind]. now rewrite E2.
Qed.

(** ** Blocks *)
Lemma block_parse_means sc raw crc vs : schema_ok sc -> length raw = body_size sc ->
  (blk_parse dec_stream sc raw crc = Ok vs <-> values_bytes (s_tys sc) vs raw /\ crc = blk_crc sc vs).
Proof.
  intros HS LR. pose proof (fields_means (s_tys sc) (schema_tys_ok _ HS) raw) as Q. unfold blk_parse. split.
  - intros E. destruct (fields_parse dec_stream (s_tys sc) raw) as [us| |] eqn:EF; cbn [rbind] in E; try discriminate.
    rewrite capture_ok in E; [|easy|now apply fields_parse_length in EF].
    destruct (bytes_eqb (blk_crc sc us) crc) eqn:EC; [|discriminate]. apply ok_inj in E. subst us. apply bytes_eqb_eq in EC.
    split; [|easy]. apply Q. split; [exact LR|reflexivity].
  - intros (V & ->). apply Q in V as (_ & EF). rewrite EF. cbn [rbind].
    rewrite capture_ok; [|easy|now apply fields_parse_length in EF]. now rewrite bytes_eqb_refl.
Qed.
Lemma values_ok ts vs raw : values_bytes ts vs raw -> Forall2 fval_ok ts vs.
Proof. induction 1 as [|t v raw ts vs rest (H & _)]; constructor; auto. Qed.
Lemma values_length ts vs raw : Forall ty_ok ts -> values_bytes ts vs raw -> length raw = sum_sizes ts.
Proof. intros F H. now apply (fields_means ts F) in H. Qed.

Lemma taken_split b e : schema_ok (bk_ty b) -> (block_taken b e <->
  exists raw, values_bytes (s_tys (bk_ty b)) (bk_vals b) raw /\ length raw = body_size (bk_ty b) /\
    e = blk_sig (bk_ty b) ++ raw ++ blk_crc (bk_ty b) (bk_vals b)).
Proof.
  intros HS. unfold block_taken. fold (s_tys (bk_ty b)). unfold blk_sig. rewrite snapshot_text. fold (crc32_le (signature_text (bk_ty b))).
  split.
  - intros (raw & V & ->). exists raw. split; [exact V|]. split; [exact (values_length _ _ _ (schema_tys_ok _ HS) V)|].
    unfold blk_crc. rewrite fields_layout by now apply values_ok in V. reflexivity.
  - intros (raw & V & L & ->). exists raw. split; [exact V|].
    unfold blk_crc. rewrite fields_layout by now apply values_ok in V. reflexivity.
Qed.
Lemma taken_length b e : schema_ok (bk_ty b) -> block_taken b e -> blen e = bk_size b /\ (8 <= length e)%nat.
Proof.
  intros HS H. apply (taken_split b e HS) in H as (raw & _ & L & ->). unfold bk_size, blen. rewrite ssize_eq, !app_length, blk_sig_length, blk_crc_length. lia.
Qed.

Lemma block_exact {S} (R : reader S) view okst (L : lawful R view okst) sc s : schema_ok sc -> okst s ->
  (forall vs s', blk_read R sc false s = (Ok vs, s') -> okst s' /\ exists e, block_taken (mk_block sc vs) e /\ view s = e ++ view s') /\
  (forall vs e rest, block_taken (mk_block sc vs) e -> view s = e ++ rest ->
     exists s', blk_read R sc false s = (Ok vs, s') /\ view s' = rest /\ okst s').
Proof.
  intros HS O. split.
  - intros vs s' E. destruct (blk_read_inv L _ _ _ _ _ O E) as (raw & crc & V & L1 & L2 & EP & O'). split; [exact O'|].
    apply block_parse_means in EP as (VB & ->); try easy. eexists. split; [apply taken_split; [exact HS|]; cbn [bk_ty bk_vals]; eauto|].
    now rewrite V, <- !app_assoc.
  - intros vs e rest H V. apply taken_split in H as (raw & VB & LR & ->); [|exact HS]. cbn [bk_ty bk_vals] in *. rewrite <- !app_assoc in V.
    pose proof (blk_read_sig_spec L sc s _ _ O V (blk_sig_length sc)) as Q. rewrite bytes_eqb_refl in Q. destruct Q as (s1 & V1 & O1 & ->).
    pose proof (blk_read_skip_spec L sc s1 raw _ rest O1 V1 LR (blk_crc_length _ _)) as Q.
    assert (EP : blk_parse dec_stream sc raw (blk_crc sc vs) = Ok vs) by (apply block_parse_means; auto).
    rewrite EP in Q. exact Q.
Qed.

(** The enum reader for streams: a type that does not match has consumed its four bytes. *)
Lemma dispatch_step {S} (R : reader S) view okst (L : lawful R view okst) sc scs s w rest :
  okst s -> view s = w ++ rest -> length w = 4%nat ->
  (w <> blk_sig sc -> exists s', view s' = rest /\ okst s' /\ bk_read R (sc :: scs) false s = bk_read R scs false s').
Proof.
  intros O V LW NE. pose proof (blk_read_sig_spec L sc s w rest O V LW) as Q.
  replace (bytes_eqb w (blk_sig sc)) with false in Q by (symmetry; now apply bytes_eqb_neq).
  destruct Q as (s1 & V1 & O1 & E). exists s1. split; [exact V1|]. split; [exact O1|]. cbn [bk_read]. rewrite E. reflexivity.
Qed.
Lemma dispatch_skips {S} (R : reader S) view okst (L : lawful R view okst) scs rest : forall pre ws,
  Forall2 (fun sc w => length w = 4%nat /\ w <> blk_sig sc) pre ws -> forall s, okst s -> view s = concat ws ++ rest ->
  exists s', view s' = rest /\ okst s' /\ bk_read R (pre ++ scs) false s = bk_read R scs false s'.
Proof.
  induction 1 as [|sc w pre ws (LW & NE) F IH]; intros s O V; cbn [concat app] in *; [eauto|].
  rewrite <- app_assoc in V. destruct (dispatch_step R view okst L sc (pre ++ scs) s w _ O V LW NE) as (s1 & V1 & O1 & ->).
  now apply IH.
Qed.
Lemma dispatch_short {S} (R : reader S) view okst (L : lawful R view okst) sc scs s : okst s -> blen (view s) < 4 ->
  fst (bk_read R (sc :: scs) false s) = Err (EIo UnexpectedEof).
Proof.
  intros O H. destruct (lw_short _ _ _ L 4 s O H) as (s1 & E). cbn [bk_read]. unfold blk_read. rewrite E. reflexivity.
Qed.

(** ** Packets *)
Lemma slice_lawful : lawful buf_reader b_cur (fun s => b_evs s = []).
Proof.
  constructor; [exact (cur_okl [])|]. intros n [cur e] H B. cbn [b_evs b_cur] in *. subst e. cbn [buf_reader rd_exact].
  unfold buf_read_exact. cbn [b_evs b_cur buf_read_exact_go]. replace (n <=? blen cur) with false by lia. eauto.
Qed.

Lemma bk_taken_inv scs cur b s1 : Forall schema_ok scs -> bk_try_read_buf scs (mk_bufsrc cur []) = (Ok (Success b), s1) ->
  In (bk_ty b) scs /\ exists e rest, block_taken b e /\ cur = e ++ rest /\ s1 = mk_bufsrc rest [].
Proof.
  intros HS E. destruct scs as [|sc0 scs0]; [discriminate|].
  destruct (length cur <? 4)%nat eqn:L4.
  - exfalso. cbn [bk_try_read_buf] in E. unfold blk_try_read_buf, fill_buf in E. cbn [b_cur b_evs] in E.
    destruct cur; cbn [sbind] in E; rewrite L4 in E; discriminate.
  - assert (EF : fill_buf (mk_bufsrc cur []) = (Ok cur, mk_bufsrc cur [])) by (destruct cur; [discriminate|reflexivity]).
    rewrite (bk_buf_pick _ _ _ _ EF) in E by (easy || lia).
    destruct (pick (sc0 :: scs0) (firstn 4 cur)) as [sc|] eqn:EP; [|discriminate]. apply pick_some in EP as (HI & EQ).
    assert (OK : schema_ok sc) by (rewrite Forall_forall in HS; auto).
    unfold blk_try_read_buf in E. rewrite EF in E. cbn [sbind] in E. rewrite L4 in E.
    destruct (starts_with (blk_sig sc) cur); [|discriminate]. cbn [negb] in E.
    destruct (blk_read buf_reader sc true (consume 4 (mk_bufsrc cur []))) as [[vs|e|w] s2] eqn:ER; cbn [sbind lift_st] in E; try discriminate.
    apply pair_equal_spec in E as (E1 & ->). apply ok_inj in E1. apply (f_equal (fun x => match x with Success y => y | NotEnough _ => b end)) in E1. subst b.
    cbn [bk_ty]. split; [exact HI|].
    destruct (blk_read_inv slice_lawful _ _ _ _ _ (eq_refl : b_evs (consume 4 (mk_bufsrc cur [])) = []) ER) as (raw & crc & V & L1 & L2 & P & O).
    cbn [app consume b_cur] in V. apply (block_parse_means _ _ _ _ OK L1) in P as (VB & ->).
    exists (blk_sig sc ++ raw ++ blk_crc sc vs), (b_cur s1). split; [apply taken_split; [exact OK|]; cbn [bk_ty bk_vals]; eauto|].
    split; [|now apply cur_state]. rewrite <- !app_assoc, <- V, <- EQ. symmetry. apply firstn_skipn.
Qed.
Lemma bk_taken_rt scs b e rest : NoDup (map blk_sig scs) -> In (bk_ty b) scs -> schema_ok (bk_ty b) -> block_taken b e ->
  bk_try_read_buf scs (mk_bufsrc (e ++ rest) []) = (Ok (Success b), mk_bufsrc rest []).
Proof.
  intros ND HI HS H. apply taken_split in H as (raw & VB & LR & ->); [|exact HS]. rewrite <- !app_assoc.
  set (cur := blk_sig (bk_ty b) ++ raw ++ blk_crc (bk_ty b) (bk_vals b) ++ rest).
  assert (LC : (4 <= length cur)%nat) by (unfold cur; rewrite app_length, blk_sig_length; lia).
  assert (EF : fill_buf (mk_bufsrc cur []) = (Ok cur, mk_bufsrc cur [])) by (destruct cur; [cbn [length] in LC; lia|reflexivity]).
  rewrite (bk_buf_pick _ _ _ _ EF LC) by (intros ->; easy).
  assert (F4 : firstn 4 cur = blk_sig (bk_ty b)) by (unfold cur; now rewrite firstn_app_exact by now rewrite blk_sig_length).
  assert (S4 : skipn 4 cur = raw ++ blk_crc (bk_ty b) (bk_vals b) ++ rest) by (unfold cur; now rewrite skipn_app_exact by now rewrite blk_sig_length).
  rewrite F4, (pick_in _ _ HI ND). unfold blk_try_read_buf. rewrite EF. cbn [sbind]. replace (length cur <? 4)%nat with false by lia.
  rewrite starts_with_firstn, blk_sig_length, F4, bytes_eqb_refl. cbn [negb].
  pose proof (blk_read_skip_spec slice_lawful (bk_ty b) (consume 4 (mk_bufsrc cur [])) raw _ rest eq_refl S4 LR (blk_crc_length _ _)) as Q.
  assert (EP : blk_parse dec_stream (bk_ty b) raw (blk_crc (bk_ty b) (bk_vals b)) = Ok (bk_vals b)) by (apply block_parse_means; auto).
  rewrite EP in Q. destruct Q as (s' & -> & V & O). cbn [sbind lift_st]. rewrite bk_eta. now rewrite (cur_state [] s' rest O V).
Qed.

Lemma loop_taken_inv scs total : Forall schema_ok scs -> forall fuel rd acc cur l s', 
  blocks_loop_buf fuel scs total rd acc (mk_bufsrc cur []) = (Ok (Success l), s') ->
  exists bs raws rest, l = acc ++ bs /\ Forall2 block_taken bs raws /\ Forall (fun b => In (bk_ty b) scs) bs /\
    (length bs <= fuel)%nat /\ rd + blen (concat raws) = total /\ cur = concat raws ++ rest /\ s' = mk_bufsrc rest [].
Proof.
  intros HS. induction fuel as [|fuel IH]; intros rd acc cur l s' E; [discriminate|]. cbn [blocks_loop_buf] in E.
  destruct (bk_try_read_buf scs (mk_bufsrc cur [])) as [[[b|n]|e|w] s1] eqn:E1; cbn [stbind] in E; try discriminate.
  destruct (bk_taken_inv _ _ _ _ HS E1) as (HI & e & rest & HT & -> & ->).
  assert (OK : schema_ok (bk_ty b)) by (rewrite Forall_forall in HS; auto).
  destruct (taken_length _ _ OK HT) as (LE & _).
  destruct (rd + bk_size b =? total) eqn:EQ.
  - apply pair_equal_spec in E as (E2 & <-). apply ok_inj in E2. apply (f_equal (fun x => match x with Success y => y | NotEnough _ => l end)) in E2.
    subst l. exists [b], [e], rest. cbn [concat length]. rewrite app_nil_r. split; [reflexivity|]. split; [repeat constructor; exact HT|].
    split; [repeat constructor; exact HI|]. split; [lia|]. split; [lia|]. split; reflexivity.
  - apply IH in E as (bs & raws & rest' & -> & F1 & F2 & LB & T & -> & ->). exists (b :: bs), (e :: raws), rest'. cbn [concat length].
    rewrite <- !app_assoc, blen_app. cbn [app]. split; [reflexivity|]. split; [now constructor|]. split; [now constructor|].
    split; [lia|]. split; [lia|]. split; reflexivity.
Qed.
Lemma loop_taken_rt scs : NoDup (map blk_sig scs) -> Forall schema_ok scs -> forall bs raws, Forall2 block_taken bs raws ->
  forall fuel total rd acc rest, Forall (fun b => In (bk_ty b) scs) bs -> bs <> [] -> (length bs <= fuel)%nat ->
  rd + blen (concat raws) = total ->
  blocks_loop_buf fuel scs total rd acc (mk_bufsrc (concat raws ++ rest) []) = (Ok (Success (acc ++ bs)), mk_bufsrc rest []).
Proof.
  intros ND HS. induction 1 as [|b e bs raws HT F IH]; intros fuel total rd acc rest HI NE LF T; [easy|].
  apply Forall_cons_iff in HI as (HI & HIs). destruct fuel as [|fuel]; [cbn [length] in LF; lia|].
  assert (OK : schema_ok (bk_ty b)) by (rewrite Forall_forall in HS; auto).
  destruct (taken_length _ _ OK HT) as (LE & _). cbn [concat] in *. rewrite blen_app in T. rewrite <- app_assoc.
  cbn [blocks_loop_buf]. rewrite (bk_taken_rt scs b e _ ND HI OK HT). cbn [stbind].
  destruct bs as [|b2 bs].
  - inversion F; subst raws. cbn [concat] in *. rewrite blen_nil in T. replace (rd + bk_size b =? total) with true by lia. reflexivity.
  - inversion F as [|? e2 ? raws2 HT2 F2]; subst. apply Forall_cons_iff in HIs as (HI2 & HIs2).
    assert (OK2 : schema_ok (bk_ty b2)) by (rewrite Forall_forall in HS; auto). destruct (taken_length _ _ OK2 HT2) as (_ & L8).
    replace (rd + bk_size b =? _) with false by (cbn [concat]; rewrite blen_app; unfold blen in *; lia).
    rewrite IH; [now rewrite <- app_assoc|now constructor|discriminate|cbn [length] in *; lia|lia].
Qed.

Section Taken.
Context {U : Type}.
Implicit Types (P : proto U) (p : packet U).

Lemma pk_taken_inv {V} (k : pkind V) h cur v s1 : pk_read buf_reader k h (mk_bufsrc cur []) = (Ok v, s1) ->
  exists body, ph_sig h = pk_sig k /\ blen body = ph_len h /\ cur = body ++ b_cur s1 /\ b_evs s1 = [] /\
    pk_decode k body = IOk v /\ pk_crc k v = IOk (ph_crc h).
Proof.
  unfold pk_read. destruct (bytes_eqb (ph_sig h) (pk_sig k)) eqn:ES; [|discriminate]. apply bytes_eqb_eq in ES. cbn [negb].
  destruct (rd_exact buf_reader (ph_len h) (mk_bufsrc cur [])) as [[body|e|w] s2] eqn:E1; cbn [sbind]; try discriminate.
  destruct (lw_inv slice_lawful _ _ _ _ (eq_refl : b_evs (mk_bufsrc cur []) = []) E1) as (VB & LB & OB). cbn [b_cur] in *.
  destruct (pk_decode k body) as [u|] eqn:ED; cbn [io sbind]; [|discriminate].
  destruct (pk_crc k u) as [c|] eqn:EC; cbn [io sbind]; [|discriminate].
  destruct (bytes_eqb (ph_crc h) c) eqn:EQ; [|discriminate]. apply bytes_eqb_eq in EQ. intros E.
  apply pair_equal_spec in E as (E & ->). apply ok_inj in E. subst u c. exists body. auto 10.
Qed.
Lemma payload_taken_inv (ks : list (pkind U)) cur pl s1 :
  (do (ph, r) <- ph_read buf_reader (mk_bufsrc cur []); pl_read buf_reader ks ph r) = (Ok pl, s1) ->
  exists part rest, payload_taken ks pl part /\ cur = part ++ rest.
Proof.
  intros E. destruct (ph_read buf_reader (mk_bufsrc cur [])) as [[h|e|w] s2] eqn:E1; cbn [sbind] in E; try discriminate.
  destruct (ph_read_inv buf_reader _ _ slice_lawful _ _ _ (eq_refl : b_evs (mk_bufsrc cur []) = []) E1) as (V & (H1 & H2 & H3) & O).
  cbn [b_cur] in V. rewrite (cur_state [] s2 _ O eq_refl) in E. rewrite pl_read_pick in E by exact buf_io_only. unfold pl_pick in E.
  assert (G : forall body, ph_sig h = pl_sig pl -> blen body = ph_len h -> b_cur s2 = body ++ b_cur s1 ->
     match pl with
     | PUser k u => In k ks /\ pk_decode k body = IOk u /\ pk_crc k u = IOk (ph_crc h)
     | PBytes v => v = body /\ ph_crc h = crc32_le v
     | PString v => v = lossy body /\ ph_crc h = crc32_le v
     end -> exists part rest, payload_taken ks pl part /\ cur = part ++ rest).
  { intros body ES LB VB M. exists (ph_bytes h ++ body), (b_cur s1). split; [|now rewrite V, VB, <- app_assoc].
    exists (ph_crc h), body. rewrite ph_bytes_layout, <- ES, LB. auto 10. }
  destruct (find _ ks) as [k|] eqn:EF.
  - apply find_some in EF as (HI & _). destruct (pk_read buf_reader k h _) as [[u|e|w] s3] eqn:EK; cbn [pmap] in E; try discriminate.
    apply pair_equal_spec in E as (E & ->). apply ok_inj in E. subst pl.
    apply pk_taken_inv in EK as (body & ES & LB & VB & _ & ED & EC). apply (G body); auto.
  - destruct (bytes_eqb (ph_sig h) (pk_sig bytes_kind)).
    + destruct (pk_read buf_reader bytes_kind h _) as [[u|e|w] s3] eqn:EK; cbn [pmap] in E; try discriminate.
      apply pair_equal_spec in E as (E & ->). apply ok_inj in E. subst pl.
      apply pk_taken_inv in EK as (body & ES & LB & VB & _ & ED & EC). apply (G body); auto.
      cbn [bytes_kind pk_decode pk_crc default_crc] in *. split; congruence.
    + destruct (bytes_eqb (ph_sig h) (pk_sig string_kind)); [|discriminate].
      destruct (pk_read buf_reader string_kind h _) as [[u|e|w] s3] eqn:EK; cbn [pmap] in E; try discriminate.
      apply pair_equal_spec in E as (E & ->). apply ok_inj in E. subst pl.
      apply pk_taken_inv in EK as (body & ES & LB & VB & _ & ED & EC). apply (G body); auto.
      cbn [string_kind pk_decode pk_crc default_crc] in *. split; congruence.
Qed.
Lemma pk_taken_rt {V} (k : pkind V) v body crc rest : pk_decode k body = IOk v -> pk_crc k v = IOk crc ->
  pk_read buf_reader k (mk_pheader (pk_sig k) crc (blen body)) (mk_bufsrc (body ++ rest) []) = (Ok v, mk_bufsrc rest []).
Proof.
  intros ED EC. unfold pk_read. cbn [ph_sig ph_crc ph_len]. rewrite bytes_eqb_refl. cbn [negb].
  destruct (lw_ok _ _ _ slice_lawful (blen body) (mk_bufsrc (body ++ rest) []) body rest) as (s' & -> & V' & O'); try reflexivity.
  cbn [sbind]. rewrite ED. cbn [io sbind]. rewrite EC. cbn [io sbind]. rewrite bytes_eqb_refl. now rewrite (cur_state [] s' rest O' V').
Qed.
Lemma payload_taken_rt (ks : list (pkind U)) pl part rest : NoDup (pl_sigs ks) -> payload_taken ks pl part ->
  fst (do (ph, r) <- ph_read buf_reader (mk_bufsrc (part ++ rest) []); pl_read buf_reader ks ph r) = Ok pl.
Proof.
  intros ND (crc & body & C1 & C2 & LB & -> & M).
  set (h := mk_pheader (pl_sig pl) crc (blen body)). rewrite <- app_assoc.
  replace (payload_header_layout (pl_sig pl) crc (blen body)) with (ph_bytes h) by apply ph_bytes_layout.
  destruct (ph_read_rt buf_reader b_cur (fun s => b_evs s = []) (cur_okl []) h (mk_bufsrc (ph_bytes h ++ body ++ rest) []) (body ++ rest))
    as (s' & -> & V & O); try reflexivity; [now repeat split|]. cbn [sbind]. rewrite (cur_state [] s' _ O V).
  rewrite pl_read_pick by exact buf_io_only. unfold pl_pick, h. cbn [ph_sig]. destruct pl as [k u|v|v]; cbn [pl_sig].
  - destruct M as (HI & ED & EC). rewrite find_kind_in by (easy || now apply nodup_kinds). now rewrite (pk_taken_rt k u body crc rest ED EC).
  - destruct M as (-> & ->). rewrite payload_not_user by (easy || (simpl; auto)). rewrite bytes_eqb_refl.
    now rewrite (pk_taken_rt bytes_kind body body (crc32_le body) rest eq_refl eq_refl).
  - destruct M as (-> & ->). rewrite payload_not_user by (easy || (simpl; auto)).
    replace (bytes_eqb (pk_sig string_kind) (pk_sig bytes_kind)) with false by reflexivity. rewrite bytes_eqb_refl.
    now rewrite (pk_taken_rt string_kind (lossy body) body (crc32_le (lossy body)) rest eq_refl eq_refl).
Qed.

Lemma hdr_taken_inv {S} (R : reader S) view okst (L : lawful R view okst) s h s' : okst s -> hdr_read R s = (Ok h, s') ->
  okst s' /\ h_size h < two64 /\ exists fl, h_payload h = (b2n fl =? 1) /\
    view s = packet_sig ++ le 8 (h_size h) ++ le 8 (h_blocks_len h) ++ [fl]
             ++ crc32_le (le 8 (h_size h) ++ le 8 (h_blocks_len h) ++ [flag_byte (h_payload h)]) ++ view s'.
Proof.
  intros O E. unfold hdr_read in E.
  destruct (rd_exact R 8 s) as [[sg|e|w] s1] eqn:E1; cbn [sbind] in E; try discriminate.
  destruct (bytes_eqb sg packet_sig) eqn:ES; cbn [negb] in E; [|discriminate]. apply bytes_eqb_eq in ES. subst sg.
  destruct (lw_inv L _ _ _ _ O E1) as (V1 & _ & O1).
  destruct (rd_exact R 8 s1) as [[sz|e|w] s2] eqn:E2; cbn [sbind] in E; try discriminate. destruct (lw_inv L _ _ _ _ O1 E2) as (V2 & L2 & O2).
  destruct (rd_exact R 8 s2) as [[bl|e|w] s3] eqn:E3; cbn [sbind] in E; try discriminate. destruct (lw_inv L _ _ _ _ O2 E3) as (V3 & L3 & O3).
  destruct (rd_exact R 1 s3) as [[fl|e|w] s4] eqn:E4; cbn [sbind] in E; try discriminate. destruct (lw_inv L _ _ _ _ O3 E4) as (V4 & L4 & O4).
  destruct (rd_exact R 4 s4) as [[crc|e|w] s5] eqn:E5; cbn [sbind] in E; try discriminate. destruct (lw_inv L _ _ _ _ O4 E5) as (V5 & L5 & O5).
  assert (Q : hdr_parse sz bl fl crc = Ok h /\ s5 = s').
  { unfold hdr_parse. destruct (bytes_eqb _ _); [|discriminate]. apply pair_equal_spec in E as (E & ->). auto. }
  destruct Q as (Q & <-). assert (LS : length sz = 8%nat) by (unfold blen in L2; lia). assert (LBl : length bl = 8%nat) by (unfold blen in L3; lia).
  assert (LF : length fl = 1%nat) by (unfold blen in L4; lia). assert (LC : length crc = 4%nat) by (unfold blen in L5; lia).
  destruct (hdr_parse_inv sz bl fl crc h LS LBl LF LC Q) as (EH & EC & B1 & B2). destruct (byte1 fl LF) as (b & ->). cbn [first_byte] in *.
  split; [exact O5|]. split; [exact B1|]. exists b. subst h. cbn [mkh h_size h_blocks_len h_payload] in *. split; [reflexivity|].
  assert (R8 : forall x, length x = 8%nat -> le 8 (unle x) = x) by (intros x LX; now rewrite <- LX, le_unle).
  rewrite (R8 sz LS), (R8 bl LBl), <- EC, V1, V2, V3, V4, V5. reflexivity.
Qed.

Lemma packet_taken_inv {S} (R : reader S) view okst (L : lawful R view okst) P s p s' : Forall schema_ok (pr_blocks P) -> okst s ->
  pkt_read R P s = (Ok p, s') -> okst s' /\ exists e, packet_taken P p e /\ view s = e ++ view s'.
Proof.
  intros HS O E. unfold pkt_read in E. destruct (hdr_read R s) as [[h|e|w] s1] eqn:E1; cbn [sbind] in E; try discriminate.
  destruct (hdr_taken_inv R view okst L s h s1 O E1) as (O1 & B1 & fl & EF & V1).
  unfold alloc in E. destruct (h_size h <? two63) eqn:EA; cbn [sbind] in E; [|discriminate].
  destruct (rd_exact R (h_size h) s1) as [[inner|e|w] s2] eqn:E2; cbn [sbind] in E; try discriminate.
  destruct (lw_inv L _ _ _ _ O1 E2) as (V2 & LI & O2). unfold of_slice in E.
  assert (G : forall blocks r, (if 0 <? h_blocks_len h then blocks_loop_buf block_fuel (pr_blocks P) (h_blocks_len h) 0 [] (mk_bufsrc inner [])
       else (Ok (Success []), mk_bufsrc inner [])) = (Ok (Success blocks), r) ->
     exists raws rest, Forall2 block_taken blocks raws /\ Forall (fun b => In (bk_ty b) (pr_blocks P)) blocks /\ (length blocks <= 256)%nat /\
       blen (concat raws) = h_blocks_len h /\ inner = concat raws ++ rest /\ r = mk_bufsrc rest []).
  { intros blocks r Q. destruct (0 <? h_blocks_len h) eqn:EZ.
    - apply (loop_taken_inv _ _ HS) in Q as (bs & raws & rest & -> & F1 & F2 & LB & T & EI & ER). exists raws, rest. cbn [app].
      rewrite max_fuel in LB. auto 10.
    - apply pair_equal_spec in Q as (Q & <-). apply ok_inj in Q. apply (f_equal (fun x => match x with Success y => y | NotEnough _ => blocks end)) in Q.
      subst blocks. exists [], inner. cbn [concat length app]. split; [constructor|]. split; [constructor|]. split; [lia|]. split; [rewrite blen_nil; lia|]. auto. }
  destruct (if 0 <? h_blocks_len h then _ else _) as [[[blocks|n]|e|w] r] eqn:EB; try discriminate.
  destruct (G _ _ eq_refl) as (raws & rest & F1 & F2 & LB & T & EI & ER). clear G EB. subst r.
  assert (K : forall part slack, rest = part ++ slack -> s2 = s' -> p_blocks p = blocks ->
     match p_payload p with Some pl => fl = n2b 1 /\ payload_taken (pr_kinds P) pl part | None => fl <> n2b 1 /\ part = [] end ->
     okst s' /\ exists e, packet_taken P p e /\ view s = e ++ view s').
  { intros part slack -> <- EP M. split; [exact O2|]. rewrite EI, !blen_app in LI.
    assert (SZ : h_size h = blen (concat raws) + blen part + blen slack) by lia.
    eexists. split; [exists raws, fl, part, slack; rewrite EP; split; [exact F1|]; split; [exact F2|]; split; [exact LB|]; split; [exact M|];
      split; [rewrite <- SZ; lia|reflexivity]|].
    rewrite <- SZ, T. change (low_first 8) with (low_first (N.of_nat 8)). rewrite !low_first_le. fold packet_sig.
    replace (match p_payload p with Some _ => n2b 1 | None => n2b 0 end) with (flag_byte (h_payload h)).
    - rewrite V1, V2, EI, <- !app_assoc. reflexivity.
    - rewrite EF. destruct (p_payload p); destruct M as (M & _).
      + subst fl. reflexivity.
      + replace (b2n fl =? 1) with false; [reflexivity|]. symmetry. apply not_true_iff_false. now rewrite b2n_one. }
  destruct (h_payload h) eqn:EH.
  - destruct (do (ph, r) <- ph_read buf_reader (mk_bufsrc rest []); pl_read buf_reader (pr_kinds P) ph r) as [[pl|e|w] r2] eqn:EP; cbn [fst] in E; try discriminate.
    apply pair_equal_spec in E as (E & ES). apply ok_inj in E. destruct (payload_taken_inv _ _ _ _ EP) as (part & slack & M & ER).
    apply (K part slack ER ES); subst p; [reflexivity|]. cbn [p_payload]. split; [|exact M]. now apply b2n_one.
  - apply pair_equal_spec in E as (E & ES). apply ok_inj in E. apply (K [] rest eq_refl ES); subst p; [reflexivity|]. cbn [p_payload].
    split; [|reflexivity]. intros C. apply b2n_one in C. congruence.
Qed.
Lemma packet_taken_rt {S} (R : reader S) view okst (L : lawful R view okst) P s p e rest : proto_ok P -> Forall schema_ok (pr_blocks P) -> okst s ->
  packet_taken P p e -> view s = e ++ rest -> exists s', pkt_read R P s = (Ok p, s') /\ view s' = rest /\ okst s'.
Proof.
  intros (ND & NDK) HS O (raws & fl & part & slack & F1 & F2 & LB & M & T) V. cbv zeta in T. destruct T as (B & ->).
  change (low_first 8) with (low_first (N.of_nat 8)) in V. rewrite !low_first_le in V. fold packet_sig in V.
  set (size := blen (concat raws) + blen part + blen slack) in *.
  set (flag := match p_payload p with Some _ => true | None => false end).
  assert (EF : (b2n fl =? 1) = flag).
  { unfold flag. destruct (p_payload p); destruct M as (M & _); [subst fl; reflexivity|]. apply not_true_iff_false. now rewrite b2n_one. }
  replace (match p_payload p with Some _ => n2b 1 | None => n2b 0 end) with (flag_byte flag) in V by (unfold flag; destruct (p_payload p); reflexivity).
  rewrite <- !app_assoc in V.
  assert (S64 : size < two64) by now apply two63_64.
  assert (B64 : blen (concat raws) < two64) by (apply two63_64; unfold size in B; lia).
  pose proof (hdr_read_spec R view okst (lawful_okl _ _ _ L) s packet_sig (le 8 size) (le 8 (blen (concat raws))) [fl]
     (crc32_le (le 8 size ++ le 8 (blen (concat raws)) ++ [flag_byte flag])) (concat raws ++ part ++ slack ++ rest) O V
     eq_refl (le_length _ _) (le_length _ _) eq_refl (crc32_le_length _)) as Q.
  rewrite bytes_eqb_refl in Q. destruct Q as (s1 & V1 & O1 & E1).
  assert (EP : hdr_parse (le 8 size) (le 8 (blen (concat raws))) [fl] (crc32_le (le 8 size ++ le 8 (blen (concat raws)) ++ [flag_byte flag]))
    = Ok (mkh size (blen (concat raws)) flag)).
  { rewrite <- (hdr_parse_rt size (blen (concat raws)) flag S64 B64). unfold hdr_parse. cbn [first_byte]. rewrite EF.
    replace (b2n (flag_byte flag) =? 1) with flag by (destruct flag; reflexivity). reflexivity. }
  rewrite EP in E1. unfold pkt_read. rewrite E1. cbn [sbind mkh h_size h_blocks_len h_payload].
  unfold alloc. replace (size <? two63) with true by lia. cbn [sbind].
  destruct (lw_ok _ _ _ L size s1 (concat raws ++ part ++ slack) rest O1) as (s2 & -> & V2 & O2).
  { now rewrite V1, <- !app_assoc. } { rewrite !blen_app. unfold size. lia. }
  cbn [sbind]. unfold of_slice. exists s2. split; [|auto].
  assert (EB : (if 0 <? blen (concat raws)
          then blocks_loop_buf block_fuel (pr_blocks P) (blen (concat raws)) 0 [] (mk_bufsrc (concat raws ++ part ++ slack) [])
          else (Ok (Success []), mk_bufsrc (concat raws ++ part ++ slack) [])) = (Ok (Success (p_blocks p)), mk_bufsrc (part ++ slack) [])).
  { destruct (p_blocks p) as [|b bs] eqn:EBS.
    - inversion F1; subst raws. reflexivity.
    - assert (Z : (0 <? blen (concat raws)) = true).
      { inversion F1 as [|? e1 ? raws1 HT1 ?]; subst. apply Forall_cons_iff in F2 as (HI & _).
        assert (OK : schema_ok (bk_ty b)) by (rewrite Forall_forall in HS; auto). destruct (taken_length _ _ OK HT1) as (_ & L8).
        cbn [concat]. rewrite blen_app. unfold blen in *. lia. }
      rewrite Z. rewrite (loop_taken_rt _ ND HS _ _ F1); [reflexivity|exact F2|discriminate|exact LB|lia]. }
  rewrite EB. destruct p as [pbs ppl]. cbn [p_payload p_blocks] in *. unfold flag. destruct ppl as [pl|]; [|reflexivity].
  destruct M as (_ & M). rewrite (payload_taken_rt _ _ _ slack NDK M). reflexivity.
Qed.
End Taken.

(** ** Payloads with long checksums *)
Section Long.
Context {U : Type}.
Implicit Types (P : proto U).

Lemma ph_read_cut h s : ph_ok h -> b_evs s = [] -> strict_prefix (b_cur s) (ph_bytes h) ->
  fst (ph_read buf_reader s) = Err (EIo UnexpectedEof).
Proof.
  intros (H1 & H2 & H3) O H. pose proof (capacity_byte _ H1) as C1. pose proof (capacity_byte _ H2) as C2.
  unfold ph_bytes in H. unfold ph_read.
  assert (W1 : unle [n2b (blen (ph_sig h))] = blen (ph_sig h)) by (apply unle1; lia).
  assert (W2 : unle [n2b (blen (ph_crc h))] = blen (ph_crc h)) by (apply unle1; lia).
  assert (G : forall n s a, b_evs s = [] -> blen a = n -> blen (b_cur s) < blen a -> exists s', rd_exact buf_reader n s = (Err (EIo UnexpectedEof), s'))
    by (intros n s0 a O0 LA LL; apply (lw_short _ _ _ slice_lawful); [exact O0|lia]).
  apply prefix_split in H as [H|(q & E & H)]; [destruct (G 1 s _ O (blen1 _) H) as (s' & ->); reflexivity|].
  destruct (lw_ok _ _ _ slice_lawful 1 s _ q O E (blen1 _)) as (s1 & -> & V1 & O1). cbn [sbind]. rewrite W1, (check_capacity_in _ H1). cbn [sbind].
  rewrite <- V1 in H. clear E V1 q.
  apply prefix_split in H as [H|(q & E & H)]; [destruct (G (blen (ph_sig h)) s1 _ O1 eq_refl H) as (s' & ->); reflexivity|].
  destruct (lw_ok _ _ _ slice_lawful (blen (ph_sig h)) s1 _ q O1 E eq_refl) as (s2 & -> & V2 & O2). cbn [sbind].
  rewrite <- V2 in H. clear E V2 q.
  apply prefix_split in H as [H|(q & E & H)]; [destruct (G 1 s2 _ O2 (blen1 _) H) as (s' & ->); reflexivity|].
  destruct (lw_ok _ _ _ slice_lawful 1 s2 _ q O2 E (blen1 _)) as (s3 & -> & V3 & O3). cbn [sbind]. rewrite W2, (check_capacity_in _ H2). cbn [sbind].
  rewrite <- V3 in H. clear E V3 q.
  apply prefix_split in H as [H|(q & E & H)]; [destruct (G (blen (ph_crc h)) s3 _ O3 eq_refl H) as (s' & ->); reflexivity|].
  destruct (lw_ok _ _ _ slice_lawful (blen (ph_crc h)) s3 _ q O3 E eq_refl) as (s4 & -> & V4 & O4). cbn [sbind].
  rewrite <- V4 in H. apply prefix_short in H. destruct (G 4 s4 _ O4 (blen_le4 _) H) as (s' & ->). reflexivity.
Qed.
Lemma payload_cut ks (pl : payload U) body crc cur : NoDup (pl_sigs ks) -> payload_ok ks pl body crc ->
  strict_prefix cur (ph_bytes (mk_pheader (pl_sig pl) crc (blen body)) ++ body) ->
  fst (do (ph, r) <- ph_read buf_reader (mk_bufsrc cur []); pl_read buf_reader ks ph r) = Err (EIo UnexpectedEof).
Proof.
  intros ND HP H. set (h := mk_pheader (pl_sig pl) crc (blen body)) in *. pose proof (payload_ok_hdr _ _ _ _ HP) as HH. unfold pl_hdr in HH. fold h in HH.
  destruct (N.lt_ge_cases (blen cur) (blen (ph_bytes h))) as [LT|GE].
  - assert (Q : strict_prefix cur (ph_bytes h)).
    { destruct H as (r & NR & E). exists (skipn (length cur) (ph_bytes h)). split.
      - intros C. apply (f_equal (@length byte)) in C. rewrite skipn_length in C. unfold blen in LT. cbn [length] in C. lia.
      - replace cur with (firstn (length cur) (ph_bytes h)) at 1; [symmetry; apply firstn_skipn|].
        transitivity (firstn (length cur) (ph_bytes h ++ body)).
        + rewrite firstn_app. replace (length cur - length (ph_bytes h))%nat with 0%nat by (unfold blen in LT; lia). now rewrite firstn_O, app_nil_r.
        + rewrite E. now rewrite firstn_app_exact. }
    pose proof (ph_read_cut h (mk_bufsrc cur []) HH eq_refl Q) as E. destruct (ph_read buf_reader (mk_bufsrc cur [])) as [[x|e|w] s1]; cbn [fst sbind] in *; congruence.
  - apply prefix_split in H as [H|(q & -> & H)]; [lia|].
    destruct (ph_read_rt buf_reader b_cur (fun s => b_evs s = []) (cur_okl []) h (mk_bufsrc (ph_bytes h ++ q) []) q HH eq_refl eq_refl) as (s1 & -> & V & O).
    cbn [sbind]. apply prefix_short in H. destruct (lw_short _ _ _ slice_lawful (blen body) s1 O ltac:(now rewrite V)) as (s2 & E2).
    assert (G : forall V (k : pkind V), ph_sig h = pk_sig k -> fst (pk_read buf_reader k h s1) = Err (EIo UnexpectedEof)).
    { intros V0 k ES. unfold pk_read. rewrite ES, bytes_eqb_refl. cbn [negb]. unfold h at 1. cbn [ph_len]. rewrite E2. reflexivity. }
    rewrite pl_read_pick by exact buf_io_only. unfold pl_pick. unfold h at 1. cbn [ph_sig].
    assert (K : forall V (k : pkind V) (f : V -> payload U), ph_sig h = pk_sig k -> fst (pmap f (pk_read buf_reader k h s1)) = Err (EIo UnexpectedEof)).
    { intros V0 k f ES. specialize (G V0 k ES). destruct (pk_read buf_reader k h s1) as [[a|e|w] s3]; cbn [fst pmap] in *; congruence. }
    destruct pl as [k u|v|v]; cbn [pl_sig payload_ok] in *.
    + rewrite find_kind_in by (now apply nodup_kinds || apply HP). now apply K.
    + rewrite payload_not_user by (easy || (simpl; auto)). unfold h at 1. cbn [ph_sig]. rewrite bytes_eqb_refl. now apply K.
    + rewrite payload_not_user by (easy || (simpl; auto)). unfold h at 1 2. cbn [ph_sig].
      replace (bytes_eqb (pk_sig string_kind) (pk_sig bytes_kind)) with false by reflexivity. rewrite bytes_eqb_refl. now apply K.
Qed.

Lemma long_written P (bs : list block) pl body crc : Forall (block_ok (pr_blocks P)) bs -> payload_ok (pr_kinds P) pl body crc ->
  let blocks := concat (map bk_encode bs) in let tail := ph_bytes (mk_pheader (pl_sig pl) crc (blen body)) ++ body in
  blen blocks + blen tail < two63 ->
  exists size, size + blen crc = blen blocks + blen tail + 4 /\
    let e := layout_header size (blen blocks) true ++ blocks ++ tail in
    written (pkt_write_all (mk_packet bs (Some pl))) e /\ (size <= blen blocks + blen tail -> any_enc P (mk_packet bs (Some pl)) size e).
Proof.
  intros HB HP blocks tail HL.
  set (size := blen blocks + (blen body + pl_header_ssize pl)).
  assert (EH : hdr_new (mk_packet bs (Some pl)) = Ok (mkh size (blen blocks) true)).
  { unfold hdr_new. cbn [p_blocks p_payload]. rewrite (blocks_len_sum _ _ HB). unfold payload_size. rewrite (pl_size_ok _ _ _ _ HP). reflexivity. }
  exists size. split.
  - unfold size, tail, pl_header_ssize, pl_crc_size. rewrite !blen_app. unfold ph_bytes. rewrite !blen_app, blen_le4, !blen1. cbn [ph_sig ph_crc ph_len]. lia.
  - cbv zeta. split.
    + unfold written, pkt_write_all. rewrite EH. cbn [sbind]. rewrite sink_write_all_nil. cbn [sbind p_blocks p_payload]. rewrite write_all_blocks_nil. cbn [sbind].
      rewrite (pl_write_all_ok _ _ _ _ HP). rewrite mkh_bytes. cbn [app]. now rewrite <- !app_assoc.
    + intros LE. exists tail. cbn [p_blocks p_payload]. split; [exact HB|]. split; [eauto|]. auto.
Qed.

(** What every reader does with a packet whose payload has a checksum of more than four bytes. *)
Lemma long_read {S} (R : reader S) view okst (L : lawful R view okst) P (bs : list block) pl body crc size s rest :
  proto_ok P -> Forall (block_ok (pr_blocks P)) bs -> payload_ok (pr_kinds P) pl body crc -> (length bs <= 256)%nat ->
  let blocks := concat (map bk_encode bs) in let tail := ph_bytes (mk_pheader (pl_sig pl) crc (blen body)) ++ body in
  blen blocks + blen tail < two63 -> size < blen blocks + blen tail -> blen blocks <= size ->
  okst s -> view s = (layout_header size (blen blocks) true ++ blocks ++ tail) ++ rest ->
  exists s', pkt_read R P s = (Err (EIo UnexpectedEof), s') /\ okst s' /\ view s' = skipn (N.to_nat (size - blen blocks)) tail ++ rest.
Proof.
  intros HP HB HPL H256 blocks tail HL LT GE O V. rewrite <- !app_assoc in V.
  destruct (hdr_read_rt R view okst (lawful_okl _ _ _ L) s _ _ _ _ O V) as (s1 & E1 & V1 & O1); try (apply two63_64; lia).
  unfold pkt_read. rewrite E1. cbn [sbind mkh h_size h_blocks_len h_payload].
  unfold alloc. replace (size <? two63) with true by lia. cbn [sbind].
  set (k := N.to_nat (size - blen blocks)) in *.
  assert (LK : (k < length tail)%nat) by (unfold k, blen in *; lia).
  destruct (lw_ok _ _ _ L size s1 (blocks ++ firstn k tail) (skipn k tail ++ rest) O1) as (s2 & E2 & V2 & O2).
  { rewrite V1, <- app_assoc. f_equal. now rewrite app_assoc, firstn_skipn. }
  { rewrite blen_app. unfold blen at 2. rewrite firstn_length. unfold k, blen in *. lia. }
  rewrite E2. cbn [sbind]. unfold of_slice. exists s2. split; [|auto].
  assert (EB : (if 0 <? blen blocks
          then blocks_loop_buf block_fuel (pr_blocks P) (blen blocks) 0 [] (mk_bufsrc (blocks ++ firstn k tail) [])
          else (Ok (Success []), mk_bufsrc (blocks ++ firstn k tail) [])) = (Ok (Success bs), mk_bufsrc (firstn k tail) [])).
  { destruct (0 <? blen blocks) eqn:EZ.
    - unfold blocks. rewrite loop_buf_rt; auto; [apply HP|]. intros Q. unfold blocks in EZ. rewrite Q in EZ. easy.
    - pose proof (enc_blocks_zero _ _ HB EZ) as Q. unfold blocks. rewrite Q. reflexivity. }
  rewrite EB. rewrite (payload_cut _ _ _ _ _ (proj2 HP) HPL); [reflexivity|]. fold tail.
  exists (skipn k tail). split; [|symmetry; apply firstn_skipn]. intros C. apply (f_equal (@length byte)) in C. rewrite skipn_length in C. cbn [length] in C. lia.
Qed.
End Long.
