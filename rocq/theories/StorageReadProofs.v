(** * Reading a storage: iterators, [nth], ranges, filters. *)
From Coq Require Import ZifyBool ZifyNat ZifyN.
From Verif Require Import Base Crc32 Io File Block Payload Packet Rules Slot Storage StreamReader Spec SpecStorage BaseProofs CrcProofs BlockProofs PayloadProofs PacketProofs PacketSafeProofs RulesProofs StreamItemProofs SlotProofs StorageProofs.
Ltac Zify.zify_post_hook ::= Z.div_mod_to_equations.
Open Scope list_scope.
Local Notation C := default_capacity.

Definition sound (gs : list (list bytes)) : Prop := Forall (fun g => filled g /\ g <> []) gs.
Lemma sound_filled gs : sound gs -> Forall filled gs.
Proof. apply Forall_impl. tauto. Qed.
Lemma shaped_sound fs l : shaped fs l -> nonempty_all (concat fs ++ l) -> sound (gro fs l).
Proof.
  intros SH NE. pose proof (shaped_filled _ _ SH NE) as F. unfold sound. rewrite Forall_forall in *. intros g I. split; [now apply F|].
  destruct SH as (S1 & S2). unfold gro in I. apply in_app_iff in I as [I|I].
  - rewrite Forall_forall in S1. apply S1 in I. intros ->. pose proof cap_pos. cbn [length] in I. lia.
  - destruct l; [contradiction I|]. destruct I as [<-|[]]. discriminate.
Qed.

(** ** Iterators *)
Record it_ok (es1 : list bytes) (gs : list (list bytes)) (t : siter) : Prop := {
  io_slots : exists ex, t_slots t = map (fun g => lsl (map blen g)) gs ++ ex /\ (ex = [] \/ ex = [lsl []]);
  io_src : gs = [] \/ exists A J, t_off t = blen A /\ c_data (t_src t) = A ++ files gs ++ J /\ blen (A ++ files gs) < two63;
  io_buf : c_rest (t_buf t) = concat es1 /\ c_ok (t_buf t) /\ nonempty_all es1;
  io_gs : sound gs }.

Lemma concat_nil_inv es : nonempty_all es -> concat es = [] -> es = [].
Proof. intros N. destruct N as [|e es NE N]; [reflexivity|]. cbn [concat]. destruct e; [contradiction|discriminate]. Qed.

Lemma width_pos g : filled g -> g <> [] -> slot_width (lsl (map blen g)) = blen (concat g) /\ 0 < blen (concat g).
Proof.
  intros F NE. pose proof (filled_good _ F) as (L & P). unfold lsl. rewrite tab_width, concat_blen by assumption. split; [reflexivity|].
  destruct g as [|e g]; [contradiction|]. cbn [map sum fold_right]. inversion P; subst. lia.
Qed.

Lemma fetch_ok A B X t : c_data (t_src t) = A ++ X ++ B -> blen X < two63 ->
  exists c, t_fetch (blen A, blen A + blen X) t = (Ok tt, mk_siter (t_off t) (t_slots t) c (mk_cursor X 0)) /\ c_data c = c_data (t_src t).
Proof.
  intros D LX. unfold t_fetch. replace (blen A + blen X <? blen A) with false by lia. replace (blen A + blen X - blen A) with (blen X) by lia. unfold alloc.
  replace (blen X <? two63) with true by lia. cbn [sbind].
  destruct (c_at A (X ++ B) _ (blen A) D eq_refl _ eq_refl) as (V & O & D').
  destruct (cursor_read_ok _ _ _ O V) as (E & _). rewrite E. eexists. split; [reflexivity|]. cbn [c_seek c_data]. reflexivity.
Qed.
Lemma cursor_start X : c_rest (mk_cursor X 0) = X /\ c_ok (mk_cursor X 0).
Proof. unfold c_rest, c_ok, c_len. cbn [c_pos c_data]. replace (0 <=? blen X) with true by lia. split; [reflexivity|lia]. Qed.

Lemma ready_ok es1 gs t : it_ok es1 gs t ->
  (es1 ++ concat gs = [] /\ exists t', t_ready t = (None, t') /\ it_ok [] [] t') \/
  (exists e es' gs' t', t_ready t = (Some (Ok tt), t') /\ it_ok (e :: es') gs' t' /\ es1 ++ concat gs = e :: es' ++ concat gs' /\
     (length (c_data (t_src t')) = length (c_data (t_src t)))).
Proof.
  intros [(ex & S & EX) SRC (V & O & N1) SG]. unfold t_ready. rewrite V. destruct es1 as [|e es1].
  - cbn [concat app]. unfold t_locate. rewrite S. destruct gs as [|g gs]; cbn [map app].
    + left. split; [reflexivity|]. destruct EX as [->| ->].
      * exists t. split; [reflexivity|]. split; auto. exists []. auto.
      * rewrite <- lsl_default. change (slot_width default_slot =? 0) with true. eexists. split; [reflexivity|]. split; auto. exists []. auto.
    + right. inversion SG as [|? ? (Hf & Hn) SG']; subst. destruct (width_pos g Hf Hn) as (W & WP). rewrite W.
      replace (blen (concat g) =? 0) with false by lia. destruct SRC as [Q|(A & J & EO & D & B)]; [discriminate|].
      assert (slot_size (lsl (map blen g)) = tsz) as SZ by (unfold lsl; rewrite tab_size; apply tsz_eq). rewrite SZ, EO.
      change (files (g :: gs)) with (gfile g ++ files gs) in *. unfold gfile in D, B. rewrite <- !app_assoc in D, B. rewrite !blen_app in B.
      assert (blen (slot_table (map blen g)) = tsz) as LT by (apply slot_table_length; rewrite map_length; apply Hf).
      set (t1 := mk_siter _ _ _ _). assert (c_data (t_src t1) = (A ++ slot_table (map blen g)) ++ concat g ++ files gs ++ J) as D1 by (unfold t1; cbn [t_src]; rewrite D, <- !app_assoc; reflexivity).
      destruct (fetch_ok _ _ _ t1 D1 ltac:(lia)) as (c & E & DC).
      rewrite blen_app, LT in E. replace (blen A + blen (concat g) + tsz) with (blen A + tsz + blen (concat g)) by lia. rewrite E.
      destruct g as [|e g]; [contradiction|]. exists e, g, gs. eexists. split; [reflexivity|]. split; [split; cbn [t_slots t_src t_buf t_off]|].
      * exists ex. split; [reflexivity|exact EX].
      * right. exists (A ++ slot_table (map blen (e :: g)) ++ concat (e :: g)), J. split; [|split].
        -- unfold t1. cbn [t_off]. rewrite !blen_app, LT. lia.
        -- rewrite DC, D1, <- !app_assoc. reflexivity.
        -- rewrite !blen_app. lia.
      * destruct (cursor_start (concat (e :: g))). destruct Hf as (_ & Hf). auto.
      * exact SG'.
      * split; [reflexivity|]. cbn [t_src]. rewrite DC. reflexivity.
  - right. cbn [concat] in *. inversion N1; subst. destruct (e ++ concat es1) as [|b r] eqn:E.
    + destruct e; [contradiction|discriminate].
    + exists e, es1, gs, t. split; [reflexivity|]. split; [|split; reflexivity]. split; auto; [now exists ex|]. cbn [concat]. rewrite E. auto.
Qed.

Section Reading.
Context {U : Type} (P : proto U) (HP : proto_ok P).
Implicit Types (p : packet U) (rs : rules U).

Definition few p : Prop := (length (p_blocks p) <= 256)%nat.

Lemma with_buf es1 es2 gs t b : it_ok es1 gs t -> c_rest b = concat es2 -> c_ok b -> nonempty_all es2 -> it_ok es2 gs (mk_siter (t_off t) (t_slots t) (t_src t) b).
Proof. intros [A B _ D] V O N. split; auto. Qed.

Lemma iter_yields ps : forall es1 gs t es, it_ok es1 gs t -> es1 ++ concat gs = es -> Forall2 (packet_enc P) ps es -> Forall few ps ->
  yields (t_next P) t (map Ok ps).
Proof.
  induction ps as [|p ps IH]; intros es1 gs t es OK EE FE FW; inversion FE; subst; cbn [map];
    (destruct (ready_ok _ _ _ OK) as [(Z & t' & R & _)|(e' & es' & gs' & t' & R & OK' & EE & _)]; [try congruence|try congruence]).
  - apply yields_end with t'. unfold t_next. now rewrite R.
  - rewrite EE in *. match goal with H : _ :: _ = _ :: _ |- _ => injection H as -> -> end.
    inversion FW as [|? ? Hw FW']; subst. destruct (io_buf _ _ _ OK') as (V & O & N). cbn [concat] in V.
    match goal with H : packet_enc P p _ |- _ => destruct (pkt_read_rt cursor_reader c_rest c_ok (lawful_okl _ _ _ cursor_lawful) P p e' (t_buf t') (concat es') HP H Hw O V) as (b & EB & VB & OB) end.
    eapply yields_next.
    + unfold t_next. rewrite R, EB. reflexivity.
    + eapply IH; [|reflexivity| |exact FW']; [|eassumption]. inversion N; subst. eapply with_buf; eauto.
Qed.

Lemma passes_spec {S} (R : reader S) view okst rs p e s rest : lawful R view okst -> NoDup (map id_of rs) -> packet_enc P p e -> okst s -> view s = e ++ rest ->
  exists s', view s' = rest /\ okst s' /\
    ((accepts P rs p /\ exists n, filtered R P rs s = (Ok (Accepted n p), s')) \/ (~ accepts P rs p /\ exists n, filtered R P rs s = (Ok (Denied n), s'))).
Proof.
  intros L ND HE O V. pose proof HE as (tail & _ & HT & _). destruct (raw_body_ex P p tail HT) as (body & RB).
  destruct (filtered_rt R view okst (lawful_okl _ _ _ L) P rs p e s rest body HP HE RB O V) as (s' & E & V' & O').
  exists s'. split; [exact V'|]. split; [exact O'|]. rewrite E. fold (passes rs p body).
  pose proof (passes_accepts P rs p body ND RB) as PA. destruct (passes rs p body).
  - left. split; [now apply PA|eauto].
  - right. split; [intros A; apply PA in A; discriminate|eauto].
Qed.

Lemma next_filtered rs ps : NoDup (map id_of rs) -> forall ks, kept P rs ps ks -> forall fuel es1 gs t es,
  it_ok es1 gs t -> es1 ++ concat gs = es -> Forall2 (packet_enc P) ps es -> (length ps < fuel)%nat ->
  match ks with
  | [] => exists t', t_next_filtered_go fuel P rs t = (None, t')
  | k :: ks' => exists t' ps' es1' gs', t_next_filtered_go fuel P rs t = (Some (Ok k), t') /\ it_ok es1' gs' t' /\
      Forall2 (packet_enc P) ps' (es1' ++ concat gs') /\ kept P rs ps' ks'
  end.
Proof.
  intros ND. induction ps as [|p ps IH]; intros ks K fuel es1 gs t es OK EE FE LF; (destruct fuel as [|fuel]; [lia|]);
    inversion FE; subst; cbn [t_next_filtered_go];
    (destruct (ready_ok _ _ _ OK) as [(Z & t' & R & _)|(e' & es' & gs' & t' & R & OK' & EE & _)]; [try congruence|try congruence]).
  - inversion K; subst. rewrite R. eauto.
  - rewrite EE in *. match goal with H : _ :: _ = _ :: _ |- _ => injection H as -> -> end. rewrite R.
    destruct (io_buf _ _ _ OK') as (V & O & N). cbn [concat] in V. inversion N; subst.
    match goal with H : packet_enc P p _ |- _ => destruct (passes_spec cursor_reader c_rest c_ok rs p e' (t_buf t') (concat es') cursor_lawful ND H O V) as (b & VB & OB & D) end.
    assert (it_ok es' gs' (mk_siter (t_off t') (t_slots t') (t_src t') b)) as OK2 by (eapply with_buf; eauto).
    inversion K; subst; (destruct D as [(AC & n & E)|(AC & n & E)]; [try contradiction|try contradiction]); rewrite E.
    + eexists _, ps, es', gs'. split; [reflexivity|]. auto.
    + eapply IH; [eassumption|exact OK2|reflexivity|assumption|]. cbn [length] in LF. lia.
Qed.

Lemma encs_length ps es : Forall2 (packet_enc P) ps es -> length ps = length es.
Proof. induction 1; cbn [length]; congruence. Qed.
Lemma enc_len p e : packet_enc P p e -> (29 <= length e)%nat.
Proof. intros (tail & _ & _ & _ & ->). rewrite app_length, layout_length. lia. Qed.
Lemma encs_len ps es : Forall2 (packet_enc P) ps es -> (length ps <= length (concat es))%nat.
Proof. induction 1 as [|p e ps es H F IH]; [apply Nat.le_0_l|]. cbn [length concat]. rewrite app_length. apply enc_len in H. lia. Qed.

Lemma it_fuel es1 gs t : it_ok es1 gs t -> (length (concat (es1 ++ concat gs)) <= length (c_data (t_src t)) + length (c_data (t_buf t)))%nat.
Proof.
  intros [_ SRC (V & O & _) SG]. rewrite concat_app, app_length.
  assert (length (concat es1) <= length (c_data (t_buf t)))%nat as A1.
  { rewrite <- V. pose proof (c_rest_len _ O) as Q. unfold c_len, blen in Q. lia. }
  destruct SRC as [->|(A & J & _ & D & _)]; [cbn [concat length]; lia|]. rewrite D, !app_length.
  assert (length (concat (concat gs)) <= length (files gs))%nat; [|lia].
  clear. induction gs as [|g gs IH]; [apply le_n|]. change (files (g :: gs)) with (gfile g ++ files gs). cbn [concat]. rewrite concat_app. unfold gfile. rewrite !app_length. lia.
Qed.

Lemma filtered_yields rs ks : NoDup (map id_of rs) -> forall ps es1 gs t, kept P rs ps ks -> it_ok es1 gs t ->
  Forall2 (packet_enc P) ps (es1 ++ concat gs) -> yields (t_next_filtered P rs) t (map Ok ks).
Proof.
  intros ND. induction ks as [|k ks IH]; intros ps es1 gs t K OK FE;
    assert (length ps < length (c_data (t_src t)) + length (c_data (t_buf t)) + length (t_slots t) + 1)%nat as FU
      by (pose proof (encs_len _ _ FE); pose proof (it_fuel _ _ _ OK); lia);
    pose proof (next_filtered rs ps ND _ K _ es1 gs t _ OK eq_refl FE FU) as Q; cbv iota in Q.
  - destruct Q as (t' & E). apply yields_end with t'. exact E.
  - destruct Q as (t' & ps' & es1' & gs' & E & OK' & FE' & K'). eapply yields_next; [exact E|]. now apply (IH ps' es1' gs').
Qed.

(** ** The reader *)
Record d_ok (es : list bytes) (r : sreader U) : Prop := {
  do_ex : exists fs l J, shaped fs l /\ es = concat fs ++ l /\ d_slots r = anch 0 (gro fs l) /\
    c_data (d_file r) = files (gro fs l) ++ J /\ lc_next (d_loc r) = length fs;
  do_bytes : nonempty_all es;
  do_size : blen (storage_file es) < two63 }.

Lemma open_reader_tail es J : nonempty_all es -> blen (storage_file es) < two63 -> blen J < 16 ->
  exists r : sreader U, d_open (storage_file es ++ J) = Ok r /\ d_ok es r /\ d_rules r = [].
Proof.
  intros NE B LJ. destruct (decompose es) as (fs & l & SH & EE). subst es. pose proof B as B'. rewrite storage_shaped in * by exact SH.
  destruct (load_tail (gro fs l) J (mk_cursor (files (gro fs l) ++ J) 0)) as (c' & E & D'); [reflexivity|now apply shaped_filled|exact B|exact LJ|].
  unfold d_open. rewrite E. eexists. split; [reflexivity|]. split; [|reflexivity]. split; auto; cbn [d_slots d_file d_loc].
  - exists fs, l, J. split; [exact SH|]. split; [reflexivity|]. split; [reflexivity|]. split; [exact D'|].
    destruct (shaped_full _ _ SH NE) as (A1 & A2 & A3). rewrite anch_fst. erewrite setup_mem; [|exact A1|exact A2|exact A3|apply gro_slots]. cbn [at_loc lc_next]. apply map_length.
  - now rewrite storage_shaped.
Qed.
Lemma open_reader es data : data = storage_file es -> nonempty_all es -> blen data < two63 -> exists r : sreader U, d_open data = Ok r /\ d_ok es r /\ d_rules r = [].
Proof.
  intros -> NE B. destruct (open_reader_tail es [] NE B ltac:(reflexivity)) as (r & E & Q). rewrite app_nil_r in E. eauto.
Qed.

Lemma length_concat_full {A} (fs : list (list A)) : Forall (fun g => length g = C) fs -> length (concat fs) = (length fs * C)%nat.
Proof. induction 1 as [|g fs H F IH]; [reflexivity|]. cbn [concat length]. rewrite app_length, IH, H. lia. Qed.

Lemma nth_anch gs : forall off i, nth_error (anch off gs) i =
  match nth_error gs i with Some g => Some (lsl (map blen g), off + gszs (map (map blen) (firstn i gs))) | None => None end.
Proof.
  induction gs as [|g gs IH]; intros off [|i]; cbn [anch nth_error]; try reflexivity.
  - unfold gszs. cbn [firstn map sum fold_right]. now rewrite N.add_0_r.
  - rewrite IH. destruct (nth_error gs i); [|reflexivity]. change (gszs (map (map blen) (firstn (S i) (g :: gs)))) with (gsz (map blen g) + gszs (map (map blen) (firstn i gs))).
    do 2 f_equal. lia.
Qed.

Lemma count_ok es r : d_ok es r -> d_count r = length es.
Proof.
  intros [(fs & l & J & SH & -> & DS & _ & DL) NE _]. unfold d_count. rewrite DL, DS, nth_anch.
  destruct (shaped_full _ _ SH NE) as (_ & A2 & A3). destruct SH as (F & L). rewrite app_length, length_concat_full, anch_length by exact F.
  unfold gro. destruct l as [|x l].
  - rewrite app_nil_r. replace (nth_error fs (length fs)) with (@None (list bytes)) by (symmetry; now apply nth_error_None). cbn [length]. lia.
  - rewrite nth_mid. unfold lsl. rewrite tab_free_index by (auto; lia). replace (length (map blen (x :: l)) <? C)%nat with true by lia. now rewrite map_length.
Qed.

(** Where an element of a storage is. *)
Lemma place_split gs i j g e : nth_error gs i = Some g -> nth_error g j = Some e -> Forall small gs -> exists A B,
  files gs = A ++ e ++ B /\ blen A = gszs (map (map blen) (firstn i gs)) + (sum (firstn j (map blen g)) + tsz).
Proof.
  intros N1 N2 SM. apply nth_error_split in N1 as (g1 & g2 & -> & <-). apply nth_error_split in N2 as (e1 & e2 & -> & <-).
  rewrite firstn_app_exact by reflexivity. apply Forall_app in SM as (S1 & S2). inversion S2 as [|? ? Sg S3]; subst.
  exists (files g1 ++ slot_table (map blen (e1 ++ e :: e2)) ++ concat e1), (concat e2 ++ files g2). split.
  - rewrite files_app. change (files ((e1 ++ e :: e2) :: g2)) with (gfile (e1 ++ e :: e2) ++ files g2). unfold gfile. rewrite concat_app. cbn [concat]. now rewrite <- !app_assoc.
  - rewrite !blen_app, files_blen, slot_table_length, concat_blen by (auto; now rewrite map_length). rewrite map_app, firstn_app_exact by now rewrite map_length. lia.
Qed.

Lemma nth_groups {A} (fs : list (list A)) l n : shaped fs l ->
  nth_error (concat fs ++ l) n = match nth_error (gro fs l) (n / C) with Some g => nth_error g (n mod C) | None => None end.
Proof.
  intros (F & L). pose proof cap_pos as CP. revert n. induction F as [|g fs Hg F IH]; intros n.
  - cbn [concat app]. unfold gro. cbn [app]. destruct (Nat.lt_ge_cases n C) as [H|H].
    + rewrite Nat.div_small, Nat.mod_small by exact H. destruct l; cbn [nth_error]; [now destruct n|reflexivity].
    + assert (nth_error l n = None) as -> by (apply nth_error_None; lia).
      assert (1 <= n / C)%nat as Q by (apply Nat.div_le_lower_bound; lia). destruct (n / C)%nat as [|k]; [lia|].
      destruct l; [reflexivity|]. cbn [nth_error]. now destruct k.
  - cbn [concat]. rewrite <- app_assoc. unfold gro in *. cbn [app]. destruct (Nat.lt_ge_cases n C) as [H|H].
    + rewrite Nat.div_small, Nat.mod_small by exact H. cbn [nth_error]. apply nth_error_app1. lia.
    + rewrite nth_error_app2 by lia. rewrite Hg, IH.
      assert (n / C = S ((n - C) / C))%nat as -> by (replace n with ((n - C) + 1 * C)%nat at 1 by lia; rewrite Nat.div_add by lia; lia).
      assert (n mod C = (n - C) mod C)%nat as -> by (replace n with ((n - C) + 1 * C)%nat at 1 by lia; rewrite Nat.mod_add by lia; reflexivity).
      reflexivity.
Qed.

Lemma sum_anch gs : Forall filled gs -> forall off, sum (map (fun s : slot * N => slot_width (fst s) + slot_size (fst s)) (anch off gs)) = gszs (map (map blen) gs).
Proof.
  induction 1 as [|g gs H F IH]; intros off; cbn [anch map sum fold_right]; [reflexivity|]. fold (sum (map (fun s : slot * N => slot_width (fst s) + slot_size (fst s)) (anch (off + gsz (map blen g)) gs))).
  rewrite IH. cbn [fst]. rewrite N.add_comm with (n := slot_width _), lsl_total by now apply filled_good. reflexivity.
Qed.
Lemma firstn_anch gs : forall off i, firstn i (anch off gs) = anch off (firstn i gs).
Proof. induction gs as [|g gs IH]; intros off [|i]; cbn [anch firstn]; try reflexivity. now rewrite IH. Qed.

Lemma place_ok es r n : d_ok es r ->
  match nth_error es n with
  | None => d_place n r = Ok None
  | Some e => exists A B, d_place n r = Ok (Some (blen A)) /\ c_data (d_file r) = A ++ e ++ B
  end.
Proof.
  intros [(fs & l & J & SH & -> & DS & DD & _) NE SB]. pose proof (shaped_filled _ _ SH NE) as FF. pose proof (shaped_small _ _ SH) as SM.
  rewrite nth_groups by exact SH. unfold d_place. rewrite DS, nth_anch. destruct (nth_error (gro fs l) (n / C)) as [g|] eqn:EG; [|reflexivity].
  assert (filled g) as FG by (rewrite Forall_forall in FF; apply FF; eapply nth_error_In; eauto).
  destruct (filled_good _ FG) as (G1 & G2). assert (n mod C < C)%nat as MC by (apply Nat.mod_upper_bound; pose proof cap_pos; lia).
  assert (slot_is_empty (n mod C) (lsl (map blen g)) = Ok (negb (n mod C <? length g)%nat)) as EM.
  { unfold lsl. rewrite tab_is_empty by assumption. now rewrite map_length. }
  destruct (nth_error g (n mod C)) as [e|] eqn:EE; rewrite EM; cbn [rbind].
  - assert (n mod C < length g)%nat as LJ by (apply nth_error_Some; congruence).
    replace (n mod C <? length g)%nat with true by lia. cbn [negb]. unfold lsl. rewrite tab_offset by (rewrite ?map_length in *; assumption).
    destruct (place_split _ _ _ _ _ EG EE SM) as (A & B & E1 & E2). exists A, (B ++ J). split; [|rewrite DD, E1, <- !app_assoc; reflexivity].
    rewrite firstn_anch, sum_anch, E2, tsz_eq by (apply Forall_forall; intros x I; rewrite Forall_forall in FF; apply FF; rewrite <- (firstn_skipn (n / C) (gro fs l)); apply in_app_iff; auto).
    assert (blen A < two64) as BA by (rewrite storage_shaped in SB by exact SH; rewrite E1, blen_app in SB; unfold two63, two64 in *; lia).
    cbv zeta. rewrite <- E2. match goal with |- context [two64 <=? ?x] => replace x with (blen A) by lia end. now replace (two64 <=? blen A) with false by lia.
  - apply nth_error_None in EE. replace (n mod C <? length g)%nat with false by lia. reflexivity.
Qed.

Lemma with_file es r c : d_ok es r -> c_data c = c_data (d_file r) -> d_ok es (d_with_file c r).
Proof. intros [(fs & l & J & A1 & A2 & A3 & A4 & A5) B1 B2] D. split; auto; cbn [d_with_file d_slots d_file d_loc]. exists fs, l, J. rewrite D. auto. Qed.

Lemma enc_nth ps es n : Forall2 (packet_enc P) ps es ->
  match nth_error ps n with
  | Some p => exists e, nth_error es n = Some e /\ packet_enc P p e
  | None => nth_error es n = None
  end.
Proof.
  intros F. revert n. induction F as [|p e ps es H F IH]; intros [|n]; cbn [nth_error]; try reflexivity; [eauto|apply IH].
Qed.

Lemma nth_ok ps es r n : d_ok es r -> Forall2 (packet_enc P) ps es -> Forall few ps ->
  exists r', d_nth P n r = (Ok (nth_error ps n), r') /\ d_ok es r' /\ d_rules r' = d_rules r.
Proof.
  intros OK FE FW. pose proof (enc_nth ps es n FE) as EN. pose proof (place_ok es r n OK) as PL. unfold d_nth.
  destruct (nth_error ps n) as [p|] eqn:EP.
  - destruct EN as (e & EE & HE). rewrite EE in PL. destruct PL as (A & B & E1 & D). rewrite E1. cbn [sbind].
    destruct (c_at A (e ++ B) _ (blen A) D eq_refl _ eq_refl) as (V & O & D').
    assert (few p) as Hw by (rewrite Forall_forall in FW; apply FW; eapply nth_error_In; eauto).
    destruct (pkt_try_read_rt P p e _ B HP HE Hw O V) as (E2 & _ & _). rewrite E2. cbn [rbind].
    eexists. split; [reflexivity|]. split; [|reflexivity]. apply with_file; [exact OK|reflexivity].
  - rewrite EN in PL. rewrite PL. cbn [sbind]. eauto.
Qed.

Lemma range_yields ps es len : forall r from, d_ok es r -> Forall2 (packet_enc P) ps es -> Forall few ps ->
  yields (g_next P) (mk_ranged r len from) (map Ok (firstn len (skipn from ps))).
Proof.
  induction len as [|len IH]; intros r from OK FE FW.
  - cbn [firstn map]. eapply yields_end. reflexivity.
  - destruct (nth_ok ps es r from OK FE FW) as (r' & E & OK' & _).
    destruct (nth_error ps from) as [p|] eqn:EP.
    + assert (skipn from ps = p :: skipn (S from) ps) as ->.
      { apply nth_error_split in EP as (a & b & -> & <-). rewrite skipn_app_exact by reflexivity. change (p :: b) with ([p] ++ b). rewrite app_assoc, skipn_app_exact; [reflexivity|]. rewrite app_length. cbn [length]. lia. }
      cbn [firstn map]. eapply yields_next.
      * unfold g_next. cbn [g_len g_from g_reader]. rewrite E. reflexivity.
      * now apply IH.
    + apply nth_error_None in EP. rewrite skipn_all2 by exact EP. cbn [firstn map]. eapply yields_end. unfold g_next. cbn [g_len g_from g_reader]. rewrite E. reflexivity.
Qed.

(** A cursor stays on its data. *)
Lemma cursor_lawful_on D : lawful cursor_reader c_rest (fun c => c_ok c /\ c_data c = D).
Proof.
  split.
  - intros n c a b (O & ED) V L. destruct (lw_ok _ _ _ cursor_lawful n c a b O V L) as (c' & E & V' & O').
    exists c'. split; [exact E|]. split; [exact V'|]. split; [exact O'|]. apply cursor_exact_data in E. congruence.
  - intros n c (O & _) L. exact (lw_short _ _ _ cursor_lawful n c O L).
Qed.

Lemma nth_filtered_ok ps es r n : d_ok es r -> NoDup (map id_of (d_rules r)) -> Forall2 (packet_enc P) ps es ->
  exists r' o, d_nth_filtered P n r = (Ok o, r') /\ d_ok es r' /\ d_rules r' = d_rules r /\ d_slots r' = d_slots r /\
    match nth_error ps n, o with
    | None, None => True
    | Some p, Some (Accepted _ q) => q = p /\ accepts P (d_rules r) p
    | Some p, Some (Denied _) => ~ accepts P (d_rules r) p
    | _, _ => False
    end.
Proof.
  intros OK ND FE. pose proof (enc_nth ps es n FE) as EN. pose proof (place_ok es r n OK) as PL. unfold d_nth_filtered.
  destruct (nth_error ps n) as [p|] eqn:EP.
  - destruct EN as (e & EE & HE). rewrite EE in PL. destruct PL as (A & B & E1 & D). rewrite E1. cbn [sbind].
    destruct (c_at A (e ++ B) _ (blen A) D eq_refl _ eq_refl) as (V & O & D').
    destruct (passes_spec cursor_reader c_rest _ (d_rules r) p e _ B (cursor_lawful_on (c_data (d_file r))) ND HE (conj O eq_refl) V) as (c' & _ & (_ & DC) & [(AC & m & E)|(AC & m & E)]);
      rewrite E; cbn [rbind]; eexists _, _; (split; [reflexivity|]); (split; [apply with_file; [exact OK|exact DC]|]); auto.
  - rewrite EN in PL. rewrite PL. cbn [sbind]. exists r, None. auto.
Qed.

Lemma skipn_nth {A} (l : list A) n x : nth_error l n = Some x -> skipn n l = x :: skipn (S n) l.
Proof.
  intros E. apply nth_error_split in E as (a & b & -> & <-). rewrite skipn_app_exact by reflexivity. change (x :: b) with ([x] ++ b).
  rewrite app_assoc, skipn_app_exact; [reflexivity|]. rewrite app_length. cbn [length]. lia.
Qed.

Lemma next_range_filtered ps es : Forall2 (packet_enc P) ps es -> forall fuel r len from ks, d_ok es r -> NoDup (map id_of (d_rules r)) ->
  kept P (d_rules r) (skipn from ps) ks -> (length ps - from < fuel)%nat ->
  match firstn len ks with
  | [] => exists g, g_next_filtered_go fuel P (mk_ranged r len from) = (None, g)
  | k :: _ => exists r' from' ks', g_next_filtered_go fuel P (mk_ranged r len from) = (Some (Ok k), mk_ranged r' (len - 1) from') /\
      d_ok es r' /\ d_rules r' = d_rules r /\ ks = k :: ks' /\ kept P (d_rules r) (skipn from' ps) ks' /\ d_slots r' = d_slots r
  end.
Proof.
  intros FE. induction fuel as [|fuel IH]; intros r len from ks OK ND K LF; [lia|]. cbn [g_next_filtered_go g_len g_from g_reader].
  destruct len as [|len]; [cbn [firstn]; eauto|].
  destruct (nth_filtered_ok ps es r from OK ND FE) as (r' & o & E & OK' & RU & SL & M). rewrite E.
  destruct (nth_error ps from) as [p|] eqn:EP.
  - assert (from < length ps)%nat as LP by (apply nth_error_Some; congruence). rewrite (skipn_nth _ _ _ EP) in K.
    destruct o as [[m q|m]|]; [| |contradiction M].
    + destruct M as (-> & AC). inversion K as [|? ? ks' _ K'|? ? ? NA _]; subst; [|contradiction]. cbn [firstn].
      exists r', (S from), ks'. rewrite Nat.sub_1_r. cbn [Nat.pred]. auto 7.
    + inversion K as [|? ? ? AC _|? ? ? _ K']; subst; [contradiction|].
      specialize (IH r' (S len) (S from) ks OK'). rewrite RU in IH. specialize (IH ND K' ltac:(lia)).
      destruct (firstn (S len) ks); [exact IH|]. destruct IH as (r2 & from' & ks' & A1 & A2 & A3 & A4 & A5 & A6). exists r2, from', ks'. rewrite A6, SL. auto 7.
  - apply nth_error_None in EP. rewrite skipn_all2 in K by exact EP. inversion K; subst. destruct o as [[]|]; try contradiction M.
    cbn [firstn]. eauto.
Qed.

Lemma es_slots es r : d_ok es r -> (length es <= length (d_slots r) * C)%nat.
Proof.
  intros [(fs & l & J & (F & L) & -> & -> & _) _ _]. rewrite app_length, anch_length, length_concat_full by exact F. unfold gro. rewrite app_length.
  destruct l; cbn [length] in *; lia.
Qed.

Lemma range_filtered_yields ps es : Forall2 (packet_enc P) ps es -> forall len r from ks, d_ok es r -> NoDup (map id_of (d_rules r)) ->
  kept P (d_rules r) (skipn from ps) ks -> yields (g_next_filtered P) (mk_ranged r len from) (map Ok (firstn len ks)).
Proof.
  intros FE. induction len as [|len IH]; intros r from ks OK ND K;
  assert (length ps - from < length (d_slots r) * C + 1)%nat as FU
      by (pose proof (es_slots _ _ OK); pose proof (encs_length _ _ FE); lia).
  - cbn [firstn map]. eapply yields_end. unfold g_next_filtered. cbn [g_reader]. rewrite Nat.add_1_r. cbn [g_next_filtered_go g_len]. reflexivity.
  - pose proof (next_range_filtered ps es FE _ r (S len) from ks OK ND K FU) as Q.
    destruct ks as [|k ks]; cbn [firstn map] in *.
    + destruct Q as (g & E). eapply yields_end. unfold g_next_filtered. exact E.
    + destruct Q as (r' & from' & ks' & E & OK' & RU & EK & K' & _). injection EK as <-. eapply yields_next.
      * unfold g_next_filtered. exact E.
      * rewrite Nat.sub_1_r. cbn [Nat.pred]. apply IH; [exact OK'|now rewrite RU|now rewrite RU].
Qed.

(** ** [seek] *)
Lemma lsl_count lens : pos_all lens -> slot_count (lsl lens) = length lens.
Proof. apply tab_count. Qed.
Lemma lsl_used i lens : pos_all lens -> slot_is_used i (lsl lens) = (i <? length lens)%nat.
Proof. apply tab_is_used. Qed.
Lemma lsl_offset_of i lens : pos_all lens -> (i < length lens)%nat -> slot_offset_of i (lsl lens) = Some (sum (firstn i lens)).
Proof. apply tab_offset_of. Qed.
Lemma lsl_size lens : slot_size (lsl lens) = tsz.
Proof. unfold lsl. rewrite tab_size. apply tsz_eq. Qed.
Lemma lsl_width lens : good lens -> slot_width (lsl lens) = sum lens.
Proof. intros (L & Q). now apply tab_width. Qed.
Lemma from_ok gs1 g gs2 j : Forall filled gs1 -> filled g -> (j < length g)%nat -> forall off idx packet, off + gszs (map (map blen) gs1) + tsz + sum (firstn j (map blen g)) < two64 ->
  t_from_go (map (fun g => lsl (map blen g)) (gs1 ++ g :: gs2)) off idx (length (concat gs1) + j) packet =
  (Ok (off + gszs (map (map blen) gs1) + tsz + sum (firstn j (map blen g)), off + gszs (map (map blen) gs1) + tsz + sum (map blen g)),
   (off + gszs (map (map blen) gs1), map (fun g => lsl (map blen g)) gs2)).
Proof.
  intros F HG LJ. destruct (filled_good _ HG) as (G1 & G2). induction F as [|h gs1 Hh F IH]; intros off idx packet BO; cbn [app map t_from_go concat length].
  - unfold gszs in *. cbn [map sum fold_right] in *. fold (sum (map blen g)). rewrite N.add_0_r, Nat.add_0_l.
    rewrite lsl_count, map_length by exact G2. replace (length g <=? j)%nat with false by lia.
    rewrite lsl_used, map_length by exact G2. replace (j <? length g)%nat with true by lia. cbn [negb].
    rewrite lsl_offset_of by (auto; now rewrite map_length). rewrite lsl_size, lsl_width by (split; assumption).
    rewrite N.add_0_r in BO. now replace (two64 <=? off + tsz + sum (firstn j (map blen g))) with false by lia.
  - destruct (filled_good _ Hh) as (H1 & H2). rewrite lsl_count, map_length by exact H2. rewrite app_length.
    replace (length h <=? length h + length (concat gs1) + j)%nat with true by lia. rewrite lsl_total by (split; assumption).
    replace (length h + length (concat gs1) + j - length h)%nat with (length (concat gs1) + j)%nat by lia.
    change (gszs (map (map blen) (h :: gs1))) with (gsz (map blen h) + gszs (map (map blen) gs1)) in BO. rewrite IH by (rewrite !N.add_assoc in *; exact BO). change (gszs (map blen h :: map (map blen) gs1)) with (gsz (map blen h) + gszs (map (map blen) gs1)).
    rewrite !N.add_assoc. reflexivity.
Qed.
Lemma from_out gs : Forall filled gs -> forall off idx target packet, (length (concat gs) <= target)%nat ->
  exists x, t_from_go (map (fun g => lsl (map blen g)) gs) off idx target packet =
    (Err (if (idx + length gs =? 0)%nat then EEmptySource else EOutOfBounds (N.of_nat ((idx + length gs) * C)) (N.of_nat packet)), x).
Proof.
  induction 1 as [|g gs Hg F IH]; intros off idx target packet L; cbn [map t_from_go]; [rewrite Nat.add_0_r; eauto|].
  destruct (filled_good _ Hg) as (H1 & H2). cbn [concat] in L. rewrite app_length in L. rewrite lsl_count, map_length by exact H2.
  replace (length g <=? target)%nat with true by lia. cbn [length]. rewrite <- Nat.add_succ_comm. apply IH. lia.
Qed.

Lemma gro_count {A} (fs : list (list A)) l : shaped fs l -> length (gro fs l) = ((length (concat fs ++ l) + (C - 1)) / C)%nat.
Proof.
  intros (F & L). unfold gro. rewrite !app_length, length_concat_full by exact F. rewrite cap_eq in *.
  destruct l as [|x l]; cbn [length] in *; lia.
Qed.

(** The announced bound is the number of slots times their capacity. *)
Lemma seek_out es r n : d_ok es r -> (length es <= n)%nat ->
  d_seek n r = Err (match es with [] => EEmptySource | _ => EOutOfBounds (N.of_nat ((length es + (C - 1)) / C * C)) (N.of_nat n) end).
Proof.
  intros [(fs & l & J & SH & -> & DS & _) NE _] L. unfold d_seek. rewrite DS, anch_fst. pose proof (gro_count fs l SH) as GC. rewrite <- concat_gro in *.
  destruct (from_out (gro fs l)) with (off := 0) (idx := O) (target := n) (packet := n) as ((x & y) & E); [apply shaped_filled; [exact SH|now rewrite concat_gro in NE]|exact L|].
  rewrite E. cbn [rbind Nat.add]. rewrite GC. destruct (concat (gro fs l)) as [|e es].
  - rewrite cap_eq. reflexivity.
  - replace (_ =? 0)%nat with false; [reflexivity|]. rewrite cap_eq. cbn [length]. lia.
Qed.

(** The slot of packet [n] is read; the iterator then stands at the start of that slot, not behind it. *)
Lemma seek_ok (r : sreader U) gs1 g gs2 j J : blen (files (gs1 ++ g :: gs2)) < two63 -> map fst (d_slots r) = map (fun g => lsl (map blen g)) (gs1 ++ g :: gs2) ->
  c_data (d_file r) = files (gs1 ++ g :: gs2) ++ J -> Forall filled (gs1 ++ g :: gs2) -> (j < length g)%nat ->
  exists c, d_seek (length (concat gs1) + j) r =
      Ok (mk_siter (gszs (map (map blen) gs1)) (map (fun g => lsl (map blen g)) gs2) c (mk_cursor (concat (skipn j g)) 0)) /\
    c_data c = c_data (d_file r).
Proof.
  intros SZ DS DD FF LJ. apply Forall_app in FF as (F1 & F2). inversion F2 as [|? ? Hg F3]; subst.
  assert (0 + gszs (map (map blen) gs1) + tsz + sum (firstn j (map blen g)) < two64) as BO.
  { rewrite files_app, blen_app in SZ. change (files (g :: gs2)) with (gfile g ++ files gs2) in SZ. unfold gfile in SZ. rewrite !blen_app, concat_blen in SZ.
    rewrite files_blen in SZ by (eapply Forall_impl; [|exact F1]; intros x Hx; apply Hx). rewrite slot_table_length in SZ by (rewrite map_length; apply Hg).
    rewrite <- (firstn_skipn j (map blen g)) in SZ at 1. rewrite sum_app in SZ. unfold two63, two64 in *. lia. }
  unfold d_seek. rewrite DS, from_ok by assumption. clear BO. cbn [rbind]. rewrite !N.add_0_l.
  set (t1 := mk_siter _ _ _ _).
  assert (Forall small gs1) as S1 by (eapply Forall_impl; [|exact F1]; intros x Hx; apply Hx).
  assert (blen (slot_table (map blen g)) = tsz) as LT by (apply slot_table_length; rewrite map_length; apply Hg).
  assert (files (gs1 ++ g :: gs2) = (files gs1 ++ slot_table (map blen g) ++ concat (firstn j g)) ++ concat (skipn j g) ++ files gs2) as EF.
  { rewrite files_app. change (files (g :: gs2)) with (gfile g ++ files gs2). unfold gfile. rewrite <- (firstn_skipn j g) at 2. rewrite concat_app, <- !app_assoc. reflexivity. }
  assert (c_data (t_src t1) = (files gs1 ++ slot_table (map blen g) ++ concat (firstn j g)) ++ concat (skipn j g) ++ files gs2 ++ J) as D1 by (unfold t1; cbn [t_src]; rewrite DD, EF, <- !app_assoc; reflexivity).
  rewrite EF, !blen_app in SZ. destruct (fetch_ok _ _ _ t1 D1 ltac:(lia)) as (c & E & DC).
  rewrite !blen_app, LT, files_blen, !concat_blen in E by exact S1.
  assert (sum (map blen g) = sum (map blen (firstn j g)) + sum (map blen (skipn j g))) as SS by (rewrite <- sum_app, <- map_app, firstn_skipn; reflexivity).
  rewrite firstn_map, SS.
  replace (gszs (map (map blen) gs1) + tsz + (sum (map blen (firstn j g)) + sum (map blen (skipn j g)))) with (gszs (map (map blen) gs1) + (tsz + sum (map blen (firstn j g))) + sum (map blen (skipn j g))) by lia.
  replace (gszs (map (map blen) gs1) + tsz + sum (map blen (firstn j g))) with (gszs (map (map blen) gs1) + (tsz + sum (map blen (firstn j g)))) by lia.
  rewrite E. cbn [rbind]. exists c. split; [reflexivity|exact DC].
Qed.

(** Group and index of a packet. *)
Lemma locate_group {A} (gs : list (list A)) : forall n, (n < length (concat gs))%nat -> exists gs1 g gs2 j,
  gs = gs1 ++ g :: gs2 /\ n = (length (concat gs1) + j)%nat /\ (j < length g)%nat.
Proof.
  induction gs as [|g gs IH]; intros n L; cbn [concat] in L; [cbn [length] in L; lia|]. rewrite app_length in L.
  destruct (Nat.lt_ge_cases n (length g)) as [H|H]; [exists [], g, gs, n; auto|].
  destruct (IH (n - length g)%nat ltac:(lia)) as (gs1 & h & gs2 & j & -> & E & LJ). exists (g :: gs1), h, gs2, j. cbn [concat]. rewrite app_length. split; [reflexivity|]. split; [lia|exact LJ].
Qed.
End Reading.
