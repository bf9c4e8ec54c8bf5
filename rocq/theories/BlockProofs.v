(** * Lemmas about blocks. *)
From Coq Require Import ZifyBool ZifyNat ZifyN.
From Verif Require Import Base Crc32 Io Block Spec BaseProofs CrcProofs.
Ltac Zify.zify_post_hook ::= Z.div_mod_to_equations.

(** ** Fields *)

Lemma pow256_z k : (k <> 0)%nat ->
  Z.of_N (pow256 k) = (2 * 2 ^ (8 * Z.of_nat k - 1))%Z.
Proof.
  intros H. unfold pow256. rewrite N2Z.inj_pow. simpl (Z.of_N 2).
  replace (Z.of_N (8 * N.of_nat k)) with (1 + (8 * Z.of_nat k - 1))%Z by lia.
  rewrite Z.pow_add_r by lia. reflexivity.
Qed.

Lemma z_roundtrip k z : (k <> 0)%nat ->
  (- 2 ^ (8 * Z.of_nat k - 1) <= z < 2 ^ (8 * Z.of_nat k - 1))%Z ->
  z_to_n k z < pow256 k /\ n_to_z k (z_to_n k z) = z.
Proof.
  intros Hk H. pose proof (pow256_z k Hk) as P.
  set (h := (2 ^ (8 * Z.of_nat k - 1))%Z) in *.
  assert (0 < h)%Z by (apply Z.pow_pos_nonneg; lia).
  unfold z_to_n, n_to_z. rewrite P.
  assert (B : (0 <= z mod (2 * h) < 2 * h)%Z) by (apply Z.mod_pos_bound; lia).
  split; [lia|].
  destruct (Z.le_gt_cases 0 z) as [Hz|Hz].
  - assert (E : (z mod (2 * h) = z)%Z) by (apply Z.mod_small; lia).
    rewrite E. replace (2 * Z.to_N z <? pow256 k) with true by lia. lia.
  - assert (E : (z mod (2 * h) = z + 2 * h)%Z).
    { symmetry. apply (Z.mod_unique _ _ (-1)); lia. }
    rewrite E. replace (2 * Z.to_N (z + 2 * h) <? pow256 k) with false by lia. lia.
Qed.

Lemma n_roundtrip k n : (k <> 0)%nat -> n < pow256 k ->
  (- 2 ^ (8 * Z.of_nat k - 1) <= n_to_z k n < 2 ^ (8 * Z.of_nat k - 1))%Z
  /\ z_to_n k (n_to_z k n) = n.
Proof.
  intros Hk H. pose proof (pow256_z k Hk) as P.
  set (h := (2 ^ (8 * Z.of_nat k - 1))%Z) in *.
  assert (0 < h)%Z by (apply Z.pow_pos_nonneg; lia).
  unfold z_to_n, n_to_z. rewrite P.
  destruct (2 * n <? pow256 k) eqn:C.
  - split; [lia|]. rewrite Z.mod_small; lia.
  - split; [lia|]. rewrite <- (Z.mod_unique (Z.of_N n - 2 * h) (2 * h) (-1) (Z.of_N n)); lia.
Qed.

Lemma iw_nz w : (iw_size w <> 0)%nat.
Proof. destruct w; easy. Qed.

Lemma int_bits_size w : int_bits w = 8 * N.of_nat (iw_size w).
Proof. now destruct w. Qed.
Lemma int_bits_size_z w : Z.of_N (int_bits w) = (8 * Z.of_nat (iw_size w))%Z.
Proof. now destruct w. Qed.
Lemma float_bits_size w : float_bits w = 8 * N.of_nat (fw_size w).
Proof. now destruct w. Qed.
(** [fval_ok] in terms of the sizes of the model. *)
Lemma fval_ok_sizes t v : fval_ok t v <->
  match t, v with
  | TU w, VN n => n < 2 ^ (8 * N.of_nat (iw_size w))
  | TI w, VZ z => (- 2 ^ (8 * Z.of_nat (iw_size w) - 1) <= z < 2 ^ (8 * Z.of_nat (iw_size w) - 1))%Z
  | TF w, VN n => n < 2 ^ (8 * N.of_nat (fw_size w))
  | _, _ => fval_ok t v
  end.
Proof. unfold fval_ok. destruct t, v; rewrite ?int_bits_size_z, ?int_bits_size, ?float_bits_size; easy. Qed.

Lemma to_bytes_length t v : fval_ok t v -> length (to_bytes t v) = ty_size t.
Proof. destruct t, v; simpl; intros H; try easy; apply le_length. Qed.

Lemma dec_slice_ok t v : fval_ok t v -> dec_slice t (to_bytes t v) = Ok v.
Proof.
  rewrite fval_ok_sizes. destruct t as [w|w|w| |n|l], v as [x|z|b|bs|e]; simpl; intros H; try easy.
  - now rewrite unle_le.
  - destruct (z_roundtrip (iw_size w) z (iw_nz w) H) as [A B]. rewrite unle_le by exact A. now rewrite B.
  - now rewrite unle_le.
  - now destruct b.
  - now rewrite H.
Qed.

Lemma dec_stream_ok t v : fval_ok t v -> dec_stream t (to_bytes t v) = Ok v.
Proof.
  rewrite fval_ok_sizes. destruct t as [w|w|w| |n|l], v as [x|z|b|bs|e]; simpl; intros H; try easy.
  - now rewrite unle_le.
  - destruct (z_roundtrip (iw_size w) z (iw_nz w) H) as [A B]. rewrite unle_le by exact A. now rewrite B.
  - now rewrite unle_le.
  - now destruct b.
  - now rewrite H.
Qed.

(** A decoder of fields, of either kind. *)
Definition decoder := fty -> bytes -> res fval.

(** What both decoders guarantee about arbitrary bytes: the value is legal, and
    encoding it again gives the same bytes except possibly in one-byte fields. *)
Record good_dec (D : decoder) : Prop := {
  gd_rt : forall t v, fval_ok t v -> D t (to_bytes t v) = Ok v;
  gd_nopanic : forall t raw w, D t raw <> Panic w;
  gd_ok : forall t raw v, ty_ok t -> length raw = ty_size t -> D t raw = Ok v -> fval_ok t v;
  gd_bytes : forall t raw v, length raw = ty_size t -> D t raw = Ok v ->
      to_bytes t v = raw \/ ty_size t = 1%nat;
  gd_len : forall t raw v, length raw = ty_size t -> D t raw = Ok v -> length (to_bytes t v) = ty_size t
}.

Lemma unle_bound' raw k : length raw = k -> unle raw < 2 ^ (8 * N.of_nat k).
Proof. intros <-. apply unle_bound. Qed.

Lemma dec_any_ok D t raw v :
  (D = dec_slice \/ D = dec_stream) ->
  ty_ok t -> length raw = ty_size t -> D t raw = Ok v -> fval_ok t v.
Proof.
  intros HD Ht L E. rewrite fval_ok_sizes.
  destruct HD as [-> | ->]; destruct t as [w|w|w| |n|l]; simpl in *; inversion E; subst; simpl;
    try (now apply unle_bound'); try easy.
  all: try (apply n_roundtrip; [apply iw_nz|]; unfold pow256; now apply unle_bound').
  all: destruct (l_of l (first_byte raw)) eqn:Q; inversion E; subst; now apply Ht in Q.
Qed.

Lemma dec_any_bytes D t raw v :
  (D = dec_slice \/ D = dec_stream) ->
  length raw = ty_size t -> D t raw = Ok v -> to_bytes t v = raw \/ ty_size t = 1%nat.
Proof.
  intros HD L E.
  destruct HD as [-> | ->]; destruct t as [w|w|w| |n|l]; simpl in *; inversion E; subst; simpl; auto.
  all: try (left; rewrite <- L; now apply le_unle).
  all: left; destruct (n_roundtrip (iw_size w) (unle raw) (iw_nz w)) as [_ ->];
    [unfold pow256; now apply unle_bound'|]; rewrite <- L; apply le_unle.
Qed.

Lemma dec_any_len D t raw v :
  (D = dec_slice \/ D = dec_stream) ->
  length raw = ty_size t -> D t raw = Ok v -> length (to_bytes t v) = ty_size t.
Proof.
  intros HD L E.
  destruct HD as [-> | ->]; destruct t as [w|w|w| |n|l]; simpl in *; inversion E; subst; simpl;
    rewrite ?le_length; auto.
  all: destruct (l_of l (first_byte raw)) eqn:Q; inversion E; subst; reflexivity.
Qed.

Lemma good_slice : good_dec dec_slice.
Proof.
  split.
  - apply dec_slice_ok.
  - intros t raw w. destruct t; simpl; try discriminate. destruct (l_of l (first_byte raw)); discriminate.
  - intros t raw v. apply dec_any_ok. auto.
  - intros t raw v. apply dec_any_bytes. auto.
  - intros t raw v. apply dec_any_len. auto.
Qed.
Lemma good_stream : good_dec dec_stream.
Proof.
  split.
  - apply dec_stream_ok.
  - intros t raw w. destruct t; simpl; try discriminate. destruct (l_of l (first_byte raw)); discriminate.
  - intros t raw v. apply dec_any_ok. auto.
  - intros t raw v. apply dec_any_bytes. auto.
  - intros t raw v. apply dec_any_len. auto.
Qed.

(** ** Field lists as pure functions of the raw bytes *)
Fixpoint fields_parse (D : decoder) (ts : list fty) (raw : bytes) : res (list fval) :=
  match ts with
  | [] => Ok []
  | t :: r =>
      let! v := D t (firstn (ty_size t) raw) in
      let! vs := fields_parse D r (skipn (ty_size t) raw) in
      Ok (v :: vs)
  end.

Lemma fields_bytes_length ts : forall vs, Forall2 fval_ok ts vs -> length (fields_bytes ts vs) = sum_sizes ts.
Proof.
  induction ts as [|t ts IH]; intros vs F; inversion F; subst; [easy|].
  simpl. rewrite app_length, to_bytes_length by easy. now rewrite IH.
Qed.

Lemma fields_parse_rt D ts : good_dec D -> forall vs, Forall2 fval_ok ts vs ->
  fields_parse D ts (fields_bytes ts vs) = Ok vs.
Proof.
  intros G. induction ts as [|t ts IH]; intros vs F; inversion F as [|? v ? vs' Hv Hr]; subst; [easy|].
  cbn [fields_parse fields_bytes].
  rewrite firstn_app_exact, skipn_app_exact by (now rewrite to_bytes_length).
  rewrite (gd_rt D G) by easy. simpl. now rewrite IH.
Qed.

Lemma fields_parse_nopanic D ts : good_dec D -> forall raw w, fields_parse D ts raw <> Panic w.
Proof.
  intros G. induction ts as [|t ts IH]; intros raw w; simpl; [easy|].
  destruct (D t (firstn (ty_size t) raw)) eqn:E; simpl; [|easy|now apply (gd_nopanic D G) in E].
  destruct (fields_parse D ts (skipn (ty_size t) raw)) eqn:E2; simpl; [easy|easy|now apply IH in E2].
Qed.

Lemma fields_parse_ok D ts : good_dec D -> Forall ty_ok ts ->
  forall raw vs, length raw = sum_sizes ts -> fields_parse D ts raw = Ok vs -> Forall2 fval_ok ts vs.
Proof.
  intros G F. induction F as [|t ts Ht F IH]; intros raw vs L E; simpl in *.
  - inversion E; constructor.
  - destruct (D t (firstn (ty_size t) raw)) eqn:Ed; simpl in E; try easy.
    destruct (fields_parse D ts (skipn (ty_size t) raw)) eqn:E2; simpl in E; try easy.
    inversion E; subst. constructor.
    + eapply (gd_ok D G); [easy| |exact Ed]. rewrite firstn_length. lia.
    + eapply IH; [|exact E2]. rewrite skipn_length. lia.
Qed.

(** Positions where the raw bytes are those of a legal encoding stay the same when
    the decoded fields are encoded again. *)
Lemma fields_agree D ts : good_dec D -> forall vs raw vs',
  Forall2 fval_ok ts vs -> length raw = sum_sizes ts -> fields_parse D ts raw = Ok vs' ->
  length (fields_bytes ts vs') = sum_sizes ts /\
  forall i, nth_error raw i = nth_error (fields_bytes ts vs) i ->
            nth_error (fields_bytes ts vs') i = nth_error (fields_bytes ts vs) i.
Proof.
  intros G. induction ts as [|t ts IH]; intros vs raw vs' F L E; inversion F as [|? v ? vr Hv Hr]; subst.
  - simpl in *. inversion E. subst. easy.
  - cbn [fields_parse] in E.
    destruct (D t (firstn (ty_size t) raw)) as [u| |] eqn:Ed; simpl in E; try easy.
    destruct (fields_parse D ts (skipn (ty_size t) raw)) as [us| |] eqn:E2; simpl in E; try easy.
    inversion E; subst vs'. clear E. simpl in L.
    assert (L1 : length (firstn (ty_size t) raw) = ty_size t) by (rewrite firstn_length; lia).
    assert (L2 : length (skipn (ty_size t) raw) = sum_sizes ts) by (rewrite skipn_length; lia).
    destruct (IH vr (skipn (ty_size t) raw) us Hr L2 E2) as [IHl IHn].
    assert (LU : length (to_bytes t u) = ty_size t) by (eapply (gd_len D G); eauto).
    assert (LV : length (to_bytes t v) = ty_size t) by (now apply to_bytes_length).
    cbn [fields_bytes]. split; [rewrite app_length; simpl; lia|].
    intros i Hi. destruct (Nat.lt_ge_cases i (ty_size t)) as [Lt|Ge].
    + rewrite !nth_error_app1 in * by lia.
      assert (Hr' : nth_error (firstn (ty_size t) raw) i = nth_error raw i).
      { rewrite <- (firstn_skipn (ty_size t) raw) at 2. rewrite nth_error_app1; [easy|lia]. }
      destruct (gd_bytes D G t _ u L1 Ed) as [-> | H1]; [now rewrite Hr'|].
      assert (i = 0%nat) by lia. subst i.
      destruct (firstn (ty_size t) raw) as [|r0 [|]] eqn:F0; simpl in L1; try lia.
      destruct (to_bytes t v) as [|v0 [|]] eqn:V0; simpl in LV; try lia.
      simpl in *. rewrite Hi in Hr'. inversion Hr'; subst r0.
      rewrite <- V0 in Ed. rewrite (gd_rt D G) in Ed by easy. inversion Ed; subst u. now rewrite V0.
    + rewrite !nth_error_app2 in * by lia. rewrite LU. rewrite LV in *. apply IHn.
      rewrite <- Hi. rewrite <- (firstn_skipn (ty_size t) raw) at 2.
      rewrite nth_error_app2 by lia. now rewrite L1.
Qed.

Lemma nth_error_ext {A} (l : list A) : forall l', (forall i, nth_error l i = nth_error l' i) -> l = l'.
Proof.
  induction l as [|x l IH]; intros [|y l'] H; try easy.
  - specialize (H 0%nat). easy.
  - specialize (H 0%nat). easy.
  - f_equal; [specialize (H 0%nat); now inversion H|]. apply IH. intros i. apply (H (S i)).
Qed.

Lemma nth_error_window {A} (a w b x : list A) :
  length x = (length a + length w + length b)%nat ->
  (forall i, (i < length a)%nat -> nth_error x i = nth_error a i) ->
  (forall i, (i < length b)%nat -> nth_error x (length a + length w + i) = nth_error b i) ->
  exists w', length w' = length w /\ x = a ++ w' ++ b.
Proof.
  intros L Ha Hb. exists (firstn (length w) (skipn (length a) x)).
  assert (E1 : firstn (length a) x = a).
  { apply nth_error_ext. intros i. destruct (Nat.lt_ge_cases i (length a)) as [H|H].
    - rewrite <- Ha by easy. rewrite <- (firstn_skipn (length a) x) at 2.
      rewrite nth_error_app1; [easy|rewrite firstn_length; lia].
    - rewrite (proj2 (nth_error_None a i) H). apply nth_error_None. rewrite firstn_length. lia. }
  assert (E2 : skipn (length w) (skipn (length a) x) = b).
  { apply nth_error_ext. intros i. destruct (Nat.lt_ge_cases i (length b)) as [H|H].
    - rewrite <- Hb by easy. rewrite skipn_skipn.
      rewrite <- (firstn_skipn (length w + length a) x) at 2.
      rewrite nth_error_app2; rewrite firstn_length; [|lia]. f_equal. lia.
    - rewrite (proj2 (nth_error_None b i) H). apply nth_error_None. rewrite !skipn_length. lia. }
  split; [rewrite firstn_length, skipn_length; lia|].
  transitivity (firstn (length a) x ++ firstn (length w) (skipn (length a) x)
                ++ skipn (length w) (skipn (length a) x)).
  - now rewrite !firstn_skipn.
  - now rewrite E1, E2.
Qed.

(** ** One block as a pure function of its raw bytes *)
Definition blk_parse (D : decoder) (sc : schema) (raw crc : bytes) : res (list fval) :=
  let! vs := fields_parse D (s_tys sc) raw in
  let vs := capture (s_fields sc) vs crc in
  if bytes_eqb (blk_crc sc vs) crc then Ok vs else Err ECrcDismatch.

Definition body_size (sc : schema) : nat := sum_sizes (s_tys sc).

Lemma sum_sizes_app a b : sum_sizes (a ++ b) = (sum_sizes a + sum_sizes b)%nat.
Proof. induction a; simpl; lia. Qed.

Lemma ssize_eq sc : ssize sc = (4 + body_size sc + 4)%nat.
Proof.
  unfold ssize, all_fields, body_size, s_tys. simpl. rewrite map_app, sum_sizes_app. simpl. lia.
Qed.

Lemma blk_sig_length sc : length (blk_sig sc) = 4%nat.
Proof. apply le_length. Qed.
Lemma blk_crc_length sc vs : length (blk_crc sc vs) = 4%nat.
Proof. unfold blk_crc. destruct (s_no_crc sc); [easy|apply le_length]. Qed.

Lemma blk_encode_length sc vs : vals_ok sc vs -> length (blk_encode sc vs) = ssize sc.
Proof.
  intros H. unfold blk_encode. rewrite !app_length, blk_sig_length, blk_crc_length.
  rewrite fields_bytes_length by exact H. rewrite ssize_eq. unfold body_size. lia.
Qed.

Lemma capture_id fs : Forall (fun f => fst f <> str "crc" /\ ty_ok (snd f)) fs ->
  forall vs crc, length vs = length fs -> capture fs vs crc = vs.
Proof.
  intros F. induction F as [|f fs [Hf _] F IH]; intros [|v vs] crc L; simpl in *; try easy.
  destruct (bytes_eqb (fst f) (str "crc")) eqn:E; [now apply bytes_eqb_eq in E|].
  f_equal. apply IH. lia.
Qed.

Lemma fields_parse_length D ts : forall raw vs, fields_parse D ts raw = Ok vs -> length vs = length ts.
Proof.
  induction ts as [|t ts IH]; intros raw vs E; simpl in E.
  - now inversion E.
  - destruct (D t (firstn (ty_size t) raw)); simpl in E; try easy.
    destruct (fields_parse D ts (skipn (ty_size t) raw)) eqn:E2; simpl in E; try easy.
    inversion E; subst. simpl. f_equal. eauto.
Qed.

Lemma schema_tys_ok sc : schema_ok sc -> Forall ty_ok (s_tys sc).
Proof.
  unfold schema_ok, s_tys. intros F. apply Forall_map. eapply Forall_impl; [|exact F]. now intros a [_ H].
Qed.

Lemma capture_ok sc vs crc : schema_ok sc -> length vs = length (s_tys sc) ->
  capture (s_fields sc) vs crc = vs.
Proof. intros H L. apply capture_id; [exact H|]. unfold s_tys in L. now rewrite map_length in L. Qed.

Lemma Forall2_len {A B} (R : A -> B -> Prop) l l' : Forall2 R l l' -> length l' = length l.
Proof. induction 1; simpl; congruence. Qed.

Lemma blk_parse_rt D sc vs : good_dec D -> schema_ok sc -> vals_ok sc vs ->
  blk_parse D sc (fields_bytes (s_tys sc) vs) (blk_crc sc vs) = Ok vs.
Proof.
  intros G HS HV. unfold blk_parse. rewrite fields_parse_rt by easy. simpl.
  rewrite capture_ok; [|easy|now apply Forall2_len in HV].
  now rewrite bytes_eqb_refl.
Qed.

Lemma blk_parse_nopanic D sc raw crc w : good_dec D -> blk_parse D sc raw crc <> Panic w.
Proof.
  intros G. unfold blk_parse. destruct (fields_parse D (s_tys sc) raw) eqn:E; simpl; try easy.
  - destruct (bytes_eqb _ _); discriminate.
  - exfalso. exact (fields_parse_nopanic D _ G _ _ E).
Qed.

(** Splitting a window over a concatenation. *)
Lemma app_window {A} (r c pre w post : list A) :
  r ++ c = pre ++ w ++ post ->
  (exists b, r = pre ++ w ++ b /\ post = b ++ c)
  \/ (exists a, c = a ++ w ++ post /\ pre = r ++ a)
  \/ (exists w1 w2, w = w1 ++ w2 /\ r = pre ++ w1 /\ c = w2 ++ post).
Proof.
  intros E.
  destruct (Nat.le_gt_cases (length pre + length w) (length r)) as [H|H].
  - left. exists (skipn (length pre + length w) r). split.
    + rewrite <- (firstn_skipn (length pre + length w) r) at 1.
      rewrite app_assoc. f_equal.
      transitivity (firstn (length pre + length w) (r ++ c)).
      * rewrite firstn_app. replace (length pre + length w - length r)%nat with 0%nat by lia.
        simpl. now rewrite app_nil_r.
      * rewrite E, app_assoc. apply firstn_app_exact. now rewrite app_length.
    + transitivity (skipn (length pre + length w) (r ++ c)).
      * rewrite E, app_assoc. symmetry. apply skipn_app_exact. now rewrite app_length.
      * rewrite skipn_app. now replace (length pre + length w - length r)%nat with 0%nat by lia.
  - right. destruct (Nat.le_gt_cases (length r) (length pre)) as [H2|H2].
    + left. exists (skipn (length r) pre). split.
      * transitivity (skipn (length r) (r ++ c)); [now rewrite skipn_app_exact|].
        rewrite E, skipn_app. now replace (length r - length pre)%nat with 0%nat by lia.
      * rewrite <- (firstn_skipn (length r) pre) at 1. f_equal.
        transitivity (firstn (length r) (r ++ c)); [|now rewrite firstn_app_exact].
        rewrite E, firstn_app. replace (length r - length pre)%nat with 0%nat by lia.
        simpl. now rewrite app_nil_r.
    + right. exists (firstn (length r - length pre) w), (skipn (length r - length pre) w).
      split; [now rewrite firstn_skipn|]. split.
      * transitivity (firstn (length r) (r ++ c)); [now rewrite firstn_app_exact|].
        rewrite E, !firstn_app. rewrite firstn_all2 by lia. f_equal.
        replace (length r - length pre - length w)%nat with 0%nat by lia. simpl. now rewrite app_nil_r.
      * transitivity (skipn (length r) (r ++ c)); [now rewrite skipn_app_exact|].
        rewrite E, !skipn_app. rewrite skipn_all2 by lia.
        now replace (length r - length pre - length w)%nat with 0%nat by lia.
Qed.

Lemma app_len_inj {A} (a b c d : list A) : a ++ b = c ++ d -> length a = length c -> a = c /\ b = d.
Proof.
  intros E L. split.
  - transitivity (firstn (length a) (a ++ b)); [now rewrite firstn_app_exact|].
    rewrite E, L. now rewrite firstn_app_exact.
  - transitivity (skipn (length a) (a ++ b)); [now rewrite skipn_app_exact|].
    rewrite E, L. now rewrite skipn_app_exact.
Qed.

(** A body [m] whose positions outside the window are those of [pre ++ w ++ b]. *)
Lemma agree_window (orig raw' m : bytes) pre w w' b :
  orig = pre ++ w ++ b -> raw' = pre ++ w' ++ b -> length w = length w' ->
  length m = length orig ->
  (forall i, nth_error raw' i = nth_error orig i -> nth_error m i = nth_error orig i) ->
  exists w'', length w'' = length w /\ m = pre ++ w'' ++ b.
Proof.
  intros -> -> LW L H. apply nth_error_window.
  - rewrite L, !app_length. lia.
  - intros i Hi. rewrite H; rewrite !nth_error_app1 by easy; easy.
  - intros i Hi. rewrite H.
    + rewrite !nth_error_app2 by lia. f_equal. lia.
    + rewrite !nth_error_app2 by lia. f_equal. lia.
Qed.

(** A body whose checksum follows it: a corruption of at most four consecutive bytes
    cannot lead to another body [m] that passes the check, even when decoding
    normalises single positions ([m] instead of [raw']). *)
Lemma crc_burst_core (o raw' m crc' : bytes) :
  length raw' = length o -> length m = length o ->
  (forall i, nth_error raw' i = nth_error o i -> nth_error m i = nth_error o i) ->
  burst 4 (o ++ crc32_le o) (raw' ++ crc') -> crc32_le m = crc' -> m = o.
Proof.
  intros LO LM AG (pre & w & w' & post & E & E' & LW & L4) EC.
  apply app_window in E as [(b & Eo & Ep)|[(a & Ec & Ep)|(w1 & w2 & Ew & Eo & Ec)]].
  - (* inside the body *)
    subst post.
    assert (E2 : raw' = pre ++ w' ++ b /\ crc' = crc32_le o).
    { apply app_len_inj.
      - rewrite E', <- !app_assoc. reflexivity.
      - rewrite LO, Eo, !app_length. lia. }
    destruct E2 as [Er Ec].
    destruct (agree_window o raw' m pre w w' b Eo Er LW ltac:(lia) AG) as (w'' & Lw & Em).
    rewrite Ec, Eo, Em in EC. unfold crc32_le in EC.
    apply le_inj in EC; try apply crc32_bound.
    apply crc32_burst in EC; try lia. rewrite Em, Eo. now rewrite EC.
  - (* inside the checksum *)
    subst pre. rewrite <- app_assoc in E'. apply app_len_inj in E' as [Er Ec2]; [|lia].
    apply nth_error_ext. intros i. apply AG. now rewrite Er.
  - (* across the boundary *)
    subst w.
    set (w1' := firstn (length w1) w'). set (w2' := skipn (length w1) w').
    assert (Ew' : w' = w1' ++ w2') by (unfold w1', w2'; now rewrite firstn_skipn).
    rewrite app_length in LW, L4.
    assert (L1 : length w1' = length w1) by (unfold w1'; rewrite firstn_length; lia).
    assert (L2 : length w2' = length w2) by (unfold w2'; rewrite skipn_length; lia).
    rewrite Ew', <- app_assoc in E'.
    assert (E2 : raw' = pre ++ w1' /\ crc' = w2' ++ post).
    { apply app_len_inj.
      - rewrite E', <- !app_assoc. reflexivity.
      - rewrite LO, Eo, !app_length. lia. }
    destruct E2 as [Er Ec2].
    destruct (agree_window o raw' m pre w1 w1' []) as (w'' & Lw & Em); rewrite ?app_nil_r; auto; try lia.
    rewrite app_nil_r in Em. rewrite Em in EC. rewrite Ec2 in EC. rewrite Eo in Ec.
    destruct (crc32_straddle pre w1 w'' w2 w2' post) as [Q1 Q2]; auto; try lia.
    rewrite Em, Eo. now rewrite Q1.
Qed.

Lemma blk_parse_burst D sc vs raw' crc' vs' :
  good_dec D -> schema_ok sc -> vals_ok sc vs -> s_no_crc sc = false ->
  length raw' = body_size sc -> length crc' = 4%nat ->
  burst 4 (fields_bytes (s_tys sc) vs ++ blk_crc sc vs) (raw' ++ crc') ->
  blk_parse D sc raw' crc' = Ok vs' -> vs' = vs.
Proof.
  intros G HS HV NC LR LC HB HP.
  unfold blk_parse in HP.
  destruct (fields_parse D (s_tys sc) raw') as [us| |] eqn:EP; simpl in HP; try easy.
  rewrite capture_ok in HP by (easy || (eapply fields_parse_length; eauto)).
  destruct (bytes_eqb (blk_crc sc us) crc') eqn:EC; [|easy]. inversion HP; subst us; clear HP.
  apply bytes_eqb_eq in EC. unfold blk_crc in EC, HB. rewrite NC in EC, HB.
  assert (LB : length (fields_bytes (s_tys sc) vs) = sum_sizes (s_tys sc)) by now apply fields_bytes_length.
  destruct (fields_agree D _ G vs raw' vs' HV LR EP) as [LM AG].
  set (m := fields_bytes (s_tys sc) vs') in *. set (o := fields_bytes (s_tys sc) vs) in *.
  assert (HV' : Forall2 fval_ok (s_tys sc) vs').
  { exact (fields_parse_ok D _ G (schema_tys_ok _ HS) raw' vs' LR EP). }
  assert (Q : m = o).
  { apply (crc_burst_core o raw' m crc'); auto; unfold body_size in LR; lia. }
  pose proof (fields_parse_rt D _ G vs' HV') as R1. pose proof (fields_parse_rt D _ G vs HV) as R2.
  fold m in R1. fold o in R2. rewrite Q in R1. congruence.
Qed.

(** ** The readers of one type *)
Section Readers.
Context {S : Type} {R : reader S} {view : S -> bytes} {okst : S -> Prop} (L : lawful R view okst).

Lemma read_fields_spec ts : forall s raw rest,
  okst s -> view s = raw ++ rest -> length raw = sum_sizes ts ->
  match fields_parse dec_stream ts raw with
  | Ok vs => exists s', read_fields R ts s = (Ok vs, s') /\ view s' = rest /\ okst s'
  | Err e => exists s', read_fields R ts s = (Err e, s')
  | Panic _ => False
  end.
Proof.
  induction ts as [|t ts IH]; intros s raw rest H V LR.
  - simpl in *. destruct raw; [|easy]. simpl in V. eauto.
  - simpl in LR. cbn [fields_parse read_fields].
    assert (V2 : view s = firstn (ty_size t) raw ++ (skipn (ty_size t) raw ++ rest)).
    { rewrite app_assoc, firstn_skipn. exact V. }
    destruct (lw_ok _ _ _ L (N.of_nat (ty_size t)) s _ _ H V2) as (s1 & E1 & W1 & O1).
    { unfold blen. rewrite firstn_length. lia. }
    rewrite E1. cbn [sbind].
    destruct (dec_stream t (firstn (ty_size t) raw)) eqn:ED; cbn [rbind].
    + specialize (IH s1 (skipn (ty_size t) raw) rest O1 W1).
      rewrite skipn_length in IH. specialize (IH ltac:(lia)).
      destruct (fields_parse dec_stream ts (skipn (ty_size t) raw)); cbn [rbind].
      * destruct IH as (s' & -> & ? & ?). cbn [sbind]. eauto.
      * destruct IH as (s' & ->). cbn [sbind]. eauto.
      * exact IH.
    + eauto.
    + exact (gd_nopanic _ good_stream _ _ _ ED).
Qed.

Lemma blk_read_skip_spec sc s raw crc rest :
  okst s -> view s = raw ++ crc ++ rest -> length raw = body_size sc -> length crc = 4%nat ->
  match blk_parse dec_stream sc raw crc with
  | Ok vs => exists s', blk_read R sc true s = (Ok vs, s') /\ view s' = rest /\ okst s'
  | Err e => exists s', blk_read R sc true s = (Err e, s')
  | Panic _ => False
  end.
Proof.
  intros H V LR LC. unfold blk_read, blk_parse. cbn [sbind].
  pose proof (read_fields_spec (s_tys sc) s raw (crc ++ rest) H V LR) as F.
  destruct (fields_parse dec_stream (s_tys sc) raw) as [vs| |]; cbn [rbind].
  - destruct F as (s1 & -> & W1 & O1). cbn [sbind].
    destruct (lw_ok _ _ _ L 4 s1 crc rest O1 W1) as (s2 & -> & W2 & O2).
    { unfold blen. now rewrite LC. }
    cbn [sbind]. destruct (bytes_eqb _ crc); eauto.
  - destruct F as (s1 & ->). cbn [sbind]. eauto.
  - exact F.
Qed.

Lemma blk_read_sig_spec sc s sig rest :
  okst s -> view s = sig ++ rest -> length sig = 4%nat ->
  if bytes_eqb sig (blk_sig sc)
  then exists s1, view s1 = rest /\ okst s1 /\ blk_read R sc false s = blk_read R sc true s1
  else exists s1, view s1 = rest /\ okst s1 /\ blk_read R sc false s = (Err ESignatureDismatch, s1).
Proof.
  intros H V LS.
  destruct (lw_ok _ _ _ L 4 s sig rest H V) as (s1 & E & W & O).
  { unfold blen. now rewrite LS. }
  unfold blk_read. rewrite E. cbn [sbind].
  destruct (bytes_eqb sig (blk_sig sc)); exists s1; auto.
Qed.

(** Whatever the source holds: an [Ok] comes from exactly the block's bytes. *)
Lemma read_fields_inv ts : forall s vs s',
  okst s -> read_fields R ts s = (Ok vs, s') ->
  exists raw, view s = raw ++ view s' /\ length raw = sum_sizes ts
              /\ fields_parse dec_stream ts raw = Ok vs /\ okst s'.
Proof.
  induction ts as [|t ts IH]; intros s vs s' H E; cbn [read_fields] in E.
  - inversion E; subst. exists []. auto.
  - destruct (rd_exact R (N.of_nat (ty_size t)) s) as [[a| |] s1] eqn:E1; cbn [sbind] in E; try easy.
    destruct (lw_inv L _ _ _ _ H E1) as (V & B & O).
    destruct (dec_stream t a) eqn:ED; try easy.
    destruct (read_fields R ts s1) as [[vs1| |] s2] eqn:E2; cbn [sbind] in E; try easy.
    inversion E; subst. destruct (IH _ _ _ O E2) as (raw & V2 & LR & EP & O2).
    exists (a ++ raw). assert (LA : length a = ty_size t) by (unfold blen in B; lia).
    rewrite app_length, <- app_assoc, <- V2. repeat split; auto.
    + simpl. lia.
    + cbn [fields_parse]. rewrite firstn_app_exact, skipn_app_exact by easy.
      rewrite ED. cbn [rbind]. now rewrite EP.
Qed.

Lemma blk_read_inv sc skip s vs s' :
  okst s -> blk_read R sc skip s = (Ok vs, s') ->
  exists raw crc, view s = (if skip then [] else blk_sig sc) ++ raw ++ crc ++ view s'
    /\ length raw = body_size sc /\ length crc = 4%nat
    /\ blk_parse dec_stream sc raw crc = Ok vs /\ okst s'.
Proof.
  intros H E.
  assert (Q : exists s1, view s = (if skip then [] else blk_sig sc) ++ view s1 /\ okst s1
                         /\ blk_read R sc true s1 = (Ok vs, s')).
  { destruct skip; [exists s; auto|].
    unfold blk_read in E. destruct (rd_exact R 4 s) as [[sig| |] s1] eqn:E1; cbn [sbind] in E; try easy.
    destruct (bytes_eqb sig (blk_sig sc)) eqn:EB; cbn [sbind] in E; [|easy].
    apply bytes_eqb_eq in EB. subst. destruct (lw_inv L _ _ _ _ H E1) as (V & B & O).
    exists s1. auto. }
  destruct Q as (s1 & V & O & E1). unfold blk_read in E1. cbn [sbind] in E1.
  destruct (read_fields R (s_tys sc) s1) as [[us| |] s2] eqn:E2; cbn [sbind] in E1; try easy.
  destruct (read_fields_inv _ _ _ _ O E2) as (raw & V2 & LR & EP & O2).
  destruct (rd_exact R 4 s2) as [[crc| |] s3] eqn:E3; cbn [sbind] in E1; try easy.
  destruct (lw_inv L _ _ _ _ O2 E3) as (V3 & B3 & O3).
  destruct (bytes_eqb _ crc) eqn:EB; [|easy]. inversion E1; subst.
  exists raw, crc. rewrite V, V2, V3. repeat split; auto.
  - unfold blen in B3. lia.
  - unfold blk_parse. rewrite EP. cbn [rbind]. now rewrite EB.
Qed.

Lemma blk_read_nopanic sc skip s w s' : okst s -> blk_read R sc skip s <> (Panic w, s').
Proof.
  intros H E. unfold blk_read in E.
  assert (F : forall ts s, okst s -> forall w s', read_fields R ts s <> (Panic w, s')).
  { clear - L. induction ts as [|t ts IH]; intros s H w s' E; cbn [read_fields] in E; [easy|].
    destruct (rd_exact R (N.of_nat (ty_size t)) s) as [[a| |] s1] eqn:E1; cbn [sbind] in E; try easy;
      [|exact (lw_nopanic L _ _ _ _ H E1)].
    destruct (lw_inv L _ _ _ _ H E1) as (V & B & O).
    destruct (dec_stream t a) eqn:ED; try easy; [|exact (gd_nopanic _ good_stream _ _ _ ED)].
    destruct (read_fields R ts s1) as [[vs1| |] s2] eqn:E2; cbn [sbind] in E; try easy.
    exact (IH _ O _ _ E2). }
  assert (G : forall s1, okst s1 -> forall s2 w2,
    (do (vs, s) <- read_fields R (s_tys sc) s1;
     do (crc, s) <- rd_exact R 4 s;
     (if bytes_eqb (blk_crc sc (capture (s_fields sc) vs crc)) crc
      then (Ok (capture (s_fields sc) vs crc), s) else (Err ECrcDismatch, s))) <> (Panic w2, s2)).
  { intros s1 O s2 w2 Q. destruct (read_fields R (s_tys sc) s1) as [[us| |] s3] eqn:E2; cbn [sbind] in Q; try easy.
    - destruct (read_fields_inv _ _ _ _ O E2) as (raw & V2 & LR & EP & O2).
      destruct (rd_exact R 4 s3) as [[crc| |] s4] eqn:E3; cbn [sbind] in Q; try easy.
      + destruct (bytes_eqb _ crc); easy.
      + exact (lw_nopanic L _ _ _ _ O2 E3).
    - exact (F _ _ O _ _ E2). }
  destruct skip; cbn [sbind] in E; [exact (G _ H _ _ E)|].
  destruct (rd_exact R 4 s) as [[sig| |] s1] eqn:E1; cbn [sbind] in E; try easy;
    [|exact (lw_nopanic L _ _ _ _ H E1)].
  destruct (bytes_eqb sig (blk_sig sc)); cbn [sbind] in E; [|easy].
  destruct (lw_inv L _ _ _ _ H E1) as (V & B & O). exact (G _ O _ _ E).
Qed.
End Readers.

(** *** slices *)
Lemma slice_fields_spec ts : forall pre raw rest,
  length raw = sum_sizes ts ->
  slice_fields ts (pre ++ raw ++ rest) (length pre)
  = let! vs := fields_parse dec_slice ts raw in Ok (vs, (length pre + sum_sizes ts)%nat).
Proof.
  induction ts as [|t ts IH]; intros pre raw rest LR.
  - simpl. now rewrite Nat.add_0_r.
  - simpl in LR. cbn [slice_fields fields_parse].
    set (a := firstn (ty_size t) raw). set (b := skipn (ty_size t) raw).
    assert (ER : raw = a ++ b) by (unfold a, b; now rewrite firstn_skipn).
    assert (LA : length a = ty_size t) by (unfold a; rewrite firstn_length; lia).
    assert (LB : length b = sum_sizes ts) by (unfold b; rewrite skipn_length; lia).
    assert (CS : checked_slice (pre ++ raw ++ rest) (length pre) (ty_size t) = Ok a).
    { unfold checked_slice. rewrite ER, !app_length.
      replace (length pre + ty_size t <=? length pre + (length a + length b + length rest))%nat with true by lia.
      f_equal. rewrite <- app_assoc. now apply slice_app_exact. }
    rewrite CS. cbn [rbind]. destruct (dec_slice t a); cbn [rbind]; [|easy|easy].
    replace (pre ++ raw ++ rest) with ((pre ++ a) ++ b ++ rest) by (rewrite ER, <- !app_assoc; reflexivity).
    replace (length pre + ty_size t)%nat with (length (pre ++ a)) by (rewrite app_length; lia).
    rewrite IH by easy. destruct (fields_parse dec_slice ts b); cbn [rbind]; try easy.
    rewrite app_length. cbn [sum_sizes fold_right]. fold (sum_sizes ts).
    replace (length pre + length a + sum_sizes ts)%nat with (length pre + (ty_size t + sum_sizes ts))%nat by lia. reflexivity.
Qed.

Lemma blk_slice_spec sc sig raw crc rest :
  length sig = 4%nat -> length raw = body_size sc -> length crc = 4%nat ->
  blk_read_from_slice sc (sig ++ raw ++ crc ++ rest) false
  = if bytes_eqb sig (blk_sig sc) then blk_parse dec_slice sc raw crc else Err ESignatureDismatch.
Proof.
  intros LS LR LC. unfold blk_read_from_slice.
  replace (length (sig ++ raw ++ crc ++ rest) <? 4)%nat with false by (rewrite app_length; lia).
  rewrite firstn_app_exact by easy. destruct (bytes_eqb sig (blk_sig sc)); cbn [rbind]; [|easy].
  replace (length (sig ++ raw ++ crc ++ rest) <? ssize sc)%nat with false
    by (rewrite !app_length, ssize_eq; lia).
  replace 4%nat with (length sig) at 1. rewrite slice_fields_spec by easy.
  unfold blk_parse. destruct (fields_parse dec_slice (s_tys sc) raw); cbn [rbind]; try easy.
  assert (CS : checked_slice (sig ++ raw ++ crc ++ rest) (length sig + sum_sizes (s_tys sc)) 4 = Ok crc).
  { unfold checked_slice. unfold body_size in LR. rewrite !app_length.
    replace (length sig + sum_sizes (s_tys sc) + 4 <=? length sig + (length raw + (length crc + length rest)))%nat
      with true by lia.
    f_equal. rewrite app_assoc. apply slice_app_exact; [rewrite app_length; lia|easy]. }
  rewrite CS. reflexivity.
Qed.

Lemma blk_slice_short sc src : (length src < ssize sc)%nat ->
  exists e, blk_read_from_slice sc src false = Err e.
Proof.
  intros H. unfold blk_read_from_slice.
  destruct (length src <? 4)%nat; [simpl; eauto|].
  destruct (bytes_eqb _ _); [|simpl; eauto]. cbn [rbind].
  replace (length src <? ssize sc)%nat with true by lia. eauto.
Qed.

(** Any buffer splits as signature, fields, checksum, rest when it is long enough. *)
Lemma split_block sc (bs : bytes) : (ssize sc <= length bs)%nat ->
  exists sig raw crc rest, bs = sig ++ raw ++ crc ++ rest /\
    length sig = 4%nat /\ length raw = body_size sc /\ length crc = 4%nat.
Proof.
  intros H. rewrite ssize_eq in H.
  exists (firstn 4 bs), (firstn (body_size sc) (skipn 4 bs)),
    (firstn 4 (skipn (body_size sc) (skipn 4 bs))), (skipn 4 (skipn (body_size sc) (skipn 4 bs))).
  rewrite !firstn_skipn. rewrite !firstn_length, !skipn_length. repeat split; lia.
Qed.

Lemma blk_slice_nopanic sc src w : blk_read_from_slice sc src false <> Panic w.
Proof.
  destruct (Nat.lt_ge_cases (length src) (ssize sc)) as [H|H].
  - destruct (blk_slice_short sc src H) as (e & ->). easy.
  - destruct (split_block sc src H) as (sig & raw & crc & rest & -> & L1 & L2 & L3).
    rewrite blk_slice_spec by easy. destruct (bytes_eqb _ _); [|easy].
    apply blk_parse_nopanic, good_slice.
Qed.

(** *** seekable *)
Lemma blk_try_read_spec sc c : c_ok c ->
  (blen (c_rest c) < 4 -> blk_try_read sc c = (Ok (NotEnough (4 - blen (c_rest c))), c)) /\
  (forall sig rest, c_rest c = sig ++ rest -> length sig = 4%nat ->
     (sig <> blk_sig sc -> blk_try_read sc c = (Err ESignatureDismatch, c)) /\
     (sig = blk_sig sc -> blen (c_rest c) < N.of_nat (ssize sc) ->
        blk_try_read sc c = (Ok (NotEnough (N.of_nat (ssize sc) - blen (c_rest c))), c_seek (c_pos c + 4) c)) /\
     (forall raw crc rest', sig = blk_sig sc -> rest = raw ++ crc ++ rest' ->
        length raw = body_size sc -> length crc = 4%nat ->
        match blk_parse dec_stream sc raw crc with
        | Ok vs => exists c', blk_try_read sc c = (Ok (Success vs), c') /\ c_rest c' = rest' /\ c_ok c'
                              /\ c' = c_seek (c_pos c + N.of_nat (ssize sc)) c
        | Err e => exists c', blk_try_read sc c = (Err e, c')
        | Panic _ => False
        end)).
Proof.
  intros H. unfold blk_try_read. rewrite c_available_ok by easy. split.
  - intros Hl. now replace (blen (c_rest c) <? 4) with true by lia.
  - intros sig rest V LS.
    assert (BL : blen sig = 4) by (unfold blen; now rewrite LS).
    assert (B4 : (blen (c_rest c) <? 4) = false) by (rewrite V, blen_app, BL; lia).
    rewrite B4. destruct (cursor_read_ok c sig rest H V) as (E & W & O). rewrite BL in *.
    rewrite E. cbn [sbind]. repeat split.
    + intros N1. apply bytes_eqb_neq in N1. rewrite N1. cbn [negb].
      unfold c_seek. simpl. now destruct c.
    + intros -> Hl. rewrite bytes_eqb_refl. cbn [negb].
      now replace (blen (c_rest c) <? N.of_nat (ssize sc)) with true by lia.
    + intros raw crc rest' -> -> LR LC. rewrite bytes_eqb_refl. cbn [negb].
      replace (blen (c_rest c) <? N.of_nat (ssize sc)) with false
        by (rewrite V, !blen_app, BL; unfold blen; rewrite ssize_eq; lia).
      pose proof (blk_read_skip_spec cursor_lawful sc _ raw crc rest' O W LR LC) as F.
      destruct (blk_parse dec_stream sc raw crc) as [vs| |]; [|destruct F as (c1 & ->); cbn [sbind]; eauto|easy].
      destruct F as (c1 & E1 & W1 & O1). rewrite E1. cbn [sbind]. exists c1. repeat split; auto.
      (* position: determined by the rest *)
      assert (D : forall n c2 a c3, cursor_read_exact n c2 = (Ok a, c3) -> c_data c3 = c_data c2).
      { intros n c2 a c3 Q. unfold cursor_read_exact in Q. destruct (n <=? _); inversion Q; subst; easy. }
      assert (DF : forall ts c2 a c3, read_fields cursor_reader ts c2 = (Ok a, c3) -> c_data c3 = c_data c2).
      { induction ts as [|t ts IH]; intros c2 a c3 Q; cbn [read_fields] in Q; [now inversion Q|].
        simpl rd_exact in Q.
        destruct (cursor_read_exact (N.of_nat (ty_size t)) c2) as [[x| |] c4] eqn:Q1; cbn [sbind] in Q; try easy.
        destruct (dec_stream t x); try easy.
        destruct (read_fields cursor_reader ts c4) as [[y| |] c5] eqn:Q2; cbn [sbind] in Q; try easy.
        inversion Q; subst. rewrite (IH _ _ _ Q2). now apply D in Q1. }
      assert (DD : c_data c1 = c_data c).
      { unfold blk_read in E1. cbn [sbind] in E1.
        destruct (read_fields cursor_reader (s_tys sc) (c_seek (c_pos c + 4) c)) as [[x| |] c4] eqn:Q1; cbn [sbind] in E1; try easy.
        simpl rd_exact in E1. destruct (cursor_read_exact 4 c4) as [[y| |] c5] eqn:Q2; cbn [sbind] in E1; try easy.
        destruct (bytes_eqb _ y); [|easy]. inversion E1; subst. rewrite (D _ _ _ _ Q2), (DF _ _ _ _ Q1). reflexivity. }
      assert (PP : c_pos c1 = c_pos c + N.of_nat (ssize sc)).
      { pose proof (c_rest_len c1 O1) as R1. pose proof (c_rest_len c H) as R0.
        rewrite V, !blen_app, BL in R0. rewrite W1 in R1.
        unfold c_ok, c_len in *. rewrite DD in *. rewrite ssize_eq.
        assert (blen raw = N.of_nat (body_size sc)) by (unfold blen; lia).
        assert (blen crc = 4) by (unfold blen; lia). lia. }
      destruct c1 as [d p]. simpl in *. unfold c_seek. congruence.
Qed.

(** *** buffered *)
Lemma blk_try_buf_spec sc s cur evs :
  s = mk_bufsrc cur evs -> b_ok s -> cur <> [] ->
  ((length cur < 4)%nat -> blk_try_read_buf sc s = (Ok (NotEnough (4 - blen cur)), s)) /\
  (forall sig rest, cur = sig ++ rest -> length sig = 4%nat ->
    (sig <> blk_sig sc -> blk_try_read_buf sc s = (Err ESignatureDismatch, s)) /\
    (forall raw crc rest', sig = blk_sig sc -> b_view s = sig ++ raw ++ crc ++ rest' ->
        length raw = body_size sc -> length crc = 4%nat ->
        match blk_parse dec_stream sc raw crc with
        | Ok vs => exists s', blk_try_read_buf sc s = (Ok (Success vs), s') /\ b_view s' = rest' /\ b_ok s'
        | Err e => exists s', blk_try_read_buf sc s = (Err e, s')
        | Panic _ => False
        end)).
Proof.
  intros -> H Hc. unfold blk_try_read_buf.
  assert (EF : fill_buf (mk_bufsrc cur evs) = (Ok cur, mk_bufsrc cur evs))
    by (destruct cur; [easy|reflexivity]).
  rewrite EF. cbn [sbind]. split.
  - intros Hl. now replace (length cur <? 4)%nat with true by lia.
  - intros sig rest V LS.
    replace (length cur <? 4)%nat with false by (rewrite V, app_length; lia).
    rewrite starts_with_firstn, blk_sig_length, V. rewrite firstn_app_exact by easy. split.
    + intros N1. apply bytes_eqb_neq in N1. now rewrite N1.
    + intros raw crc rest' -> VW LR LC. rewrite bytes_eqb_refl. cbn [negb].
      unfold consume. cbn [b_cur b_evs]. rewrite skipn_app_exact by (now rewrite blk_sig_length).
      pose proof (blk_read_skip_spec buf_lawful sc (mk_bufsrc rest evs) raw crc rest' H) as F.
      assert (W : b_view (mk_bufsrc rest evs) = raw ++ crc ++ rest').
      { unfold b_view in *. cbn [b_cur b_evs] in *. rewrite <- app_assoc in VW.
        now apply app_inv_head in VW. }
      specialize (F W LR LC).
      destruct (blk_parse dec_stream sc raw crc); [destruct F as (s' & -> & ? & ?)|destruct F as (s' & ->)|easy];
        cbn [sbind]; eauto.
Qed.
