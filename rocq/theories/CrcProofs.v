(** * Algebra of CRC-32: a change confined to four consecutive bytes is always seen. *)
From Coq Require Import ZifyBool ZifyNat ZifyN.
From Verif Require Import Base Crc32 BaseProofs.
Ltac Zify.zify_post_hook ::= Z.div_mod_to_equations.

(** Identities of xor, bit by bit. *)
Ltac xor_bits :=
  apply N.bits_inj; intros ?; rewrite ?N.lxor_spec, ?N.bits_0;
  repeat match goal with |- context [N.testbit ?a ?i] => destruct (N.testbit a i) end; reflexivity.

(** 32-bit numbers, through their bits. *)
Definition small (k : N) (x : N) : Prop := x < 2 ^ k.

Lemma small_bits k x : small k x <-> forall i, k <= i -> N.testbit x i = false.
Proof.
  unfold small. split.
  - intros H i Hi. destruct (N.eq_dec x 0) as [->|Hx]; [apply N.bits_0|].
    apply N.bits_above_log2. apply N.log2_lt_pow2; [lia|].
    eapply N.lt_le_trans; [exact H|]. apply N.pow_le_mono_r; lia.
  - intros H. destruct (N.eq_dec x 0) as [->|Hx]; [apply N.neq_0_lt_0; apply N.pow_nonzero; lia|].
    apply N.log2_lt_pow2; [lia|].
    destruct (N.lt_ge_cases (N.log2 x) k) as [?|Hk]; [easy|].
    specialize (H _ Hk). rewrite N.bit_log2 in H by easy. easy.
Qed.

Lemma small_lxor k a b : small k a -> small k b -> small k (N.lxor a b).
Proof.
  rewrite !small_bits. intros Ha Hb i Hi. rewrite N.lxor_spec, Ha, Hb by easy. reflexivity.
Qed.

Lemma small_mono k k' a : k <= k' -> small k a -> small k' a.
Proof. rewrite !small_bits. intros L H i Hi. apply H. lia. Qed.

Lemma poly_small : small 32 poly.
Proof. reflexivity. Qed.

Lemma small_shiftr k a n : small k a -> small k (N.shiftr a n).
Proof. rewrite !small_bits. intros H i Hi. rewrite N.shiftr_spec by lia. apply H. lia. Qed.

Lemma step_small s : small 32 s -> small 32 (crc_step s).
Proof.
  intros H. unfold crc_step. destruct (N.odd s).
  - apply small_lxor; [now apply small_shiftr|apply poly_small].
  - now apply small_shiftr.
Qed.

Lemma step_lxor a b : crc_step (N.lxor a b) = N.lxor (crc_step a) (crc_step b).
Proof.
  unfold crc_step. rewrite <- !N.bit0_odd, N.lxor_spec, N.shiftr_lxor.
  destruct (N.testbit a 0), (N.testbit b 0); cbn [xorb];
    set (x := N.shiftr a 1); set (y := N.shiftr b 1); set (z := poly); xor_bits.
Qed.

Lemma step_0 : crc_step 0 = 0.
Proof. reflexivity. Qed.

Lemma step_zero_inv s : small 32 s -> crc_step s = 0 -> s = 0.
Proof.
  intros H E. unfold crc_step in E. rewrite <- N.bit0_odd in E.
  apply N.bits_inj_0. intros i. destruct (N.testbit s 0) eqn:B0.
  - exfalso. assert (X : N.testbit (N.lxor (N.shiftr s 1) poly) 31 = false) by (rewrite E; apply N.bits_0).
    rewrite N.lxor_spec, N.shiftr_spec in X by lia.
    rewrite (proj1 (small_bits 32 s) H (31 + 1)) in X by lia. discriminate X.
  - destruct (N.eq_dec i 0) as [->|Hi]; [easy|].
    replace i with (N.pred i + 1) by lia. rewrite <- N.shiftr_spec by lia. rewrite E. apply N.bits_0.
Qed.

Lemma steps_small k : forall s, small 32 s -> small 32 (crc_steps k s).
Proof. induction k; simpl; intros; [easy|]. apply IHk, step_small; easy. Qed.
Lemma steps_lxor k : forall a b, crc_steps k (N.lxor a b) = N.lxor (crc_steps k a) (crc_steps k b).
Proof. induction k; simpl; intros; [easy|]. now rewrite step_lxor, IHk. Qed.
Lemma steps_0 k : crc_steps k 0 = 0.
Proof. induction k; simpl; [easy|]. now rewrite step_0. Qed.
Lemma steps_zero_inv k : forall s, small 32 s -> crc_steps k s = 0 -> s = 0.
Proof.
  induction k; simpl; intros s H E; [easy|].
  apply step_zero_inv; [easy|]. apply IHk; [now apply step_small|easy].
Qed.
Lemma steps_add j : forall k s, crc_steps (j + k) s = crc_steps k (crc_steps j s).
Proof. induction j; simpl; intros; [easy|]. apply IHj. Qed.

Lemma steps_shift k : forall x, crc_steps k (N.shiftl x (N.of_nat k)) = x.
Proof.
  induction k as [|k IH]; intros x.
  - simpl. apply N.shiftl_0_r.
  - cbn [crc_steps]. unfold crc_step.
    rewrite <- N.bit0_odd. rewrite N.shiftl_spec_low by lia.
    replace (N.shiftr (N.shiftl x (N.of_nat (S k))) 1) with (N.shiftl x (N.of_nat k)); [apply IH|].
    rewrite N.shiftr_shiftl_l by lia. f_equal. lia.
Qed.

Lemma b2n_small b : small 8 (b2n b).
Proof. apply b2n_bound. Qed.

Lemma byte_small s b : small 32 s -> small 32 (crc_byte s b).
Proof.
  intros H. unfold crc_byte. apply steps_small. apply small_lxor; [easy|].
  eapply small_mono; [|apply b2n_small]. lia.
Qed.
Lemma update_small bs : forall s, small 32 s -> small 32 (crc_update s bs).
Proof. unfold crc_update. induction bs; simpl; intros; [easy|]. apply IHbs, byte_small; easy. Qed.
Lemma crc32_small bs : small 32 (crc32 bs).
Proof. unfold crc32. apply small_lxor; [apply update_small|]; reflexivity. Qed.
Lemma crc32_bound bs : crc32 bs < 2 ^ (8 * N.of_nat 4).
Proof. apply crc32_small. Qed.
Lemma crc32_le_length bs : length (crc32_le bs) = 4%nat.
Proof. apply le_length. Qed.

Lemma update_app a b s : crc_update s (a ++ b) = crc_update (crc_update s a) b.
Proof. unfold crc_update. apply fold_left_app. Qed.

(** Feeding the same bytes to two registers: the difference only depends on the
    difference of the registers. *)
Lemma update_same bs : forall s t,
  N.lxor (crc_update s bs) (crc_update t bs) = crc_steps (8 * length bs) (N.lxor s t).
Proof.
  induction bs as [|b r IH]; intros s t; [easy|].
  cbn [crc_update fold_left]. fold (crc_update (crc_byte s b) r). fold (crc_update (crc_byte t b) r).
  rewrite IH. replace (8 * length (b :: r))%nat with (8 + 8 * length r)%nat by (simpl length; lia).
  rewrite steps_add. f_equal. unfold crc_byte. rewrite <- steps_lxor. f_equal.
  rewrite (N.lxor_comm t), N.lxor_assoc, <- (N.lxor_assoc (b2n b)), N.lxor_nilpotent, N.lxor_0_l.
  easy.
Qed.

(** xor of two byte strings of the same length, as a little-endian number. *)
Fixpoint xor_le (a b : bytes) : N :=
  match a, b with
  | x :: a', y :: b' => N.lxor (N.lxor (b2n x) (b2n y)) (N.shiftl (xor_le a' b') 8)
  | _, _ => 0
  end.

Lemma xor_le_small a : forall b, length a = length b -> small (8 * blen a) (xor_le a b).
Proof.
  induction a as [|x a IH]; intros [|y b] L; try easy.
  cbn [xor_le]. rewrite blen_cons. apply small_lxor.
  - eapply small_mono; [|apply small_lxor; apply b2n_small]. lia.
  - apply small_bits. intros i Hi. rewrite N.shiftl_spec_high' by lia.
    apply (proj1 (small_bits _ _) (IH b ltac:(simpl in L; lia))). lia.
Qed.

Lemma low_high_zero x y : small 8 x -> N.lxor x (N.shiftl y 8) = 0 -> x = 0 /\ y = 0.
Proof.
  intros Hx E.
  assert (B : forall i, N.testbit x i = N.testbit (N.shiftl y 8) i).
  { intros i. assert (N.testbit (N.lxor x (N.shiftl y 8)) i = false) by (rewrite E; apply N.bits_0).
    rewrite N.lxor_spec in H. now destruct (N.testbit x i), (N.testbit (N.shiftl y 8) i). }
  split; apply N.bits_inj_0; intros i.
  - destruct (N.lt_ge_cases i 8); [rewrite B; now apply N.shiftl_spec_low|now apply (proj1 (small_bits 8 x))].
  - assert (N.testbit (N.shiftl y 8) (i + 8) = false).
    { rewrite <- B. apply (proj1 (small_bits 8 x) Hx). lia. }
    rewrite N.shiftl_spec_high' in H by lia. now replace (i + 8 - 8) with i in H by lia.
Qed.

Lemma lxor_0_eq a b : N.lxor a b = 0 -> a = b.
Proof. apply N.lxor_eq. Qed.

Lemma xor_le_0 a : forall b, length a = length b -> xor_le a b = 0 -> a = b.
Proof.
  induction a as [|x a IH]; intros [|y b] L E; try easy.
  cbn [xor_le] in E. apply low_high_zero in E as [E1 E2].
  - apply lxor_0_eq, b2n_inj in E1. f_equal; [easy|]. apply IH; [simpl in L; lia|easy].
  - apply small_lxor; apply b2n_small.
Qed.

Lemma steps_split_8 x y : crc_steps 8 (N.lxor x (N.shiftl y 8)) = N.lxor (crc_steps 8 x) y.
Proof. rewrite steps_lxor. f_equal. apply (steps_shift 8). Qed.

(** Two strings fed to the same register. *)
Lemma update_diff a : forall b s t, length a = length b ->
  N.lxor (crc_update s a) (crc_update t b)
  = crc_steps (8 * length a) (N.lxor (N.lxor s t) (xor_le a b)).
Proof.
  induction a as [|x a IH]; intros [|y b] s t L; try easy.
  - simpl. now rewrite N.lxor_0_r.
  - cbn [crc_update fold_left]. fold (crc_update (crc_byte s x) a). fold (crc_update (crc_byte t y) b).
    rewrite IH by (simpl in L; lia).
    replace (8 * length (x :: a))%nat with (8 + 8 * length a)%nat by (simpl length; lia).
    rewrite steps_add. f_equal. cbn [xor_le].
    rewrite <- N.lxor_assoc, steps_split_8. f_equal.
    unfold crc_byte. rewrite <- steps_lxor. f_equal.
    rewrite !N.lxor_assoc. f_equal. rewrite <- !N.lxor_assoc. f_equal. apply N.lxor_comm.
Qed.

(** ** The burst theorems *)

Lemma crc_eq_update a b : crc32 a = crc32 b -> crc_update u32_max a = crc_update u32_max b.
Proof.
  unfold crc32. intros E. apply (f_equal (fun x => N.lxor x u32_max)) in E.
  now rewrite !N.lxor_assoc, !N.lxor_nilpotent, !N.lxor_0_r in E.
Qed.

Theorem crc32_burst pre w w' post :
  length w = length w' -> (length w <= 4)%nat ->
  crc32 (pre ++ w ++ post) = crc32 (pre ++ w' ++ post) -> w = w'.
Proof.
  intros L4 L E. apply crc_eq_update in E.
  rewrite !update_app in E. set (s := crc_update u32_max pre) in *.
  apply (f_equal (fun x => N.lxor x (crc_update (crc_update s w') post))) in E.
  rewrite N.lxor_nilpotent, update_same, update_diff in E by easy.
  rewrite N.lxor_nilpotent, N.lxor_0_l in E.
  assert (X : small 32 (xor_le w w')).
  { eapply small_mono; [|apply xor_le_small; easy]. unfold blen. lia. }
  apply steps_zero_inv in E; [|now apply steps_small].
  apply steps_zero_inv in E; [|easy]. now apply xor_le_0.
Qed.

(** A change that straddles the end of the message and the beginning of the stored
    checksum (four little-endian bytes). *)
Theorem crc32_straddle pre w w' c c' d :
  length w = length w' -> length c = length c' -> (length w + length c <= 4)%nat ->
  crc32_le (pre ++ w) = c ++ d -> crc32_le (pre ++ w') = c' ++ d -> w = w' /\ c = c'.
Proof.
  intros Lw Lc L4 E E'.
  assert (D : N.lxor (crc32 (pre ++ w)) (crc32 (pre ++ w')) = xor_le c c').
  { assert (V : forall m x, crc32_le m = x -> crc32 m = unle x).
    { intros m x <-. unfold crc32_le. rewrite unle_le; [easy|apply crc32_bound]. }
    rewrite (V _ _ E), (V _ _ E'), !unle_app.
    assert (Q : blen c = blen c') by (unfold blen; now rewrite Lc).
    rewrite Q. clear - Lc Q.
    (* low parts are below 2^(8 |c|): addition is xor with a shift *)
    assert (A : forall u v, small (8 * blen c') u ->
      u + 2 ^ (8 * blen c') * v = N.lxor u (N.shiftl v (8 * blen c'))).
    { intros u v Hu. rewrite N.mul_comm, <- N.shiftl_mul_pow2. rewrite N.add_nocarry_lxor; [easy|].
      apply N.bits_inj_0. intros i. rewrite N.land_spec.
      destruct (N.lt_ge_cases i (8 * blen c')).
      - rewrite N.shiftl_spec_low by easy. apply andb_false_r.
      - rewrite (proj1 (small_bits _ _) Hu) by easy. reflexivity. }
    rewrite !A; [|apply unle_bound|rewrite <- Q; apply unle_bound].
    replace (N.lxor (N.lxor (unle c) (N.shiftl (unle d) (8 * blen c')))
                    (N.lxor (unle c') (N.shiftl (unle d) (8 * blen c'))))
      with (N.lxor (unle c) (unle c')).
    - clear A Q. revert c' Lc. induction c as [|x c IH]; intros [|y c'] Lc; try easy.
      cbn [unle xor_le]. rewrite <- IH by (simpl in Lc; lia).
      assert (A : forall b v, b2n b + 256 * v = N.lxor (b2n b) (N.shiftl v 8)).
      { intros b v. change 256 with (2 ^ 8). rewrite (N.mul_comm (2^8)), <- N.shiftl_mul_pow2.
        rewrite N.add_nocarry_lxor; [easy|]. apply N.bits_inj_0. intros i. rewrite N.land_spec.
        destruct (N.lt_ge_cases i 8).
        - rewrite N.shiftl_spec_low by easy. apply andb_false_r.
        - rewrite (proj1 (small_bits _ _) (b2n_small b)) by easy. reflexivity. }
      rewrite !A, N.shiftl_lxor, !N.lxor_assoc. f_equal. rewrite <- !N.lxor_assoc. f_equal. apply N.lxor_comm.
    - apply N.bits_inj. intros i. rewrite !N.lxor_spec.
      destruct (N.testbit (unle c) i), (N.testbit (unle c') i), (N.testbit (N.shiftl (unle d) (8 * blen c')) i); easy. }
  assert (D2 : N.lxor (crc32 (pre ++ w)) (crc32 (pre ++ w')) = crc_steps (8 * length w) (xor_le w w')).
  { unfold crc32. rewrite !update_app. set (s := crc_update u32_max pre).
    transitivity (N.lxor (crc_update s w) (crc_update s w')).
    - apply N.bits_inj. intros i. rewrite !N.lxor_spec.
      destruct (N.testbit (crc_update s w) i), (N.testbit (crc_update s w') i), (N.testbit u32_max i); easy.
    - rewrite update_diff by easy. now rewrite N.lxor_nilpotent, N.lxor_0_l. }
  rewrite D in D2. symmetry in D2.
  set (W := xor_le w w') in *. set (C := xor_le c c') in *.
  assert (Z0 : N.lxor W (N.shiftl C (N.of_nat (8 * length w))) = 0).
  { apply (steps_zero_inv (8 * length w)).
    - apply small_bits. intros i Hi. rewrite N.lxor_spec.
      rewrite (proj1 (small_bits _ _) (xor_le_small w w' Lw)) by (unfold blen; lia).
      rewrite N.shiftl_spec_high' by lia.
      rewrite (proj1 (small_bits _ _) (xor_le_small c c' Lc)) by (unfold blen; lia). reflexivity.
    - rewrite steps_lxor, steps_shift, D2. apply N.lxor_nilpotent. }
  assert (HW : W = 0).
  { apply N.bits_inj_0. intros i. destruct (N.lt_ge_cases i (N.of_nat (8 * length w))) as [Hi|Hi].
    - assert (N.testbit (N.lxor W (N.shiftl C (N.of_nat (8 * length w)))) i = false) by (rewrite Z0; apply N.bits_0).
      rewrite N.lxor_spec, N.shiftl_spec_low, xorb_false_r in H by easy. easy.
    - apply (proj1 (small_bits _ _) (xor_le_small w w' Lw)). unfold blen. lia. }
  split; [now apply xor_le_0|].
  apply xor_le_0; [easy|]. fold C. rewrite <- D2, HW. apply steps_0.
Qed.

(** Corrupted stored checksum only. *)
Lemma crc32_le_inj m x y : crc32_le m = x -> crc32_le m = y -> x = y.
Proof. congruence. Qed.
