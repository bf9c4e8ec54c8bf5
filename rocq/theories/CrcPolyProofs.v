(** * The model of the checksum and the remainder of polynomials. *)
From Coq Require Import ZifyBool ZifyNat ZifyN.
From Verif Require Import Base Crc32 SpecCrc BaseProofs CrcProofs.
Ltac Zify.zify_post_hook ::= Z.div_mod_to_equations.
Open Scope list_scope.

Lemma double_shift a : N.double a = N.shiftl a 1.
Proof. rewrite N.double_spec, N.shiftl_mul_pow2, N.pow_1_r. apply N.mul_comm. Qed.
Lemma double_lxor a b : N.double (N.lxor a b) = N.lxor (N.double a) (N.double b).
Proof. now rewrite !double_shift, N.shiftl_lxor. Qed.
Lemma double_bit a i : N.testbit (N.double a) (N.succ i) = N.testbit a i.
Proof. rewrite N.double_spec. apply N.testbit_even_succ. lia. Qed.
Lemma double_bit0 a : N.testbit (N.double a) 0 = false.
Proof. rewrite N.double_spec. apply N.testbit_even_0. Qed.

Lemma poly_mul_double a b : poly_mul (N.double a) b = N.double (poly_mul a b).
Proof. destruct a; reflexivity. Qed.
Lemma poly_mul_succ_double a b : poly_mul (N.succ_double a) b = N.lxor b (N.double (poly_mul a b)).
Proof. destruct a; cbn; [now rewrite N.lxor_0_r|reflexivity]. Qed.
Lemma poly_mul_step a (c : bool) b : poly_mul (N.lxor (N.double a) (if c then 1 else 0)) b = N.lxor (N.double (poly_mul a b)) (if c then b else 0).
Proof.
  destruct c.
  - replace (N.lxor (N.double a) 1) with (N.succ_double a) by (destruct a as [|p]; reflexivity). rewrite poly_mul_succ_double. apply N.lxor_comm.
  - rewrite !N.lxor_0_r. apply poly_mul_double.
Qed.

Lemma poly_of_app l b : poly_of (l ++ [b]) = N.lxor (N.double (poly_of l)) (if b then 1 else 0).
Proof. unfold poly_of. now rewrite fold_left_app. Qed.

Lemma bits_of_length n v : length (bits_of n v) = n.
Proof. unfold bits_of. now rewrite map_length, seq_length. Qed.

(** Bit [i] of the polynomial with the coefficients [l]. *)
Lemma poly_of_bit l : forall i, N.testbit (poly_of l) i = if i <? N.of_nat (length l) then nth (length l - 1 - N.to_nat i) l false else false.
Proof.
  induction l as [|b l IH] using rev_ind; intros i.
  - unfold poly_of. cbn [fold_left length]. rewrite N.bits_0. now destruct (i <? N.of_nat 0).
  - rewrite poly_of_app, N.lxor_spec, app_length. cbn [length]. destruct (N.eq_dec i 0) as [->|NZ].
    + rewrite double_bit0. replace (0 <? _) with true by lia. rewrite app_nth2 by lia. replace (length l + 1 - 1 - N.to_nat 0 - length l)%nat with O by lia.
      cbn [nth]. destruct b; reflexivity.
    + replace i with (N.succ (N.pred i)) at 1 2 by lia. rewrite double_bit, IH. replace (N.testbit (if b then 1 else 0) _) with false.
      2:{ destruct b; symmetry; [|apply N.bits_0]. apply N.bits_above_log2. cbn. lia. }
      rewrite xorb_false_r. destruct (N.pred i <? N.of_nat (length l)) eqn:E1; destruct (i <? N.of_nat (length l + 1)) eqn:E2; try reflexivity; try (exfalso; lia).
      rewrite app_nth1 by lia. f_equal. lia.
Qed.

(** The register of the model, read as a polynomial. *)
Definition reg (s : N) : N := poly_of (bits_of 32 s).
Lemma reg_bit s i : N.testbit (reg s) i = if i <? 32 then N.testbit s (31 - i) else false.
Proof.
  unfold reg. rewrite poly_of_bit, bits_of_length. change (N.of_nat 32) with 32. destruct (i <? 32) eqn:E; [|reflexivity].
  unfold bits_of. rewrite (nth_indep _ false (N.testbit s (N.of_nat 0))) by (rewrite map_length, seq_length; lia).
  rewrite (map_nth (fun i => N.testbit s (N.of_nat i))), seq_nth by lia. f_equal. lia.
Qed.

Lemma generator_bits i : i < 32 -> N.testbit generator i = N.testbit poly (31 - i).
Proof.
  intros L. assert (H : forallb (fun k => Bool.eqb (N.testbit generator (N.of_nat k)) (N.testbit poly (31 - N.of_nat k))) (seq 0 32) = true) by (vm_compute; reflexivity).
  rewrite forallb_forall in H. specialize (H (N.to_nat i)). rewrite N2Nat.id in H. apply eqb_prop, H, in_seq. lia.
Qed.
Lemma generator_top : N.testbit generator 32 = true.
Proof. reflexivity. Qed.
Lemma generator_high i : 32 < i -> N.testbit generator i = false.
Proof. intros L. apply N.bits_above_log2. vm_compute N.log2. exact L. Qed.

Lemma bit_high s i : small 32 s -> 32 <= i -> N.testbit s i = false.
Proof. intros H. now apply small_bits. Qed.

Definition bit (b : bool) : N := if b then 1 else 0.
Lemma bit_succ b i : N.testbit (bit b) (N.succ i) = false.
Proof. destruct b; [|apply N.bits_0]. apply N.bits_above_log2. cbn. lia. Qed.
Lemma bit_0 b : N.testbit (bit b) 0 = b.
Proof. now destruct b. Qed.

(** One bit of the message. *)
Lemma reg_step s b : small 32 s ->
  reg (crc_step (N.lxor s (bit b))) =
  N.lxor (N.lxor (N.double (reg s)) (N.shiftl (bit b) 32)) (if xorb (N.testbit s 0) b then generator else 0).
Proof.
  intros S. set (c := xorb (N.testbit s 0) b).
  assert (O : N.odd (N.lxor s (bit b)) = c) by (rewrite <- N.bit0_odd, N.lxor_spec, bit_0; reflexivity).
  assert (ST : forall j, N.testbit (crc_step (N.lxor s (bit b))) j = xorb (N.testbit s (N.succ j)) (c && N.testbit poly j)).
  { intros j. unfold crc_step. rewrite O. destruct c; cbn [andb]; rewrite ?N.lxor_spec, N.shiftr_spec, N.lxor_spec by lia;
      rewrite N.add_1_r, bit_succ, !xorb_false_r; reflexivity. }
  apply N.bits_inj. intros i. rewrite reg_bit, ST, !N.lxor_spec.
  destruct (N.lt_trichotomy i 32) as [L|[->|L]].
  - replace (i <? 32) with true by lia. rewrite N.shiftl_spec_low by exact L. rewrite xorb_false_r. f_equal.
    + destruct (N.eq_dec i 0) as [->|NZ]; [rewrite double_bit0; apply bit_high; [exact S|lia]|].
      replace i with (N.succ (N.pred i)) at 2 by lia. rewrite double_bit, reg_bit. replace (N.pred i <? 32) with true by lia. f_equal. lia.
    + destruct c; cbn [andb]; [symmetry; now apply generator_bits|now rewrite N.bits_0].
  - change (32 <? 32) with false. cbv iota. change 32 with (N.succ 31) at 1. rewrite double_bit, reg_bit. change (31 <? 32) with true. cbv iota. change (31 - 31) with 0.
    rewrite N.shiftl_spec_high by lia. change (32 - 32) with 0. rewrite bit_0. unfold c. destruct (N.testbit s 0), b; reflexivity.
  - replace (i <? 32) with false by lia. replace i with (N.succ (N.pred i)) at 1 by lia. rewrite double_bit, reg_bit. replace (N.pred i <? 32) with false by lia.
    rewrite N.shiftl_spec_high by lia. replace (i - 32) with (N.succ (i - 33)) by lia. rewrite bit_succ. destruct c; [now rewrite generator_high|now rewrite N.bits_0].
Qed.

(** The checksum bit by bit. *)
Definition bit_step (s : N) (b : bool) : N := crc_step (N.lxor s (bit b)).
Lemma bit_step_small s b : small 32 s -> small 32 (bit_step s b).
Proof. intros S. apply step_small, small_lxor; [exact S|]. destruct b; reflexivity. Qed.

Lemma bits_of_succ n v : bits_of (S n) v = N.testbit v 0 :: bits_of n (N.shiftr v 1).
Proof.
  unfold bits_of. cbn [seq map]. f_equal. rewrite <- seq_shift, map_map. apply map_ext. intros i. rewrite N.shiftr_spec by lia. f_equal. lia.
Qed.
Lemma steps_bits n : forall s v, small (N.of_nat n) v -> crc_steps n (N.lxor s v) = fold_left bit_step (bits_of n v) s.
Proof.
  induction n as [|n IH]; intros s v V.
  - replace v with 0 by (unfold small in V; cbn in V; lia). now rewrite N.lxor_0_r.
  - rewrite bits_of_succ. cbn [fold_left crc_steps]. rewrite <- IH.
    2:{ apply small_bits. intros i Hi. rewrite N.shiftr_spec by lia. apply (proj1 (small_bits _ _) V). lia. }
    f_equal. assert (E : v = N.lxor (bit (N.testbit v 0)) (N.shiftl (N.shiftr v 1) 1)).
    { apply N.bits_inj. intros i. rewrite N.lxor_spec. destruct (N.eq_dec i 0) as [->|NZ].
      - rewrite bit_0, N.shiftl_spec_low by lia. now rewrite xorb_false_r.
      - rewrite N.shiftl_spec_high, N.shiftr_spec by lia. replace (i - 1 + 1) with i by lia. assert (H : N.testbit (bit (N.testbit v 0)) i = false) by (replace i with (N.succ (N.pred i)) by lia; apply bit_succ). rewrite H. now destruct (N.testbit v i). }
    rewrite E at 1. rewrite <- N.lxor_assoc, step_lxor. unfold bit_step. f_equal. apply (steps_shift 1).
Qed.
Lemma update_bits bs : forall s, crc_update s bs = fold_left bit_step (message_bits bs) s.
Proof.
  unfold message_bits. induction bs as [|b bs IH]; intros s; [reflexivity|]. cbn [map concat]. rewrite fold_left_app, <- IH.
  unfold crc_update. cbn [fold_left]. f_equal. unfold crc_byte. apply (steps_bits 8). apply b2n_small.
Qed.

(** The register is the remainder of what has come so far. *)
Lemma fold_rem l : let s := fold_left bit_step l u32_max in small 32 s /\
  exists q, N.lxor (N.shiftl (poly_of l) 32) (N.shiftl u32_max (N.of_nat (length l))) = N.lxor (poly_mul q generator) (reg s).
Proof.
  induction l as [|b l IH] using rev_ind; cbv zeta.
  - split; [reflexivity|]. exists 0. vm_compute. reflexivity.
  - destruct IH as (S & q & E). rewrite fold_left_app. cbn [fold_left]. set (s := fold_left bit_step l u32_max) in *. split; [now apply bit_step_small|].
    exists (N.lxor (N.double q) (if xorb (N.testbit s 0) b then 1 else 0)). rewrite poly_mul_step, poly_of_app, app_length. cbn [length].
    unfold bit_step. rewrite reg_step by exact S. fold (bit b).
    replace (N.shiftl u32_max (N.of_nat (length l + 1))) with (N.double (N.shiftl u32_max (N.of_nat (length l)))).
    2:{ rewrite double_shift, N.shiftl_shiftl. f_equal. lia. }
    rewrite N.shiftl_lxor. replace (N.shiftl (N.double (poly_of l)) 32) with (N.double (N.shiftl (poly_of l) 32)).
    2:{ rewrite !double_shift, !N.shiftl_shiftl. f_equal. }
    apply (f_equal N.double) in E. rewrite !double_lxor in E.
    set (A := N.double (N.shiftl (poly_of l) 32)) in *. set (B := N.double (N.shiftl u32_max _)) in *. set (C := N.double (poly_mul q generator)) in *.
    set (D := N.double (reg s)) in *. set (F := N.shiftl (bit b) 32). set (G := if xorb _ _ then generator else 0).
    clearbody A B C D F G. apply N.bits_inj. intros i. apply (f_equal (fun x => N.testbit x i)) in E. rewrite !N.lxor_spec in *.
    destruct (N.testbit A i), (N.testbit B i), (N.testbit C i), (N.testbit D i), (N.testbit F i), (N.testbit G i); cbn in *; congruence.
Qed.

Lemma message_length bs : length (message_bits bs) = (8 * length bs)%nat.
Proof. unfold message_bits. induction bs as [|b bs IH]; [reflexivity|]. cbn [map concat length]. rewrite app_length, bits_of_length, IH. lia. Qed.

Lemma invert_bits n v : small (N.of_nat n) v -> bits_of n (N.lxor v (2 ^ N.of_nat n - 1)) = map negb (bits_of n v).
Proof.
  intros V. unfold bits_of. rewrite map_map. apply map_ext_in. intros i Hi. apply in_seq in Hi. rewrite N.lxor_spec.
  replace (2 ^ N.of_nat n - 1) with (N.ones (N.of_nat n)) by (rewrite N.ones_equiv; lia). rewrite N.ones_spec_low by lia. now rewrite xorb_true_r.
Qed.

Lemma size_small k x : small k x <-> N.size x <= k.
Proof.
  unfold small. destruct (N.eq_dec x 0) as [->|NZ]; [cbn; split; intros _; [lia|apply N.neq_0_lt_0, N.pow_nonzero; lia]|].
  rewrite N.size_log2 by exact NZ. rewrite (N.log2_lt_pow2 x k) by lia. lia.
Qed.

Lemma reg_small s : small 32 (reg s).
Proof. apply small_bits. intros i Hi. rewrite reg_bit. now replace (i <? 32) with false by lia. Qed.

Lemma crc32_is bs : is_crc32 bs (crc32 bs).
Proof.
  split; [apply crc32_small|]. destruct (fold_rem (message_bits bs)) as (S & q & E). cbv zeta in S, E. rewrite <- update_bits in S, E.
  assert (R : poly_of (map negb (bits_of 32 (crc32 bs))) = reg (crc_update u32_max bs)).
  { unfold reg. f_equal. unfold crc32. change u32_max with (2 ^ N.of_nat 32 - 1) at 2. rewrite (invert_bits 32) by exact S. rewrite map_map.
    rewrite <- (map_id (bits_of 32 _)) at 2. apply map_ext. intros b. apply negb_involutive. }
  rewrite R. split; [change (N.size generator) with 33; pose proof (proj1 (size_small _ _) (reg_small (crc_update u32_max bs))); lia|].
  exists q. rewrite <- E. rewrite message_length. unfold blen. change (2 ^ 32 - 1) with u32_max. f_equal. f_equal. lia.
Qed.

(** ** The remainder is unique *)
Lemma size_lxor_lt a b : N.size a < N.size b -> N.size (N.lxor a b) = N.size b.
Proof.
  intros L. assert (NB : b <> 0) by (intros ->; cbn in L; lia). assert (SB : N.size b = N.succ (N.log2 b)) by now apply N.size_log2.
  assert (A : small (N.log2 b) a) by (apply size_small; lia).
  assert (T : N.testbit (N.lxor a b) (N.log2 b) = true). { rewrite N.lxor_spec, (proj1 (small_bits _ _) A) by lia. now rewrite N.bit_log2. }
  assert (NZ : N.lxor a b <> 0) by (intros Z; rewrite Z, N.bits_0 in T; discriminate T).
  rewrite (N.size_log2 _ NZ), SB. f_equal. apply N.log2_bits_unique; [exact T|].
  intros m M. rewrite N.lxor_spec, (proj1 (small_bits _ _) A) by lia. now rewrite N.bits_above_log2.
Qed.
Lemma size_double a : a <> 0 -> N.size (N.double a) = N.succ (N.size a).
Proof. destruct a; [now intros []|reflexivity]. Qed.
Lemma mul_size a g : g <> 0 -> a <> 0 -> N.size g <= N.size (poly_mul a g).
Proof.
  intros G A. destruct a as [|a]; [now destruct A|]. clear A. cbn [poly_mul].
  assert (NZ : forall x, N.size g <= N.size x -> x <> 0) by (intros x L ->; destruct g; [now destruct G|cbn in L; lia]).
  induction a as [a IH|a IH|]; cbn [poly_mul_pos].
  - pose proof (NZ _ IH) as M. rewrite size_lxor_lt; rewrite size_double by exact M; lia.
  - pose proof (NZ _ IH) as M. rewrite size_double by exact M. lia.
  - lia.
Qed.
Lemma split_bit a : exists h c, a = N.lxor (N.double h) (if c : bool then 1 else 0).
Proof.
  destruct a as [|[a|a|]]; [exists 0, false|exists (N.pos a), true|exists (N.pos a), false|exists 0, true]; reflexivity.
Qed.
Lemma mul_lxor a : forall b g, poly_mul (N.lxor a b) g = N.lxor (poly_mul a g) (poly_mul b g).
Proof.
  assert (ST : forall a', (forall b g, poly_mul (N.lxor a' b) g = N.lxor (poly_mul a' g) (poly_mul b g)) -> forall (c : bool) b g,
    poly_mul (N.lxor (N.lxor (N.double a') (if c then 1 else 0)) b) g = N.lxor (poly_mul (N.lxor (N.double a') (if c then 1 else 0)) g) (poly_mul b g)).
  { intros a' IH c b g. destruct (split_bit b) as (h & d & ->).
    replace (N.lxor (N.lxor (N.double a') (if c then 1 else 0)) (N.lxor (N.double h) (if d then 1 else 0)))
      with (N.lxor (N.double (N.lxor a' h)) (if xorb c d then 1 else 0)).
    2:{ rewrite double_lxor. apply N.bits_inj. intros i. rewrite !N.lxor_spec. replace (N.testbit (if xorb c d then 1 else 0) i) with (xorb (N.testbit (if c then 1 else 0) i) (N.testbit (if d then 1 else 0) i)).
        - destruct (N.testbit (N.double a') i), (N.testbit (N.double h) i), (N.testbit (if c then 1 else 0) i), (N.testbit (if d then 1 else 0) i); reflexivity.
        - destruct c, d; cbn [xorb]; rewrite ?N.bits_0, ?xorb_nilpotent, ?xorb_false_r, ?xorb_false_l; reflexivity. }
    rewrite !poly_mul_step, IH, double_lxor. apply N.bits_inj. intros i. rewrite !N.lxor_spec.
    replace (N.testbit (if xorb c d then g else 0) i) with (xorb (N.testbit (if c then g else 0) i) (N.testbit (if d then g else 0) i)).
    - destruct (N.testbit (N.double (poly_mul a' g)) i), (N.testbit (N.double (poly_mul h g)) i), (N.testbit (if c then g else 0) i), (N.testbit (if d then g else 0) i); reflexivity.
    - destruct c, d; cbn [xorb]; rewrite ?N.bits_0, ?xorb_nilpotent, ?xorb_false_r, ?xorb_false_l; reflexivity. }
  destruct a as [|a]; [intros b g; rewrite N.lxor_0_l; now rewrite N.lxor_0_l|]. induction a as [a IH|a IH|].
  - exact (ST (N.pos a) IH true).
  - exact (ST (N.pos a) IH false).
  - apply (ST 0 ltac:(intros b g; rewrite N.lxor_0_l; now rewrite N.lxor_0_l) true).
Qed.

Lemma rem_unique a g r r' : poly_rem a g r -> poly_rem a g r' -> r = r'.
Proof.
  intros (S & q & E) (S' & q' & E'). assert (G : g <> 0) by (intros ->; cbn in S; lia).
  assert (M : poly_mul (N.lxor q q') g = N.lxor r r').
  { rewrite mul_lxor. rewrite E in E'. apply N.bits_inj. intros i. apply (f_equal (fun x => N.testbit x i)) in E'. rewrite !N.lxor_spec in *.
    destruct (N.testbit (poly_mul q g) i), (N.testbit (poly_mul q' g) i), (N.testbit r i), (N.testbit r' i); cbn in *; congruence. }
  destruct (N.eq_dec (N.lxor q q') 0) as [Z|NZ].
  - rewrite Z in M. cbn in M. now apply N.lxor_eq.
  - exfalso. pose proof (mul_size _ g G NZ) as L. rewrite M in L.
    assert (small (N.size g - 1) (N.lxor r r')) as Q by (apply small_lxor; apply size_small; lia). apply size_small in Q. lia.
Qed.

Lemma bits_of_inj n : forall v w, small (N.of_nat n) v -> small (N.of_nat n) w -> bits_of n v = bits_of n w -> v = w.
Proof.
  intros v w V W E. apply N.bits_inj. intros i. destruct (N.lt_ge_cases i (N.of_nat n)) as [L|L].
  - apply (f_equal (fun l => nth (N.to_nat i) l (N.testbit v (N.of_nat 0)))) in E. unfold bits_of in E. rewrite (map_nth (fun i => N.testbit v (N.of_nat i))) in E.
    rewrite (nth_indep _ _ (N.testbit w (N.of_nat 0))) in E by (rewrite map_length, seq_length; lia). rewrite (map_nth (fun i => N.testbit w (N.of_nat i))) in E.
    rewrite seq_nth in E by lia. now rewrite Nat.add_0_l, N2Nat.id in E.
  - now rewrite (proj1 (small_bits _ _) V), (proj1 (small_bits _ _) W).
Qed.
Lemma poly_of_inj l l' : length l = length l' -> poly_of l = poly_of l' -> l = l'.
Proof.
  intros L E. apply (nth_ext l l' false false L). intros n N. apply (f_equal (fun x => N.testbit x (N.of_nat (length l - 1 - n)))) in E.
  rewrite !poly_of_bit, <- L in E. replace (N.of_nat _ <? _) with true in E by lia. replace (length l - 1 - N.to_nat (N.of_nat (length l - 1 - n)))%nat with n in E by lia. exact E.
Qed.

Lemma crc32_unique bs v : is_crc32 bs v -> v = crc32 bs.
Proof.
  intros (B & R). destruct (crc32_is bs) as (B' & R'). pose proof (rem_unique _ _ _ _ R R') as E.
  apply poly_of_inj in E; [|now rewrite !map_length, !bits_of_length]. apply (bits_of_inj 32); [exact B|exact B'|].
  apply (f_equal (map negb)) in E. rewrite !map_map in E.
  assert (I : forall l, map (fun x => negb (negb x)) l = l) by (intros l; rewrite <- (map_id l) at 2; apply map_ext, negb_involutive). now rewrite !I in E.
Qed.
