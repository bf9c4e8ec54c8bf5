(** * Inserting in a release build. *)
From Coq Require Import ZifyBool ZifyNat ZifyN.
From Verif Require Import Base Crc32 Io File Block Payload Packet Slot Storage Release ReleaseWrite Spec SpecStorage SpecRelease BaseProofs PacketProofs SlotProofs StorageProofs
  StorageReadProofs ReadingProofs HostileProofs ForeignProofs ReleaseProofs ReleaseReadProofs.
Ltac Zify.zify_post_hook ::= Z.div_mod_to_equations.
Open Scope list_scope.

Definition step (s : slot) : N := slot_size s + slot_width s.
(** The sums that an insert makes do not wrap. *)
Definition wr_small (slots : list slot) (l : locator) : Prop := lc_off l + sum (map step (skipn (lc_next l) slots)) < two64.

Lemma free_le s o : free_slot_offset s = Some o -> o <= step s.
Proof.
  unfold free_slot_offset, step, slot_width. destruct (slot_is_full s); [discriminate|]. destruct (free_position (sl_lengths s)) as [i|]; cbn [option_map]; [|discriminate].
  intros E. injection E as <-. lia.
Qed.
Lemma skipn_cons {A} n (l : list A) x : nth_error l n = Some x -> skipn n l = x :: skipn (S n) l.
Proof. revert n. induction l as [|y l IH]; intros [|n] E; try discriminate; cbn [nth_error skipn] in *; [congruence|]. now apply IH. Qed.

Lemma find_rel slots l : wr_small slots l -> rel_lc_find slots l = lc_find slots l /\ wr_small slots (snd (lc_find slots l)).
Proof.
  intros S. pose proof S as S0. unfold wr_small in S. unfold rel_lc_find, lc_find. destruct (nth_error slots (lc_next l)) as [s|] eqn:E; [|split; [reflexivity|exact S0]].
  rewrite (skipn_cons _ _ _ E) in S. unfold sum in S. cbn [map fold_right] in S. destruct (free_slot_offset s) as [o|] eqn:F.
  - pose proof (free_le s o F). split; [|exact S0]. unfold wadd. now rewrite (N.mod_small o), N.mod_small by lia.
  - assert (T : wadd (lc_off l) (rel_total s) = lc_off l + step s).
    { unfold rel_total, wadd. fold (step s) in *. unfold step in *. rewrite (N.mod_small (slot_size s)), (N.mod_small (slot_width s)), (N.mod_small (slot_size s + _)), N.mod_small by lia. reflexivity. }
    cbv zeta. rewrite T. fold (step s). cbn [lc_next lc_off].
    assert (S1 : wr_small slots (mk_locator (Datatypes.S (lc_next l)) (lc_off l + step s))) by (unfold wr_small, sum; cbn [lc_next lc_off]; lia).
    destruct (nth_error slots (Datatypes.S (lc_next l))) as [s2|] eqn:E2; [|split; [reflexivity|exact S1]]. split; [|exact S1].
    unfold wr_small in S1. cbn [lc_next lc_off] in S1. rewrite (skipn_cons _ _ _ E2) in S1. unfold sum in S1. cbn [map fold_right] in S1.
    destruct (free_slot_offset s2) as [o|] eqn:F2; cbn [option_map]; [|reflexivity]. pose proof (free_le s2 o F2).
    unfold wadd. now rewrite (N.mod_small o), N.mod_small by lia.
Qed.

Lemma skipn_snoc {A} n (l : list A) x : (n <= length l)%nat -> skipn n (l ++ [x]) = skipn n l ++ [x].
Proof. intros L. rewrite skipn_app. now replace (n - length l)%nat with 0%nat by lia. Qed.
Lemma small_push slots l : wr_small slots l -> lc_off l + sum (map step (skipn (lc_next l) slots)) + 4020 < two64 -> wr_small (slots ++ [default_slot]) l.
Proof.
  intros S L. unfold wr_small. destruct (Nat.le_gt_cases (lc_next l) (length slots)) as [Q|Q].
  - rewrite skipn_snoc by exact Q. rewrite map_app, sum_app. change (sum (map step [default_slot])) with 4020. lia.
  - rewrite skipn_all2 by (rewrite app_length; cbn [length]; lia). unfold wr_small in S. rewrite skipn_all2 in S by lia. exact S.
Qed.
Lemma find_sum slots l : lc_off (snd (lc_find slots l)) + sum (map step (skipn (lc_next (snd (lc_find slots l))) slots)) = lc_off l + sum (map step (skipn (lc_next l) slots)).
Proof.
  unfold lc_find. destruct (nth_error slots (lc_next l)) as [s|] eqn:E; [|reflexivity]. rewrite (skipn_cons _ _ _ E). unfold sum. cbn [map fold_right].
  destruct (free_slot_offset s); [cbn [snd]; rewrite (skipn_cons _ _ _ E); reflexivity|].
  cbn [lc_next lc_off]. change (slot_size s + slot_width s) with (step s). destruct (nth_error slots (S (lc_next l))); cbn [snd lc_next lc_off]; lia.
Qed.

Lemma insert_rel {U} (p : packet U) w : lc_off (w_loc w) + sum (map step (skipn (lc_next (w_loc w)) (w_slots w))) + 4020 < two64 -> rel_w_insert p w = w_insert p w.
Proof.
  intros L. assert (S : wr_small (w_slots w) (w_loc w)) by (unfold wr_small; lia). destruct (find_rel _ _ S) as (E & S1). pose proof (find_sum (w_slots w) (w_loc w)) as FS.
  assert (F : rel_w_find w = w_find w); [|unfold rel_w_insert, w_insert; rewrite F; reflexivity].
  unfold rel_w_find, w_find. rewrite E. destruct (lc_find (w_slots w) (w_loc w)) as [[o|] l]; [reflexivity|]. cbn [snd] in *.
  rewrite (proj1 (find_rel _ _ (small_push _ _ S1 ltac:(lia)))). reflexivity.
Qed.

Lemma step_with ls : map step (map slot_with ls) = map (fun lens => table_len lens + announced lens) ls.
Proof. rewrite map_map. apply map_ext. intros x. unfold step. change (slot_with x) with (slot_of x). now rewrite slot_of_size, slot_of_width. Qed.

(** What the locator has passed and what is to come are all tables. *)
Lemma setup_sum slots : forall l, lc_next l = 0%nat -> forall pre, lc_off (lc_setup_go slots (mk_locator pre (lc_off l))) + sum (map step (skipn (lc_next (lc_setup_go slots (mk_locator pre (lc_off l))) - pre) slots)) = lc_off l + sum (map step slots) /\
  (pre <= lc_next (lc_setup_go slots (mk_locator pre (lc_off l))))%nat.
Proof.
  unfold sum. induction slots as [|s slots IH]; intros l Z pre; cbn [lc_setup_go lc_next lc_off map fold_right].
  - rewrite Nat.sub_diag. cbn [skipn map fold_right]. lia.
  - destruct (free_slot_offset s); cbn [lc_next lc_off]; [rewrite Nat.sub_diag; cbn [skipn map fold_right]; lia|].
    destruct (IH (mk_locator 0 (lc_off l + (slot_size s + slot_width s))) eq_refl (S pre)) as (I1 & I2). cbn [lc_off] in I1, I2.
    set (l1 := lc_setup_go slots _) in *. split; [|lia]. replace (lc_next l1 - pre)%nat with (S (lc_next l1 - S pre)) by lia. cbn [skipn]. rewrite I1. unfold step at 2. lia.
Qed.
Lemma opened_sum slots : let l := lc_setup slots new_locator in lc_off l + sum (map step (skipn (lc_next l) slots)) = sum (map step slots).
Proof. cbv zeta. unfold lc_setup. destruct (setup_sum slots new_locator eq_refl 0%nat) as (E & _). rewrite Nat.sub_0_r in E. exact E. Qed.

(** ** Histories *)
Lemma lsl_step lens : good lens -> step (lsl lens) = gsz lens.
Proof. intros G. unfold step. rewrite lsl_size, lsl_width by exact G. reflexivity. Qed.
Lemma lsl_steps ls : Forall good ls -> sum (map step (map lsl ls)) = gszs ls.
Proof. intros F. unfold gszs. rewrite map_map. induction F as [|l ls G F IH]; [reflexivity|]. unfold sum in *. cbn [map fold_right]. rewrite IH, lsl_step by exact G. reflexivity. Qed.
Lemma mem_sum fs l slots loc : w_mem fs l slots loc -> lc_off loc + sum (map step (skipn (lc_next loc) slots)) <= gszs fs + tsz + sum l.
Proof.
  intros [F (L & PA) SL LO]. assert (G : Forall good fs) by (eapply Forall_impl; [|exact F]; intros g; apply full_good).
  assert (GL : good l) by (split; [lia|exact PA]).
  assert (A : forall a b, fs = a ++ b -> gszs a + sum (map step (skipn (length a) slots)) <= gszs fs + tsz + sum l).
  { intros a b ->. apply Forall_app in G as (G1 & G2). rewrite gszs_app.
    assert (X : forall r, skipn (length a) (map lsl (a ++ b) ++ r) = map lsl b ++ r) by (intros r; rewrite map_app, <- app_assoc; apply skipn_app_exact; now rewrite map_length).
    destruct SL as [->|(-> & ->)].
    - rewrite X, map_app, sum_app, lsl_steps by exact G2. cbn [map]. unfold sum at 1. cbn [fold_right]. rewrite lsl_step by exact GL. unfold gsz. lia.
    - rewrite <- (app_nil_r (map lsl (a ++ b))), X, app_nil_r, lsl_steps by exact G2. cbn. lia. }
  destruct LO as [->|(fs' & f & E & ->)]; cbn [at_loc lc_next lc_off]; [apply (A fs []); now rewrite app_nil_r|exact (A fs' [f] E)].
Qed.
Lemma files_sum fs l : shaped fs l -> gszs (map (map blen) fs) + sum (map blen l) <= blen (files (gro fs l)).
Proof.
  intros (F & L). unfold gro. rewrite files_app, blen_app.
  assert (A : blen (files fs) = gszs (map (map blen) fs)).
  { induction F as [|g fs E F IH]; [reflexivity|]. change (files (g :: fs)) with (gfile g ++ files fs). rewrite blen_app, IH, gfile_blen by lia. reflexivity. }
  rewrite A. destruct l as [|x l]; [cbn; lia|]. rewrite files_one, gfile_blen by lia. unfold gsz. lia.
Qed.
