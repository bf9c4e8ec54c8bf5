(** * Invariants of the sensor. *)
From Coq Require Import ZifyBool ZifyNat ZifyN.
From Verif Require Import Base Sensor SpecSensor.
Open Scope list_scope.

(** ** Threads *)
Definition has (f : pc -> bool) (l : list pc) : Prop := exists i p, nth_error l i = Some p /\ f p = true.
Definition num (f : pc -> bool) (l : list pc) : nat := length (filter f l).

Lemma nth_set_same i p : forall l x, nth_error l i = Some x -> nth_error (set_nth i p l) i = Some p.
Proof. induction i as [|i IH]; intros [|y l] x H; try discriminate; [reflexivity|]. exact (IH l x H). Qed.
Lemma nth_set_other i p : forall l j, j <> i -> nth_error (set_nth i p l) j = nth_error l j.
Proof. induction i as [|i IH]; intros [|y l] [|j] H; try easy. cbn. apply IH. lia. Qed.

Lemma has_set f i p l x : nth_error l i = Some x -> f p = true -> has f (set_nth i p l).
Proof. intros N F. exists i, p. split; [exact (nth_set_same _ _ _ _ N)|exact F]. Qed.
Lemma has_keep f i p l x : nth_error l i = Some x -> f x = false -> has f l -> has f (set_nth i p l).
Proof.
  intros N F (j & y & Nj & Fy). destruct (Nat.eq_dec j i) as [->|D]; [congruence|]. exists j, y. rewrite nth_set_other by exact D. auto.
Qed.
Lemma has_snoc f l p : has f l -> has f (l ++ [p]).
Proof. intros (j & y & N & F). exists j, y. split; [|exact F]. rewrite nth_error_app1; [exact N|]. apply nth_error_Some. congruence. Qed.
Lemma has_new f l p : f p = true -> has f (l ++ [p]).
Proof. intros F. exists (length l), p. split; [|exact F]. rewrite nth_error_app2, Nat.sub_diag by lia. reflexivity. Qed.
Lemma has_none f l : Forall (fun p => exists r, p = Done r) l -> (forall r, f (Done r) = false) -> ~ has f l.
Proof. intros A F (j & y & N & Fy). apply nth_error_In in N. rewrite Forall_forall in A. destruct (A y N) as (r & ->). rewrite F in Fy. congruence. Qed.

Lemma num_set f i p : forall l x, nth_error l i = Some x -> (num f (set_nth i p l) + (if f x then 1 else 0) = num f l + (if f p then 1 else 0))%nat.
Proof.
  unfold num. induction i as [|i IH]; intros [|y l] x H; try discriminate.
  - injection H as ->. cbn [set_nth filter]. destruct (f p), (f x); cbn [length]; lia.
  - cbn [set_nth filter]. specialize (IH l x H). destruct (f y); cbn [length]; lia.
Qed.
Lemma num_snoc f l p : (num f (l ++ [p]) = num f l + (if f p then 1 else 0))%nat.
Proof. unfold num. rewrite filter_app, app_length. cbn [filter]. destruct (f p); reflexivity. Qed.

(** ** No wake is lost *)
Definition sending (p : pc) : bool := match p with ESend _ => true | _ => false end.
Definition acking (p : pc) : bool := match p with PLoad _ | PCas _ _ | PUnlock => true | _ => false end.
(** Will still look at the file, or has looked at it as it is now. *)
Definition looking (n : N) (p : pc) : bool :=
  match p with PLoad _ | PCas _ _ | PUnlock | EMeta | ESend _ => true | ELoad m | ECas m => m =? n | Done _ => false end.

Definition busy (s : sensor) : Prop := has sending (s_threads s) \/ has acking (s_threads s) \/ s_queue s <> None \/ s_held s = true.
Definition hope (s : sensor) : Prop := s_event s = true \/ has (looking (s_size s)) (s_threads s) \/ s_queue s <> None \/ s_held s = true.
(** [t]: something has happened since the start. *)
Definition winv (t : bool) (s : sensor) : Prop := s_open s = true /\ (s_locked s = true -> busy s) /\ (t = true -> s_until s < s_size s -> hope s).

Lemma sending_looking n p : sending p = true -> looking n p = true.
Proof. now destruct p. Qed.
Lemma acking_looking n p : acking p = true -> looking n p = true.
Proof. now destruct p. Qed.
Lemma has_impl (f g : pc -> bool) l : (forall p, f p = true -> g p = true) -> has f l -> has g l.
Proof. intros H (i & p & N & F). exists i, p. auto. Qed.
Lemma busy_hope s : busy s -> hope s.
Proof.
  intros [H|[H|H]]; right; [left|left|right; exact H].
  - eapply has_impl; [apply sending_looking|exact H].
  - eapply has_impl; [apply acking_looking|exact H].
Qed.

Lemma max_loop_acking u c : acking (max_loop u c) = true.
Proof. unfold max_loop. now destruct (c <? u). Qed.
Lemma max_loop_looking n u c : looking n (max_loop u c) = true.
Proof. apply acking_looking, max_loop_acking. Qed.

Lemma winv_happens h t s : quiet_happening h = true -> winv t s -> winv (t || touches h) (happens h s).
Proof.
  intros Q (O & B & H). destruct h as [n| | |u|i weak|i| |]; try discriminate Q; cbn [happens touches]; rewrite ?orb_true_r, ?orb_false_r.
  - (* change *) split; [exact O|]. split; [exact B|]. intros _ _. left. reflexivity.
  - (* event *) split; [exact O|]. split.
    + intros L. cbn in *. destruct (B L) as [X|[X|X]]; [left|right; left|right; right; exact X]; now apply has_snoc.
    + intros _ _. right. left. now apply has_new.
  - (* ack *) split; [exact O|]. split.
    + intros _. right. left. now apply has_new.
    + intros _ _. right. left. now apply has_new.
  - (* step *) unfold run. destruct (nth_error (s_threads s) i) as [p|] eqn:N; [|split; auto].
    destruct p as [u|u c| | |n|n|n|o].
    + split; [exact O|]. split; intros; right; left; eapply has_set; try exact N; [apply max_loop_acking|apply max_loop_looking].
    + destruct ((s_until s =? c) && negb weak).
      * split; [exact O|]. split; intros; right; left; eapply has_set; try exact N; reflexivity.
      * split; [exact O|]. split; intros; right; left; eapply has_set; try exact N; [apply max_loop_acking|apply max_loop_looking].
    + split; [exact O|]. split; [intros Z; discriminate Z|]. intros _ _. right. left. eapply has_set; [exact N|reflexivity].
    + split; [exact O|]. split.
      * intros L. destruct (B L) as [X|[X|X]]; [left|right; left|right; right; exact X]; (eapply has_keep; [exact N|reflexivity|exact X]).
      * intros _ _. right. left. eapply has_set; [exact N|]. cbn. apply N.eqb_refl.
    + split; [exact O|]. split.
      * intros L. destruct (B L) as [X|[X|X]]; [left|right; left|right; right; exact X]; (eapply has_keep; [exact N|reflexivity|exact X]).
      * intros T L. specialize (H T L). cbn in L. unfold hope in *. cbn. destruct H as [H|[H|H]]; [now left| |right; right; exact H]. right. left.
        destruct H as (j & y & Nj & Fy). destruct (Nat.eq_dec j i) as [->|D].
        -- rewrite N in Nj. injection Nj as <-. cbn in Fy. apply N.eqb_eq in Fy. subst n. destruct (N.leb_spec (s_size s) (s_until s)); [lia|].
           eapply has_set; [exact N|]. cbn. apply N.eqb_refl.
        -- exists j, y. rewrite nth_set_other by exact D. auto.
    + destruct (s_locked s) eqn:LK.
      * specialize (B eq_refl). split; [exact O|].
        assert (busy (goto i (Done RetOk) s)) as B'. { destruct B as [X|[X|X]]; [left|right; left|right; right; exact X]; (eapply has_keep; [exact N|reflexivity|exact X]). }
        split; [intros _; exact B'|intros _ _; now apply busy_hope].
      * split; [exact O|]. split; intros; [left|right; left]; eapply has_set; try exact N; reflexivity.
    + rewrite O. assert (s_queue (match s_queue s with None => with_queue (Some n) s | Some _ => s end) <> None) as QN.
      { destruct (s_queue s) eqn:E; [congruence|discriminate]. }
      split; [|split; intros; right; right; left; exact QN].
      cbn. destruct (s_queue s); exact O.
    + split; auto.
  - (* recv *) rewrite O. destruct (s_queue s) eqn:E; [|split; auto]. split; [reflexivity|]. split; intros; right; right; right; reflexivity.
Qed.

Lemma winv_all l : forall t s, forallb quiet_happening l = true -> winv t s -> winv (t || existsb touches l) (all_happens l s).
Proof.
  unfold all_happens. induction l as [|h l IH]; intros t s Q W; [cbn; rewrite orb_false_r; exact W|]. cbn [fold_left existsb]. cbn in Q. apply andb_true_iff in Q as (Q1 & Q2).
  rewrite orb_assoc. apply IH; [exact Q2|]. now apply winv_happens.
Qed.

(** ** Acknowledgements *)
Definition wants (u : N) (p : pc) : bool := match p with PLoad v => v =? u | PCas v _ => v =? u | _ => false end.
Definition upward (p : pc) : Prop := match p with PCas u c => c < u | _ => True end.

Lemma all_set (Q : pc -> Prop) i p : forall l, Forall Q l -> Q p -> Forall Q (set_nth i p l).
Proof. induction i as [|i IH]; intros [|y l] F H; try constructor; inversion F; subst; auto. Qed.
Lemma max_loop_upward u c : upward (max_loop u c).
Proof. unfold max_loop. destruct (N.ltb_spec c u); cbn; [assumption|exact I]. Qed.
Lemma max_loop_wants u c : wants u (max_loop u c) = true \/ u <= c.
Proof. unfold max_loop. destruct (N.ltb_spec c u); [left; cbn; apply N.eqb_refl|right; assumption]. Qed.

Record ainv (us : list N) (s : sensor) : Prop := {
  ai_up : Forall upward (s_threads s);
  ai_in : s_until s = 0 \/ In (s_until s) us;
  ai_own : forall i p u, nth_error (s_threads s) i = Some p -> wants u p = true -> In u us;
  ai_all : forall u, In u us -> u <= s_until s \/ has (wants u) (s_threads s) }.

Lemma upward_at l i u c : Forall upward l -> nth_error l i = Some (PCas u c) -> c < u.
Proof. intros F N. apply nth_error_In in N. rewrite Forall_forall in F. exact (F _ N). Qed.

Lemma nth_set i p l j y : nth_error (set_nth i p l) j = Some y -> j = i /\ y = p \/ j <> i /\ nth_error l j = Some y.
Proof.
  intros N. destruct (Nat.eq_dec j i) as [->|D]; [left|right; split; [exact D|]; now rewrite nth_set_other in N].
  split; [reflexivity|]. destruct (nth_error l i) as [x|] eqn:E; [rewrite (nth_set_same _ _ _ _ E) in N; congruence|].
  exfalso. assert (length (set_nth i p l) = length l) as L. { clear. revert l. induction i as [|i IH]; intros [|y l]; cbn; auto. }
  apply nth_error_None in E. assert (nth_error (set_nth i p l) i <> None) as H by congruence. apply nth_error_Some in H. lia.
Qed.

(** A step of a thread that leaves the acknowledged length alone. *)
Lemma ainv_goto us s i p q s' : ainv us s -> nth_error (s_threads s) i = Some q -> s_threads s' = set_nth i p (s_threads s) -> s_until s' = s_until s ->
  upward p -> (forall u, wants u q = true -> wants u p = true \/ u <= s_until s) -> (forall u, wants u p = true -> wants u q = true) -> ainv us s'.
Proof.
  intros [U I W A] N T E UP K B. split; rewrite ?T, ?E.
  - now apply all_set.
  - exact I.
  - intros j y u Nj Fy. destruct (nth_set _ _ _ _ _ Nj) as [(-> & ->)|(D & Nj')]; [|eauto]. eauto.
  - intros u Iu. destruct (A u Iu) as [H|(j & y & Nj & Fy)]; [now left|]. destruct (Nat.eq_dec j i) as [->|D].
    + rewrite N in Nj. injection Nj as <-. destruct (K u Fy) as [H|H]; [right; eapply has_set; eassumption|now left].
    + right. exists j, y. rewrite nth_set_other by exact D. auto.
Qed.
Lemma ainv_snoc us s p s' : ainv us s -> s_threads s' = s_threads s ++ [p] -> s_until s' = s_until s -> upward p -> (forall u, wants u p = false) -> ainv us s'.
Proof.
  intros [U I W A] T E UP K. split; rewrite ?T, ?E.
  - apply Forall_app. auto.
  - exact I.
  - intros j y u Nj Fy. destruct (Nat.lt_ge_cases j (length (s_threads s))) as [H|H].
    + rewrite nth_error_app1 in Nj by exact H. eauto.
    + rewrite nth_error_app2 in Nj by exact H. apply nth_error_In in Nj. destruct Nj as [<-|[]]. rewrite K in Fy. discriminate.
  - intros u Iu. destruct (A u Iu) as [H|H]; [now left|right; now apply has_snoc].
Qed.
Lemma ainv_same us s s' : ainv us s -> s_threads s' = s_threads s -> s_until s' = s_until s -> ainv us s'.
Proof. intros [U I W A] T E. split; rewrite ?T, ?E; assumption. Qed.

Definition ack_of (h : happening) : list N := match h with HAck u => [u] | _ => [] end.
Lemma ainv_happens h us s : ainv us s -> ainv (us ++ ack_of h) (happens h s).
Proof.
  intros A. destruct h as [n| | |u|i weak|i| |]; cbn [happens ack_of]; rewrite ?app_nil_r.
  - now apply (ainv_same us s).
  - now apply (ainv_snoc us s EMeta).
  - now apply (ainv_same us s).
  - destruct A as [U I W A]. split; cbn.
    + apply Forall_app. split; [exact U|]. repeat constructor.
    + destruct I as [I|I]; [now left|right; apply in_or_app; now left].
    + intros j y v Nj Fy. apply in_or_app. destruct (Nat.lt_ge_cases j (length (s_threads s))) as [H|H].
      * rewrite nth_error_app1 in Nj by exact H. left. eauto.
      * rewrite nth_error_app2 in Nj by exact H. apply nth_error_In in Nj. destruct Nj as [<-|[]]. cbn in Fy. apply N.eqb_eq in Fy. right. now left.
    + intros v Iv. apply in_app_or in Iv as [Iv|[<-|[]]]; [destruct (A v Iv) as [H|H]; [now left|right; now apply has_snoc]|].
      right. apply has_new. cbn. apply N.eqb_refl.
  - unfold run. destruct (nth_error (s_threads s) i) as [p|] eqn:N; [|exact A]. destruct p as [u|u c| | |n|n|n|o].
    + eapply (ainv_goto us s i); [exact A|exact N|reflexivity|reflexivity|apply max_loop_upward| |].
      * intros v Fv. cbn in Fv. apply N.eqb_eq in Fv as <-. apply max_loop_wants.
      * intros v Fv. unfold max_loop in Fv. destruct (_ <? _); [exact Fv|discriminate Fv].
    + destruct ((s_until s =? c) && negb weak) eqn:E.
      * apply andb_true_iff in E as (E & _). apply N.eqb_eq in E. pose proof (upward_at _ _ _ _ (ai_up _ _ A) N) as UP. destruct A as [U I W A]. split; cbn.
        -- now apply all_set.
        -- right. apply (W i _ u N). cbn. apply N.eqb_refl.
        -- intros j y v Nj Fy. destruct (nth_set _ _ _ _ _ Nj) as [(-> & ->)|(D & Nj')]; [discriminate Fy|eauto].
        -- intros v Iv. destruct (A v Iv) as [H|(j & y & Nj & Fy)]; [left; lia|]. destruct (Nat.eq_dec j i) as [->|D].
           ++ rewrite N in Nj. injection Nj as <-. cbn in Fy. apply N.eqb_eq in Fy. left. lia.
           ++ right. exists j, y. rewrite nth_set_other by exact D. auto.
      * eapply (ainv_goto us s i); [exact A|exact N|reflexivity|reflexivity|apply max_loop_upward| |].
        -- intros v Fv. cbn in Fv. apply N.eqb_eq in Fv as <-. apply max_loop_wants.
        -- intros v Fv. unfold max_loop in Fv. destruct (_ <? _); [exact Fv|discriminate Fv].
    + eapply (ainv_goto us s i); [exact A|exact N|reflexivity|reflexivity|exact I|intros v Z; discriminate Z|intros v Z; discriminate Z].
    + eapply (ainv_goto us s i); [exact A|exact N|reflexivity|reflexivity|exact I|intros v Z; discriminate Z|intros v Z; discriminate Z].
    + eapply (ainv_goto us s i); [exact A|exact N|reflexivity|reflexivity|destruct (_ <=? _); exact I|intros v Z; discriminate Z|intros v Z; destruct (_ <=? _); discriminate Z].
    + destruct (s_locked s); (eapply (ainv_goto us s i); [exact A|exact N|reflexivity|reflexivity|exact I|intros v Z; discriminate Z|intros v Z; discriminate Z]).
    + destruct (s_open s), (s_queue s); (eapply (ainv_goto us s i); [exact A|exact N|reflexivity|reflexivity|exact I|intros v Z; discriminate Z|intros v Z; discriminate Z]).
    + exact A.
  - destruct (nth_error (s_threads s) i) as [p|] eqn:N; [|exact A]. destruct p; try exact A.
    eapply (ainv_goto us s i); [exact A|exact N|reflexivity|reflexivity|exact I|intros v Z; discriminate Z|intros v Z; discriminate Z].
  - destruct (s_open s), (s_queue s); try exact A. now apply (ainv_same us s).
  - now apply (ainv_same us s).
Qed.
Lemma acked_cons h l : acked (h :: l) = ack_of h ++ acked l.
Proof. now destruct h. Qed.
Lemma ainv_all l : forall us s, ainv us s -> ainv (us ++ acked l) (all_happens l s).
Proof.
  unfold all_happens. induction l as [|h l IH]; intros us s A; [now rewrite app_nil_r|]. cbn [fold_left]. rewrite acked_cons, app_assoc. apply IH. now apply ainv_happens.
Qed.
Lemma ainv0 n : ainv [] (sensor0 n).
Proof. split; cbn; [constructor|now left|intros [|i] p u N; discriminate N|intros u []]. Qed.

Lemma until_step h us s : ainv us s -> s_until s <= s_until (happens h s).
Proof.
  intros A. destruct h as [n| | |u|i weak|i| |]; cbn [happens]; try (cbn; lia).
  - unfold run. destruct (nth_error (s_threads s) i) as [[u|u c| | |n|n|n|o]|] eqn:N; try (cbn; lia).
    + pose proof (upward_at _ _ _ _ (ai_up _ _ A) N) as UP. destruct (N.eqb_spec (s_until s) c) as [D|D]; cbn; [|lia]. destruct weak; cbn; lia.
    + destruct (s_locked s); cbn; lia.
    + destruct (s_open s); [|cbn; lia]. destruct (s_queue s); cbn; lia.
  - destruct (nth_error (s_threads s) i) as [[]|]; cbn; lia.
  - destruct (s_open s), (s_queue s); cbn; lia.
Qed.
Lemma until_all l : forall us s, ainv us s -> s_until s <= s_until (all_happens l s).
Proof.
  unfold all_happens. induction l as [|h l IH]; intros us s A; [cbn; lia|]. cbn [fold_left].
  etransitivity; [exact (until_step h us s A)|]. exact (IH _ _ (ainv_happens h us s A)).
Qed.

Lemma largest_in l u : In u l -> u <= largest l.
Proof. unfold largest. induction l as [|x l IH]; [intros []|]. cbn [fold_right]. intros [->|H]; [|specialize (IH H)]; lia. Qed.
Lemma largest_is l u : (u = 0 \/ In u l) -> (forall v, In v l -> v <= u) -> u = largest l.
Proof.
  intros I A. apply N.le_antisymm; [destruct I as [->|I]; [lia|now apply largest_in]|].
  clear I. unfold largest. induction l as [|x l IH]; cbn [fold_right]; [lia|]. pose proof (A x (or_introl eq_refl)). assert (fold_right N.max 0 l <= u) by (apply IH; intros v Iv; apply A; now right). lia.
Qed.

(** ** Wakes are not more than acknowledgements, and one *)
Definition qn (s : sensor) : nat := match s_queue s with Some _ => 1 | None => 0 end.
Definition ln (s : sensor) : nat := if s_locked s then 0 else 1.
Definition weight (s : sensor) : nat := (qn s + ln s + num sending (s_threads s) + num acking (s_threads s))%nat.

Definition recv_of (h : happening) (s : sensor) : list N := match h, s_open s, s_queue s with HRecv, true, Some n => [n] | _, _, _ => [] end.
Local Ltac PJ := cbn [goto with_until with_locked with_queue s_queue s_locked s_threads s_until s_size sending acking length] in *.
Lemma weight_happens h s : (length (recv_of h s) + weight (happens h s) <= weight s + length (ack_of h))%nat.
Proof.
  unfold weight. destruct h as [n| | |u|i weak|i| |]; cbn [happens recv_of ack_of length].
  - unfold qn, ln. cbn [s_queue s_locked s_threads]. lia.
  - cbn [s_threads]. rewrite !num_snoc. unfold qn, ln. cbn [s_queue s_locked s_threads sending acking]. lia.
  - unfold qn, ln. cbn [s_queue s_locked s_threads]. lia.
  - cbn [s_threads]. rewrite !num_snoc. unfold qn, ln. cbn [s_queue s_locked s_threads sending acking]. lia.
  - unfold run. destruct (nth_error (s_threads s) i) as [p|] eqn:N; [|lia].
    pose proof (fun q => num_set sending i q _ _ N) as S1. pose proof (fun q => num_set acking i q _ _ N) as S2. destruct p as [u|u c| | |n|n|n|o]; cbn [sending acking] in S1, S2.
    + specialize (S1 (max_loop u (s_until s))). specialize (S2 (max_loop u (s_until s))). rewrite max_loop_acking in S2.
      assert (sending (max_loop u (s_until s)) = false) as Z by (unfold max_loop; now destruct (_ <? _)). rewrite Z in S1. unfold qn, ln in *. PJ. lia.
    + destruct ((s_until s =? c) && negb weak).
      * specialize (S1 PUnlock). specialize (S2 PUnlock). unfold qn, ln in *. PJ. lia.
      * specialize (S1 (max_loop u (s_until s))). specialize (S2 (max_loop u (s_until s))). rewrite max_loop_acking in S2.
        assert (sending (max_loop u (s_until s)) = false) as Z by (unfold max_loop; now destruct (_ <? _)). rewrite Z in S1. unfold qn, ln in *. PJ. lia.
    + specialize (S1 EMeta). specialize (S2 EMeta). unfold qn, ln in *. PJ. destruct (s_locked s); lia.
    + specialize (S1 (ELoad (s_size s))). specialize (S2 (ELoad (s_size s))). unfold qn, ln in *. PJ. lia.
    + specialize (S1 (if n <=? s_until s then Done RetOk else ECas n)). specialize (S2 (if n <=? s_until s then Done RetOk else ECas n)). unfold qn, ln in *. destruct (n <=? s_until s); PJ; lia.
    + destruct (s_locked s) eqn:L.
      * specialize (S1 (Done RetOk)). specialize (S2 (Done RetOk)). unfold qn, ln in *. PJ. rewrite L. lia.
      * specialize (S1 (ESend n)). specialize (S2 (ESend n)). unfold qn, ln in *. PJ. rewrite L. lia.
    + pose proof (S1 (Done RetOk)). pose proof (S2 (Done RetOk)). specialize (S1 (Done RetGone)). specialize (S2 (Done RetGone)). unfold qn, ln in *. destruct (s_open s), (s_queue s) eqn:Q; PJ; rewrite ?Q in *; lia.
    + lia.
  - destruct (nth_error (s_threads s) i) as [p|] eqn:N; [|lia]. destruct p; try lia.
    pose proof (num_set sending i (Done RetIo) _ _ N) as S1. pose proof (num_set acking i (Done RetIo) _ _ N) as S2. unfold qn, ln in *. PJ. lia.
  - destruct (s_open s), (s_queue s) eqn:Q; unfold qn, ln; rewrite ?Q; PJ; rewrite ?Q; lia.
  - unfold qn, ln. cbn [s_queue s_locked s_threads]. lia.
Qed.
Lemma weight_all l : forall s, (length (received l s) + weight (all_happens l s) <= weight s + length (acked l))%nat.
Proof.
  unfold all_happens. induction l as [|h l IH]; intros s; [cbn; lia|]. cbn [received fold_left]. fold (recv_of h s). rewrite acked_cons, !app_length.
  pose proof (weight_happens h s). specialize (IH (happens h s)). lia.
Qed.

(** ** A wake tells a length the file had *)
Record sinv (ns : list N) (s : sensor) : Prop := {
  si_now : In (s_size s) ns;
  si_queue : forall n, s_queue s = Some n -> In n ns;
  si_all : Forall (fun p => match p with ELoad n | ECas n | ESend n => In n ns | _ => True end) (s_threads s) }.
Definition size_of (h : happening) : list N := match h with HChange n => [n] | _ => [] end.
Lemma sinv_more ns ns' s : (forall n, In n ns -> In n ns') -> sinv ns s -> sinv ns' s.
Proof. intros M [A B C]. split; [auto|eauto|]. eapply Forall_impl; [|exact C]. intros [| | | | | | |]; auto. Qed.
Lemma sinv_happens h ns s : sinv ns s -> sinv (ns ++ size_of h) (happens h s).
Proof.
  intros SI. destruct h as [n| | |u|i weak|i| |]; cbn [happens size_of]; rewrite ?app_nil_r.
  - destruct (sinv_more ns (ns ++ [n]) s) as [A B C]; [intros; apply in_or_app; now left|exact SI|]. split; auto. cbn. apply in_or_app. right. now left.
  - destruct SI as [A B C]. split; cbn; auto. apply Forall_app. split; [exact C|]. repeat constructor.
  - destruct SI as [A B C]. split; cbn; auto.
  - destruct SI as [A B C]. split; cbn; auto. apply Forall_app. split; [exact C|]. repeat constructor.
  - unfold run. destruct (nth_error (s_threads s) i) as [p|] eqn:N; [|exact SI]. destruct SI as [A B C].
    pose proof (nth_error_In _ _ N) as IP. pose proof C as CP. rewrite Forall_forall in CP. specialize (CP _ IP).
    destruct p as [u|u c| | |n|n|n|o].
    + split; cbn; auto. apply all_set; [exact C|]. unfold max_loop. destruct (_ <? _); exact I.
    + destruct ((s_until s =? c) && negb weak); split; cbn; auto; apply all_set; auto. unfold max_loop. destruct (_ <? _); exact I.
    + split; cbn; auto. now apply all_set.
    + split; cbn; auto. now apply all_set.
    + split; cbn; auto. apply all_set; auto. destruct (n <=? s_until s); auto.
    + destruct (s_locked s); split; cbn; auto; now apply all_set.
    + destruct (s_open s), (s_queue s) eqn:Q; split; cbn; auto; try (rewrite Q; now intros m Z; auto); try (apply all_set; auto).
      intros m Z. injection Z as <-. exact CP.
    + split; auto.
  - destruct (nth_error (s_threads s) i) as [p|] eqn:N; [|exact SI]. destruct p; try exact SI. destruct SI as [A B C]. split; cbn; auto. now apply all_set.
  - destruct (s_open s); [|exact SI]. destruct (s_queue s) eqn:Q; [|exact SI]. destruct SI as [A B C]. split; cbn; auto. intros m Z. discriminate Z.
  - destruct SI as [A B C]. split; cbn; auto.
Qed.
Lemma sizes_cons h l : sizes (h :: l) = size_of h ++ sizes l.
Proof. now destruct h. Qed.
Lemma received_sizes l : forall ns s, sinv ns s -> Forall (fun n => In n (ns ++ sizes l)) (received l s).
Proof.
  induction l as [|h l IH]; intros ns s SI; [constructor|]. cbn [received]. rewrite sizes_cons, app_assoc. apply Forall_app. split.
  - destruct h; try constructor. destruct (s_open s); [|constructor]. destruct (s_queue s) eqn:Q; repeat constructor. apply in_or_app. left. apply in_or_app. left. exact (si_queue _ _ SI _ Q).
  - apply IH. now apply sinv_happens.
Qed.

(** ** One call of [processed] that nobody disturbs *)

(** Steps left, without spurious failures. *)
Definition togo (p : pc) : nat :=
  match p with PLoad _ => 7 | PCas _ _ => 6 | PUnlock => 5 | EMeta => 4 | ELoad _ => 3 | ECas _ => 2 | ESend _ => 1 | Done _ => 0 end.
Section Alone.
Variables (s : sensor) (u : N).
Let m := N.max (s_until s) u.
(** What has been done at each place. *)
Definition stage (s' : sensor) : Prop :=
  s_size s' = s_size s /\ s_open s' = s_open s /\ exists p, s_threads s' = s_threads s ++ [p] /\
  match p with
  | PLoad v => v = u /\ s_until s' = s_until s /\ s_queue s' = s_queue s
  | PCas v c => v = u /\ c = s_until s /\ s_until s < u /\ s_until s' = s_until s /\ s_queue s' = s_queue s
  | PUnlock => s_until s' = m /\ s_queue s' = s_queue s
  | EMeta => s_until s' = m /\ s_queue s' = s_queue s /\ s_locked s' = false
  | ELoad k => k = s_size s /\ s_until s' = m /\ s_queue s' = s_queue s /\ s_locked s' = false
  | ECas k => k = s_size s /\ m < s_size s /\ s_until s' = m /\ s_queue s' = s_queue s /\ s_locked s' = false
  | ESend k => k = s_size s /\ m < s_size s /\ s_until s' = m /\ s_queue s' = s_queue s /\ s_locked s' = true
  | Done r => s_until s' = m /\ s_locked s' = (m <? s_size s) /\
      s_queue s' = (if (m <? s_size s) && s_open s then match s_queue s with Some k => Some k | None => Some (s_size s) end else s_queue s) /\
      r = if (m <? s_size s) && negb (s_open s) then RetGone else RetOk
  end.

Lemma set_last l (p q : pc) : set_nth (length l) q (l ++ [p]) = l ++ [q].
Proof. induction l as [|x l IH]; cbn; [reflexivity|]. now rewrite IH. Qed.
Lemma nth_last l (p : pc) : nth_error (l ++ [p]) (length l) = Some p.
Proof. induction l as [|x l IH]; cbn; [reflexivity|exact IH]. Qed.

Lemma stage_run s' weak : stage s' -> stage (happens (HRun (length (s_threads s)) weak) s').
Proof.
  intros (SZ & SO & p & T & H). cbn [happens]. unfold run. rewrite T, nth_last.
  assert (G : forall q x, s_threads x = s_threads s' -> s_threads (goto (length (s_threads s)) q x) = s_threads s ++ [q]).
  { intros q x E. cbn [goto s_threads]. now rewrite E, T, set_last. }
  destruct p as [v|v c| | |n|n|n|r].
  - destruct H as (-> & H1 & H2). split; [exact SZ|]. split; [exact SO|]. exists (max_loop u (s_until s')). split; [now apply G|]. unfold max_loop. rewrite H1.
    destruct (s_until s <? u) eqn:L; cbn [goto s_until s_queue]; rewrite ?H1; [repeat split; auto; lia|unfold m; split; [lia|exact H2]].
  - destruct H as (-> & -> & L & H1 & H2). rewrite H1, N.eqb_refl. destruct weak; cbn [andb negb].
    + split; [exact SZ|]. split; [exact SO|]. exists (PCas u (s_until s)). unfold max_loop. replace (s_until s <? u) with true by lia. split; [now apply G|]. auto 6.
    + split; [exact SZ|]. split; [exact SO|]. exists PUnlock. split; [now apply G|]. cbn [goto with_until s_until s_queue]. unfold m. split; [lia|exact H2].
  - destruct H as (H1 & H2). split; [exact SZ|]. split; [exact SO|]. exists EMeta. split; [now apply G|]. auto.
  - destruct H as (H1 & H2 & H3). split; [exact SZ|]. split; [exact SO|]. exists (ELoad (s_size s')). split; [now apply G|]. auto.
  - destruct H as (-> & H1 & H2 & H3). split; [exact SZ|]. split; [exact SO|]. rewrite H1. destruct (s_size s <=? m) eqn:L.
    + exists (Done RetOk). split; [now apply G|]. cbn [goto s_until s_locked s_queue]. replace (m <? s_size s) with false by lia. auto.
    + exists (ECas (s_size s)). split; [now apply G|]. repeat split; auto. lia.
  - destruct H as (-> & L & H1 & H2 & H3). rewrite H3. split; [exact SZ|]. split; [exact SO|]. exists (ESend (s_size s)). split; [now apply G|]. auto.
  - destruct H as (-> & L & H1 & H2 & H3). rewrite SO, H2. destruct (s_open s) eqn:O, (s_queue s) as [k|] eqn:Q; (split; [exact SZ|]; split; [cbn [goto with_queue s_open]; congruence|]);
      eexists; (split; [now apply G|]); cbn [goto with_queue s_until s_locked s_queue]; rewrite O, Q; replace (m <? s_size s) with true by lia; cbn [andb negb]; auto.
  - split; [exact SZ|]. split; [exact SO|]. exists (Done r). auto.
Qed.

Lemma stage_all ws : stage (all_happens (HAck u :: map (HRun (length (s_threads s))) ws) s).
Proof.
  unfold all_happens. cbn [fold_left]. assert (stage (happens (HAck u) s)) as S0 by (split; [reflexivity|]; split; [reflexivity|]; exists (PLoad u); auto).
  revert S0. generalize (happens (HAck u) s). induction ws as [|w ws IH]; intros x X; [exact X|]. cbn [map fold_left]. apply IH. now apply stage_run.
Qed.

Lemma stage_ends : exists r, nth_error (s_threads (all_happens (HAck u :: map (HRun (length (s_threads s))) (repeat false 7)) s)) (length (s_threads s)) = Some (Done r).
Proof.
  assert (K : forall k s', stage s' -> match nth_error (s_threads s') (length (s_threads s)) with Some p => (togo p <= k)%nat | None => False end ->
    exists r, nth_error (s_threads (all_happens (map (HRun (length (s_threads s))) (repeat false k)) s')) (length (s_threads s)) = Some (Done r)).
  { induction k as [|k IH]; intros s' (SZ & SO & p & T & H) L; rewrite T, nth_last in L.
    - destruct p; cbn in L; try lia. exists r. cbn. now rewrite T, nth_last.
    - assert (stage s') as ST by (split; [exact SZ|]; split; [exact SO|]; now exists p). unfold all_happens. cbn [repeat map fold_left]. apply IH; [now apply stage_run|].
      cbn [happens]. unfold run. rewrite T, nth_last.
      destruct p as [v|v c| | |n|n|n|r]; cbn [togo] in L.
      + cbn [goto with_until with_locked with_queue s_threads]; rewrite ?T, ?set_last, ?nth_last; cbn [togo]; try lia. unfold max_loop. destruct (_ <? _); cbn [togo]; lia.
      + destruct H as (_ & -> & _ & -> & _). rewrite N.eqb_refl. cbn [andb negb goto with_until with_locked with_queue s_threads]; rewrite ?T, ?set_last, ?nth_last; cbn [togo]; try lia.
      + cbn [goto with_until with_locked with_queue s_threads]; rewrite ?T, ?set_last, ?nth_last; cbn [togo]; try lia.
      + cbn [goto with_until with_locked with_queue s_threads]; rewrite ?T, ?set_last, ?nth_last; cbn [togo]; try lia.
      + cbn [goto with_until with_locked with_queue s_threads]; rewrite ?T, ?set_last, ?nth_last; cbn [togo]; try lia. destruct (_ <=? _); cbn [togo]; lia.
      + destruct (s_locked s'); cbn [goto with_until with_locked with_queue s_threads]; rewrite ?T, ?set_last, ?nth_last; cbn [togo]; try lia.
      + destruct (s_open s'), (s_queue s'); cbn [goto with_until with_locked with_queue s_threads]; rewrite ?T, ?set_last, ?nth_last; cbn [togo]; try lia.
      + cbn [goto with_until with_locked with_queue s_threads]; rewrite ?T, ?set_last, ?nth_last; cbn [togo]; try lia. }
  apply (K 7%nat (happens (HAck u) s)); [exact (stage_all [])|]. cbn [happens s_threads]. rewrite nth_last. cbn. lia.
Qed.
End Alone.

(** ** One event that nobody disturbs *)
Definition news_of (s : sensor) : bool := (s_until s <? s_size s) && negb (s_locked s).
Section Event.
Variable (s : sensor).
Notation news := (news_of s).
Definition stage_event (s' : sensor) : Prop :=
  s_size s' = s_size s /\ s_open s' = s_open s /\ s_until s' = s_until s /\ exists p, s_threads s' = s_threads s ++ [p] /\
  match p with
  | EMeta => s_queue s' = s_queue s /\ s_locked s' = s_locked s
  | ELoad k => k = s_size s /\ s_queue s' = s_queue s /\ s_locked s' = s_locked s
  | ECas k => k = s_size s /\ s_until s < s_size s /\ s_queue s' = s_queue s /\ s_locked s' = s_locked s
  | ESend k => k = s_size s /\ news = true /\ s_queue s' = s_queue s /\ s_locked s' = true
  | Done r => s_locked s' = s_locked s || news /\
      s_queue s' = (if news && s_open s then match s_queue s with Some k => Some k | None => Some (s_size s) end else s_queue s) /\
      r = if news && negb (s_open s) then RetGone else RetOk
  | _ => False
  end.
Lemma stage_event_run s' weak : stage_event s' -> stage_event (happens (HRun (length (s_threads s)) weak) s').
Proof.
  intros (SZ & SO & SU & p & T & H). cbn [happens]. unfold run. rewrite T, nth_last.
  assert (G : forall q x, s_threads x = s_threads s' -> s_threads (goto (length (s_threads s)) q x) = s_threads s ++ [q]).
  { intros q x E. cbn [goto s_threads]. now rewrite E, T, set_last. }
  destruct p as [v|v c| | |n|n|n|r]; try contradiction.
  - destruct H as (H2 & H3). split; [exact SZ|]. split; [exact SO|]. split; [exact SU|]. exists (ELoad (s_size s')). split; [now apply G|]. auto.
  - destruct H as (-> & H2 & H3). split; [exact SZ|]. split; [exact SO|]. split; [exact SU|]. rewrite SU. destruct (s_size s <=? s_until s) eqn:L.
    + exists (Done RetOk). split; [now apply G|]. cbn [goto s_locked s_queue]. unfold news_of. replace (s_until s <? s_size s) with false by lia. cbn [andb]. rewrite orb_false_r. auto.
    + exists (ECas (s_size s)). split; [now apply G|]. repeat split; auto. lia.
  - destruct H as (-> & L & H2 & H3). rewrite H3. destruct (s_locked s) eqn:LK; (split; [exact SZ|]; split; [exact SO|]; split; [exact SU|]).
    + exists (Done RetOk). split; [now apply G|]. cbn [goto s_locked s_queue]. unfold news_of. rewrite LK. cbn [negb]. rewrite andb_false_r. auto.
    + exists (ESend (s_size s)). split; [now apply G|]. unfold news_of. rewrite LK. replace (s_until s <? s_size s) with true by lia. auto.
  - destruct H as (-> & L & H2 & H3). rewrite SO, H2. destruct (s_open s) eqn:O, (s_queue s) as [k|] eqn:Q;
      (split; [exact SZ|]; split; [cbn [goto with_queue s_open]; congruence|]; split; [exact SU|]);
      eexists; (split; [now apply G|]); cbn [goto with_queue s_locked s_queue]; rewrite O, Q, L, orb_true_r; cbn [andb negb]; auto.
  - split; [exact SZ|]. split; [exact SO|]. split; [exact SU|]. exists (Done r). auto.
Qed.
Lemma stage_event_all ws : stage_event (all_happens (HEvent :: map (HRun (length (s_threads s))) ws) s).
Proof.
  unfold all_happens. cbn [fold_left]. assert (stage_event (happens HEvent s)) as S0 by (split; [reflexivity|]; split; [reflexivity|]; split; [reflexivity|]; exists EMeta; auto).
  revert S0. generalize (happens HEvent s). induction ws as [|w ws IH]; intros x X; [exact X|]. cbn [map fold_left]. apply IH. now apply stage_event_run.
Qed.
Lemma stage_event_ends : exists r, nth_error (s_threads (all_happens (HEvent :: map (HRun (length (s_threads s))) (repeat false 4)) s)) (length (s_threads s)) = Some (Done r).
Proof.
  assert (K : forall k s', stage_event s' -> match nth_error (s_threads s') (length (s_threads s)) with Some p => (togo p <= k)%nat | None => False end ->
    exists r, nth_error (s_threads (all_happens (map (HRun (length (s_threads s))) (repeat false k)) s')) (length (s_threads s)) = Some (Done r)).
  { induction k as [|k IH]; intros s' (SZ & SO & SU & p & T & H) L; rewrite T, nth_last in L.
    - destruct p; cbn in L; try lia. exists r. cbn. now rewrite T, nth_last.
    - assert (stage_event s') as ST by (split; [exact SZ|]; split; [exact SO|]; split; [exact SU|]; now exists p). unfold all_happens. cbn [repeat map fold_left]. apply IH; [now apply stage_event_run|].
      cbn [happens]. unfold run. rewrite T, nth_last.
      destruct p as [v|v c| | |n|n|n|r]; cbn [togo] in L; try contradiction.
      + cbn [goto with_until with_locked with_queue s_threads]; rewrite ?T, ?set_last, ?nth_last; cbn [togo]; try lia.
      + cbn [goto with_until with_locked with_queue s_threads]; rewrite ?T, ?set_last, ?nth_last; cbn [togo]; try lia. destruct (_ <=? _); cbn [togo]; lia.
      + destruct (s_locked s'); cbn [goto with_until with_locked with_queue s_threads]; rewrite ?T, ?set_last, ?nth_last; cbn [togo]; try lia.
      + destruct (s_open s'), (s_queue s'); cbn [goto with_until with_locked with_queue s_threads]; rewrite ?T, ?set_last, ?nth_last; cbn [togo]; try lia.
      + cbn [goto with_until with_locked with_queue s_threads]; rewrite ?T, ?set_last, ?nth_last; cbn [togo]; try lia. }
  apply (K 4%nat (happens HEvent s)); [exact (stage_event_all [])|]. cbn [happens s_threads]. rewrite nth_last. cbn. lia.
Qed.
End Event.

(** ** What errors mean *)
Lemma open_all l : forall s, s_open (all_happens l s) = true -> s_open s = true /\ ~ In HClose l.
Proof.
  unfold all_happens. induction l as [|h l IH]; intros s H; [split; [exact H|intros []]|]. cbn [fold_left] in H. destruct (IH _ H) as (O & N).
  assert (s_open s = true /\ h <> HClose) as (O1 & N1); [|split; [exact O1|]; intros [E|E]; [exact (N1 E)|exact (N E)]].
  destruct h as [n| | |u|i weak|i| |]; cbn [happens] in O; try (split; [exact O|discriminate]); try discriminate O.
  - split; [|discriminate]. unfold run in O. destruct (nth_error (s_threads s) i) as [[u|u c| | |n|n|n|o]|]; try exact O.
    + destruct (_ && _); exact O.
    + destruct (s_locked s); exact O.
    + destruct (s_open s) eqn:E, (s_queue s); try reflexivity; cbn in O; congruence.
  - split; [|discriminate]. destruct (nth_error (s_threads s) i) as [[]|]; exact O.
  - split; [|discriminate]. destruct (s_open s) eqn:E, (s_queue s); try reflexivity; cbn in O; congruence.
Qed.
Lemma closed_all l : forall s, s_open s = false -> s_open (all_happens l s) = false.
Proof. intros s H. destruct (s_open (all_happens l s)) eqn:E; [|reflexivity]. apply open_all in E as (E & _). congruence. Qed.
Lemma closed_received l : forall s, s_open s = false -> received l s = [].
Proof.
  induction l as [|h l IH]; intros s H; [reflexivity|]. cbn [received]. rewrite H. rewrite (IH (happens h s)); [now destruct h|]. exact (closed_all [h] s H).
Qed.

Lemma returned_step h s i r : nth_error (s_threads (happens h s)) i = Some (Done r) -> nth_error (s_threads s) i = Some (Done r) \/
  (r = RetGone -> s_open s = false) /\ (r = RetIo -> h = HMetaFail i).
Proof.
  intros N. assert (SN : forall p, p <> Done r -> nth_error (s_threads s ++ [p]) i = Some (Done r) -> nth_error (s_threads s) i = Some (Done r)).
  { intros p D X. destruct (Nat.lt_ge_cases i (length (s_threads s))) as [H|H]; [now rewrite nth_error_app1 in X by exact H|].
    rewrite nth_error_app2 in X by exact H. apply nth_error_In in X as [X|[]]. now contradiction D. }
  destruct h as [n| | |u|j weak|j| |]; cbn [happens] in N; try (left; exact N); try (left; eapply SN; [|exact N]; discriminate).
  - unfold run in N. destruct (nth_error (s_threads s) j) as [p|] eqn:E; [|now left].
    assert (G : forall q x, s_threads x = s_threads s -> nth_error (s_threads (goto j q x)) i = Some (Done r) -> (q = Done r -> (r = RetGone -> s_open s = false) /\ r <> RetIo) ->
      nth_error (s_threads s) i = Some (Done r) \/ (r = RetGone -> s_open s = false) /\ (r = RetIo -> HRun j weak = HMetaFail i)).
    { intros q x EX NX K. cbn [goto s_threads] in NX. rewrite EX in NX. destruct (nth_set _ _ _ _ _ NX) as [(-> & D)|(_ & D)]; [|now left]. right. destruct (K (eq_sym D)) as (K1 & K2). split; [exact K1|congruence]. }
    destruct p as [v|v c| | |n|n|n|o].
    + eapply G; [|exact N|]; [reflexivity|]. unfold max_loop. now destruct (_ <? _).
    + destruct (_ && _); (eapply G; [|exact N|]; [reflexivity|]); [easy|]. unfold max_loop. now destruct (_ <? _).
    + now apply (G _ _ eq_refl N).
    + now apply (G _ _ eq_refl N).
    + apply (G _ _ eq_refl N). destruct (_ <=? _); [|easy]. intros X. injection X as <-. easy.
    + destruct (s_locked s); [|now apply (G _ _ eq_refl N)]. apply (G _ _ eq_refl N). intros X. injection X as <-. easy.
    + destruct (s_open s) eqn:O.
      * eapply G; [|exact N|]; [now destruct (s_queue s)|]. intros X. injection X as <-. easy.
      * apply (G _ _ eq_refl N). intros X. injection X as <-. easy.
    + now left.
  - destruct (nth_error (s_threads s) j) as [[]|] eqn:E; try now left. cbn [goto s_threads] in N. destruct (nth_set _ _ _ _ _ N) as [(-> & D)|(_ & D)]; [|now left]. injection D as ->. right. easy.
  - left. destruct (s_open s), (s_queue s); exact N.
Qed.
Lemma returned_all l : forall s i r, nth_error (s_threads (all_happens l s)) i = Some (Done r) -> nth_error (s_threads s) i = Some (Done r) \/
  (r = RetGone -> s_open s = false \/ In HClose l) /\ (r = RetIo -> In (HMetaFail i) l).
Proof.
  unfold all_happens. induction l as [|h l IH]; intros s i r N; [now left|]. cbn [fold_left] in N. destruct (IH _ _ _ N) as [H|(H1 & H2)].
  - destruct (returned_step h s i r H) as [K|(K1 & K2)]; [now left|]. right. split; [intros E; left; now apply K1|]. intros E. left. now apply K2.
  - right. split; [|intros E; right; now apply H2]. intros E. destruct (H1 E) as [K|K]; [|right; now right].
    destruct (s_open s) eqn:O; [|now left]. right. destruct h as [n| | |u|j weak|j| |]; cbn [happens] in K; try (cbn in K; congruence); try (now left).
    + exfalso. unfold run in K. destruct (nth_error (s_threads s) j) as [[u|u c| | |n|n|n|o]|]; try (cbn in K; congruence).
      * destruct (_ && _); cbn in K; congruence.
      * destruct (s_locked s); cbn in K; congruence.
      * rewrite O in K. destruct (s_queue s); cbn in K; congruence.
    + exfalso. destruct (nth_error (s_threads s) j) as [[]|]; cbn in K; congruence.
    + exfalso. rewrite O in K. destruct (s_queue s); cbn in K; congruence.
Qed.
