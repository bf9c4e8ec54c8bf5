(** * Proofs about the locking of a storage. *)
From Coq Require Import ZifyBool ZifyNat ZifyN.
From Verif Require Import Base Io File Storage Locker SpecLocker BaseProofs.
Open Scope list_scope.

(** ** Names *)
Lemma path_eqb_spec a b : path_eqb a b = true <-> a = b.
Proof.
  unfold path_eqb. rewrite andb_true_iff, !bytes_eqb_eq. destruct a, b; cbn. split; [intros (-> & ->); reflexivity|intros Q; injection Q; auto].
Qed.
Lemma dot_eqb b : byte_eqb b (n2b 46) = true <-> b = n2b 46.
Proof. apply byte_eqb_eq. Qed.
Lemma no_dot n : ~ In (n2b 46) n -> last_dot n = None.
Proof.
  induction n as [|b n IH]; intros H; [reflexivity|]. cbn [last_dot]. rewrite IH by (intros I; apply H; now right).
  destruct (byte_eqb b (n2b 46)) eqn:E; [|reflexivity]. apply dot_eqb in E. elim H. now left.
Qed.
Lemma one_dot s x : ~ In (n2b 46) x -> last_dot (s ++ n2b 46 :: x) = Some (length s).
Proof.
  intros H. induction s as [|b s IH]; cbn [app last_dot length]; [|now rewrite IH]. rewrite no_dot by exact H. reflexivity.
Qed.
Lemma stem_none n : ext_of n None -> stem n = n.
Proof.
  intros H. inversion H as [m D|m D|]; subst; unfold stem.
  - now rewrite no_dot.
  - change (n2b 46 :: m) with ([] ++ n2b 46 :: m). now rewrite one_dot.
Qed.
Lemma stem_some s x : s <> [] -> ~ In (n2b 46) x -> stem (s ++ n2b 46 :: x) = s.
Proof.
  intros H D. unfold stem. rewrite one_dot by exact D. destruct s as [|b s]; [contradiction|]. cbn [length].
  change (S (length s)) with (length (b :: s)). rewrite firstn_app, Nat.sub_diag, firstn_all. cbn [firstn]. apply app_nil_r.
Qed.
Lemma ext_inj a b x : ext_of a x -> ext_of b x -> stem a = stem b -> a = b.
Proof.
  intros A B E. destruct x as [x|].
  - inversion A; subst. inversion B; subst. rewrite !stem_some in E by assumption. now subst.
  - now rewrite !stem_none in E.
Qed.
Lemma lock_path_eq a b : lock_path a = lock_path b <-> pa_dir a = pa_dir b /\ stem (pa_name a) = stem (pa_name b).
Proof.
  unfold lock_path. split; [intros Q; injection Q as D E|intros (-> & ->); reflexivity]. split; [exact D|]. now apply app_inv_tail in E.
Qed.
Lemma ext_total n : exists x, ext_of n x.
Proof.
  destruct (last_dot n) as [i|] eqn:E.
  - assert (exists s x, n = s ++ n2b 46 :: x /\ ~ In (n2b 46) x) as (s & x & -> & D).
    { revert i E. induction n as [|b n IH]; intros i E; [discriminate|]. cbn [last_dot] in E. destruct (last_dot n) as [j|] eqn:F.
      - destruct (IH j eq_refl) as (s & x & -> & D). exists (b :: s), x. auto.
      - destruct (byte_eqb b (n2b 46)) eqn:G; [|discriminate]. apply dot_eqb in G as ->. exists [], n. split; [reflexivity|].
        intros I. clear - F I. induction n as [|c n IH]; [destruct I|]. cbn [last_dot] in F. destruct (last_dot n); [discriminate|]. destruct I as [->|I]; [|now apply IH].
        assert (byte_eqb (n2b 46) (n2b 46) = true) as Z by now apply dot_eqb. rewrite Z in F. discriminate. }
    destruct s as [|b s]; [exists None; now apply ext_hidden|exists (Some x); apply ext_some; [discriminate|exact D]].
  - exists None. apply ext_none. intros I. induction n as [|c n IH]; [destruct I|]. cbn [last_dot] in E. destruct (last_dot n); [discriminate|]. destruct I as [->|I]; [|now apply IH].
    assert (byte_eqb (n2b 46) (n2b 46) = true) as Z by now apply dot_eqb. rewrite Z in E. discriminate.
Qed.

(** ** The loop *)
Lemma loop_app t a b : Forall refused a -> Forall (fun r => match t with Some t => ro_time r < t | None => False end) a ->
  lock_loop t (a ++ b) = (fst (lock_loop t b), (length a + snd (lock_loop t b))%nat).
Proof.
  induction 1 as [|r a R F IH]; intros T; [cbn [app length]; now destruct (lock_loop t b)|]. inversion T as [|? ? T1 T2]; subst. destruct t as [t|]; [|contradiction].
  cbn [app lock_loop]. destruct R as (O & L). rewrite O. assert (lock_turn (Some t) None (ro_lock r) (ro_time r) = TAgain) as ->.
  { cbn [lock_turn]. unfold wait_or_fail. destruct (N.leb_spec t (ro_time r)); [lia|]. destruct L as [->| ->]; reflexivity. }
  rewrite IH by exact T2. reflexivity.
Qed.
Lemma refused_turn t r : refused r -> lock_turn t (ro_open r) (ro_lock r) (ro_time r) = waited (wait_or_fail t (ro_time r)).
Proof. intros (-> & [->| ->]); reflexivity. Qed.

(** What the loop says about the rounds. *)
Lemma loop_result t rounds : forall o n, lock_loop t rounds = (o, n) -> exists a b, rounds = a ++ b /\
  Forall refused a /\ Forall (fun r => match t with Some t => ro_time r < t | None => False end) a /\
  match o with
  | None => b = [] /\ n = length a
  | Some x => exists r rest, b = r :: rest /\ n = S (length a) /\
      match x with
      | Ok _ => ro_open r = None /\ ro_lock r = LFree
      | Err e => refused r /\ (t = None /\ e = EFileIsLocked \/ exists v, t = Some v /\ v <= ro_time r /\ e = ETimeoutToWaitLockedFile) \/
                 (exists k, e = EFailToLockFile k /\ (ro_open r = Some k \/ ro_open r = None /\ ro_lock r = LErr k /\ k <> WouldBlock))
      | Panic _ => False
      end
  end.
Proof.
  induction rounds as [|r rounds IH]; intros o n E.
  - injection E as <- <-. exists [], []. repeat split; constructor.
  - cbn [lock_loop] in E. destruct (lock_turn t (ro_open r) (ro_lock r) (ro_time r)) eqn:T.
    + injection E as <- <-. exists [], (r :: rounds). split; [reflexivity|]. split; [constructor|]. split; [constructor|]. exists r, rounds. split; [reflexivity|]. split; [reflexivity|].
      unfold lock_turn in T. destruct (ro_open r) as [k|]; [discriminate|]. split; [reflexivity|]. destruct (ro_lock r) as [| |k]; [reflexivity| |].
      * unfold wait_or_fail in T. destruct t as [v|]; [destruct (v <=? ro_time r)|]; discriminate.
      * destruct k; try discriminate; unfold wait_or_fail in T; destruct t as [v|]; [destruct (v <=? ro_time r)|]; discriminate.
    + destruct (lock_loop t rounds) as (o' & n') eqn:E'. injection E as <- <-. destruct (IH o' n' eq_refl) as (a & b & -> & A & B & C).
      assert (refused r /\ match t with Some t => ro_time r < t | None => False end) as (R & TT).
      { unfold lock_turn in T. destruct (ro_open r) as [k|] eqn:O; [discriminate|]. unfold refused. rewrite O.
        assert (waited (wait_or_fail t (ro_time r)) = TAgain -> match t with Some t => ro_time r < t | None => False end) as W.
        { unfold wait_or_fail. destruct t as [v|]; [|discriminate]. destruct (N.leb_spec v (ro_time r)); [discriminate|auto]. }
        destruct (ro_lock r) as [| |k]; [discriminate|split; [auto|exact (W T)]|]. destruct k; try discriminate. split; [auto|exact (W T)]. }
      exists (r :: a), b. split; [reflexivity|]. split; [now constructor|]. split; [now constructor|]. cbn [length]. destruct o' as [x|].
      * destruct C as (r' & rest & -> & -> & X). exists r', rest. auto.
      * destruct C as (-> & ->). auto.
    + injection E as <- <-. exists [], (r :: rounds). split; [reflexivity|]. split; [constructor|]. split; [constructor|]. exists r, rounds. split; [reflexivity|]. split; [reflexivity|].
      unfold lock_turn in T. destruct (ro_open r) as [k|] eqn:O; [injection T as <-; right; exists k; auto|].
      assert (waited (wait_or_fail t (ro_time r)) = TStop e -> t = None /\ e = EFileIsLocked \/ exists v, t = Some v /\ v <= ro_time r /\ e = ETimeoutToWaitLockedFile) as W.
      { unfold wait_or_fail. destruct t as [v|]; [|intros Q; injection Q as <-; auto]. destruct (N.leb_spec v (ro_time r)); [|discriminate]. intros Q. injection Q as <-. right. eauto. }
      unfold refused. rewrite O. destruct (ro_lock r) as [| |k] eqn:L; [discriminate|left; auto|].
      destruct k; try (injection T as <-; right; eexists; split; [reflexivity|]; right; repeat split; discriminate). left. auto.
Qed.

Lemma timely_app i a b : timely i (a ++ b) -> timely i a /\ timely i b.
Proof.
  induction a as [|x a IH]; intros T; [split; [exact I|exact T]|]. destruct a as [|y a].
  - cbn [app] in T. destruct b as [|z b]; [split; exact I|]. cbn in T. split; [exact I|apply T].
  - cbn [app] in T. destruct T as (T1 & T2). destruct (IH T2) as (A & B). split; [split; assumption|exact B].
Qed.
(** With a positive interval the time grows by that much in every round. *)
Lemma timely_last i a r : timely i (a ++ [r]) -> i * N.of_nat (length a) <= ro_time r.
Proof.
  revert r. induction a as [|x a IH] using rev_ind; intros r T; [cbn [length]; lia|].
  rewrite <- app_assoc in T. cbn [app] in T. pose proof (timely_app i a [x; r] T) as (_ & (T1 & _)).
  change (a ++ [x; r]) with (a ++ [x] ++ [r]) in T. rewrite app_assoc in T. pose proof (proj1 (timely_app i (a ++ [x]) [r] T)) as T2. specialize (IH x T2). rewrite app_length. cbn [length]. lia.
Qed.

(** ** Several callers *)
Section World.
Variable who : nat -> options.
Notation lp i := (lock_path (op_path (who i))).

Definition at_ino (s : status_of) (ino : nat) : Prop := s = STry ino \/ s = SHold ino \/ s = SLive ino.
Definition has_lock (s : status_of) (ino : nat) : Prop := s = SHold ino \/ s = SLive ino.
Record linv (w : world) : Prop := {
  li_old : forall p i, find_file p (wo_file w) = Some i -> (i < wo_next w)%nat;
  li_inj : forall p q i, find_file p (wo_file w) = Some i -> find_file q (wo_file w) = Some i -> p = q;
  li_free : forall i, (wo_next w <= i)%nat -> wo_lock w i = None;
  li_at : forall i ino, at_ino (wo_status w i) ino -> find_file (lp i) (wo_file w) = Some ino;
  li_lock : forall i ino, wo_lock w ino = Some i <-> has_lock (wo_status w i) ino }.

Lemma set_same {A} (f : nat -> A) i x : set f i x i = x.
Proof. unfold set. now rewrite Nat.eqb_refl. Qed.
Lemma set_other {A} (f : nat -> A) i x j : j <> i -> set f i x j = f j.
Proof. intros D. unfold set. now destruct (Nat.eqb_spec j i). Qed.

Lemma find_cons p q i fs : find_file p ((q, i) :: fs) = if path_eqb p q then Some i else find_file p fs.
Proof. reflexivity. Qed.

(** A change of status that neither takes nor gives back a lock. *)
Lemma linv_status w i s : linv w -> (forall ino, ~ has_lock (wo_status w i) ino) -> (forall ino, ~ has_lock s ino) ->
  (forall ino, at_ino s ino -> find_file (lp i) (wo_file w) = Some ino) -> linv (status_to i s w).
Proof.
  intros [O J F A L] N1 N2 T. split; cbn; auto.
  - intros j ino H. destruct (Nat.eq_dec j i) as [->|D]; [rewrite set_same in H; auto|rewrite set_other in H by exact D; auto].
  - intros j ino. destruct (Nat.eq_dec j i) as [->|D]; [rewrite set_same|rewrite set_other by exact D; apply L].
    split; intros H; [apply L in H; now apply N1 in H|now apply N2 in H].
Qed.
Lemma no_lock_idle ino : ~ has_lock SIdle ino.
Proof. intros [H|H]; discriminate H. Qed.
Lemma no_lock_wait ino : ~ has_lock SWait ino.
Proof. intros [H|H]; discriminate H. Qed.
Lemma no_lock_try k ino : ~ has_lock (STry k) ino.
Proof. intros [H|H]; discriminate H. Qed.
Lemma at_idle ino : ~ at_ino SIdle ino.
Proof. intros [H|[H|H]]; discriminate H. Qed.
Lemma at_wait ino : ~ at_ino SWait ino.
Proof. intros [H|[H|H]]; discriminate H. Qed.

Lemma linv_released w i ino : linv w -> has_lock (wo_status w i) ino -> linv (released i ino w).
Proof.
  intros [O J F A L] H. assert (wo_lock w ino = Some i) as LI by now apply L. split; cbn; auto.
  - intros k Hk. destruct (Nat.eq_dec k ino) as [->|D]; [apply set_same|rewrite set_other by exact D; auto].
  - intros j k Hk. destruct (Nat.eq_dec j i) as [->|D]; [rewrite set_same in Hk; now apply at_idle in Hk|rewrite set_other in Hk by exact D; auto].
  - intros j k. destruct (Nat.eq_dec j i) as [->|D].
    + rewrite set_same. split; [|intros Q; now apply no_lock_idle in Q]. intros Q. destruct (Nat.eq_dec k ino) as [->|D]; [rewrite set_same in Q; discriminate|].
      rewrite set_other in Q by exact D. apply L in Q. destruct H as [H|H], Q as [Q|Q]; congruence.
    + rewrite (set_other (wo_status w)) by exact D. destruct (Nat.eq_dec k ino) as [->|D2].
      * rewrite set_same. split; [discriminate|]. intros Q. apply L in Q. congruence.
      * rewrite set_other by exact D2. apply L.
Qed.

Lemma linv_act a w : brec_only a = true -> linv w -> linv (act who a w).
Proof.
  intros BO I. destruct a as [i fails|i now|i k now|i good|i|p]; try discriminate BO; cbn [act].
  - assert (forall s, s = SIdle \/ s = SWait -> wo_status w i = s -> linv match fails with
        | Some _ => status_to i SIdle w
        | None => match find_file (lp i) (wo_file w) with
                  | Some ino => status_to i (STry ino) w
                  | None => mk_world ((lp i, wo_next w) :: wo_file w) (S (wo_next w)) (wo_lock w) (set (wo_status w) i (STry (wo_next w)))
                  end end) as G.
    { intros s Hs Es. assert (forall ino, ~ has_lock (wo_status w i) ino) as NL by (intros ino; rewrite Es; destruct Hs as [->| ->]; [apply no_lock_idle|apply no_lock_wait]).
      destruct fails as [k|]; [apply linv_status; auto; [apply no_lock_idle|intros ino H; now apply at_idle in H]|].
      destruct (find_file (lp i) (wo_file w)) as [ino|] eqn:FF.
      - apply linv_status; auto; [apply no_lock_try|]. intros j [H|[H|H]]; [injection H as <-; exact FF|discriminate H|discriminate H].
      - destruct I as [O J F A L]. split; cbn [wo_file wo_next wo_lock wo_status].
        + intros p j. rewrite find_cons. destruct (path_eqb p (lp i)); [intros Q; injection Q as <-; lia|]. intros Q. apply O in Q. lia.
        + intros p q j. rewrite !find_cons. destruct (path_eqb p (lp i)) eqn:Ep, (path_eqb q (lp i)) eqn:Eq.
          * intros _ _. apply path_eqb_spec in Ep, Eq. congruence.
          * intros Q1 Q2. injection Q1 as <-. apply O in Q2. lia.
          * intros Q1 Q2. injection Q2 as <-. apply O in Q1. lia.
          * apply J.
        + intros j Hj. apply F. lia.
        + intros j ino H. rewrite find_cons. destruct (Nat.eq_dec j i) as [->|D].
          * rewrite set_same in H. destruct H as [H|[H|H]]; [|discriminate H|discriminate H]. injection H as <-. assert (path_eqb (lp i) (lp i) = true) as -> by now apply path_eqb_spec. reflexivity.
          * rewrite set_other in H by exact D. apply A in H. destruct (path_eqb (lp j) (lp i)) eqn:E; [|exact H]. apply path_eqb_spec in E. rewrite E in H. congruence.
        + intros j ino. destruct (Nat.eq_dec j i) as [->|D]; [rewrite set_same|rewrite set_other by exact D; apply L].
          split; [|intros Q; now apply no_lock_try in Q]. intros Q. apply L in Q. now apply NL in Q. }
    destruct (wo_status w i) as [|t| |t|t] eqn:E; try exact I; [apply (G SIdle); auto|apply (G SWait); auto].
  - destruct (wo_status w i) as [|ino| |t|t] eqn:E; try exact I.
    assert (forall k, ~ has_lock (wo_status w i) k) as NL by (intros k; rewrite E; apply no_lock_try).
    destruct (lock_turn _ _ _ _) eqn:T.
    + assert (wo_lock w ino = None) as LN. { destruct (wo_lock w ino); [|reflexivity]. cbn [lock_turn] in T. unfold wait_or_fail in T. destruct (op_timeout (who i)) as [v|]; [destruct (v <=? now)|]; discriminate T. }
      assert (find_file (lp i) (wo_file w) = Some ino) as FF by (apply (li_at _ I); rewrite E; now left).
      destruct I as [O J F A L]. split; cbn [wo_file wo_next wo_lock wo_status]; auto.
      * intros j Hj. rewrite set_other; [auto|]. apply O in FF. lia.
      * intros j k H. destruct (Nat.eq_dec j i) as [->|D]; [rewrite set_same in H|rewrite set_other in H by exact D; auto]. destruct H as [H|[H|H]]; [discriminate H|injection H as <-; exact FF|discriminate H].
      * intros j k. destruct (Nat.eq_dec j i) as [->|D].
        -- rewrite set_same. destruct (Nat.eq_dec k ino) as [->|D2].
           ++ rewrite set_same. split; [intros _; now left|reflexivity].
           ++ rewrite set_other by exact D2. split; [intros Q; apply L in Q; now apply NL in Q|]. intros [Q|Q]; [injection Q as <-; now elim D2|discriminate Q].
        -- rewrite (set_other (wo_status w)) by exact D. destruct (Nat.eq_dec k ino) as [->|D2].
           ++ rewrite set_same. split; [intros Q; injection Q as <-; now elim D|]. intros Q. apply L in Q. congruence.
           ++ rewrite set_other by exact D2. apply L.
    + apply linv_status; auto; [apply no_lock_wait|intros k H; now apply at_wait in H].
    + apply linv_status; auto; [apply no_lock_idle|intros k H; now apply at_idle in H].
  - destruct (wo_status w i) as [|ino| |t|t] eqn:E; try exact I.
    assert (forall k, ~ has_lock (wo_status w i) k) as NL by (intros j; rewrite E; apply no_lock_try).
    destruct (lock_turn _ _ _ _); (apply linv_status; auto; [apply no_lock_idle || apply no_lock_wait|intros j H; now (apply at_idle in H || apply at_wait in H)]).
  - destruct (wo_status w i) as [|t| |ino|t] eqn:E; try exact I. destruct good; [|apply linv_released; [exact I|rewrite E; now left]].
    destruct I as [O J F A L]. split; cbn [wo_file wo_next wo_lock wo_status status_to]; auto.
    + intros j k H. destruct (Nat.eq_dec j i) as [->|D]; [rewrite set_same in H|rewrite set_other in H by exact D; auto]. apply A. rewrite E. destruct H as [H|[H|H]]; [discriminate H|discriminate H|injection H as <-; right; now left].
    + intros j k. destruct (Nat.eq_dec j i) as [->|D]; [rewrite set_same|rewrite set_other by exact D; apply L]. rewrite L, E.
      split; intros [Q|Q]; try discriminate Q; injection Q as <-; [now right|now left].
  - destruct (wo_status w i) as [|t| |ino|ino] eqn:E.
    + apply linv_status; auto; [intros k; rewrite E; apply no_lock_idle|apply no_lock_idle|intros k H; now apply at_idle in H].
    + apply linv_status; auto; [intros k; rewrite E; apply no_lock_try|apply no_lock_idle|intros k H; now apply at_idle in H].
    + apply linv_status; auto; [intros k; rewrite E; apply no_lock_wait|apply no_lock_idle|intros k H; now apply at_idle in H].
    + apply linv_released; [exact I|rewrite E; now left].
    + apply linv_released; [exact I|rewrite E; now right].
Qed.
Lemma linv0 : linv world0.
Proof.
  split; cbn; try discriminate; auto.
  - intros i ino H. now apply at_idle in H.
  - intros i ino. split; [discriminate|intros H; now apply no_lock_idle in H].
Qed.
Lemma linv_acts l : forall w, forallb brec_only l = true -> linv w -> linv (acts who l w).
Proof.
  unfold acts. induction l as [|a l IH]; intros w B I; [exact I|]. cbn in B. apply andb_true_iff in B as (B1 & B2). cbn [fold_left]. apply IH; [exact B2|]. now apply linv_act.
Qed.

Lemma locking_has w i : locking w i <-> exists ino, has_lock (wo_status w i) ino.
Proof. unfold locking, live, has_lock. split; [intros [(k & H)|(k & H)]; eauto|intros (k & [H|H]); eauto]. Qed.
Lemma linv_one w i j : linv w -> lp i = lp j -> locking w i -> locking w j -> i = j.
Proof.
  intros I E Hi Hj. apply locking_has in Hi as (k & Hi), Hj as (k' & Hj).
  assert (find_file (lp i) (wo_file w) = Some k) as A by (apply (li_at _ I); destruct Hi as [-> | ->]; [right; now left|right; now right]).
  assert (find_file (lp j) (wo_file w) = Some k') as B by (apply (li_at _ I); destruct Hj as [-> | ->]; [right; now left|right; now right]).
  assert (k = k') as <- by congruence. apply (li_lock _ I) in Hi, Hj. congruence.
Qed.

(** A call that nobody is in the way of. *)
Lemma linv_free w i now : linv w -> (wo_status w i = SIdle \/ wo_status w i = SWait) -> (forall j, lp j = lp i -> ~ locking w j) ->
  live (acts who [AOpen i None; ATry i now; AStore i true] w) i /\
  forall j, j <> i -> wo_status (acts who [AOpen i None; ATry i now; AStore i true] w) j = wo_status w j.
Proof.
  intros I S NB. set (w1 := act who (AOpen i None) w).
  assert (linv w1) as I1 by now apply linv_act.
  assert (exists ino, wo_status w1 i = STry ino) as (ino & S1).
  { unfold w1. cbn [act]. destruct S as [-> | ->]; destruct (find_file (lp i) (wo_file w)); eexists; cbn; apply set_same. }
  assert (forall j, j <> i -> wo_status w1 j = wo_status w j) as O1.
  { intros j D. unfold w1. cbn [act]. destruct S as [-> | ->]; destruct (find_file (lp i) (wo_file w)); cbn; now apply set_other. }
  assert (wo_lock w1 ino = None) as LN.
  { destruct (wo_lock w1 ino) as [j|] eqn:E; [|reflexivity]. exfalso. pose proof (li_lock _ I1 j ino) as (Q & _). specialize (Q E).
    destruct (Nat.eq_dec j i) as [->|D]; [rewrite S1 in Q; now apply no_lock_try in Q|].
    assert (lp j = lp i) as EP.
    { apply (li_inj _ I1 _ _ ino); apply (li_at _ I1); [destruct Q as [-> | ->]; [right; now left|right; now right]|rewrite S1; now left]. }
    apply (NB j EP). apply locking_has. exists ino. now rewrite <- O1. }
  change (acts who [AOpen i None; ATry i now; AStore i true] w) with (act who (AStore i true) (act who (ATry i now) w1)).
  assert (act who (ATry i now) w1 = mk_world (wo_file w1) (wo_next w1) (set (wo_lock w1) ino (Some i)) (set (wo_status w1) i (SHold ino))) as ->.
  { cbn [act]. rewrite S1, LN. reflexivity. }
  cbn [act wo_status]. rewrite set_same. split.
  - exists ino. cbn. apply set_same.
  - intros j D. cbn. rewrite !set_other by exact D. auto.
Qed.
(** A call that finds the lock taken. *)
Lemma linv_taken w i j now : linv w -> (wo_status w i = SIdle \/ wo_status w i = SWait) -> lp j = lp i -> locking w j ->
  let w' := acts who [AOpen i None; ATry i now] w in
  wo_status w' i = match op_timeout (who i) with Some t => if t <=? now then SIdle else SWait | None => SIdle end /\ locking w' j.
Proof.
  intros I S EP LK w'. set (w1 := act who (AOpen i None) w).
  apply locking_has in LK as (k & LK). assert (find_file (lp i) (wo_file w) = Some k) as FF.
  { rewrite <- EP. apply (li_at _ I). destruct LK as [-> | ->]; [right; now left|right; now right]. }
  assert (i <> j) as D. { intros <-. destruct S as [S|S]; rewrite S in LK; [now apply no_lock_idle in LK|now apply no_lock_wait in LK]. }
  assert (w1 = status_to i (STry k) w) as E1 by (unfold w1; cbn [act]; rewrite FF; destruct S as [-> | ->]; reflexivity).
  assert (wo_lock w k = Some j) as LJ by now apply (li_lock _ I).
  assert (w' = status_to i (match op_timeout (who i) with Some t => if t <=? now then SIdle else SWait | None => SIdle end) w1) as ->.
  { unfold w'. change (acts who [AOpen i None; ATry i now] w) with (act who (ATry i now) w1). rewrite E1. cbn [act status_to wo_status wo_lock]. rewrite set_same, LJ. cbn [lock_turn].
    unfold wait_or_fail. destruct (op_timeout (who i)) as [v|]; [destruct (v <=? now)|]; reflexivity. }
  rewrite E1. cbn. split; [apply set_same|]. apply locking_has. exists k. cbn. rewrite !set_other by auto. exact LK.
Qed.
End World.
