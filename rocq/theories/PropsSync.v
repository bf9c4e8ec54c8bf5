(** * The lock of a storage and the sensor (C46-C50, C56). *)
From Coq Require Import ZifyBool ZifyNat ZifyN.
From Verif Require Import Base Crc32 Io File Block Payload Packet Slot Storage Locker Sensor Spec SpecStorage SpecLocker SpecSensor BaseProofs SensorProofs LockerProofs StorageProofs PacketProofs Samples.
Ltac Zify.zify_post_hook ::= Z.div_mod_to_equations.
Open Scope list_scope.

Lemma app_inv_length {A} (a b c d : list A) : length a = length c -> a ++ b = c ++ d -> a = c /\ b = d.
Proof. revert c. induction a as [|x a IH]; intros [|y c] L E; try discriminate L; [auto|]. injection E as -> E. injection L as L. destruct (IH c L E) as (-> & ->). auto. Qed.

(** ** C46

    [l] is any interleaving of the steps of any number of callers, including errors and dying processes. *)
Theorem C46_mutual_exclusion : forall who l i j, forallb brec_only l = true ->
  let w := acts who l world0 in
  op_path (who i) = op_path (who j) -> locking w i -> locking w j -> i = j.
Proof. intros who l i j B w E. apply (linv_one who w i j (linv_acts who l world0 B (linv0 who))). now rewrite E. Qed.
Print Assumptions C46_mutual_exclusion.

(** Whatever happened before, nothing stays locked by those who failed, died or closed their storage. *)
Theorem C46_lock_is_given_back : forall who l i now, forallb brec_only l = true ->
  let w := acts who l world0 in
  (wo_status w i = SIdle \/ wo_status w i = SWait) ->
  (forall j, lock_path (op_path (who j)) = lock_path (op_path (who i)) -> ~ locking w j) ->
  let w' := acts who [AOpen i None; ATry i now; AStore i true] w in
  live w' i /\ forall j, j <> i -> wo_status w' j = wo_status w j.
Proof. intros who l i now B w S N. exact (linv_free who w i now (linv_acts who l world0 B (linv0 who)) S N). Qed.
Print Assumptions C46_lock_is_given_back.

(** A caller that finds the lock taken fails or waits, and disturbs nobody. *)
Theorem C46_taken : forall who l i j now, forallb brec_only l = true ->
  let w := acts who l world0 in
  (wo_status w i = SIdle \/ wo_status w i = SWait) -> lock_path (op_path (who j)) = lock_path (op_path (who i)) -> locking w j ->
  let w' := acts who [AOpen i None; ATry i now] w in
  wo_status w' i = match op_timeout (who i) with Some t => if t <=? now then SIdle else SWait | None => SIdle end /\ locking w' j.
Proof. intros who l i j now B w S E L. exact (linv_taken who w i j now (linv_acts who l world0 B (linv0 who)) S E L). Qed.
Print Assumptions C46_taken.

(** A caller whose lock request or lock file fails stops, unless the system only says that it would block; it too disturbs nobody. *)
Theorem C46_system_errors : forall who l i k now, forallb brec_only l = true ->
  let w := acts who l world0 in
  (wo_status w i = SIdle \/ wo_status w i = SWait) ->
  let lock_fails := acts who [AOpen i None; ATryErr i k now] w in
  let open_fails := acts who [AOpen i (Some k)] w in
  wo_status lock_fails i = (match k, op_timeout (who i) with WouldBlock, Some t => if t <=? now then SIdle else SWait | _, _ => SIdle end) /\
  wo_status open_fails i = SIdle /\
  (forall j, j <> i -> wo_status lock_fails j = wo_status w j /\ wo_status open_fails j = wo_status w j) /\
  (forall ino, wo_lock lock_fails ino = wo_lock w ino /\ wo_lock open_fails ino = wo_lock w ino).
Proof.
  intros who l i k now _ w S lock_fails open_fails. subst open_fails.
  replace (acts who [AOpen i (Some k)] w) with (status_to i SIdle w) by (cbn [acts fold_left act]; destruct S as [-> | ->]; reflexivity).
  assert (exists w1 ino, act who (AOpen i None) w = w1 /\ wo_status w1 i = STry ino /\ wo_lock w1 = wo_lock w /\
    forall j, j <> i -> wo_status w1 j = wo_status w j) as (w1 & ino & E1 & S1 & L1 & O1).
  { cbn [act]. destruct S as [-> | ->]; destruct (find_file (lock_path (op_path (who i))) (Locker.wo_file w)) as [ino|];
      (eexists _, _; split; [reflexivity|]; split; [apply set_same|]; split; [reflexivity|]; intros j D; now apply set_other). }
  assert (exists s, lock_fails = status_to i s w1 /\
    s = match k, op_timeout (who i) with WouldBlock, Some t => if t <=? now then SIdle else SWait | _, _ => SIdle end) as (s & E2 & Es).
  { unfold lock_fails. cbn [acts fold_left]. rewrite E1. cbn [act]. rewrite S1. cbn [lock_turn].
    eexists; split; [|reflexivity]. destruct k; try reflexivity. unfold wait_or_fail. destruct (op_timeout (who i)) as [t|]; [destruct (t <=? now)|]; reflexivity. }
  rewrite E2, Es. split; [apply set_same|]. split; [apply set_same|]. split.
  - intros j D. cbn [status_to wo_status]. rewrite !set_other by exact D. auto.
  - intros n. cbn [status_to wo_lock]. rewrite L1. auto.
Qed.
Print Assumptions C46_system_errors.

Definition data_bin : path := mk_path (str "/srv/") (str "data.bin").
Definition three (i : nat) : options :=
  match i with O => op_new data_bin | 1%nat => op_set_timeout 500 (op_new data_bin) | _ => op_set_timeout 100 (op_new data_bin) end.
(** 0 opens; 1 and 2 have to wait, 2 gives up; 0 dies; 1 gets the storage, 2 tries again in vain. *)
Definition crowd : list action :=
  [AOpen 0 None; AOpen 1 None; ATry 0 0; ATry 1 3; AOpen 2 None; AStore 0 true; ATry 2 100; AOpen 1 None; ADrop 0; ATry 1 60; AOpen 2 None; AStore 1 true; ATry 2 99].
Example C46_example : forallb brec_only crowd = true /\
  map (wo_status (acts three (firstn 7 crowd) world0)) [0; 1; 2]%nat = [SLive 0; SWait; SIdle] /\
  map (wo_status (acts three crowd world0)) [0; 1; 2]%nat = [SIdle; SLive 0; SWait] /\
  map (wo_status (acts three (crowd ++ [AOpen 2 None; ATryErr 2 WouldBlock 99]) world0)) [0; 1; 2]%nat = [SIdle; SLive 0; SWait] /\
  map (wo_status (acts three (crowd ++ [AOpen 2 None; ATryErr 2 Interrupted 99]) world0)) [0; 1; 2]%nat = [SIdle; SLive 0; SIdle].
Proof. vm_compute. repeat split. Qed.

(** The lock is on the file that has the name at that moment: if somebody removes the lock file, a second storage can be opened
    on the same path. (No code of brec removes it.) *)
Theorem C46_removed_lock_file : exists who l, op_path (who 0%nat) = op_path (who 1%nat) /\ live (acts who l world0) 0 /\ live (acts who l world0) 1.
Proof.
  exists (fun _ => op_new data_bin), [AOpen 0 None; ATry 0 0; AStore 0 true; AUnlink (lock_path data_bin); AOpen 1 None; ATry 1 0; AStore 1 true].
  split; [reflexivity|]. split; eexists; vm_compute; reflexivity.
Qed.
Print Assumptions C46_removed_lock_file.

(** ** C47 *)
Theorem C47_no_timeout : forall r rest, refused r -> lock_loop None (r :: rest) = (Some (Err EFileIsLocked), 1%nat).
Proof. intros r rest R. cbn [lock_loop]. rewrite (refused_turn None r R). reflexivity. Qed.
Print Assumptions C47_no_timeout.

(** The lock is taken in the first round in which it is free, if the time was not over in an earlier one. *)
Theorem C47_first_free_round : forall t a r rest, Forall refused a -> Forall (fun r => ro_time r < t) a -> ro_open r = None -> ro_lock r = LFree ->
  lock_loop (Some t) (a ++ r :: rest) = (Some (Ok tt), S (length a)).
Proof.
  intros t a r rest R T O L. rewrite loop_app by assumption. cbn [lock_loop]. rewrite O, L. cbn [lock_turn fst snd]. f_equal. lia.
Qed.
Print Assumptions C47_first_free_round.

(** The timeout is reported in the first round at or after it: not before, and not later than the round after the last one in time. *)
Theorem C47_timeout : forall t rounds n, lock_loop t rounds = (Some (Err ETimeoutToWaitLockedFile), n) ->
  exists v a r rest, t = Some v /\ rounds = a ++ r :: rest /\ n = S (length a) /\ Forall refused (a ++ [r]) /\
    v <= ro_time r /\ Forall (fun r => ro_time r < v) a.
Proof.
  intros t rounds n E. destruct (loop_result t rounds _ _ E) as (a & b & -> & A & T & (r & rest & -> & -> & X)).
  destruct X as [(R & [(_ & X)|(v & -> & V & _)])|(k & X & _)]; [discriminate X| |discriminate X].
  exists v, a, r, rest. repeat split; auto. apply Forall_app. auto.
Qed.
Print Assumptions C47_timeout.

(** So it comes less than the time between two rounds (the interval and what the system adds to it) after the timeout. *)
Theorem C47_one_interval : forall t gap a x r rest, lock_loop (Some t) (a ++ x :: r :: rest) = (Some (Err ETimeoutToWaitLockedFile), (length a + 2)%nat) ->
  ro_time r <= ro_time x + gap -> t <= ro_time r < t + gap.
Proof.
  intros t gap a x r rest E H. destruct (C47_timeout _ _ _ E) as (v & a' & r' & rest' & V & EQ & LN & _ & T1 & T).
  injection V as <-. assert (a' = a ++ [x] /\ r' = r) as (-> & ->).
  { change (a ++ x :: r :: rest) with (a ++ [x] ++ r :: rest) in EQ. rewrite app_assoc in EQ. assert (length (a ++ [x]) = length a') as L by (rewrite app_length; cbn [length]; lia).
    destruct (app_inv_length _ _ _ _ L EQ) as (-> & Q). injection Q as -> _. auto. }
  apply Forall_app in T as (_ & T). apply Forall_inv in T. lia.
Qed.
Print Assumptions C47_one_interval.

(** The loop ends: at most [timeout / interval + 2] rounds. *)
Theorem C47_ends : forall t interval rounds, 0 < interval -> timely interval rounds -> (N.to_nat (t / interval) + 2 <= length rounds)%nat ->
  exists x, fst (lock_loop (Some t) rounds) = Some x.
Proof.
  intros t interval rounds P T L. destruct (lock_loop (Some t) rounds) as ([x|] & n) eqn:E; [now exists x|exfalso].
  destruct (loop_result _ _ _ _ E) as (a & b & EQ & _ & B & X). cbv beta iota in X. destruct X as (Xb & _). subst b rounds. rewrite app_nil_r in *.
  pose proof (N.mul_succ_div_gt t interval ltac:(lia)) as G. set (q := t / interval) in *. clearbody q.
  destruct (@exists_last _ a) as (c & r & ->); [intros ->; cbn [length] in L; lia|]. pose proof (timely_last _ _ _ T) as Q. apply Forall_app in B as (_ & B). apply Forall_inv in B.
  rewrite app_length in L. cbn [length] in L. assert (N.succ q <= N.of_nat (length c)) as LC by lia. nia.
Qed.
Print Assumptions C47_ends.

(** Every other failure has its own error, and the lock is only kept by a call that succeeds. *)
Theorem C47_new : forall there timeout rounds storage o held, fw_new there timeout rounds storage = (o, held) ->
  (held = true <-> exists w, o = Some (Ok w)) /\
  (there = Some false -> o = Some (Err EPathIsNotFile)) /\
  (forall f w, there <> Some false -> fst (lock_loop timeout rounds) = Some (Ok tt) -> storage = inl f -> w_open f = Ok w -> o = Some (Ok w)) /\
  (forall e, o = Some (Err e) ->
     e = EPathIsNotFile /\ there = Some false \/
     e = EFileIsLocked /\ timeout = None \/ e = ETimeoutToWaitLockedFile /\ timeout <> None \/
     (exists k, e = EFailToLockFile k) \/ (exists k, e = EIo k /\ storage = inr k) \/ (exists f, storage = inl f /\ w_open f = Err e)).
Proof.
  intros there timeout rounds storage o held E. unfold fw_new in E.
  assert (there = Some false /\ (o, held) = (Some (Err EPathIsNotFile), false) \/
    match fst (lock_loop timeout rounds) with
      | None => (None, false)
      | Some (Err e) => (Some (Err e), false)
      | Some (Panic w) => (Some (Panic w), false)
      | Some (Ok _) => match storage with
          | inr k => (Some (Err (EIo k)), false)
          | inl f => match w_open f with Ok w => (Some (Ok w), true) | Err e => (Some (Err e), false) | Panic x => (Some (Panic x), false) end
          end
      end = (o, held)) as [(-> & Q)|Q] by (destruct there as [[]|]; auto).
  - injection Q as -> ->. split; [split; [discriminate|intros (w & Q); discriminate Q]|]. split; [reflexivity|]. split; [congruence|].
    intros e Q. injection Q as <-. auto.
  - split; [|split; [intros ->; congruence|split; [|clear E]]].
    + clear E. destruct (fst (lock_loop timeout rounds)) as [[u|e|p]|]; [|injection Q as <- <-..]; try (split; [discriminate|intros (w & Z); discriminate Z]).
      destruct storage as [f|k]; [|injection Q as <- <-; split; [discriminate|intros (w & Z); discriminate Z]].
      destruct (w_open f) as [w|e|p]; injection Q as <- <-; (split; [discriminate || eauto|intros (v & Z); (discriminate Z || reflexivity)]).
    + intros f w _ LL -> WO. rewrite LL, WO in Q. now injection Q as <- _.
    + destruct (lock_loop timeout rounds) as (x & n) eqn:LL. cbn [fst] in Q. destruct (loop_result _ _ _ _ LL) as (a & b & _ & _ & _ & X).
      intros e' Z. destruct x as [[u|e|p]|].
      * destruct storage as [f|k].
        -- destruct (w_open f) as [w|e|p] eqn:WO; injection Q as <- <-; try discriminate Z. injection Z as <-. do 5 right. eauto.
        -- injection Q as <- <-. injection Z as <-. do 4 right. left. eauto.
      * injection Q as <- <-. injection Z as <-. destruct X as (r & rest & _ & _ & X).
        destruct X as [(_ & [(-> & ->)|(v & -> & _ & ->)])|(k & -> & _)]; [auto|right; right; left; split; [reflexivity|discriminate]|]. do 3 right. left. eauto.
      * destruct X as (r & rest & _ & _ & []).
      * injection Q as <- <-. discriminate Z.
Qed.
Print Assumptions C47_new.

(** The options: the path given to [new]; the last timeout set, none by default; the last interval set, 50 ms by default. *)
Theorem C47_options : forall p l,
  op_path (configure p l) = p /\
  (Forall is_interval l -> op_timeout (configure p l) = None) /\
  (forall a t b, l = a ++ SetTimeout t :: b -> Forall is_interval b -> op_timeout (configure p l) = Some t) /\
  (Forall is_timeout l -> op_interval (configure p l) = 50) /\
  (forall a i b, l = a ++ SetInterval i :: b -> Forall is_timeout b -> op_interval (configure p l) = i).
Proof.
  intros p l. unfold configure. set (f := fun (o : options) (c : setting) => _).
  assert (A : forall l o, op_path (fold_left f l o) = op_path o).
  { clear l. induction l as [|[t|i] l IH]; intros o; [reflexivity| |]; cbn [fold_left]; rewrite IH; reflexivity. }
  assert (B : forall l o, Forall is_interval l -> op_timeout (fold_left f l o) = op_timeout o).
  { clear l A. induction l as [|[t|i] l IH]; intros o F; [reflexivity| |]; [now apply Forall_inv in F|]. cbn [fold_left]. rewrite IH; [reflexivity|now inversion F]. }
  assert (C : forall l o, Forall is_timeout l -> op_interval (fold_left f l o) = op_interval o).
  { clear l A B. induction l as [|[t|i] l IH]; intros o F; [reflexivity| |]; [|now apply Forall_inv in F]. cbn [fold_left]. rewrite IH; [reflexivity|now inversion F]. }
  split; [apply A|]. split; [intros F; now rewrite B|]. split; [intros a t b -> F; rewrite fold_left_app; cbn [fold_left]; rewrite B by exact F; reflexivity|].
  split; [intros F; now rewrite C|]. intros a i b -> F. rewrite fold_left_app. cbn [fold_left]. rewrite C by exact F. reflexivity.
Qed.
Print Assumptions C47_options.

Definition held_until (n : nat) (times : list N) : list round :=
  map (fun it => mk_round None (if (fst it <? n)%nat then LBusy else LFree) (snd it)) (combine (seq 0 (length times)) times).
Example C47_example :
  lock_loop None (held_until 1 [0; 50]) = (Some (Err EFileIsLocked), 1%nat) /\
  lock_loop (Some 120) (held_until 3 [1; 52; 103; 154; 205]) = (Some (Ok tt), 4%nat) /\
  lock_loop (Some 120) (held_until 9 [1; 52; 103; 154; 205]) = (Some (Err ETimeoutToWaitLockedFile), 4%nat) /\
  timely 50 (held_until 9 [1; 52; 103; 154; 205]) /\
  option_map (rmap (fun w => length (w_slots w))) (fst (fw_new (Some true) (Some 120) (held_until 3 [1; 52; 103; 154; 205]) (inl (healthy [])))) = Some (Ok 0%nat) /\
  fw_new (Some false) None (held_until 0 [1]) (inl (healthy [])) = (Some (Err EPathIsNotFile), false) /\
  configure data_bin [SetTimeout 9; SetInterval 7; SetTimeout 120] = mk_options data_bin (Some 120) 7.
Proof. vm_compute. intuition discriminate. Qed.

(** ** C48 *)

(** The lock file has the name of the storage with another extension; storages that differ in the extension only share it. *)
Theorem C48_distinct_refuted : exists a b who l,
  a <> b /\ a_name (pa_name a) /\ a_name (pa_name b) /\ op_path (who 0%nat) = a /\ op_path (who 1%nat) = b /\
  live (acts who l world0) 0 /\
  (** the second one is told that its file is locked *)
  fst (lock_loop (op_timeout (who 1%nat)) [mk_round None LBusy 0]) = Some (Err EFileIsLocked) /\
  wo_status (acts who (l ++ [AOpen 1 None; ATry 1 0]) world0) 1%nat = SIdle.
Proof.
  set (a := mk_path (str "/srv/") (str "data.a")). set (b := mk_path (str "/srv/") (str "data.b")).
  exists a, b, (fun i => op_new (if (i =? 0)%nat then a else b)), [AOpen 0 None; ATry 0 0; AStore 0 true].
  split; [intros Q; apply (f_equal pa_name) in Q; vm_compute in Q; discriminate Q|].
  split; [repeat split; vm_compute; discriminate|]. split; [repeat split; vm_compute; discriminate|]. split; [reflexivity|]. split; [reflexivity|].
  split; [eexists; vm_compute; reflexivity|]. split; vm_compute; reflexivity.
Qed.
Print Assumptions C48_distinct_refuted.

(** Missing: names in one directory that differ in the extension only. *)
Theorem C48_distinct_partial : forall a b x, ext_of (pa_name a) x -> ext_of (pa_name b) x -> a <> b -> lock_path a <> lock_path b.
Proof.
  intros a b x A B N E. apply N. apply lock_path_eq in E as (D & S). pose proof (ext_inj _ _ _ A B S). destruct a, b; cbn in *; congruence.
Qed.
Print Assumptions C48_distinct_partial.
(** ... exactly these. *)
Theorem C48_shared : forall d s t x y, s <> [] -> t <> [] -> ~ In (n2b 46) x -> ~ In (n2b 46) y ->
  lock_path (mk_path d (s ++ n2b 46 :: x)) = lock_path (mk_path d (t ++ n2b 46 :: y)) <-> s = t.
Proof.
  intros d s t x y S T X Y. rewrite lock_path_eq. cbn [pa_dir pa_name]. rewrite !stem_some by assumption. tauto.
Qed.
Print Assumptions C48_shared.
(** With different lock files both can be open, whatever happened before. *)
Theorem C48_both_open : forall who l i j now, forallb brec_only l = true -> let w := acts who l world0 in
  (forall k, k <> i -> lock_path (op_path (who k)) <> lock_path (op_path (who i))) -> (wo_status w i = SIdle \/ wo_status w i = SWait) -> live w j ->
  let w' := acts who [AOpen i None; ATry i now; AStore i true] w in live w' i /\ live w' j.
Proof.
  intros who l i j now B w D S L w'. pose proof (linv_acts who l world0 B (linv0 who)) as I. fold w in I.
  assert (j <> i) as NE. { intros ->. destruct L as (k & L). destruct S; congruence. }
  destruct (linv_free who w i now I S) as (A & C).
  - intros k E [(m & Q)|(m & Q)]; (destruct (Nat.eq_dec k i) as [->|N]; [destruct S; congruence|exact (D k N E)]).
  - split; [exact A|]. destruct L as (m & L). exists m. unfold w'. rewrite C by exact NE. exact L.
Qed.
Print Assumptions C48_both_open.
(** A storage with the extension "lock" is its own lock file. *)
Theorem C48_own_lock : forall d s, s <> [] -> lock_path (mk_path d (s ++ str ".lock")) = mk_path d (s ++ str ".lock").
Proof.
  intros d s S. unfold lock_path. cbn [pa_dir pa_name]. change (str ".lock") with (n2b 46 :: str "lock"). rewrite stem_some; [reflexivity|exact S|].
  vm_compute. intuition discriminate.
Qed.
Print Assumptions C48_own_lock.
Example C48_example :
  pa_name (lock_path (mk_path [] (str "archive.tar.gz"))) = str "archive.tar.lock" /\ pa_name (lock_path (mk_path [] (str ".hidden"))) = str ".hidden.lock" /\
  pa_name (lock_path (mk_path [] (str "plain"))) = str "plain.lock" /\ ext_of (str "a.bin") (Some (str "bin")) /\ ext_of (str "b.bin") (Some (str "bin")).
Proof.
  split; [reflexivity|]. split; [reflexivity|]. split; [reflexivity|].
  split; [apply (ext_some (str "a") (str "bin"))|apply (ext_some (str "b") (str "bin"))]; vm_compute; intuition discriminate.
Qed.

(** ** C49 *)

(** A sensor on a file that already has content says nothing about it until something happens. *)
Theorem C49_old_content_refuted : exists n, let s := sensor0 n in settled s /\ s_until s < s_size s /\ s_queue s = None /\ s_held s = false.
Proof. exists 5. cbn. repeat split; constructor. Qed.
Print Assumptions C49_old_content_refuted.

(** Missing: the content of the file before the first change, event or acknowledgement. *)
Theorem C49_no_wake_lost_partial : forall n l, forallb quiet_happening l = true -> n = 0 \/ existsb touches l = true ->
  let s := all_happens l (sensor0 n) in
  settled s -> s_until s < s_size s -> (exists k, s_queue s = Some k) \/ s_held s = true.
Proof.
  intros n l Q T s (D & E) U.
  assert (winv (n =? 0) (sensor0 n)) as W0.
  { split; [reflexivity|]. split; [discriminate|]. intros Z. apply N.eqb_eq in Z as ->. cbn. lia. }
  pose proof (winv_all l _ _ Q W0) as (O & _ & H). fold s in O, H.
  assert ((n =? 0) || existsb touches l = true) as TT. { destruct T as [->|T]; [reflexivity|]. rewrite T. apply orb_true_r. }
  destruct (H TT U) as [Z|[Z|[Z|Z]]]; [congruence| |left|now right].
  - now apply has_none in Z.
  - destruct (s_queue s); [eauto|contradiction].
Qed.
Print Assumptions C49_no_wake_lost_partial.

(** One lost event or one failing [metadata] is enough to miss a change. *)
Theorem C49_failures_matter : exists a b, forall l, l = a \/ l = b ->
  let s := all_happens l (sensor0 0) in settled s /\ s_until s < s_size s /\ s_queue s = None /\ s_held s = false.
Proof.
  exists [HChange 10; HBadEvent], [HChange 10; HEvent; HRun 0 false; HRun 0 false; HRun 0 false; HRun 0 false; HRecv; HChange 20; HEvent; HRun 1 false; HRun 1 false; HRun 1 false;
    HAck 10; HRun 2 false; HRun 2 false; HRun 2 false; HMetaFail 2].
  intros l [->| ->]; vm_compute; repeat split; repeat (apply Forall_cons; [eexists; reflexivity|]); try apply Forall_nil.
Qed.
Print Assumptions C49_failures_matter.

(** Two changes, the second one while the owner has the first wake; its event comes to nothing, [processed] makes up for it. *)
Definition busy_day : list happening :=
  [HChange 10; HEvent; HRun 0 false; HRun 0 false; HRun 0 false; HRun 0 false; HRecv; HChange 25; HEvent; HRun 1 false; HAck 10; HRun 1 false; HRun 2 false; HRun 1 false; HRun 2 true;
   HRun 2 false; HRun 2 false; HRun 2 false; HRun 2 false; HRun 2 false; HRun 2 false].
Example C49_example : forallb quiet_happening busy_day = true /\
  let s := all_happens busy_day (sensor0 0) in s_threads s = [Done RetOk; Done RetOk; Done RetOk] /\ s_event s = false /\ s_until s = 10 /\ s_size s = 25 /\ s_queue s = Some 25.
Proof. vm_compute. repeat split. Qed.

(** ** C50 *)
Theorem C50_monotone : forall n l l', let s := all_happens l (sensor0 n) in s_until s <= s_until (all_happens l' s).
Proof. intros n l l' s. apply (until_all l' ([] ++ acked l)). apply ainv_all, ainv0. Qed.
Print Assumptions C50_monotone.

(** When all calls have returned, the acknowledged length is the largest one acknowledged, whatever the order. *)
Theorem C50_largest : forall n l, let s := all_happens l (sensor0 n) in Forall (fun p => exists r, p = Done r) (s_threads s) -> s_until s = largest (acked l).
Proof.
  intros n l s D. pose proof (ainv_all l [] (sensor0 n) (ainv0 n)) as [_ I _ A]. cbn [app] in I, A. fold s in I, A. apply largest_is; [exact I|].
  intros v Iv. destruct (A v Iv) as [H|H]; [exact H|]. now apply has_none in H.
Qed.
Print Assumptions C50_largest.

(** Never more wakes than acknowledgements, plus one; the one in the channel included. *)
Theorem C50_wakes : forall n l, (length (received l (sensor0 n)) + match s_queue (all_happens l (sensor0 n)) with Some _ => 1 | None => 0 end <= 1 + length (acked l))%nat.
Proof. intros n l. pose proof (weight_all l (sensor0 n)) as H. unfold weight, qn, ln in H. cbn [sensor0 s_queue s_locked s_threads num filter length] in H. lia. Qed.
Print Assumptions C50_wakes.

(** Two acknowledgements overtake each other; the compare-exchange of the first fails twice. *)
Definition race : list happening :=
  [HChange 40; HAck 30; HAck 20; HRun 0 false; HRun 1 false; HRun 0 true; HRun 1 false; HRun 0 false; HRun 0 false; HRun 1 false; HRun 0 false; HRun 1 false; HRun 0 false; HRun 1 false;
   HRun 0 false; HRun 1 false; HRun 0 false; HRun 1 false; HRun 0 false; HRun 1 false].
Example C50_example : let s := all_happens race (sensor0 0) in s_threads s = [Done RetOk; Done RetOk] /\ s_until s = 30 /\ acked race = [30; 20] /\ s_queue s = Some 40.
Proof. vm_compute. repeat split. Qed.

(** ** C56 *)
Theorem C56_wake_length : forall n l, Forall (fun k => k = n \/ In k (sizes l)) (received l (sensor0 n)).
Proof.
  intros n l. assert (sinv [n] (sensor0 n)) as SI by (split; cbn; [now left|discriminate|constructor]).
  eapply Forall_impl; [|exact (received_sizes l _ _ SI)]. cbv beta. intros k [->|H]; auto.
Qed.
Print Assumptions C56_wake_length.

(** But it need not announce anything new: here the owner has read and acknowledged all 10 bytes before it gets the wake for 10. *)
Theorem C56_news_refuted : exists l, forallb quiet_happening l = true /\
  let s := all_happens l (sensor0 0) in s_queue s = Some 10 /\ s_until s = 10 /\ s_size s = 10.
Proof.
  exists [HChange 5; HEvent; HRun 0 false; HRun 0 false; HRun 0 false; HRun 0 false; HChange 10; HEvent; HRun 1 false; HRun 1 false; HRecv;
    HAck 10; HRun 2 false; HRun 2 false; HRun 2 false; HRun 1 false; HRun 1 false].
  vm_compute. repeat split.
Qed.
Print Assumptions C56_news_refuted.

(** ** C85: what one call does *)

(** A call of [processed] during which nothing else happens: the acknowledged length is the larger one, a wake for what the file has
    beyond it goes into the channel (unless there is one), the sensor stays locked exactly when there is more to read, and the call
    fails exactly when there is, but no receiver any more.  Spurious failures of the compare-exchange ([ws]) change nothing, and
    without them seven steps are enough. *)
Theorem C85_processed : forall s u ws, let i := length (s_threads s) in let s' := all_happens (HAck u :: map (HRun i) ws) s in
  let m := N.max (s_until s) u in let more := m <? s_size s in
  (forall r, nth_error (s_threads s') i = Some (Done r) ->
     s_until s' = m /\ s_locked s' = more /\
     s_queue s' = (if more && s_open s then match s_queue s with Some k => Some k | None => Some (s_size s) end else s_queue s) /\
     r = if more && negb (s_open s) then RetGone else RetOk) /\
  (ws = repeat false 7 -> exists r, nth_error (s_threads s') i = Some (Done r)).
Proof.
  intros s u ws i s' m more. split.
  - intros r N. destruct (stage_all s u ws) as (_ & _ & p & T & H). fold i s' in T, H. unfold i in N. rewrite T, nth_last in N. injection N as ->. exact H.
  - intros E. unfold s', i. rewrite E. exact (stage_ends s u).
Qed.
Print Assumptions C85_processed.

(** An event of the watcher during which nothing else happens; for a locked sensor, or without news, nothing changes. *)
Theorem C85_event : forall s ws, let i := length (s_threads s) in let s' := all_happens (HEvent :: map (HRun i) ws) s in
  let news := (s_until s <? s_size s) && negb (s_locked s) in
  (forall r, nth_error (s_threads s') i = Some (Done r) ->
     s_until s' = s_until s /\ s_locked s' = s_locked s || news /\
     s_queue s' = (if news && s_open s then match s_queue s with Some k => Some k | None => Some (s_size s) end else s_queue s) /\
     r = if news && negb (s_open s) then RetGone else RetOk) /\
  (ws = repeat false 4 -> exists r, nth_error (s_threads s') i = Some (Done r)).
Proof.
  intros s ws i s' news. split.
  - intros r N. destruct (stage_event_all s ws) as (_ & _ & U & p & T & H). fold i s' in U, T, H. unfold i in N. rewrite T, nth_last in N. injection N as ->. exact (conj U H).
  - intros E. unfold s', i. rewrite E. exact (stage_event_ends s).
Qed.
Print Assumptions C85_event.

(** Whatever happens at the same time: a call reports a missing receiver only after it was dropped and an i/o error only when
    its own look at the file failed; and nothing is received after the drop. *)
Theorem C85_errors : forall n l,
  (forall i r, nth_error (s_threads (all_happens l (sensor0 n))) i = Some (Done r) -> (r = RetGone -> In HClose l) /\ (r = RetIo -> In (HMetaFail i) l)) /\
  (forall l', received l' (all_happens (l ++ [HClose]) (sensor0 n)) = []).
Proof.
  intros n l. split.
  - intros i r N. destruct (returned_all l _ i r N) as [H|(H1 & H2)]; [destruct i; discriminate H|]. split; [|exact H2]. intros E. destruct (H1 E) as [H|H]; [discriminate H|exact H].
  - intros l'. apply closed_received. unfold all_happens. rewrite fold_left_app. reflexivity.
Qed.
Print Assumptions C85_errors.

(** Ten bytes are announced and acknowledged in part; then the receiver is dropped, and the next event and acknowledgement fail. *)
Example C85_example :
  let a := all_happens [HChange 10; HEvent; HRun 0 false; HRun 0 false; HRun 0 false; HRun 0 false; HRecv] (sensor0 0) in
  let b := all_happens (HAck 4 :: map (HRun 1) [false; true; true; false; false; false; false; false; false]) a in
  let c := all_happens (HClose :: HAck 6 :: map (HRun 2) (repeat false 7)) b in
  let d := all_happens (HAck 10 :: map (HRun 3) (repeat false 7)) c in
  (s_threads a, s_locked a, s_until a) = ([Done RetOk], true, 0) /\ (s_threads b, s_locked b, s_until b, s_queue b) = ([Done RetOk; Done RetOk], true, 4, Some 10) /\
  (s_threads c, s_locked c, s_until c) = ([Done RetOk; Done RetOk; Done RetGone], true, 6) /\ (s_threads d, s_locked d, s_until d) = ([Done RetOk; Done RetOk; Done RetGone; Done RetOk], false, 10) /\
  received [HRecv] c = [] /\ received [HRecv] b = [10].
Proof. vm_compute. repeat split. Qed.
