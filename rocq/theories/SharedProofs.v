(** * Proofs about storages that several processes use. *)
From Coq Require Import ZifyBool ZifyNat ZifyN.
From Verif Require Import Base Crc32 Io File Block Payload Packet Slot Storage Locker Shared Spec SpecStorage SpecLocker SpecShared BaseProofs SlotProofs PacketProofs StorageProofs StorageReadProofs LockerProofs CrashProofs.
Ltac Zify.zify_post_hook ::= Z.div_mod_to_equations.
Open Scope list_scope.
Notation C := default_capacity.

(** ** Sizes *)
Lemma size_full (fs : list (list bytes)) : Forall (fun g => length g = C) fs -> blen (files fs) = sum (map blen (concat fs)) + tsz * N.of_nat (length fs).
Proof.
  induction 1 as [|g fs H F IH]; [reflexivity|]. change (files (g :: fs)) with (gfile g ++ files fs). rewrite blen_app, IH, gfile_blen by lia.
  cbn [concat length]. rewrite map_app, sum_app. unfold gsz. rewrite Nat2N.inj_succ. lia.
Qed.
Lemma size_closed es : blen (storage_file es) = sum (map blen es) + tsz * N.of_nat ((length es + 499) / 500).
Proof.
  destruct (decompose es) as (fs & l & SH & ->). rewrite storage_shaped by exact SH. pose proof SH as (F & L). unfold gro. rewrite files_app, blen_app, size_full by exact F.
  rewrite map_app, sum_app, app_length, length_concat_full by exact F. pose proof cap_eq as CE. rewrite CE in *.
  destruct l as [|y l].
  - change (files []) with (@nil byte). rewrite blen_nil. cbn [length map sum fold_right]. rewrite Nat.add_0_r. replace ((length fs * 500 + 499) / 500)%nat with (length fs) by lia. lia.
  - rewrite files_one, gfile_blen by lia. unfold gsz. replace ((length fs * 500 + length (y :: l) + 499) / 500)%nat with (S (length fs)) by (cbn [length] in *; lia). lia.
Qed.
Lemma size_skip es e all : blen (storage_file (es ++ all)) <= blen (storage_file (es ++ e :: all)).
Proof.
  rewrite !size_closed, !map_app, !sum_app, !app_length. cbn [map sum fold_right length].
  assert ((length es + length all + 499) / 500 <= (length es + S (length all) + 499) / 500)%nat as H by (apply Nat.div_le_mono; lia).
  revert H. generalize ((length es + length all + 499) / 500)%nat, ((length es + S (length all) + 499) / 500)%nat. intros a b H.
  assert (tsz * N.of_nat a <= tsz * N.of_nat b) by (apply N.mul_le_mono_l; lia). change (fold_right N.add 0 (map blen all)) with (sum (map blen all)). lia.
Qed.

(** ** A process that dies in an insert *)

(** What may follow a storage: the first bytes of a table. *)
Definition head : bytes := slot_sig ++ le 8 (N.of_nat C).
Definition tail_ok (l : list bytes) (J : bytes) : Prop := exists j, (j < 16)%nat /\ J = firstn j head /\ (l <> [] -> j = O).
Lemma head_length : length head = 16%nat.
Proof. reflexivity. Qed.
Lemma tail_short l J : tail_ok l J -> blen J < 16.
Proof. intros (j & L & -> & _). unfold blen. rewrite firstn_length. lia. Qed.
Lemma tail_none l : tail_ok l [].
Proof. exists O. split; [lia|]. auto. Qed.
Lemma head_table ls j : (j <= 16)%nat -> firstn j (slot_table ls) = firstn j head.
Proof.
  intros L. rewrite slot_table_eq. change (slot_sig ++ le 8 (sl_capacity (lsl ls)) ++ ?x) with (slot_sig ++ le 8 (N.of_nat C) ++ x). rewrite app_assoc. fold head.
  rewrite firstn_app, head_length. replace (j - 16)%nat with O by lia. rewrite firstn_O. apply app_nil_r.
Qed.

Lemma die_new {U} (P : proto U) fs w (p : packet U) e J o w' : w_mem (map (map blen) fs) [] (w_slots w) (w_loc w) -> fl_data (w_file w) = files fs ++ J -> tail_ok [] J ->
  nonempty_all (concat fs) -> packet_enc P p e -> blen (storage_file (concat fs ++ [e])) < two63 -> w_insert p w = (o, w') ->
  (exists J', tail_ok [] J' /\ w_data w' = files fs ++ J') \/ w_data w' = storage_file (concat fs ++ [e]) \/
  (exists c', load (mk_cursor (w_data w') 0) = (Panic POverflow, c')).
Proof.
  intros M D0 (j & LJ & EJ & _) NE HE B E. pose proof (mem_shaped fs [] _ _ M) as SH. pose proof SH as (F & L).
  assert (Forall filled fs) as FF. { pose proof (shaped_filled fs [] SH) as Q. unfold gro in Q. rewrite !app_nil_r in Q. auto. }
  rewrite (insert_ok (map (map blen) fs) [] w p e M (pkt_write_all_ok P p e [] HE)) in E. cbn [app] in E.
  assert (length [blen e] <= C)%nat as LS by (rewrite cap_eq; cbn [length]; lia).
  destruct (w_store _ _ _ _ _) as (o1 & f1) eqn:ST. injection E as <- <-.
  destruct (store_crash _ _ _ _ _ _ _ _ (lsl_bytes _ LS) ST) as (k1 & k2 & L1 & L2 & K & D & _).
  match goal with |- context [w_data (mk_writer ?a f1 ?b)] => change (w_data (mk_writer a f1 b)) with (fl_data f1) end. clear ST.
  rewrite D0 in D. clear D0. set (d := fl_data f1) in *. clearbody d.
  assert (blen (files fs) = gszs (map (map blen) fs)) as LA by (apply files_blen; eapply Forall_impl; [|exact FF]; intros g Q; apply Q).
  assert (length (files fs) = N.to_nat (gszs (map (map blen) fs))) as LA' by (rewrite <- LA, to_nat_blen; reflexivity).
  set (T' := slot_table [blen e]) in *. assert (blen T' = tsz) as LT by now apply slot_table_length.
  assert (storage_file (concat fs ++ [e]) = files fs ++ T' ++ e) as EN.
  { pose proof (concat_push fs [] e) as Q. rewrite app_nil_r in Q. rewrite <- Q, storage_shaped by now apply shaped_push. rewrite gro_push, files_app, files_one. unfold gfile. cbn [app map concat]. now rewrite app_nil_r. }
  assert (blen (files fs) < two63) as BF by (rewrite EN, !blen_app in B; lia).
  assert (LT' : (16 <= length T')%nat) by (unfold blen, tsz in LT; lia).
  assert (length J <= length T')%nat as LJT by (rewrite EJ, firstn_length; lia).
  assert (forall k, (k <= length T')%nat -> overwrite (gszs (map (map blen) fs)) (firstn k T') (files fs ++ J) = files fs ++ firstn (Nat.max k j) T') as OV.
  { intros k LK. destruct k as [|k]; [cbn [firstn overwrite Nat.max]; unfold overwrite; rewrite EJ; f_equal; unfold T'; rewrite head_table by lia; reflexivity|].
    rewrite overwrite_at; [|exact LA'|destruct T'; [cbn [length] in LT'; lia|discriminate]]. f_equal. rewrite firstn_length, Nat.min_l by exact LK.
    rewrite EJ, <- (head_table [blen e] j) by lia. fold T'.
    rewrite <- (firstn_skipn (S k) (firstn (Nat.max (S k) j) T')), firstn_firstn, Nat.min_l by lia. f_equal.
    rewrite !skipn_firstn_comm. f_equal. lia. }
  assert (d = files fs ++ firstn (Nat.max k1 j + k2) (T' ++ e)) as DD.
  { destruct k2 as [|k2].
    - rewrite firstn_O in D. change (overwrite ?a [] ?b) with b in D. rewrite D, OV by exact L1. rewrite Nat.add_0_r, firstn_app. replace (Nat.max k1 j - length T')%nat with O by lia. rewrite firstn_O, app_nil_r. reflexivity.
    - assert (k1 = length T') as -> by (apply K; discriminate). rewrite D, OV by lia. replace (Nat.max (length T') j) with (length T') by lia. rewrite firstn_all, firstn_app_2.
      rewrite <- (app_nil_r (files fs ++ T')), overwrite_at, skipn_nil, app_nil_r; [now rewrite <- app_assoc| |].
      + rewrite app_length, !N2Nat.inj_add, <- LA'. cbn [sum fold_right]. rewrite <- LT, to_nat_blen. lia.
      + destruct e; [now apply packet_enc_nonempty in HE|discriminate]. }
  assert (blen (T' ++ e) = tsz + blen e) as LTE by (rewrite blen_app, LT; reflexivity). pose proof (packet_enc_big _ _ _ HE) as BE.
  set (k := (Nat.max k1 j + k2)%nat) in *. clearbody k. clear D OV K L1 L2 k1 k2 o1 f1.
  destruct (Nat.lt_ge_cases k 16) as [Q|Q].
  - left. exists (firstn k T'). split; [|rewrite DD, firstn_app; replace (k - length T')%nat with O by lia; rewrite firstn_O, app_nil_r; reflexivity].
    exists k. split; [exact Q|]. split; [apply head_table; lia|]. intros X. now elim X.
  - right. destruct (Nat.lt_ge_cases k (length T')) as [Q1|Q1].
    + right. rewrite firstn_app in DD. replace (k - length T')%nat with O in DD by lia. rewrite firstn_O, app_nil_r in DD.
      apply (load_short fs [blen e] k (mk_cursor d 0) DD FF BF LS Q). unfold blen in LT. lia.
    + replace k with (length T' + (k - length T'))%nat in DD by lia. rewrite firstn_app_2 in DD.
      destruct (Nat.le_gt_cases (length e) (k - length T')) as [Q2|Q2].
      * left. rewrite firstn_all2 in DD by exact Q2. rewrite DD, EN. reflexivity.
      * right. apply (load_past fs [blen e] (firstn (k - length T') e) (mk_cursor d 0) DD FF BF).
        -- split; [exact LS|]. repeat constructor. lia.
        -- repeat constructor. rewrite EN, !blen_app in B. unfold two63, two64 in *. lia.
        -- cbn [sum fold_right]. unfold blen. rewrite firstn_length. lia.
Qed.

Lemma die_cases {U} (P : proto U) fs l w (p : packet U) e J o w' : w_mem (map (map blen) fs) (map blen l) (w_slots w) (w_loc w) -> fl_data (w_file w) = files (gro fs l) ++ J -> tail_ok l J ->
  nonempty_all (concat fs ++ l) -> packet_enc P p e -> blen (storage_file ((concat fs ++ l) ++ [e])) < two63 -> w_insert p w = (o, w') ->
  (exists J', tail_ok l J' /\ w_data w' = files (gro fs l) ++ J') \/ w_data w' = storage_file ((concat fs ++ l) ++ [e]) \/
  (exists c', load (mk_cursor (w_data w') 0) = (Err (EDamagedSlot ECrcDismatch), c')) \/ (exists c', load (mk_cursor (w_data w') 0) = (Panic POverflow, c')).
Proof.
  intros M D T NE HE B E. destruct l as [|y l'].
  - unfold gro in *. rewrite !app_nil_r in *. destruct (die_new P fs w p e J o w' M D T NE HE B E) as [Q|[Q|Q]]; auto.
  - set (l := y :: l') in *. assert (J = []) as -> by (destruct T as (j & _ & -> & Z); rewrite (Z ltac:(discriminate)); reflexivity). rewrite app_nil_r in *.
    set (w0 := mk_writer (w_slots w) (mk_file (fl_cur (w_file w)) [] []) (w_loc w)).
    assert (w = w_faults (fl_sched (w_file w)) (fl_flushes (w_file w)) w0) as EW by (destruct w as [a [b c d] f]; reflexivity).
    assert (w_ok fs l w0) as OK by (split; [exact M|]; exists (fl_cur (w_file w)); split; [reflexivity|exact D]).
    rewrite EW in E. destruct (crash_cases P fs l w0 p e _ _ o w' OK NE HE B E) as [(J & _ & Z & Q)|[Q|[Q|Q]]]; auto.
    left. exists []. rewrite (Z ltac:(discriminate)) in Q. split; [apply tail_none|]. rewrite Q, storage_shaped by exact (ok_shaped _ _ _ OK). reflexivity.
Qed.

(** ** Who has a storage *)
Section Steps.
(** [died]: may a process have died in an insert? *)
Context {U : Type} (P : proto U) (who : nat -> options) (q : path) (died : Prop).

Lemma live_act a w i : match a with AStore _ _ | ADrop _ => False | _ => True end -> live (act who a w) i <-> live w i.
Proof.
  intros A. unfold live. destruct a as [j fails|j now|j k now|j good|j|p]; try contradiction; cbn [act]; [| | |reflexivity].
  - destruct (wo_status w j) eqn:E; try reflexivity; destruct fails; [|destruct (find_file _ _)| |destruct (find_file _ _)]; cbn [status_to wo_status];
      (destruct (Nat.eq_dec i j) as [->|D]; [rewrite set_same, E; split; intros (? & Q); discriminate Q|rewrite set_other by exact D; reflexivity]).
  - destruct (wo_status w j) eqn:E; try reflexivity; destruct (lock_turn _ _ _ _); cbn [status_to wo_status];
      (destruct (Nat.eq_dec i j) as [->|D]; [rewrite set_same, E; split; intros (? & Q); discriminate Q|rewrite set_other by exact D; reflexivity]).
  - destruct (wo_status w j) eqn:E; try reflexivity; destruct (lock_turn _ _ _ _); cbn [status_to wo_status];
      (destruct (Nat.eq_dec i j) as [->|D]; [rewrite set_same, E; split; intros (? & Q); discriminate Q|rewrite set_other by exact D; reflexivity]).
Qed.
Lemma live_drop j w i : live (act who (ADrop j) w) i <-> i <> j /\ live w i.
Proof.
  unfold live. cbn [act]. destruct (Nat.eq_dec i j) as [->|D].
  - split; [intros (n & Q)|intros (Q & _); now elim Q]. destruct (wo_status w j); cbn [status_to released wo_status] in Q; rewrite set_same in Q; discriminate Q.
  - destruct (wo_status w j); cbn [status_to released wo_status]; rewrite set_other by exact D; (split; [intros Q; split; [exact D|exact Q]|intros (_ & Q); exact Q]).
Qed.
Lemma live_store j good w i ino : wo_status w j = SHold ino -> live (act who (AStore j good) w) i <-> i = j /\ good = true \/ i <> j /\ live w i.
Proof.
  intros E. unfold live. cbn [act]. rewrite E. destruct (Nat.eq_dec i j) as [->|D].
  - destruct good; cbn [status_to released wo_status]; rewrite set_same; (split; [intros (n & Q)|intros [(_ & Q)|(Q & _)]]); try discriminate; auto; [|now elim Q|now elim Q]. eauto.
  - destruct good; cbn [status_to released wo_status]; rewrite set_other by exact D; (split; [auto|intros [(Q & _)|(_ & Q)]; [contradiction|exact Q]]).
Qed.

Definition usable (es : list bytes) (s : shared) : Prop :=
  exists fs l J, es = concat fs ++ l /\ shaped fs l /\ tail_ok l J /\ (J = [] \/ died) /\ sh_disk s q = files (gro fs l) ++ J /\
    forall i w, op_path (who i) = q -> sh_writer s i = Some w -> w_mem (map (map blen) fs) (map blen l) (w_slots w) (w_loc w).
Definition unreadable (data : bytes) : Prop :=
  (exists c, load (mk_cursor data 0) = (Err (EDamagedSlot ECrcDismatch), c)) \/ (exists c, load (mk_cursor data 0) = (Panic POverflow, c)).
Definition ruined (es : list bytes) (s : shared) : Prop :=
  died /\ unreadable (sh_disk s q) /\ (forall i, op_path (who i) = q -> sh_writer s i = None) /\
  forall i x, nth_error es i = Some x -> holds (sh_disk s q) (packet_place es i) x.
Record sinv (es : list bytes) (s : shared) : Prop := {
  si_lock : linv who (sh_world s);
  si_live : forall i, sh_writer s i <> None <-> live (sh_world s) i;
  si_full : nonempty_all es;
  si_file : usable es s \/ ruined es s }.

Lemma sinv0 : sinv [] shared0.
Proof.
  split; [apply linv0| |constructor|left].
  - intros i. split; [intros Q; now elim Q|intros (n & Q); discriminate Q].
  - exists [], [], []. split; [reflexivity|]. split; [split; [constructor|apply cap_pos]|]. split; [apply tail_none|]. split; [now left|]. split; [reflexivity|]. discriminate.
Qed.

(** The same files, and no new storage. *)
Lemma sinv_keep es s w wr : sinv es s -> linv who w -> (forall i, wr i <> None <-> live w i) -> (forall i x, op_path (who i) = q -> wr i = Some x -> sh_writer s i = Some x) ->
  sinv es (mk_shared w (sh_disk s) wr).
Proof.
  intros [L V F S] L' V' K. split; auto. destruct S as [(fs & l & J & A & B & C & Z & D & E)|(Z & A & B & C)]; [left|right].
  - exists fs, l, J. do 5 (split; [assumption|]). intros i x O Q. apply (E i x O). now apply K.
  - split; [exact Z|]. split; [exact A|]. split; [|exact C]. intros i O. cbn [sh_writer]. destruct (wr i) as [x|] eqn:Q; [|reflexivity]. apply K in Q; [|exact O]. rewrite B in Q by exact O. discriminate Q.
Qed.

(** Another file. *)
Lemma sinv_other es s w wr r data : sinv es s -> r <> q -> linv who w -> (forall i, wr i <> None <-> live w i) ->
  (forall i x, op_path (who i) = q -> wr i = Some x -> sh_writer s i = Some x) -> sinv es (mk_shared w (disk_set r data (sh_disk s)) wr).
Proof.
  intros I D L' V' K. pose proof (sinv_keep es s w wr I L' V' K) as [L V F S]. split; auto.
  assert (disk_set r data (sh_disk s) q = sh_disk s q) as E.
  { unfold disk_set. destruct (path_eqb q r) eqn:Q; [|reflexivity]. apply path_eqb_spec in Q. now elim D. }
  unfold usable, ruined in *. cbn [sh_disk sh_writer] in *. now rewrite E.
Qed.

Definition owns (m : call U) (s : shared) : list (bool * packet U) := attempts who q [m] s.
Lemma attempts_cons m ms s : attempts who q (m :: ms) s = owns m s ++ attempts who q ms (snd (call_step who m s)).
Proof. unfold owns. cbn [attempts]. now rewrite app_nil_r. Qed.
Lemma replies_cons (m : call U) ms s : replies who q (m :: ms) s = replies who q [m] s ++ replies who q ms (snd (call_step who m s)).
Proof. cbn [replies]. now rewrite app_nil_r. Qed.
Lemma eqb_same (r : path) : path_eqb r r = true.
Proof. now apply path_eqb_spec. Qed.
Lemma eqb_diff (r : path) : r <> q -> path_eqb r q = false.
Proof. intros D. destruct (path_eqb r q) eqn:E; [|reflexivity]. apply path_eqb_spec in E. contradiction. Qed.
Lemma disk_same data disk : disk_set q data disk q = data.
Proof. unfold disk_set. now rewrite eqb_same. Qed.

Lemma alone es s i j w w' : sinv es s -> op_path (who i) = op_path (who j) -> sh_writer s i = Some w -> sh_writer s j = Some w' -> i = j.
Proof.
  intros [L V _ _] E Hi Hj. apply (linv_one who (sh_world s)); [exact L|now rewrite E| |]; left; apply V; congruence.
Qed.

Lemma sinv_step m s es all : sinv es s -> leaves_locks m = true -> (forall i p sched flushes, m = MDie i p sched flushes -> died) -> Forall2 (packet_enc P) (map snd (owns m s)) all -> blen (storage_file (es ++ all)) < two63 ->
  exists es', retained (map fst (owns m s)) all es' /\ sinv (es ++ es') (snd (call_step who m s)) /\ Forall (fun r => r = Ok tt) (replies who q [m] s).
Proof.
  intros I LL DD FE B. pose proof I as [L V F S].
  assert (forall s', owns m s = [] -> replies who q [m] s = [] -> snd (call_step who m s) = s' -> sinv es s' -> exists es', retained (map fst (owns m s)) all es' /\ sinv (es ++ es') (snd (call_step who m s)) /\ Forall (fun r => r = Ok tt) (replies who q [m] s)) as QUIET.
  { intros s' O R E Q. exists []. rewrite O, R, E, app_nil_r in *. inversion FE. split; [constructor|]. split; [exact Q|constructor]. }
  destruct m as [a|i fails|i p|i p sched flushes].
  - destruct a as [j x|j now|j k now|j good|j|r]; cbn [leaves_locks brec_only] in LL; try discriminate LL.
    1-3: eapply QUIET; [reflexivity|reflexivity|reflexivity|]; apply sinv_keep; auto; [apply linv_act; auto|]; intros n; rewrite V; symmetry; apply live_act; exact Logic.I.
    + eapply QUIET; [reflexivity|reflexivity|reflexivity|exact I].
    + eapply QUIET; [reflexivity|reflexivity|reflexivity|]. apply sinv_keep; auto; [apply linv_act; auto| |].
      * intros n. rewrite live_drop, <- V. destruct (Nat.eq_dec n j) as [->|D]; [rewrite set_same; tauto|rewrite set_other by exact D; tauto].
      * intros n w _ Q. destruct (Nat.eq_dec n j) as [->|D]; [rewrite set_same in Q; discriminate Q|rewrite set_other in Q by exact D; exact Q].
  - cbn [call_step] in *. destruct (wo_status (sh_world s) i) as [| | |ino|] eqn:ST; try (eapply QUIET; [reflexivity|reflexivity|reflexivity|exact I]).
    assert (forall b (wr : nat -> option writer), (forall n, wr n <> None <-> n = i /\ b = true \/ n <> i /\ sh_writer s n <> None) -> forall n, wr n <> None <-> live (act who (AStore i b) (sh_world s)) n) as LV.
    { intros b wr H n. rewrite H, (live_store i b _ n ino ST), V. reflexivity. }
    assert (sh_writer s i = None) as NW. { destruct (sh_writer s i) eqn:Q; [|reflexivity]. assert (live (sh_world s) i) as (n & Z) by (apply V; congruence). congruence. }
    assert (forall n, sh_writer s n <> None <-> n = i /\ false = true \/ n <> i /\ sh_writer s n <> None) as NS.
    { intros n. split; [|intros [(_ & Q)|(_ & Q)]; [discriminate Q|exact Q]]. intros Q. right. split; [intros ->; contradiction|exact Q]. }
    destruct (match fails with Some k => Err (EIo k) | None => _ end) as [w|e|x] eqn:O.
    + eapply QUIET; [reflexivity|reflexivity|reflexivity|]. destruct fails as [k|]; [discriminate O|].
      assert (forall n, set (sh_writer s) i (Some w) n <> None <-> n = i /\ true = true \/ n <> i /\ sh_writer s n <> None) as NV.
      { intros n. destruct (Nat.eq_dec n i) as [->|D]; [rewrite set_same|rewrite set_other by exact D]; intuition congruence. }
      split; [apply linv_act; auto|apply LV; exact NV|exact F|]. destruct S as [(fs & l & J & A1 & A2 & A3 & Z & A4 & A5)|(Z & A1 & A2 & A3)].
      * left. exists fs, l, J. do 5 (split; [assumption|]). cbn [snd sh_writer]. intros n x ON Q. destruct (Nat.eq_dec n i) as [->|D]; [|rewrite set_other in Q by exact D; eauto].
        rewrite set_same in Q. injection Q as <-. rewrite ON, A4 in O. destruct (open_tail fs l J A2) as (w1 & c & E1 & M & _).
        -- now rewrite <- A1.
        -- rewrite <- storage_shaped, <- A1 by exact A2. pose proof (storage_mono es all). lia.
        -- exact (tail_short _ _ A3).
        -- rewrite E1 in O. injection O as ->. exact M.
      * right. split; [exact Z|]. split; [exact A1|]. split; [|exact A3]. cbn [snd sh_writer]. intros n ON. destruct (Nat.eq_dec n i) as [->|D]; [|rewrite set_other by exact D; auto].
        rewrite ON in O. unfold w_open, healthy in O. cbn [fl_cur] in O. destruct A1 as [(c & A1)|(c & A1)]; rewrite A1 in O; discriminate O.
    + eapply QUIET; [reflexivity|reflexivity|reflexivity|]. apply sinv_keep; auto. apply linv_act; auto.
    + eapply QUIET; [reflexivity|reflexivity|reflexivity|]. apply sinv_keep; auto. apply linv_act; auto.
  - unfold owns in *. cbn [attempts replies call_step] in *. destruct (sh_writer s i) as [w|] eqn:W.
    2:{ eapply QUIET; [now destruct (path_eqb _ _)|now destruct (path_eqb _ _)|reflexivity|exact I]. }
    destruct (w_insert p _) as (o & w') eqn:EI. cbn [snd fst] in *.
    assert (forall n, set (sh_writer s) i (Some w') n <> None <-> live (sh_world s) n) as NV.
    { intros n. rewrite <- V. destruct (Nat.eq_dec n i) as [->|D]; [rewrite set_same, W; split; discriminate|now rewrite set_other by exact D]. }
    destruct (path_eqb (op_path (who i)) q) eqn:PQ.
    2:{ eapply QUIET; [reflexivity|reflexivity|reflexivity|]. assert (op_path (who i) <> q) as D by (intros Q; rewrite Q, eqb_same in PQ; discriminate PQ). apply sinv_other; auto.
        intros n x ON Q. rewrite set_other in Q; [exact Q|]. intros ->. contradiction. }
    apply path_eqb_spec in PQ. rewrite !app_nil_r in *. cbn [map fst snd] in *. inversion FE as [|? e ? ? HE FE2]; subst. inversion FE2; subst. clear FE FE2 QUIET.
    destruct S as [(fs & l & J & A1 & A2 & A3 & Z & A4 & A5)|(_ & _ & A2 & _)]; [|rewrite A2 in W by exact PQ; discriminate W].
    pose proof (tail_short _ _ A3) as SJ. pose proof (packet_enc_big _ _ _ HE) as BG.
    destruct (ok_insert_tail fs l (on_disk (sh_disk s (op_path (who i))) [] [] w) p e (mk_cursor (sh_disk s (op_path (who i))) (c_pos (fl_cur (w_file w)))) J (A5 i w PQ W) eq_refl) as (w1 & E1 & OK1).
    { cbn [c_data]. now rewrite PQ. } { left. lia. } { exact (pkt_write_all_ok P p e [] HE). } { exact (packet_enc_nonempty _ _ _ HE). }
    rewrite E1 in EI. injection EI as <- <-. exists [e]. split; [repeat constructor|]. split; [|repeat constructor].
    split; [exact L|exact NV|apply Forall_app; split; [exact F|]; repeat constructor; exact (packet_enc_nonempty _ _ _ HE)|]. left.
    exists (fst (push fs l e)), (snd (push fs l e)), []. rewrite concat_push, app_nil_r, <- A1. split; [reflexivity|]. split; [now apply shaped_push|]. split; [apply tail_none|]. split; [now left|]. split.
    + cbn [sh_disk]. rewrite PQ, disk_same. destruct OK1 as [_ (c & -> & D)]. exact D.
    + cbn [snd sh_writer]. intros n x ON Q. destruct (Nat.eq_dec n i) as [->|D]; [rewrite set_same in Q; injection Q as <-; apply OK1|].
      rewrite set_other in Q by exact D. elim D. apply (alone es s n i x w I); congruence.
  - unfold owns in *. cbn [attempts replies call_step] in *. destruct (sh_writer s i) as [w|] eqn:W.
    2:{ eapply QUIET; [now destruct (path_eqb _ _)|reflexivity|reflexivity|exact I]. }
    destruct (w_insert p _) as (o & w') eqn:EI. cbn [snd fst] in *.
    assert (forall n, set (sh_writer s) i None n <> None <-> live (act who (ADrop i) (sh_world s)) n) as NV.
    { intros n. rewrite live_drop, <- V. destruct (Nat.eq_dec n i) as [->|D]; [rewrite set_same; tauto|rewrite set_other by exact D; tauto]. }
    assert (linv who (act who (ADrop i) (sh_world s))) as L' by (apply linv_act; auto).
    destruct (path_eqb (op_path (who i)) q) eqn:PQ.
    2:{ eapply QUIET; [reflexivity|reflexivity|reflexivity|]. assert (op_path (who i) <> q) as D by (intros Q; rewrite Q, eqb_same in PQ; discriminate PQ). apply sinv_other; auto.
        intros n x ON Q. rewrite set_other in Q; [exact Q|]. intros ->. contradiction. }
    apply path_eqb_spec in PQ. rewrite !app_nil_r in *. cbn [map fst snd] in *. inversion FE as [|? e ? ? HE FE2]; subst. inversion FE2; subst. clear FE FE2 QUIET.
    destruct S as [(fs & l & J & A1 & A2 & A3 & Z & A4 & A5)|(_ & _ & A2 & _)]; [|rewrite A2 in W by exact PQ; discriminate W].
    assert (forall n x, op_path (who n) = q -> set (sh_writer s) i None n = Some x -> False) as NONE.
    { intros n x ON Q. destruct (Nat.eq_dec n i) as [->|D]; [rewrite set_same in Q; discriminate Q|]. rewrite set_other in Q by exact D. elim D. apply (alone es s n i x w I); congruence. }
    destruct (die_cases P fs l (on_disk (sh_disk s (op_path (who i))) sched flushes w) p e J o w') as [(J' & T' & D)|[D|D]]; auto.
    + exact (A5 i w PQ W).
    + unfold on_disk, fl_data. cbn [w_file fl_cur c_data]. now rewrite PQ.
    + now rewrite <- A1.
    + now rewrite <- A1.
    + exists []. split; [repeat constructor|]. split; [|constructor]. rewrite app_nil_r. split; auto. left. exists fs, l, J'. do 3 (split; [assumption|]). split; [right; now eapply DD|]. split.
      * cbn [sh_disk]. rewrite PQ, disk_same. exact D.
      * cbn [sh_writer]. intros n x ON Q. destruct (NONE n x ON Q).
    + exists [e]. split; [repeat constructor|]. split; [|constructor]. split; auto; [apply Forall_app; split; [exact F|]; repeat constructor; exact (packet_enc_nonempty _ _ _ HE)|]. left.
      exists (fst (push fs l e)), (snd (push fs l e)), []. rewrite concat_push, app_nil_r, <- A1. split; [reflexivity|]. split; [now apply shaped_push|]. split; [apply tail_none|]. split; [now left|]. split.
      * cbn [sh_disk]. rewrite PQ, disk_same. change (fl_data (w_file w')) with (w_data w'). rewrite D, <- concat_push. apply storage_shaped. now apply shaped_push.
      * cbn [sh_writer]. intros n x ON Q. destruct (NONE n x ON Q).
    + exists []. split; [repeat constructor|]. split; [|constructor]. rewrite app_nil_r. split; auto. right. unfold ruined. cbn [sh_disk sh_writer]. split; [now eapply DD|]. split; [|split].
      * rewrite PQ, disk_same. exact D.
      * intros n ON. destruct (set (sh_writer s) i None n) as [x|] eqn:Q; [destruct (NONE n x ON Q)|reflexivity].
      * rewrite PQ, disk_same. intros n x N. change (fl_data (w_file w')) with (w_data w').
        destruct (insert_holds P fs l (on_disk (sh_disk s (op_path (who i))) sched flushes w) p e o w' (A5 i w PQ W) HE EI) as (_ & K & _). rewrite A1 in *. apply K; [exact N|].
        unfold w_data, on_disk, fl_data. cbn [w_file fl_cur c_data]. rewrite PQ, A4. destruct (ok_holds fs l n x A2 N) as (a & b & Q & LA). exists a, (b ++ J). split; [|exact LA].
        rewrite <- storage_shaped by exact A2. rewrite Q, <- !app_assoc. reflexivity.
Qed.

Lemma retained_app a b c d e f : retained a b c -> retained d e f -> retained (a ++ d) (b ++ e) (c ++ f).
Proof. intros H R. induction H; cbn [app]; [exact R|constructor; auto|constructor; auto]. Qed.
Lemma retained_size a b c es rest : retained a b c -> blen (storage_file (es ++ c ++ rest)) <= blen (storage_file (es ++ b ++ rest)).
Proof.
  intros H. revert es. induction H as [|x e a b c H IH|e a b c H IH]; intros es; cbn [app]; [lia| |].
  - specialize (IH (es ++ [e])). rewrite <- !app_assoc in IH. exact IH.
  - etransitivity; [apply IH|]. apply size_skip.
Qed.

Lemma sinv_steps ms : forall s es all, sinv es s -> forallb leaves_locks ms = true -> (forall i p sched flushes, In (MDie i p sched flushes) ms -> died) ->
  Forall2 (packet_enc P) (map snd (attempts who q ms s)) all ->
  blen (storage_file (es ++ all)) < two63 ->
  exists es', retained (map fst (attempts who q ms s)) all es' /\ sinv (es ++ es') (call_steps who ms s) /\ Forall (fun r => r = Ok tt) (replies who q ms s).
Proof.
  induction ms as [|m ms IH]; intros s es all I LL DD FE B.
  - cbn [attempts map] in *. inversion FE; subst. exists []. rewrite app_nil_r. split; [constructor|]. split; [exact I|constructor].
  - cbn [forallb] in LL. apply andb_true_iff in LL as (L1 & L2). rewrite attempts_cons, replies_cons in *. rewrite map_app in FE. apply Forall2_app_inv_l in FE as (a1 & a2 & F1 & F2 & ->).
    destruct (sinv_step m s es a1 I L1 (fun i p x y E => DD i p x y (or_introl E)) F1) as (e1 & R1 & I1 & O1); [rewrite app_assoc in B; pose proof (storage_mono (es ++ a1) a2); lia|].
    destruct (IH _ (es ++ e1) a2 I1 L2 (fun i p x y E => DD i p x y (or_intror E)) F2) as (e2 & R2 & I2 & O2); [pose proof (retained_size _ _ _ es a2 R1); rewrite <- app_assoc; lia|].
    exists (e1 ++ e2). rewrite map_app, app_assoc. split; [now apply retained_app|]. split; [exact I2|]. apply Forall_app. auto.
Qed.
End Steps.
