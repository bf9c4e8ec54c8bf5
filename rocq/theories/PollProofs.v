(** * Readers that follow a storage while it is written. *)
From Coq Require Import ZifyBool ZifyNat ZifyN Sorted.
From Verif Require Import Base Crc32 Io File Block Payload Packet Rules Slot Storage StreamReader Spec SpecStorage SpecPoll BaseProofs CrcProofs BlockProofs PayloadProofs PacketProofs PacketSafeProofs RulesProofs WireProofs StreamProofs StreamItemProofs SlotProofs StorageProofs StorageReadProofs ReloadProofs ReadingProofs CrashProofs.
Ltac Zify.zify_post_hook ::= Z.div_mod_to_equations.
Open Scope list_scope.
Local Notation C := default_capacity.

(** ** The file during an insert *)
Lemma put_at A T bs off : length A = off -> put off bs (A ++ T) = A ++ bs ++ skipn (length bs) T.
Proof.
  intros <-. unfold put. rewrite firstn_app_exact by reflexivity. do 2 f_equal. rewrite skipn_app, skipn_all2 by lia. cbn [app]. f_equal. lia.
Qed.
Lemma put_nil off d : put off [] d = d.
Proof. unfold put. cbn [length app]. rewrite Nat.add_0_r. apply firstn_skipn. Qed.
Lemma put_overwrite p bs d : (N.to_nat p <= length d)%nat -> overwrite p bs d = put (N.to_nat p) bs d.
Proof.
  intros L. destruct bs as [|b bs]; [now rewrite put_nil|]. unfold overwrite, put. replace (N.to_nat p - length d)%nat with O by lia. reflexivity.
Qed.

Lemma tsz_nat : N.to_nat tsz = 4020%nat.
Proof. reflexivity. Qed.

Lemma shape_full fs l : shaped fs l -> (500 * (length (concat fs ++ l : list bytes) / 500) = length (concat fs))%nat.
Proof.
  intros (F & L). rewrite <- cap_eq, app_length, length_concat_full by exact F. rewrite Nat.div_add_l, Nat.div_small by lia. lia.
Qed.
Lemma shape_mod fs (l : list bytes) : shaped fs l -> (length (concat fs ++ l) mod 500 = length l)%nat.
Proof.
  intros (F & L). rewrite <- cap_eq, app_length, length_concat_full by exact F. pose proof cap_pos. rewrite Nat.add_comm, Nat.mod_add by lia. now apply Nat.mod_small.
Qed.
Lemma shape_start fs l : shaped fs l -> (packet_place (concat fs ++ l) (length (concat fs)) - 4020 = N.to_nat (gszs (map (map blen) fs)))%nat.
Proof.
  intros (F & L). pose proof (place_last fs [] l ltac:(split; [exact F|apply cap_pos])) as Q. rewrite app_nil_r in Q. rewrite Q. cbn [map sum fold_right].
  rewrite <- tsz_nat. lia.
Qed.

Lemma during_eq fs l e m : shaped fs l -> nonempty_all (concat fs ++ l) -> during (concat fs ++ l) e m =
  files fs ++ firstn m (slot_table (map blen l ++ [blen e])) ++ skipn m (match l with [] => [] | _ => slot_table (map blen l) end) ++ concat l ++ firstn (m - 4020) e.
Proof.
  intros SH NE. pose proof SH as (F & L). unfold during. rewrite shape_full, shape_start by exact SH.
  pose proof (place_last fs l [] SH) as PL. rewrite app_nil_r in PL. rewrite PL. clear PL.
  rewrite skipn_app_exact by reflexivity. rewrite map_app. cbn [map].
  set (T' := slot_table (map blen l ++ [blen e])). assert (length T' = 4020%nat) as LT.
  { rewrite <- tsz_nat. apply table_len. rewrite app_length, map_length. cbn [length]. lia. }
  assert (Forall small fs) as SM. { pose proof (shaped_small _ _ SH) as Q. unfold gro in Q. now apply Forall_app in Q. }
  assert (length (files fs) = N.to_nat (gszs (map (map blen) fs))) as LA by (rewrite <- files_blen, to_nat_blen by exact SM; reflexivity).
  rewrite storage_shaped by exact SH. unfold gro. rewrite files_app, put_at by exact LA. rewrite firstn_length, LT.
  assert (skipn (Nat.min m 4020) (files match l with [] => [] | _ => [l] end) = skipn m (match l with [] => [] | _ => slot_table (map blen l) end) ++ concat l) as ->.
  { destruct l as [|y l']; [rewrite !skipn_nil; reflexivity|]. set (l := y :: l') in *. change (match l with [] => [] | _ => [l] end) with [l]. change (match l with [] => [] | _ => slot_table (map blen l) end) with (slot_table (map blen l)).
    rewrite files_one. unfold gfile. assert (length (slot_table (map blen l)) = 4020%nat) as LO by (rewrite <- tsz_nat; apply table_len; rewrite map_length; lia).
    rewrite skipn_app. replace (Nat.min m 4020 - length (slot_table (map blen l)))%nat with O by lia. rewrite skipn_O. f_equal.
    destruct (Nat.le_ge_cases m 4020) as [H|H]; [now rewrite Nat.min_l by exact H|]. rewrite !skipn_all2 by lia. reflexivity. }
  destruct (Nat.le_gt_cases m 4020) as [H|H].
  - replace (m - 4020)%nat with O by lia. rewrite firstn_O, put_nil, app_nil_r. reflexivity.
  - assert (skipn m (match l with [] => [] | _ => slot_table (map blen l) end) = []) as ->.
    { destruct l as [|y l']; [apply skipn_nil|]. set (l := y :: l') in *. apply skipn_all2. rewrite table_len, tsz_nat by (rewrite map_length; lia). lia. }
    rewrite (firstn_all2 T') by lia. cbn [app]. rewrite <- (app_nil_r (concat l)) at 1. rewrite !app_assoc, put_at.
    + rewrite skipn_nil, app_nil_r, <- !app_assoc. reflexivity.
    + rewrite !app_length, LA, LT. rewrite !N2Nat.inj_add, <- concat_blen, to_nat_blen, tsz_nat. lia.
Qed.

Lemma during_none es e : during es e 0 = storage_file es.
Proof. unfold during. cbn [firstn Nat.sub]. now rewrite !put_nil. Qed.
Lemma during_all es e m : nonempty_all es -> (4020 + length e <= m)%nat -> during es e m = storage_file (es ++ [e]).
Proof.
  intros NE H. destruct (decompose es) as (fs & l & SH & ->). pose proof SH as (F & L). rewrite during_eq by assumption.
  rewrite <- concat_push, storage_shaped by now apply shaped_push. rewrite gro_push, files_app, files_one. unfold gfile. rewrite map_app, concat_app. cbn [map concat].
  assert (length (slot_table (map blen l ++ [blen e])) = 4020%nat) as LT by (rewrite <- tsz_nat; apply table_len; rewrite app_length, map_length; cbn [length]; lia).
  rewrite app_nil_r. rewrite !firstn_all2 by lia. do 2 f_equal.
  destruct l as [|y l']; [now rewrite skipn_nil|]. set (l := y :: l') in *. rewrite skipn_all2; [reflexivity|]. rewrite table_len, tsz_nat by (rewrite map_length; lia). lia.
Qed.

(** The two writes of an insert. *)
Lemma during_overwrite fs l e k1 k2 : shaped fs l -> (k1 <= 4020)%nat -> (k2 <> O -> k1 = 4020%nat) ->
  overwrite (gszs (map (map blen) fs) + (sum (map blen l) + tsz)) (firstn k2 e)
    (overwrite (gszs (map (map blen) fs)) (firstn k1 (slot_table (map blen l ++ [blen e]))) (files (gro fs l))) = during (concat fs ++ l) e (k1 + k2).
Proof.
  intros SH L1 K. pose proof SH as (F & L).
  assert (length (map blen l ++ [blen e]) <= C)%nat as LS by (rewrite app_length, map_length; cbn [length]; lia).
  pose proof (table_len _ LS) as LT. rewrite tsz_nat in LT.
  unfold during. rewrite shape_full, shape_start by exact SH.
  pose proof (place_last fs l [] SH) as PL. rewrite app_nil_r in PL. rewrite PL. clear PL.
  rewrite skipn_app_exact by reflexivity. rewrite map_app. cbn [map]. rewrite storage_shaped by exact SH.
  assert (firstn (k1 + k2 - 4020) e = firstn k2 e) as ->.
  { destruct (Nat.eq_dec k2 0) as [->|Q]; [replace (k1 + 0 - 4020)%nat with O by lia; reflexivity|]. rewrite (K Q). f_equal. lia. }
  assert (firstn (k1 + k2) (slot_table (map blen l ++ [blen e])) = firstn k1 (slot_table (map blen l ++ [blen e]))) as ->.
  { destruct (Nat.eq_dec k2 0) as [->|Q]; [now rewrite Nat.add_0_r|]. rewrite (K Q), !firstn_all2 by lia. reflexivity. }
  assert (Forall small fs) as SM. { pose proof (shaped_small _ _ SH) as Q. unfold gro in Q. now apply Forall_app in Q. }
  assert (length (files fs) = N.to_nat (gszs (map (map blen) fs))) as LA by (rewrite <- files_blen, to_nat_blen by exact SM; reflexivity).
  assert (length (files fs) <= length (files (gro fs l)))%nat as LE by (unfold gro; rewrite files_app, app_length; lia).
  rewrite (put_overwrite (gszs _)) by lia. destruct (Nat.eq_dec k2 0) as [->|Q]; [rewrite firstn_O, put_nil; reflexivity|]. rewrite (K Q).
  apply put_overwrite. rewrite firstn_all2 by lia. unfold gro. rewrite files_app, put_at, !app_length, LT by exact LA.
  assert (skipn 4020 (files match l with [] => [] | _ => [l] end) = concat l) as ->.
  { destruct l as [|y l']; [apply skipn_nil|]. rewrite files_one. unfold gfile. apply skipn_app_exact. rewrite table_len, tsz_nat by (rewrite map_length; lia). reflexivity. }
  rewrite !N2Nat.inj_add, <- concat_blen, to_nat_blen, tsz_nat, LA. lia.
Qed.

(** All that a writer leaves is of this kind. *)
Lemma insert_during {U} (P : proto U) fs l w (p : packet U) e sched flushes o w' : w_ok fs l w -> packet_enc P p e ->
  w_insert p (w_faults sched flushes w) = (o, w') ->
  exists m, (m <= 4020 + length e)%nat /\ w_data w' = during (concat fs ++ l) e m /\ (o = Ok tt -> m = (4020 + length e)%nat).
Proof.
  intros OK HE E. pose proof (ok_shaped _ _ _ OK) as SH. pose proof SH as (F & L). destruct OK as [M (c0 & FI & D0)].
  rewrite (insert_ok (map (map blen) fs) (map blen l) (w_faults sched flushes w) p e M (pkt_write_all_ok P p e [] HE)) in E.
  assert (length (map blen l ++ [blen e]) <= C)%nat as LS by (rewrite app_length, map_length; cbn [length]; lia).
  destruct (w_store _ _ _ _ _) as (o1 & f1) eqn:ST. injection E as <- <-.
  destruct (store_crash _ _ _ _ _ _ _ _ (lsl_bytes _ LS) ST) as (k1 & k2 & L1 & L2 & K & D & OO).
  match goal with |- context [w_data (mk_writer ?a f1 ?b)] => change (w_data (mk_writer a f1 b)) with (fl_data f1) end. clear ST.
  assert (fl_data (w_file (w_faults sched flushes w)) = files (gro fs l)) as D1 by (unfold w_faults, fl_data; cbn [w_file fl_cur]; rewrite FI; exact D0).
  rewrite D1 in D. clear D0 D1. set (d := fl_data f1) in *. clearbody d. pose proof (table_len _ LS) as LT. rewrite tsz_nat in LT. rewrite LT in *.
  exists (k1 + k2)%nat. split; [lia|]. split; [|intros Q; destruct OO as [(_ & -> & ->)|(x & X)]; [reflexivity|congruence]].
  rewrite D. now apply during_overwrite.
Qed.

(** A system that takes one byte at a time and then fails. *)
Definition bytewise (a : nat) : list answer := repeat (Accept 1) a ++ [WFail OtherIo].
Lemma go_bytewise bs : forall a c, exists c' s, file_write_all_go (bytewise a) bs c = (if (a <? length bs)%nat then Err (EIo OtherIo) else Ok tt, (c', s)) /\
  c_data c' = overwrite (c_pos c) (firstn a bs) (c_data c) /\ ((length bs <= a)%nat -> s = bytewise (a - length bs)).
Proof.
  induction bs as [|b bs IH]; intros a c.
  - exists c, (bytewise a). rewrite firstn_nil. cbn [file_write_all_go length]. rewrite Nat.sub_0_r. replace (a <? 0)%nat with false by lia. split; [destruct a; reflexivity|]. split; reflexivity.
  - unfold bytewise at 1. destruct a as [|a]; cbn [repeat app file_write_all_go].
    + exists c, []. cbn [length firstn]. split; [reflexivity|]. split; [reflexivity|lia].
    + fold (bytewise a). replace (N.to_nat (N.min 1 (blen (b :: bs)))) with 1%nat by (rewrite blen_cons; lia). cbn [skipn firstn].
      destruct (IH a (c_write [b] c)) as (c' & s & E & D & S). exists c', s. split; [|split].
      * rewrite E. cbn [length]. reflexivity.
      * rewrite D. cbn [c_write c_pos c_data]. rewrite overwrite_app. reflexivity.
      * intros H. cbn [length] in H |- *. apply S. lia.
Qed.

(** All of them can be seen. *)
Lemma during_insert {U} (P : proto U) fs l w (p : packet U) e m : w_ok fs l w -> packet_enc P p e -> (m <= 4020 + length e)%nat ->
  exists o w', w_insert p (w_faults (bytewise m) [] w) = (o, w') /\ w_data w' = during (concat fs ++ l) e m.
Proof.
  intros OK HE LM. pose proof (ok_shaped _ _ _ OK) as SH. pose proof SH as (F & L). destruct OK as [M (c0 & FI & D0)].
  rewrite (insert_ok (map (map blen) fs) (map blen l) (w_faults _ [] w) p e M (pkt_write_all_ok P p e [] HE)).
  assert (length (map blen l ++ [blen e]) <= C)%nat as LS by (rewrite app_length, map_length; cbn [length]; lia).
  unfold w_faults. cbn [w_file]. rewrite FI. cbn [fl_cur]. unfold w_store. cbn [file_flush fl_flushes sbind]. rewrite (lsl_bytes _ LS).
  pose proof (table_len _ LS) as LT. rewrite tsz_nat in LT. set (T' := slot_table (map blen l ++ [blen e])) in *.
  cbn [sbind]. unfold file_seek, file_write_all. cbn [fl_sched fl_cur fl_flushes].
  destruct (go_bytewise T' m (c_seek (gszs (map (map blen) fs)) c0)) as (c1 & s1 & E1 & D1 & S1). rewrite E1. cbn [c_seek c_pos c_data] in D1. rewrite D0 in D1. cbn [app].
  destruct (Nat.lt_ge_cases m 4020) as [H|H].
  - replace (m <? length T')%nat with true by lia. cbn [sbind]. eexists _, _. split; [reflexivity|]. unfold w_data, fl_data. cbn [w_file fl_cur]. rewrite D1.
    pose proof (during_overwrite fs l e m 0 SH ltac:(lia) ltac:(lia)) as Q. rewrite firstn_O, Nat.add_0_r in Q. exact Q.
  - replace (m <? length T')%nat with false by lia. cbn [sbind fl_cur fl_sched fl_flushes file_flush]. specialize (S1 ltac:(lia)). subst s1. rewrite LT.
    match goal with |- context [file_write_all_go (bytewise ?a) e ?c] => destruct (go_bytewise e a c) as (c2 & s2 & E2 & D2 & _) end. rewrite E2. cbn [c_seek c_pos c_data] in D2. rewrite D1 in D2.
    assert (c_data c2 = during (concat fs ++ l) e m) as DD.
    { rewrite D2. pose proof (during_overwrite fs l e 4020 (m - 4020) SH ltac:(lia) ltac:(reflexivity)) as Q. replace (4020 + (m - 4020))%nat with m in Q by lia. rewrite <- Q.
      fold T'. rewrite !(firstn_all2 T') by lia. reflexivity. }
    destruct (m - 4020 <? length e)%nat; cbn [sbind fl_flushes]; eexists _, _; (split; [reflexivity|]); exact DD.
Qed.

(** ** A reader that is up to date except for its file *)
Definition tracks {U} (es : list bytes) (r : sreader U) : Prop := exists r0, reading es r0 /\ r = d_with_file (d_file r) r0.

Lemma reading_tracks {U} es (r : sreader U) : reading es r -> tracks es r.
Proof. intros H. exists r. split; [exact H|]. destruct r. reflexivity. Qed.
Lemma tracks_file {U} es (r : sreader U) c : tracks es r -> tracks es (mk_sreader (d_slots r) c (d_loc r) (d_rules r)).
Proof. intros (r0 & RD & E). exists r0. split; [exact RD|]. rewrite E. reflexivity. Qed.
Lemma tracks_refresh {U} es (r : sreader U) data : tracks es r -> exists r0, reading es r0 /\ d_refresh data r = d_refresh data r0.
Proof.
  intros (r0 & RD & E). exists (d_with_file (c_seek (c_pos (d_file r)) (d_file r0)) r0). split; [now apply reading_moved|].
  rewrite E. destruct r, r0. reflexivity.
Qed.

Lemma slots_shaped {U} es (r : sreader U) fs l : d_ok es r -> shaped fs l -> es = concat fs ++ l -> d_slots r = anch 0 (gro fs l).
Proof.
  intros [(fs2 & l2 & J & SH2 & E2 & DS & _) _ _] SH E. rewrite DS. f_equal. rewrite <- !groups_shaped by assumption. congruence.
Qed.

Lemma try_table A lens y c : c_data c = A ++ slot_table lens ++ y -> (length lens <= C)%nat -> Forall (fun n => n < two64) lens ->
  exists c', slot_try_read (c_seek (blen A) c) = (Ok (Success (lsl lens)), c') /\ c_data c' = c_data c.
Proof.
  intros D L F. destruct (c_at A (slot_table lens ++ y) _ (blen A) D eq_refl c eq_refl) as (V & O & _). rewrite slot_table_eq, <- !app_assoc in V.
  destruct (slot_try_ok _ (lsl lens) y O) as (c2 & E2 & _).
  - apply tab_ok; [exact L|rewrite cap_eq; vm_compute; reflexivity|exact F].
  - exact V.
  - exists c2. split; [exact E2|]. apply slot_try_data in E2. exact E2.
Qed.

(** [reload] does not change the file. *)
Lemma reload_go_data fuel : forall last count pos slots c o slots' c', reload_go fuel last count pos slots c = (o, (slots', c')) -> c_data c' = c_data c.
Proof.
  induction fuel as [|fuel IH]; intros last count pos slots c o slots' c'; cbn [reload_go]; [intros E; now injection E as _ _ <-|].
  destruct (slot_try_read (c_seek pos c)) as (t & c1) eqn:ET. apply slot_try_data in ET. cbn [c_seek c_data] in ET. rewrite <- ET. clear ET c. cbv zeta.
  destruct t as [[s|n]|x|x]; repeat match goal with
    | |- reload_go _ _ _ _ _ _ = _ -> _ => apply IH
    | |- context [match ?d with _ => _ end] => match type of d with bool => destruct d | option _ => destruct d | prod _ _ => destruct d end
    | |- (_, (_, ?c)) = (_, (_, _)) -> _ => let E := fresh in intros E; now injection E as _ _ <-
    end.
Qed.
Lemma reload_data {U} (r : sreader U) : c_data (d_file (snd (d_reload r))) = c_data (d_file r).
Proof.
  unfold d_reload. destruct (last_slot (d_slots r)) as (lst & pos). destruct (reload_go _ _ _ _ _ _) as (o & slots & c) eqn:E. apply reload_go_data in E.
  destruct o as [[n|u]|x|x]; exact E.
Qed.

(** ** One reload *)
Section Step.
Context {U : Type} (P : proto U).

(** The table of the last slot has one more entry and there is still room. *)
Lemma step_table fs l e data (r : sreader U) y : d_slots r = anch 0 (fs ++ [l]) -> (length l + 1 < C)%nat -> nonempty_all (l ++ [e]) ->
  Forall small fs -> data = files fs ++ slot_table (map blen l ++ [blen e]) ++ y -> blen (concat (l ++ [e])) < two63 ->
  sl_crc (lsl (map blen l)) <> sl_crc (lsl (map blen l ++ [blen e])) ->
  exists c, c_data c = data /\ d_reload (d_refresh data r) =
    (Ok 1%nat, mk_sreader (anch 0 (fs ++ [l ++ [e]])) c (lc_setup (map fst (anch 0 (fs ++ [l ++ [e]]))) (d_loc r)) (d_rules r)).
Proof.
  intros DS L NE SM DD B NC. pose proof NE as NE'. apply Forall_app in NE' as (NL & _).
  assert (pos_all (map blen (l ++ [e]))) as PA. { apply Forall_map. eapply Forall_impl; [|exact NE]. intros x Q. destruct x; [contradiction|rewrite blen_cons; lia]. }
  assert (pos_all (map blen l)) as PL. { rewrite map_app in PA. now apply Forall_app in PA. }
  rewrite concat_blen in B. assert (map blen (l ++ [e]) = map blen l ++ [blen e]) as ME by (now rewrite map_app). rewrite ME in *.
  assert (Forall (fun n => n < two64) (map blen l ++ [blen e])) as FS.
  { apply Forall_forall. intros n I. apply sum_in in I. unfold two63, two64 in *. lia. }
  assert (length (map blen l ++ [blen e]) = length l + 1)%nat as LL by (rewrite app_length, map_length; reflexivity).
  unfold d_reload. cbn [d_refresh d_slots d_file d_loc d_rules c_data]. rewrite DS, last_some, anch_length, app_length by (auto; lia). cbn [length].
  rewrite <- files_blen by exact SM. rewrite (Nat.add_1_r (length data)). cbn [reload_go].
  destruct (try_table (files fs) (map blen l ++ [blen e]) y (mk_cursor data (c_pos (d_file r))) DD ltac:(lia) FS) as (c1 & E1 & D1). rewrite E1. cbn [c_data] in D1.
  rewrite anch_length, app_length. cbn [length]. rewrite Nat.eqb_refl.
  destruct (bytes_eqb _ _) eqn:EC; [apply bytes_eqb_eq in EC; contradiction|]. rewrite Nat.add_sub. rewrite anch_app. cbn [anch].
  assert (length (anch 0 fs) = length fs) as LA by apply anch_length. rewrite <- LA. rewrite nth_mid, set_nth_end. rewrite LA.
  rewrite N.add_0_l, files_blen by exact SM. assert (anch 0 fs ++ [(lsl (map blen l ++ [blen e]), gszs (map (map blen) fs))] = anch 0 (fs ++ [l ++ [e]])) as EA.
  { rewrite anch_app. cbn [anch]. rewrite ME. reflexivity. } rewrite EA.
  assert (free_slot_index (lsl (map blen l ++ [blen e])) = Some (length l + 1)%nat) as FI.
  { unfold lsl. rewrite tab_free_index by (auto; lia). rewrite LL. now replace (length l + 1 <? C)%nat with true by lia. }
  rewrite FI, lsl_total by (split; [lia|exact PA]). unfold gsz.
  replace (two64 <=? _) with false by (unfold tsz, two63, two64 in *; lia).
  exists c1. split; [exact D1|]. f_equal. f_equal. unfold reload_count. rewrite anch_length, app_length. cbn [length]. rewrite Nat.eqb_refl. rewrite <- EA, rev_app_distr. cbn [rev app]. rewrite FI. lia.
Qed.

(** The table of the last slot is as it was. *)
Lemma step_same fs l data (r : sreader U) y : d_slots r = anch 0 (fs ++ [l]) -> (length l < C)%nat -> nonempty_all l ->
  Forall small fs -> data = files fs ++ slot_table (map blen l) ++ y -> blen (concat l) < two63 ->
  exists c, c_data c = data /\ d_reload (d_refresh data r) = (Ok O, mk_sreader (d_slots r) c (d_loc r) (d_rules r)).
Proof.
  intros DS L NE SM DD B.
  assert (pos_all (map blen l)) as PL. { apply Forall_map. eapply Forall_impl; [|exact NE]. intros x Q. destruct x; [contradiction|rewrite blen_cons; lia]. }
  rewrite concat_blen in B.
  assert (Forall (fun n => n < two64) (map blen l)) as FS.
  { apply Forall_forall. intros n I. apply sum_in in I. unfold two63, two64 in *. lia. }
  unfold d_reload. cbn [d_refresh d_slots d_file d_loc d_rules c_data]. rewrite DS, last_some, anch_length, app_length by auto. cbn [length].
  rewrite <- files_blen by exact SM. rewrite (Nat.add_1_r (length data)). cbn [reload_go].
  destruct (try_table (files fs) (map blen l) y (mk_cursor data (c_pos (d_file r))) DD ltac:(rewrite map_length; lia) FS) as (c1 & E1 & D1). rewrite E1. cbn [c_data] in D1.
  rewrite anch_length, app_length. cbn [length]. rewrite Nat.eqb_refl. destruct (bytes_eqb _ _) eqn:EC; [|apply not_true_iff_false in EC; elim EC; now apply bytes_eqb_eq].
  exists c1. split; [exact D1|reflexivity].
Qed.

(** The table of the last slot is being written. *)
Definition fresh_table (l : list bytes) (e : bytes) (m : nat) : bytes := mix m (slot_table (map blen l ++ [blen e])) (slot_table (map blen l)).

Lemma step_mixed fs l e m data (r : sreader U) y : d_slots r = anch 0 (fs ++ [l]) -> (length l < C)%nat -> nonempty_all (l ++ [e]) ->
  Forall small fs -> data = files fs ++ fresh_table l e m ++ y -> blen (concat (l ++ [e])) < two63 ->
  (exists c o, c_data c = data /\ (o = Ok O \/ o = Err (EDamagedSlot ECrcDismatch)) /\ d_reload (d_refresh data r) = (o, mk_sreader (d_slots r) c (d_loc r) (d_rules r))) \/
  (4016 < m)%nat /\ fresh_table l e m = slot_table (map blen l ++ [blen e]).
Proof.
  intros DS L NE SM DD B. pose proof NE as NE'. apply Forall_app in NE' as (NL & NEe). inversion NEe as [|? ? He _]; subst x l0.
  assert (pos_all (map blen l)) as PL. { apply Forall_map. eapply Forall_impl; [|exact NL]. intros x Q. destruct x; [contradiction|rewrite blen_cons; lia]. }
  rewrite concat_blen, map_app in B. cbn [map] in B.
  assert (Forall (fun n => n < two64) (map blen l)) as FS.
  { apply Forall_forall. intros n I. apply sum_in in I. rewrite sum_app in B. unfold two63, two64 in *. lia. }
  assert (blen e < 256 ^ N.of_nat 8) as BE by (rewrite sum_app in B; cbn [sum fold_right] in B; unfold two63 in B; change (256 ^ N.of_nat 8) with 18446744073709551616; lia).
  assert (length (map blen l) < C)%nat as LM by (rewrite map_length; exact L).
  destruct (table_new (map blen l) (blen e) LM) as (x' & ET' & LX'). destruct (table_old (map blen l) LM) as (x & ET & LX).
  assert (fresh_table l e m = table_of (map blen l) (mix (m - 8 - 8 - 8 * length l) (le 8 (blen e)) (zeros 8)) (mix (m - 8 - 8 - 8 * length l - 8 - length (zeros (8 * (C - length (map blen l) - 1)))) x' x)) as EM.
  { unfold fresh_table. rewrite ET', ET, mix_table by (rewrite le_length; reflexivity). rewrite le8_length, map_length. reflexivity. }
  set (wm := mix _ (le 8 _) _) in EM. set (xm := mix _ x' x) in EM.
  assert (length wm = 8%nat) as LWM by (unfold wm; now rewrite mix_length). assert (length xm = 4%nat) as LXM by (unfold xm; rewrite mix_length; congruence).
  rewrite EM in DD. destruct (try_partial (files fs) (map blen l) wm xm y (mk_cursor data (c_pos (d_file r))) DD LM FS LWM LXM) as (c1 & D1 & [Q|(Q & TE)]); cbn [c_data] in D1.
  - left. exists c1, (Err (EDamagedSlot ECrcDismatch)). split; [exact D1|]. split; [now right|].
    unfold d_reload. cbn [d_refresh d_slots d_file d_loc d_rules c_data]. rewrite DS, last_some, anch_length, app_length by auto. cbn [length].
    rewrite <- files_blen by exact SM. rewrite (Nat.add_1_r (length data)). cbn [reload_go]. rewrite Q. reflexivity.
  - set (ls := map blen l ++ _) in Q, TE. assert (length ls <= C)%nat as LL by (unfold ls; rewrite app_length, map_length; destruct (unle wm); cbn [length]; lia).
    destruct (Nat.le_gt_cases m 4016) as [H|H].
    + left. exists c1, (Ok O). split; [exact D1|]. split; [now left|].
      unfold d_reload. cbn [d_refresh d_slots d_file d_loc d_rules c_data]. rewrite DS, last_some, anch_length, app_length by auto. cbn [length].
      rewrite <- files_blen by exact SM. rewrite (Nat.add_1_r (length data)). cbn [reload_go]. rewrite Q.
      rewrite anch_length, app_length. cbn [length]. rewrite Nat.eqb_refl.
      assert (sl_crc (lsl ls) = sl_crc (lsl (map blen l))) as ->.
      { rewrite <- !table_crc by lia. rewrite <- TE, <- EM. unfold fresh_table, mix. rewrite skipn_app, skipn_all2 by (rewrite firstn_length; lia). cbn [app].
        rewrite skipn_plus, firstn_length. f_equal. rewrite table_len, tsz_nat by (rewrite app_length, map_length; cbn [length]; lia). lia. }
      destruct (bytes_eqb _ _) eqn:EC; [reflexivity|apply not_true_iff_false in EC; elim EC; now apply bytes_eqb_eq].
    + right. split; [exact H|]. rewrite EM, TE. f_equal. unfold ls. f_equal.
      assert (wm = le 8 (blen e)) as ->.
      { unfold wm, mix. rewrite cap_eq in L. rewrite firstn_all2, skipn_all2, app_nil_r by (rewrite ?le_length; unfold zeros; rewrite ?repeat_length; lia). reflexivity. }
      rewrite unle_le by exact BE. destruct e; [contradiction|]. rewrite blen_cons. destruct (1 + blen e) eqn:Z; [lia|reflexivity].
Qed.

(** No room: a new table has hardly been begun. *)
Lemma step_begun fs data (r : sreader U) y : d_slots r = anch 0 fs -> Forall fullg (map (map blen) fs) -> Forall small fs ->
  data = files fs ++ y -> blen y < 16 ->
  exists c, c_data c = data /\ d_reload (d_refresh data r) = (Ok O, mk_sreader (d_slots r) c (d_loc r) (d_rules r)).
Proof.
  intros DS FU SM DD Y. unfold d_reload. cbn [d_refresh d_slots d_file d_loc d_rules c_data]. rewrite DS, last_none, anch_length by exact FU.
  rewrite <- files_blen by exact SM. rewrite (Nat.add_1_r (length data)). cbn [reload_go].
  rewrite (try_tail (files fs) y (mk_cursor data (c_pos (d_file r))) DD Y). rewrite anch_length, Nat.eqb_refl. eexists. split; [|reflexivity]. reflexivity.
Qed.
End Step.

(** ** Polling *)
Section Polls.
Context {U : Type} (P : proto U).
Variables (ps : list (packet U)) (es : list bytes) (p : packet U) (e : bytes).
Hypothesis FE : Forall2 (packet_enc P) ps es.
Hypothesis HE : packet_enc P p e.
Hypothesis BE : blen e < two32.
Hypothesis B : blen (storage_file (es ++ [e])) < two63.

Lemma FE1 : Forall2 (packet_enc P) (ps ++ [p]) (es ++ [e]).
Proof. apply Forall2_app; [exact FE|]. repeat constructor. exact HE. Qed.
Lemma B0 : blen (storage_file es) < two63.
Proof. pose proof (storage_mono es [e]). lia. Qed.
Lemma NE0 : nonempty_all es.
Proof. exact (encs_nonempty _ _ _ FE). Qed.
Lemma NE1 : nonempty_all (es ++ [e]).
Proof. exact (encs_nonempty _ _ _ FE1). Qed.

(** The insert is complete. *)
Lemma poll_done (r : sreader U) : tracks es r -> exists r', d_reload (d_refresh (storage_file (es ++ [e])) r) = (Ok 1%nat, r') /\ reading (es ++ [e]) r'.
Proof.
  intros T. destruct (tracks_refresh es r (storage_file (es ++ [e])) T) as (r0 & RD & ->). destruct (reading_ok P es r0 RD ps FE B0) as (OK & _).
  pose proof (packet_enc_nonempty _ _ _ HE) as NE. destruct (reload_fresh es [e] r0 OK ltac:(repeat constructor; exact NE) B (one_follows es e NE BE)) as (r' & E & _).
  exists r'. assert (reload_number es [e] = 1%nat) as Q.
  { unfold reload_number. rewrite app_length. cbn [length]. destruct (Nat.eqb_spec (length es mod 500) 0) as [H|H]; cbn [andb]; [|reflexivity]. rewrite Nat.add_mod, H by discriminate. reflexivity. }
  rewrite Q in E. split; [exact E|]. exact (reading_reload es [e] r0 _ r' RD (one_follows es e NE BE) E).
Qed.
Lemma poll_again (r : sreader U) : tracks (es ++ [e]) r -> exists r', d_reload (d_refresh (storage_file (es ++ [e])) r) = (Ok O, r') /\ reading (es ++ [e]) r'.
Proof.
  intros T. destruct (tracks_refresh (es ++ [e]) r (storage_file (es ++ [e])) T) as (r0 & RD & ->). destruct (reading_ok P (es ++ [e]) r0 RD (ps ++ [p]) FE1 B) as (OK & _).
  destruct (reload_fresh (es ++ [e]) [] r0 OK) as (r' & E & _); [constructor|now rewrite app_nil_r|now left|]. rewrite app_nil_r in E.
  assert (reload_number (es ++ [e]) [] = O) as Q by (unfold reload_number; cbn [length]; destruct (_ && _)%bool; reflexivity). rewrite Q in E.
  exists r'. split; [exact E|]. rewrite <- (app_nil_r (es ++ [e])). apply (reading_reload (es ++ [e]) [] r0 O r' RD); [now left|]. rewrite app_nil_r. exact E.
Qed.

(** The reader may have seen the packet. *)
Definition seen (m : nat) : Prop := (4020 + length e <= m)%nat \/
  exists fs l, shaped fs l /\ es = concat fs ++ l /\ l <> [] /\ (length l + 1 < C)%nat /\ fresh_table l e m = slot_table (map blen l ++ [blen e]).
Lemma seen_later m m' : (m <= m')%nat -> seen m -> seen m'.
Proof.
  intros L [H|(fs & l & SH & EE & LN & LL & FT)]; [left; lia|right]. exists fs, l. do 4 (split; [assumption|]). revert FT. unfold fresh_table.
  set (T' := slot_table (map blen l ++ [blen e])). set (T := slot_table (map blen l)). unfold mix. intros FT. rewrite <- (firstn_skipn m T') in FT at 2. apply app_inv_head in FT.
  assert (skipn m' T = skipn m' T') as ->; [|apply firstn_skipn]. replace m' with (m + (m' - m))%nat by lia. rewrite <- !skipn_plus. now rewrite FT.
Qed.

Lemma group_small fs l : shaped fs l -> es = concat fs ++ l -> blen (concat (l ++ [e])) < two63.
Proof.
  intros SH EE. pose proof B as B'. rewrite EE, <- concat_push, storage_shaped in B' by now apply shaped_push. rewrite gro_push, files_app, files_one in B'. unfold gfile in B'. rewrite !blen_app in B'. lia.
Qed.
Lemma small_fs fs (l : list bytes) : shaped fs l -> Forall small fs.
Proof. intros SH. pose proof (shaped_small _ _ SH) as Q. unfold gro in Q. now apply Forall_app in Q. Qed.
Lemma gro_some {A} (fs : list (list A)) l : l <> [] -> gro fs l = fs ++ [l].
Proof. intros H. destruct l; [contradiction|reflexivity]. Qed.
Lemma during_mix fs l m : shaped fs l -> es = concat fs ++ l -> l <> [] -> during es e m = files fs ++ fresh_table l e m ++ concat l ++ firstn (m - 4020) e.
Proof.
  intros SH EE LN. pose proof NE0 as NE. rewrite EE in NE |- *. rewrite during_eq by assumption. unfold fresh_table, mix. destruct l; [contradiction|]. now rewrite <- !app_assoc.
Qed.
Lemma tail_ne fs l : es = concat fs ++ l -> nonempty_all (l ++ [e]).
Proof. intros EE. pose proof NE1 as NE. rewrite EE, <- app_assoc in NE. now apply Forall_app in NE. Qed.

Lemma poll_before m (r : sreader U) : tracks es r -> calm es e m -> exists o r1, d_reload (d_refresh (during es e m) r) = (o, r1) /\
  ((o = Ok O \/ o = Err (EDamagedSlot ECrcDismatch)) /\ tracks es r1 \/ o = Ok 1%nat /\ tracks (es ++ [e]) r1 /\ seen m).
Proof.
  intros T CM. destruct (Nat.le_gt_cases (4020 + length e) m) as [FULL|PART].
  { rewrite during_all by (exact FULL || exact NE0). destruct (poll_done r T) as (r' & E & RD). exists (Ok 1%nat), r'. split; [exact E|].
    right. split; [reflexivity|]. split; [now apply reading_tracks|now left]. }
  destruct CM as [(CM0 & CM1)|CM]; [|lia]. destruct (tracks_refresh es r (during es e m) T) as (r0 & RD & ER). destruct (reading_ok P es r0 RD ps FE B0) as (OK & _).
  destruct (decompose es) as (fs & l & SH & EE). pose proof (slots_shaped es r0 fs l OK SH EE) as DS. rewrite ER. clear ER.
  assert (length es mod 500 = length l)%nat as LM by (rewrite EE; now apply shape_mod). rewrite LM in *. pose proof SH as (F & L).
  destruct (shaped_full _ _ SH ltac:(rewrite <- EE; exact NE0)) as (A1 & _ & _).
  assert (l = [] \/ l <> []) as [->|LN] by (destruct l; [left; reflexivity|right; discriminate]).
  - specialize (CM0 eq_refl). unfold gro in DS. rewrite app_nil_r in DS.
    destruct (step_begun fs (during es e m) r0 (firstn m (slot_table [blen e])) DS A1 (small_fs _ _ SH)) as (c & _ & E).
    + pose proof NE0 as NE. rewrite EE in NE |- *. rewrite during_eq by assumption. rewrite skipn_nil. replace (m - 4020)%nat with O by lia. rewrite firstn_O, !app_nil_r. reflexivity.
    + unfold blen. rewrite firstn_length. lia.
    + exists (Ok O), (mk_sreader (d_slots r0) c (d_loc r0) (d_rules r0)). split; [exact E|]. left. split; [now left|]. apply tracks_file. now apply reading_tracks.
  - rewrite gro_some in DS by exact LN.
    destruct (step_mixed fs l e m (during es e m) r0 (concat l ++ firstn (m - 4020) e) DS L (tail_ne fs l EE) (small_fs _ _ SH) (during_mix fs l m SH EE LN) (group_small fs l SH EE)) as [(c & o & D & OO & E)|(M & FT)].
    + exists o, (mk_sreader (d_slots r0) c (d_loc r0) (d_rules r0)). split; [exact E|]. left. split; [exact OO|]. apply tracks_file. now apply reading_tracks.
    + assert (length l + 1 < C)%nat as LL by (rewrite cap_eq in *; lia).
      assert (sl_crc (lsl (map blen l)) <> sl_crc (lsl (map blen l ++ [blen e]))) as NC.
      { assert (length es mod 500 <> 0)%nat as MZ by (rewrite LM; destruct l; [contradiction|discriminate]). pose proof (one_noticed es e MZ (packet_enc_nonempty _ _ _ HE) BE) as Q. rewrite EE, <- app_assoc in Q. rewrite !table_sum_eq in Q by exact SH.
        rewrite map_app in Q. cbn [map] in Q. rewrite !table_crc in Q by (rewrite ?app_length, map_length; cbn [length]; lia). exact Q. }
      destruct (step_table fs l e (during es e m) r0 (concat l ++ firstn (m - 4020) e) DS LL (tail_ne fs l EE) (small_fs _ _ SH)) as (c & _ & E);
        [rewrite <- FT; now apply during_mix|now apply (group_small fs)|exact NC|].
      destruct (step_table fs l e (storage_file (es ++ [e])) r0 (concat l ++ e) DS LL (tail_ne fs l EE) (small_fs _ _ SH)) as (c2 & _ & E2);
        [|now apply (group_small fs)|exact NC|].
      { rewrite EE, <- concat_push, storage_shaped by now apply shaped_push. rewrite gro_push, files_app, files_one. unfold gfile. rewrite map_app, concat_app. cbn [map concat]. now rewrite app_nil_r. }
      destruct (poll_done r0 (reading_tracks _ _ RD)) as (r' & E' & RD'). rewrite E2 in E'. apply pair_equal_spec in E' as (_ & E').
      eexists _, _. split; [exact E|]. right. split; [reflexivity|]. split; [|right; exists fs, l; auto].
      exists r'. split; [exact RD'|]. rewrite <- E'. reflexivity.
Qed.

Lemma poll_after m (r : sreader U) : tracks (es ++ [e]) r -> seen m -> exists r1, d_reload (d_refresh (during es e m) r) = (Ok O, r1) /\ tracks (es ++ [e]) r1.
Proof.
  intros T [H|(fs & l & SH & EE & LN & LL & FT)].
  - rewrite during_all by (exact H || exact NE0). destruct (poll_again r T) as (r' & E & RD). exists r'. split; [exact E|]. now apply reading_tracks.
  - destruct (tracks_refresh (es ++ [e]) r (during es e m) T) as (r0 & RD & ->). destruct (reading_ok P (es ++ [e]) r0 RD (ps ++ [p]) FE1 B) as (OK & _).
    assert (shaped fs (l ++ [e])) as SH1 by (split; [apply SH|rewrite app_length; cbn [length]; exact LL]).
    pose proof (slots_shaped (es ++ [e]) r0 fs (l ++ [e]) OK SH1 ltac:(rewrite EE, app_assoc; reflexivity)) as DS. rewrite gro_some in DS by (destruct l; discriminate).
    destruct (step_same fs (l ++ [e]) (during es e m) r0 (concat l ++ firstn (m - 4020) e) DS ltac:(apply SH1) (tail_ne fs l EE) (small_fs _ _ SH)) as (c & _ & E);
      [rewrite map_app; cbn [map]; rewrite <- FT; now apply during_mix|now apply (group_small fs)|].
    eexists. split; [exact E|]. apply tracks_file. now apply reading_tracks.
Qed.

Lemma polls_after ms : forall (r : sreader U) os r1 m0, tracks (es ++ [e]) r -> seen m0 -> StronglySorted Peano.le (m0 :: ms) -> polls (map (during es e) ms) r = (os, r1) ->
  Forall (fun o => o = Ok O) os /\ told_all os = O /\ tracks (es ++ [e]) r1.
Proof.
  induction ms as [|m ms IH]; intros r os r1 m0 T SN ST; cbn [map polls]; [intros E; injection E as <- <-; auto|].
  inversion ST as [|? ? ST1 F1]; subst. inversion F1 as [|? ? LE _]; subst. pose proof (seen_later _ _ LE SN) as SN1.
  destruct (poll_after m r T SN1) as (r2 & E & T2). rewrite E. destruct (polls _ r2) as (os2 & r3) eqn:EP. intros Q. injection Q as <- <-.
  destruct (IH r2 os2 r3 m T2 SN1 ST1 EP) as (A & A2 & A3). split; [constructor; auto|]. split; [exact A2|exact A3].
Qed.

Lemma polls_before ms : forall (r : sreader U) os r1, tracks es r -> StronglySorted Peano.le ms -> Forall (calm es e) ms -> polls (map (during es e) ms) r = (os, r1) ->
  Forall (fun o => o = Ok O \/ o = Ok 1%nat \/ o = Err (EDamagedSlot ECrcDismatch)) os /\
  (told_all os = O /\ tracks es r1 \/ told_all os = 1%nat /\ tracks (es ++ [e]) r1).
Proof.
  induction ms as [|m ms IH]; intros r os r1 T ST CM; cbn [map polls]; [intros E; injection E as <- <-; auto|].
  inversion ST as [|? ? ST1 F1]; subst. inversion CM as [|? ? C1 CM1]; subst.
  destruct (poll_before m r T C1) as (o & r2 & E & [(OO & T2)|(-> & T2 & SN)]); rewrite E; destruct (polls _ r2) as (os2 & r3) eqn:EP; intros Q; injection Q as <- <-.
  - destruct (IH r2 os2 r3 T2 ST1 CM1 EP) as (A & A2). split; [constructor; [tauto|exact A]|]. assert (told o = O) as TO by (destruct OO; subst o; reflexivity).
    unfold told_all in *. cbn [map fold_right]. rewrite TO. exact A2.
  - destruct (polls_after ms r2 os2 r3 m T2 SN ST EP) as (A & A2 & A3). split; [constructor; [tauto|]|].
    + eapply Forall_impl; [|exact A]. intros x ->. now left.
    + right. split; [|exact A3]. unfold told_all in *. cbn [map fold_right told]. now rewrite A2.
Qed.
End Polls.

(** ** Packets stay readable *)
Lemma put_holds off bs d o x : holds d o x -> (o + length x <= off \/ off + length bs <= o)%nat -> holds (put off bs d) o x.
Proof.
  intros (A & B & -> & LA) [H|H]; unfold put.
  - exists A, (firstn (off - o - length x) B ++ bs ++ skipn (off + length bs) (A ++ x ++ B)). split; [|exact LA].
    rewrite firstn_app, (firstn_all2 A) by lia. rewrite firstn_app, (firstn_all2 x) by lia. rewrite <- !app_assoc. do 3 f_equal. f_equal. lia.
  - exists (firstn off A ++ bs ++ skipn (off + length bs) A), B. split; [|rewrite !app_length, firstn_length, skipn_length; lia].
    rewrite firstn_app. replace (off - length A)%nat with O by lia. rewrite firstn_O, app_nil_r. rewrite skipn_app. replace (off + length bs - length A)%nat with O by lia. rewrite skipn_O. now rewrite <- !app_assoc.
Qed.
Lemma during_holds es e m i x : nth_error es i = Some x -> holds (during es e m) (packet_place es i) x.
Proof.
  intros N. destruct (decompose es) as (fs & l & SH & EE). pose proof SH as (F & L). rewrite EE in N. destruct (place_apart fs l i x SH N) as (AP1 & AP2). rewrite <- EE in *.
  unfold during. pose proof (ok_holds fs l i x SH) as H. rewrite <- EE in H. specialize (H N). pose proof (shape_full fs l SH) as SF. pose proof (shape_start fs l SH) as SS. pose proof (place_last fs l [] SH) as PL. rewrite app_nil_r in PL. rewrite <- EE in *.
  rewrite SF, SS, PL. apply put_holds; [apply put_holds; [exact H|]|].
  - destruct AP1 as [AP|AP]; [now left|right]. rewrite firstn_length. rewrite <- tsz_nat in *.
    assert (length (slot_table (map blen (skipn (length (concat fs)) es ++ [e]))) = N.to_nat tsz) as ->; [|lia].
    apply table_len. rewrite EE, skipn_app_exact by reflexivity. rewrite map_length, app_length. cbn [length]. lia.
  - left. lia.
Qed.

Lemma place_at {U} es (r : sreader U) i x : d_ok es r -> nth_error es i = Some x -> d_place i r = Ok (Some (N.of_nat (packet_place es i))).
Proof.
  intros [(fs & l & J & SH & EE & DS & DD & _) NE SB] N. pose proof (shaped_filled _ _ SH ltac:(rewrite <- EE; exact NE)) as FF. pose proof (shaped_small _ _ SH) as SM. pose proof SH as (F & L). pose proof cap_pos as CP.
  pose proof (ok_holds fs l i x SH) as H. rewrite <- EE in H. specialize (H N). pose proof N as N'. rewrite EE, nth_groups in N' by exact SH.
  unfold d_place. rewrite DS, nth_anch. destruct (nth_error (gro fs l) (i / C)) as [g|] eqn:EG; [|discriminate].
  assert (filled g) as FG by (rewrite Forall_forall in FF; apply FF; eapply nth_error_In; eauto).
  destruct (filled_good _ FG) as (G1 & G2). assert (i mod C < C)%nat as MC by (apply Nat.mod_upper_bound; lia).
  assert (slot_is_empty (i mod C) (lsl (map blen g)) = Ok (negb (i mod C <? length g)%nat)) as EM.
  { unfold lsl. rewrite tab_is_empty by assumption. now rewrite map_length. }
  rewrite EM; cbn [rbind]. assert (i mod C < length g)%nat as LJ by (apply nth_error_Some; congruence).
  replace (i mod C <? length g)%nat with true by lia. cbn [negb]. unfold lsl. rewrite tab_offset by (rewrite ?map_length in *; assumption).
  rewrite firstn_anch, sum_anch, tsz_eq by (apply Forall_forall; intros y I; rewrite Forall_forall in FF; apply FF; rewrite <- (firstn_skipn (i / C) (gro fs l)); apply in_app_iff; auto).
  assert (length (firstn (i / C) (gro fs l)) = i / C)%nat as LF by (rewrite firstn_length; assert (i / C < length (gro fs l))%nat by (apply nth_error_Some; congruence); lia).
  assert (gro fs l = firstn (i / C) (gro fs l) ++ g :: skipn (S (i / C)) (gro fs l)) as EGG.
  { apply nth_error_split in EG as (a & b & EG & LA). rewrite EG, <- LA. rewrite firstn_app_exact by reflexivity. change (g :: b) with ([g] ++ b). rewrite app_assoc, skipn_app_exact by (rewrite app_length; cbn [length]; lia). now rewrite <- app_assoc. }
  destruct (group_bounds fs l _ _ _ SH EGG ltac:(lia)) as (L1 & LG & _).
  assert (Forall (fun h => length h = C) (firstn (i / C) (gro fs l))) as F1.
  { apply Forall_forall. intros h IH. assert (In h (removelast (gro fs l))) as IR by (rewrite EGG, removelast_app by discriminate; apply in_app_iff; now left).
    unfold gro in IR. rewrite Forall_forall in F. apply F. destruct l; [rewrite app_nil_r in IR|now rewrite removelast_last in IR].
    destruct fs as [|z fs _] using rev_ind; [contradiction IR|]. rewrite removelast_last in IR. apply in_app_iff. now left. }
  pose proof (group_start _ [] F1) as G. set (gs1 := firstn (i / C) (gro fs l)) in *.
  assert (N.of_nat (packet_place es i) = gszs (map (map blen) gs1) + (sum (firstn (i mod C) (map blen g)) + tsz)) as PV.
  { rewrite place_eq. assert (firstn i es = concat gs1 ++ firstn (i mod C) g) as ->.
    { rewrite EE, <- concat_gro, EGG, concat_app. cbn [concat]. assert (i = length (concat gs1) + i mod C)%nat as EI by (rewrite L1, LF; pose proof (Nat.div_mod_eq i C); lia).
      rewrite EI at 1. rewrite firstn_app_2, firstn_app. replace (i mod C - length g)%nat with O by lia. rewrite firstn_O, app_nil_r. reflexivity. }
    rewrite concat_app, app_length, firstn_map, <- concat_blen. apply N2Nat.inj. rewrite Nat2N.id, !N2Nat.inj_add, to_nat_blen, G, LF, Nat.mul_add_distr_l. lia. }
  assert (N.of_nat (packet_place es i) < two64) as BA.
  { destruct H as (A & B & E & LA). rewrite E, blen_app in SB. unfold blen in SB. rewrite LA in SB. unfold two63, two64 in *. lia. }
  cbv zeta. match goal with |- context [two64 <=? ?x] => replace x with (N.of_nat (packet_place es i)) by lia end. now replace (two64 <=? N.of_nat (packet_place es i)) with false by lia.
Qed.

Lemma nth_holds {U} (P : proto U) xs qs (r : sreader U) i q x : proto_ok P -> tracks xs r -> Forall2 (packet_enc P) qs xs -> blen (storage_file xs) < two63 ->
  nth_error qs i = Some q -> few q -> nth_error xs i = Some x -> holds (c_data (d_file r)) (packet_place xs i) x ->
  exists r', d_nth P i r = (Ok (Some q), r').
Proof.
  intros HP (r0 & RD & ER) FE B NQ FQ NX (A & T & ED & LA). destruct (reading_ok P xs r0 RD qs FE B) as (OK & _).
  pose proof (place_at xs r0 i x OK NX) as PL. assert (d_place i r = d_place i r0) as EP by (rewrite ER; reflexivity). unfold d_nth. rewrite EP, PL. cbn [sbind].
  pose proof (enc_nth P qs xs i FE) as EN. rewrite NQ in EN. destruct EN as (x' & NX' & HQ). rewrite NX in NX'. injection NX' as <-.
  destruct (c_at A (x ++ T) _ (blen A) ED eq_refl (d_file r) eq_refl) as (V & O & _). assert (N.of_nat (packet_place xs i) = blen A) as -> by (unfold blen; now rewrite LA).
  destruct (pkt_try_read_rt P q x _ T HP HQ FQ O V) as (E2 & _ & _). rewrite E2. cbn [rbind]. eauto.
Qed.

(** ** Panics *)

(** A new table that is not complete. *)
Lemma try_short A lens k c : c_data c = A ++ firstn k (slot_table lens) -> (length lens <= C)%nat -> (16 <= k < 4020)%nat ->
  exists c', slot_try_read (c_seek (blen A) c) = (Panic POverflow, c').
Proof.
  intros D G (K1 & K2). pose proof (table_len lens G) as LT. rewrite tsz_nat in LT.
  destruct (c_at A _ _ (blen A) D eq_refl c eq_refl) as (V & O & _).
  assert (exists y, firstn k (slot_table lens) = slot_sig ++ le 8 (N.of_nat C) ++ y) as (y & EY).
  { rewrite slot_table_eq. replace k with (length (slot_sig ++ le 8 (sl_capacity (lsl lens))) + (k - 16))%nat by (rewrite app_length, le_length; change (length slot_sig) with 8%nat; lia).
    rewrite app_assoc, firstn_app_2, <- app_assoc. eexists. reflexivity. }
  assert (blen (firstn k (slot_table lens)) = N.of_nat k) as LK by (unfold blen in *; rewrite firstn_length; lia).
  unfold slot_try_read. rewrite c_available_ok by exact O. rewrite V, LK. cbn [sbind].
  rewrite EY in V. destruct (slot_hdr_try_ok _ (N.of_nat C) y O ltac:(rewrite cap_eq; reflexivity) V) as (c1 & E1 & _). rewrite E1. cbn [stbind sbind].
  assert (slot_hdr_size + N.of_nat C * 8 + 4 = tsz) as -> by (rewrite <- tsz_eq; unfold slot_hdr_size; lia).
  replace (N.of_nat k <? tsz) with true by (unfold tsz; lia). cbn. eauto.
Qed.
(** Looking for a table behind the end of the file. *)
Lemma try_beyond pos c : blen (c_data c) < pos -> exists c', slot_try_read (c_seek pos c) = (Panic POverflow, c').
Proof.
  intros H. unfold slot_try_read. assert (c_available (c_seek pos c) = Panic POverflow) as ->; [|cbn [sbind]; eauto].
  unfold c_available, c_len. cbn [c_seek c_pos c_data]. now replace (pos <=? blen (c_data c)) with false by lia.
Qed.

Section Boundary.
Context {U : Type}.

Lemma step_new_slot fs e data (r : sreader U) k : d_slots r = anch 0 fs -> Forall fullg (map (map blen) fs) -> Forall small fs ->
  data = files fs ++ firstn k (slot_table [blen e] ++ e) -> (16 <= k < 4020 + length e)%nat -> blen (files fs) + tsz + blen e < two63 -> e <> [] ->
  exists r', d_reload (d_refresh data r) = (Panic POverflow, r').
Proof.
  intros DS FU SM DD (K1 & K2) B NE. unfold d_reload. cbn [d_refresh d_slots d_file d_loc d_rules c_data]. rewrite DS, last_none, anch_length by exact FU.
  rewrite <- files_blen by exact SM. pose proof cap_pos as CP. rewrite cap_eq in CP. assert (length [blen e] <= C)%nat as LC by (cbn [length]; rewrite cap_eq; lia).
  pose proof (table_len _ LC) as LT. rewrite tsz_nat in LT.
  destruct (Nat.lt_ge_cases k 4020) as [H|H].
  - rewrite firstn_app in DD. replace (k - length (slot_table [blen e]))%nat with O in DD by lia. rewrite firstn_O, app_nil_r in DD.
    destruct (try_short (files fs) [blen e] k (mk_cursor data (c_pos (d_file r))) DD LC (conj K1 H)) as (c1 & E1). rewrite (Nat.add_1_r (length data)). cbn [reload_go]. rewrite E1. eauto.
  - assert (data = files fs ++ slot_table [blen e] ++ firstn (k - 4020) e) as DE by (rewrite DD, firstn_app, LT, firstn_all2 by lia; reflexivity).
    assert (exists f, length data + 1 = S (S f))%nat as (f & ->) by (exists (length data - 1)%nat; rewrite DE, !app_length, LT; lia). cbn [reload_go].
    assert (Forall (fun n => n < two64) [blen e]) as FS by (repeat constructor; unfold two63, two64 in *; lia).
    destruct (try_table (files fs) [blen e] _ (mk_cursor data (c_pos (d_file r))) DE LC FS) as (c1 & E1 & D1). rewrite E1. cbn [c_data] in D1.
    assert (good [blen e]) as GE by (split; [exact LC|repeat constructor; destruct e; [contradiction|rewrite blen_cons; lia]]).
    rewrite lsl_total by exact GE. cbv zeta. replace (two64 <=? _) with false by (unfold gsz; cbn [sum fold_right]; unfold two63, two64 in *; lia).
    destruct (try_beyond (blen (files fs) + gsz [blen e]) c1) as (c2 & E2).
    { rewrite D1, DE, !blen_app. unfold gsz. cbn [sum fold_right]. assert (blen (slot_table [blen e]) = tsz) as -> by (now apply slot_table_length).
      unfold blen at 2 4. rewrite firstn_length. lia. }
    rewrite E2. eauto.
Qed.

Lemma step_fills fs l e data (r : sreader U) k : d_slots r = anch 0 (fs ++ [l]) -> (length l + 1 = C)%nat -> nonempty_all (l ++ [e]) ->
  Forall small fs -> data = files fs ++ slot_table (map blen l ++ [blen e]) ++ concat l ++ firstn k e -> (k < length e)%nat ->
  blen (files fs) + tsz + blen (concat (l ++ [e])) < two63 -> sl_crc (lsl (map blen l)) <> sl_crc (lsl (map blen l ++ [blen e])) ->
  exists r', d_reload (d_refresh data r) = (Panic POverflow, r').
Proof.
  intros DS L NE SM DD K B NC. pose proof NE as NE'. apply Forall_app in NE' as (NL & _).
  assert (pos_all (map blen (l ++ [e]))) as PA. { apply Forall_map. eapply Forall_impl; [|exact NE]. intros x Q. destruct x; [contradiction|rewrite blen_cons; lia]. }
  assert (pos_all (map blen l)) as PL. { rewrite map_app in PA. now apply Forall_app in PA. }
  rewrite concat_blen in B. assert (map blen (l ++ [e]) = map blen l ++ [blen e]) as ME by (now rewrite map_app). rewrite ME in *.
  assert (Forall (fun n => n < two64) (map blen l ++ [blen e])) as FS.
  { apply Forall_forall. intros n I. apply sum_in in I. unfold two63, two64 in *. lia. }
  assert (length (map blen l ++ [blen e]) = length l + 1)%nat as LL by (rewrite app_length, map_length; reflexivity).
  unfold d_reload. cbn [d_refresh d_slots d_file d_loc d_rules c_data]. rewrite DS, last_some, anch_length, app_length by (auto; lia). cbn [length].
  rewrite <- files_blen by exact SM. pose proof (table_len (map blen l ++ [blen e]) ltac:(lia)) as LT. rewrite tsz_nat in LT.
  assert (exists f, length data + 1 = S (S f))%nat as (f & ->) by (exists (length data - 1)%nat; rewrite DD, !app_length, LT; lia). cbn [reload_go].
  destruct (try_table (files fs) (map blen l ++ [blen e]) _ (mk_cursor data (c_pos (d_file r))) DD ltac:(lia) FS) as (c1 & E1 & D1). rewrite E1. cbn [c_data] in D1.
  rewrite anch_length, app_length. cbn [length]. rewrite Nat.eqb_refl.
  destruct (bytes_eqb _ _) eqn:EC; [apply bytes_eqb_eq in EC; contradiction|]. rewrite Nat.add_sub. rewrite anch_app. cbn [anch].
  assert (length (anch 0 fs) = length fs) as LA by apply anch_length. rewrite <- LA. rewrite nth_mid.
  assert (free_slot_index (lsl (map blen l ++ [blen e])) = None) as FI.
  { unfold lsl. rewrite tab_free_index by (auto; lia). rewrite LL. now replace (length l + 1 <? C)%nat with false by lia. }
  rewrite FI, lsl_total by (split; [lia|exact PA]). cbv zeta. replace (two64 <=? _) with false by (unfold gsz; unfold two63, two64 in *; lia).
  destruct (try_beyond (blen (files fs) + gsz (map blen l ++ [blen e])) c1) as (c2 & E2).
  { rewrite D1, DD, !blen_app. unfold gsz. assert (blen (slot_table (map blen l ++ [blen e])) = tsz) as -> by (apply slot_table_length; lia). rewrite sum_app, concat_blen. cbn [sum fold_right].
    assert (blen (firstn k e) < blen e) by (unfold blen; rewrite firstn_length; lia). lia. }
  rewrite E2. eauto.
Qed.
End Boundary.

Section PollPanic.
Context {U : Type} (P : proto U).
Variables (ps : list (packet U)) (es : list bytes) (p : packet U) (e : bytes).
Hypothesis FE : Forall2 (packet_enc P) ps es.
Hypothesis HE : packet_enc P p e.
Hypothesis BE : blen e < two32.
Hypothesis B : blen (storage_file (es ++ [e])) < two63.

Lemma poll_panics m (r : sreader U) : tracks es r ->
  (length es mod 500 = 0 /\ 16 <= m < 4020 + length e \/ length es mod 500 = 499 /\ 4020 <= m < 4020 + length e)%nat ->
  exists r', d_reload (d_refresh (during es e m) r) = (Panic POverflow, r').
Proof.
  intros T H. destruct (tracks_refresh es r (during es e m) T) as (r0 & RD & ->). assert (blen (storage_file es) < two63) as B0 by (pose proof (storage_mono es [e]); lia).
  destruct (reading_ok P es r0 RD ps FE B0) as (OK & _). pose proof (encs_nonempty _ _ _ FE) as NE. pose proof (packet_enc_nonempty _ _ _ HE) as NEe.
  destruct (decompose es) as (fs & l & SH & EE). pose proof (slots_shaped es r0 fs l OK SH EE) as DS.
  assert (length es mod 500 = length l)%nat as LM by (rewrite EE; now apply shape_mod). rewrite LM in *. pose proof SH as (F & L).
  destruct (shaped_full _ _ SH ltac:(rewrite <- EE; exact NE)) as (A1 & _ & _).
  assert (blen (files fs) + tsz + blen (concat (l ++ [e])) < two63) as BB.
  { pose proof B as B'. rewrite EE, <- concat_push, storage_shaped in B' by now apply shaped_push. rewrite gro_push, files_app, files_one in B'. unfold gfile in B'. rewrite !blen_app, slot_table_length in B'; [lia|]. rewrite map_length, app_length. cbn [length]. lia. }
  destruct H as [(H0 & H)|(H0 & H)].
  - destruct l; [|discriminate]. unfold gro in DS. rewrite app_nil_r in DS. cbn [app concat] in BB. rewrite app_nil_r in BB.
    apply (step_new_slot fs e (during es e m) r0 m DS A1 (small_fs _ _ SH)); [|exact H|exact BB|exact NEe].
    rewrite EE in NE |- *. rewrite during_eq by assumption. rewrite skipn_nil. cbn [map app concat]. rewrite firstn_app, table_len, tsz_nat by (cbn [length]; rewrite cap_eq; lia). reflexivity.
  - assert (l <> []) as LN by (destruct l; discriminate). rewrite gro_some in DS by exact LN.
    apply (step_fills fs l e (during es e m) r0 (m - 4020) DS); [rewrite cap_eq; lia| |exact (small_fs _ _ SH)| |lia|exact BB|].
    + pose proof (encs_nonempty _ _ _ (FE1 P ps es p e FE HE)) as Q. rewrite EE, <- app_assoc in Q. now apply Forall_app in Q.
    + rewrite (during_mix P ps es e FE fs l m SH EE LN). unfold fresh_table, mix.
      assert (length (slot_table (map blen l ++ [blen e])) = 4020%nat) as LT by (rewrite <- tsz_nat; apply table_len; rewrite app_length, map_length; cbn [length]; lia).
      assert (length (slot_table (map blen l)) = 4020%nat) as LO by (rewrite <- tsz_nat; apply table_len; rewrite map_length; lia).
      rewrite firstn_all2, skipn_all2, app_nil_r by lia. reflexivity.
    + pose proof (one_noticed es e ltac:(rewrite LM; lia) NEe BE) as Q. rewrite EE, <- app_assoc in Q. rewrite !table_sum_eq in Q by exact SH.
      rewrite map_app in Q. cbn [map] in Q. rewrite !table_crc in Q by (rewrite ?app_length, map_length; cbn [length]; lia). exact Q.
Qed.

(** Whatever the moment. *)
Lemma poll_any m (r : sreader U) : tracks es r -> exists o r1, d_reload (d_refresh (during es e m) r) = (o, r1) /\
  ((o = Ok O \/ o = Err (EDamagedSlot ECrcDismatch)) /\ tracks es r1 \/ o = Ok 1%nat /\ tracks (es ++ [e]) r1 /\ seen es e m \/ o = Panic POverflow /\ ~ calm es e m).
Proof.
  intros T. assert (calm es e m \/ ~ calm es e m) as [CM|CM] by (unfold calm; lia).
  { destruct (poll_before P ps es p e FE HE BE B m r T CM) as (o & r1 & E & Q). exists o, r1. split; [exact E|]. tauto. }
  assert ((length es mod 500 = 0 /\ 16 <= m < 4020 + length e \/ length es mod 500 = 499 /\ 4020 <= m < 4020 + length e)%nat \/ (length es mod 500 = 499 /\ 4016 < m < 4020)%nat) as [H|H] by (unfold calm in CM; lia).
  { destruct (poll_panics m r T H) as (r' & E). exists (Panic POverflow), r'. split; [exact E|]. tauto. }
  destruct H as (HM & H). destruct (tracks_refresh es r (during es e m) T) as (r0 & RD & ER). assert (blen (storage_file es) < two63) as B0 by (pose proof (storage_mono es [e]); lia).
  destruct (reading_ok P es r0 RD ps FE B0) as (OK & _). pose proof (packet_enc_nonempty _ _ _ HE) as NEe. rewrite ER. clear ER.
  destruct (decompose es) as (fs & l & SH & EE). pose proof (slots_shaped es r0 fs l OK SH EE) as DS.
  assert (length es mod 500 = length l)%nat as LM by (rewrite EE; now apply shape_mod). rewrite LM in *. pose proof SH as (F & L).
  assert (l <> []) as LN by (destruct l; discriminate). rewrite gro_some in DS by exact LN.
  destruct (step_mixed fs l e m (during es e m) r0 (concat l ++ firstn (m - 4020) e) DS L (tail_ne P ps es p e FE HE fs l EE) (small_fs _ _ SH) (during_mix P ps es e FE fs l m SH EE LN) (group_small es e BE B fs l SH EE)) as [(c & o & D & OO & E)|(M & FT)].
  - exists o, (mk_sreader (d_slots r0) c (d_loc r0) (d_rules r0)). split; [exact E|]. left. split; [exact OO|]. apply tracks_file. now apply reading_tracks.
  - assert (during es e m = during es e 4020) as ->.
    { rewrite !(during_mix P ps es e FE fs l _ SH EE LN). rewrite FT. replace (m - 4020)%nat with O by lia. rewrite Nat.sub_diag. do 2 f_equal. unfold fresh_table, mix.
      assert (length (slot_table (map blen l ++ [blen e])) = 4020%nat) as LT by (rewrite <- tsz_nat; apply table_len; rewrite app_length, map_length; cbn [length]; lia).
      assert (length (slot_table (map blen l)) = 4020%nat) as LO by (rewrite <- tsz_nat; apply table_len; rewrite map_length; lia).
      rewrite firstn_all2, skipn_all2, app_nil_r by lia. reflexivity. }
    destruct (poll_panics 4020 r0 (reading_tracks _ _ RD)) as (r' & E); [right; destruct e; [contradiction|cbn [length]; lia]|].
    exists (Panic POverflow), r'. split; [exact E|]. tauto.
Qed.

Lemma polls_any ms : forall (r : sreader U) os r1, tracks es r -> StronglySorted Peano.le ms -> (forall w, ~ In (Panic w) os) -> polls (map (during es e) ms) r = (os, r1) ->
  Forall (fun o => o = Ok O \/ o = Ok 1%nat \/ o = Err (EDamagedSlot ECrcDismatch)) os /\
  (told_all os = O /\ tracks es r1 \/ told_all os = 1%nat /\ tracks (es ++ [e]) r1).
Proof.
  induction ms as [|m ms IH]; intros r os r1 T ST NP; cbn [map polls]; [intros E; injection E as <- <-; auto|].
  inversion ST as [|? ? ST1 F1]; subst.
  destruct (poll_any m r T) as (o & r2 & E & [(OO & T2)|[(-> & T2 & SN)|(-> & _)]]); rewrite E; destruct (polls _ r2) as (os2 & r3) eqn:EP; intros Q; injection Q as <- <-.
  - destruct (IH r2 os2 r3 T2 ST1 ltac:(intros w I; apply (NP w); now right) EP) as (A & A2). split; [constructor; [tauto|exact A]|]. assert (told o = O) as TO by (destruct OO; subst o; reflexivity).
    unfold told_all in *. cbn [map fold_right]. rewrite TO. exact A2.
  - destruct (polls_after P ps es p e FE HE BE B ms r2 os2 r3 m T2 SN ST EP) as (A & A2 & A3). split; [constructor; [tauto|]|].
    + eapply Forall_impl; [|exact A]. intros x ->. now left.
    + right. split; [|exact A3]. unfold told_all in *. cbn [map fold_right told]. now rewrite A2.
  - exfalso. apply (NP POverflow). now left.
Qed.
End PollPanic.
