(** * Writers on a file that fails, and storages left by a crash. *)
From Coq Require Import ZifyBool ZifyNat ZifyN.
From Verif Require Import Base Crc32 Io File Block Payload Packet Rules Slot Storage StreamReader Spec SpecStorage BaseProofs CrcProofs BlockProofs PayloadProofs PacketProofs PacketSafeProofs RulesProofs WireProofs StreamProofs StreamItemProofs SlotProofs StorageProofs StorageReadProofs ReloadProofs ReadingProofs.
Ltac Zify.zify_post_hook ::= Z.div_mod_to_equations.
Open Scope list_scope.
Local Notation C := default_capacity.

(** ** Overwriting *)
Lemma overwrite_split p bs d : bs <> [] -> exists A, overwrite p bs d = A ++ bs ++ skipn (N.to_nat p + length bs) d /\ length A = N.to_nat p /\
  A = firstn (N.to_nat p) d ++ repeat (n2b 0) (N.to_nat p - length d).
Proof.
  intros NE. exists (firstn (N.to_nat p) d ++ repeat (n2b 0) (N.to_nat p - length d)). split; [|split; [|reflexivity]].
  - unfold overwrite. destruct bs; [contradiction|]. now rewrite <- app_assoc.
  - rewrite app_length, firstn_length, repeat_length. lia.
Qed.
Lemma skipn_plus {A} n m (l : list A) : skipn n (skipn m l) = skipn (m + n) l.
Proof. revert m. induction l as [|x l IH]; intros [|m]; rewrite ?skipn_nil; try reflexivity. cbn [skipn Nat.add]. apply IH. Qed.
Lemma overwrite_app p x y d : overwrite (p + blen x) y (overwrite p x d) = overwrite p (x ++ y) d.
Proof.
  destruct x as [|a x]; [cbn [app]; rewrite blen_nil, N.add_0_r; reflexivity|]. set (X := a :: x).
  destruct y as [|b y]; [now rewrite app_nil_r|]. set (Y := b :: y).
  destruct (overwrite_split p X d ltac:(discriminate)) as (A & E & LA & EA). rewrite E, app_assoc.
  rewrite overwrite_at; [|rewrite app_length, LA; unfold blen; lia|discriminate].
  destruct (overwrite_split p (X ++ Y) d ltac:(discriminate)) as (A' & E' & _ & EA'). rewrite E', EA', <- EA, <- !app_assoc. do 3 f_equal.
  rewrite skipn_plus, app_length. f_equal. lia.
Qed.

Lemma overwrite_keeps p bs d off x : holds d off x -> (off + length x <= N.to_nat p \/ N.to_nat p + length bs <= off)%nat -> holds (overwrite p bs d) off x.
Proof.
  intros (A & B & -> & LA) H. destruct bs as [|b bs]; [now exists A, B|]. set (X := b :: bs) in *.
  destruct (overwrite_split p X (A ++ x ++ B) ltac:(discriminate)) as (A' & -> & LA' & EA). destruct H as [H|H].
  - rewrite EA. replace (firstn (N.to_nat p) (A ++ x ++ B)) with ((A ++ x) ++ firstn (N.to_nat p - length (A ++ x)) B) by (rewrite (app_assoc A x B), firstn_app, (firstn_all2 (A ++ x)) by (rewrite app_length; lia); reflexivity).
    rewrite <- !app_assoc. exists A. eexists. split; [reflexivity|exact LA].
  - exists (firstn (N.to_nat p) A ++ X ++ skipn (N.to_nat p + length X) A), B. split.
    + rewrite EA, firstn_app, skipn_app. replace (N.to_nat p - length A)%nat with O by lia. replace (N.to_nat p + length X - length A)%nat with O by lia.
      cbn [firstn skipn]. rewrite app_nil_r. replace (N.to_nat p - length (A ++ x ++ B))%nat with O by (rewrite app_length; lia). cbn [repeat]. rewrite app_nil_r, <- !app_assoc. reflexivity.
    + rewrite !app_length, firstn_length, skipn_length. lia.
Qed.
Lemma overwrite_holds p bs d : bs <> [] -> holds (overwrite p bs d) (N.to_nat p) bs.
Proof. intros NE. destruct (overwrite_split p bs d NE) as (A & -> & LA & _). now exists A, (skipn (N.to_nat p + length bs) d). Qed.

Lemma firstn_add {A} j k (l : list A) : (j <= length l)%nat -> firstn (j + k) l = firstn j l ++ firstn k (skipn j l).
Proof.
  intros L. rewrite <- (firstn_skipn j l) at 1. rewrite firstn_app, firstn_length. rewrite firstn_all2 by (rewrite firstn_length; lia). do 2 f_equal. lia.
Qed.
(** ** A write that may fail: a prefix arrives *)
Lemma write_prefix : forall sched bs c o c' sched', file_write_all_go sched bs c = (o, (c', sched')) ->
  exists k, (k <= length bs)%nat /\ c_data c' = overwrite (c_pos c) (firstn k bs) (c_data c) /\ (o = Ok tt /\ k = length bs \/ exists e, o = Err e).
Proof.
  assert (forall c (bs : bytes), c_data c = overwrite (c_pos c) (firstn 0 bs) (c_data c)) as ZERO by reflexivity.
  induction sched as [|a sched IH]; intros bs c o c' sched' E; (destruct bs as [|b bs]; [cbn [file_write_all_go] in E; injection E as <- <- <-; exists O; cbn [length]; split; [lia|]; split; [apply ZERO|left; auto]|]);
    cbn [file_write_all_go] in E.
  - injection E as <- <- <-. exists (length (b :: bs)). rewrite firstn_all. split; [lia|]. split; [reflexivity|left; auto].
  - set (X := b :: bs) in *. destruct a as [n|k].
    + destruct (N.to_nat (N.min n (blen X))) as [|m] eqn:EM.
      * injection E as <- <- <-. exists O. split; [lia|]. split; [reflexivity|right; eauto].
      * rewrite <- EM in E. set (j := N.to_nat (N.min n (blen X))) in *. assert (j <= length X)%nat as LJ by (unfold j, blen; lia).
        destruct (IH _ _ _ _ _ E) as (k & LK & D & O). rewrite skipn_length in LK. exists (j + k)%nat. split; [lia|]. split.
        -- rewrite D. unfold c_write. cbn [c_pos c_data]. rewrite overwrite_app. f_equal.
           symmetry. now apply firstn_add.
        -- destruct O as [(-> & ->)|O]; [left|right; exact O]. split; [reflexivity|]. rewrite skipn_length. lia.
    + assert (forall E' : (Err (EIo k) : res unit, (c, sched)) = (o, (c', sched')), exists k0, (k0 <= length X)%nat /\ c_data c' = overwrite (c_pos c) (firstn k0 X) (c_data c) /\ (o = Ok tt /\ k0 = length X \/ exists e, o = Err e)) as FAIL.
      { intros E'. injection E' as <- <- <-. exists O. split; [lia|]. split; [reflexivity|right; eauto]. }
      destruct k; try (now apply FAIL). exact (IH _ _ _ _ _ E).
Qed.

Lemma flush_data f o f' : file_flush f = (o, f') -> fl_cur f' = fl_cur f /\ (o = Ok tt \/ exists e, o = Err e).
Proof.
  unfold file_flush. destruct (fl_flushes f) as [|[k|] r]; intros E; injection E as <- <-; cbn [fl_cur]; eauto.
Qed.
Lemma write_all_prefix bs f o f' : file_write_all bs f = (o, f') -> exists k, (k <= length bs)%nat /\
  fl_data f' = overwrite (c_pos (fl_cur f)) (firstn k bs) (fl_data f) /\ (o = Ok tt /\ k = length bs \/ exists e, o = Err e).
Proof.
  unfold file_write_all. destruct (file_write_all_go (fl_sched f) bs (fl_cur f)) as (o1 & c & s) eqn:E. intros Q. injection Q as <- <-.
  exact (write_prefix _ _ _ _ _ _ E).
Qed.

(** What [w_store] leaves in the file, whatever the answers of the system. *)
Lemma store_crash s so off sb buf f o f' : slot_bytes s = Ok sb -> w_store s so off buf f = (o, f') ->
  exists k1 k2, (k1 <= length sb)%nat /\ (k2 <= length buf)%nat /\ (k2 <> O -> k1 = length sb) /\
    fl_data f' = overwrite off (firstn k2 buf) (overwrite so (firstn k1 sb) (fl_data f)) /\
    (o = Ok tt /\ k1 = length sb /\ k2 = length buf \/ exists e, o = Err e).
Proof.
  intros SB. unfold w_store. rewrite SB.
  destruct (file_flush f) as (o1 & f1) eqn:F1. apply flush_data in F1 as (C1 & O1). destruct O1 as [->|(e & ->)]; cbn [sbind].
  2:{ intros Q. injection Q as <- <-. exists O, O. unfold fl_data. rewrite C1. repeat split; try lia; eauto. }
  destruct (file_write_all sb (file_seek so f1)) as (o2 & f2) eqn:W2. apply write_all_prefix in W2 as (k1 & L1 & D2 & O2).
  cbn [file_seek fl_cur c_seek c_pos] in D2. unfold fl_data at 2 in D2. cbn [file_seek fl_cur c_seek c_data] in D2. rewrite C1 in D2. fold (fl_data f) in D2.
  destruct O2 as [(-> & ->)|(e & ->)]; cbn [sbind].
  2:{ intros Q. injection Q as <- <-. exists k1, O. repeat split; try lia; eauto. }
  destruct (file_flush (file_seek off f2)) as (o3 & f3) eqn:F3. apply flush_data in F3 as (C3 & O3). cbn [file_seek fl_cur] in C3.
  assert (fl_data f3 = fl_data f2) as D3 by (unfold fl_data; rewrite C3; reflexivity).
  destruct O3 as [->|(e & ->)]; cbn [sbind].
  2:{ intros Q. injection Q as <- <-. exists (length sb), O. rewrite D3. repeat split; try lia; eauto. }
  destruct (file_write_all buf (file_seek off f3)) as (o4 & f4) eqn:W4. apply write_all_prefix in W4 as (k2 & L2 & D4 & O4).
  cbn [file_seek fl_cur c_seek c_pos] in D4. unfold fl_data at 2 in D4. cbn [file_seek fl_cur c_seek c_data] in D4. fold (fl_data f3) in D4. rewrite D3, D2 in D4.
  destruct O4 as [(-> & ->)|(e & ->)]; cbn [sbind].
  2:{ intros Q. injection Q as <- <-. exists (length sb), k2. repeat split; try lia; eauto. }
  destruct (file_flush f4) as (o5 & f5) eqn:F5. apply flush_data in F5 as (C5 & O5).
  assert (fl_data f5 = fl_data f4) as D5 by (unfold fl_data; rewrite C5; reflexivity).
  destruct O5 as [->|(e & ->)]; cbn [sbind]; intros Q; injection Q as <- <-; exists (length sb), (length buf); rewrite D5; repeat split; try lia; eauto 6.
Qed.

(** ** Places *)
Lemma place_eq es i : packet_place es i = (N.to_nat tsz * (i / C + 1) + length (concat (firstn i es)))%nat.
Proof. unfold packet_place. rewrite cap_eq. reflexivity. Qed.
Lemma concat_firstn_mono (es : list bytes) i j : (i <= j)%nat -> (length (concat (firstn i es)) <= length (concat (firstn j es)))%nat.
Proof.
  intros L. replace (firstn i es) with (firstn i (firstn j es)) by (rewrite firstn_firstn; f_equal; lia).
  rewrite <- (firstn_skipn i (firstn j es)) at 2. rewrite concat_app, app_length. lia.
Qed.
Lemma concat_firstn_next (es : list bytes) i e : nth_error es i = Some e -> length (concat (firstn (S i) es)) = (length (concat (firstn i es)) + length e)%nat.
Proof.
  intros N. apply nth_error_split in N as (a & b & -> & <-). rewrite (firstn_app_exact a _ (length a)) by reflexivity.
  replace (S (length a)) with (length (a ++ [e])) by (rewrite app_length; cbn [length]; lia). change (e :: b) with ([e] ++ b). rewrite app_assoc, (firstn_app_exact (a ++ [e])) by reflexivity.
  rewrite concat_app, app_length. cbn [concat]. now rewrite app_nil_r.
Qed.
Lemma group_start fs (l : list bytes) : Forall (fun g => length g = C) fs -> N.to_nat (gszs (map (map blen) fs)) = (N.to_nat tsz * length fs + length (concat (concat fs)))%nat.
Proof.
  intros F. induction F as [|g fs H F IH]; [unfold gszs; cbn [map sum fold_right concat length]; lia|]. change (gszs (map (map blen) (g :: fs))) with (gsz (map blen g) + gszs (map (map blen) fs)).
  cbn [concat length]. rewrite concat_app, app_length, Nat.mul_succ_r. unfold gsz. rewrite <- concat_blen. rewrite !N2Nat.inj_add, IH, to_nat_blen. lia.
Qed.
Lemma place_last fs l x : shaped fs l -> packet_place ((concat fs ++ l) ++ x) (length (concat fs ++ l)) = N.to_nat (gszs (map (map blen) fs) + (sum (map blen l) + tsz)).
Proof.
  intros (F & L). pose proof cap_pos. rewrite place_eq. rewrite firstn_app_exact by reflexivity. rewrite app_length, length_concat_full by exact F.
  rewrite Nat.div_add_l, Nat.div_small by lia. rewrite <- concat_blen, concat_app, app_length. pose proof (group_start fs l F). rewrite !N2Nat.inj_add, to_nat_blen, Nat.add_0_r, Nat.mul_add_distr_l. lia.
Qed.
Lemma place_app es x i : (i <= length es)%nat -> packet_place (es ++ x) i = packet_place es i.
Proof. intros L. rewrite !place_eq, firstn_app. replace (i - length es)%nat with O by lia. cbn [firstn]. now rewrite app_nil_r. Qed.

(** An earlier packet is not where the next one and its table are written. *)
Lemma place_apart fs l i e : shaped fs l -> nth_error (concat fs ++ l) i = Some e ->
  let o := packet_place (concat fs ++ l) i in let g := N.to_nat (gszs (map (map blen) fs)) in
  (o + length e <= g \/ g + N.to_nat tsz <= o)%nat /\ (o + length e <= g + N.to_nat (sum (map blen l) + tsz))%nat.
Proof.
  intros SH N o g. pose proof SH as (F & L). pose proof cap_pos as CP. pose proof (group_start fs l F) as G. fold g in G. set (es := concat fs ++ l) in *.
  assert (i < length es)%nat as LI by (apply nth_error_Some; congruence). unfold es in LI. rewrite app_length, length_concat_full in LI by exact F.
  assert (length (concat (firstn (length fs * C) es)) = length (concat (concat fs))) as E1.
  { unfold es. rewrite firstn_app_exact by (symmetry; now apply length_concat_full). reflexivity. }
  assert (length (concat es) = length (concat (concat fs)) + N.to_nat (sum (map blen l)))%nat as E2.
  { unfold es. rewrite concat_app, app_length, <- concat_blen. unfold blen. lia. }
  pose proof (concat_firstn_next es i e N) as NX.
  assert (length (concat (firstn (S i) es)) <= length (concat es))%nat as MX.
  { rewrite <- (firstn_all es) at 2. apply concat_firstn_mono. unfold es. rewrite app_length, length_concat_full by exact F. lia. }
  unfold o. rewrite place_eq. pose proof (Nat.div_mod_eq i C) as DM. pose proof (Nat.mod_upper_bound i C ltac:(lia)) as MU. set (q := (i / C)%nat) in *.
  destruct (Nat.lt_ge_cases i (length fs * C)) as [H|H].
  - assert (q + 1 <= length fs)%nat as Q by nia. pose proof (concat_firstn_mono es (S i) (length fs * C) ltac:(lia)) as M. split; [left|]; nia.
  - assert (q = length fs) as Q by nia. pose proof (concat_firstn_mono es (length fs * C) i ltac:(lia)) as M. rewrite Q. split; [right|]; nia.
Qed.

(** ** Inserts that may fail *)
Section Tries.
Context {U : Type} (P : proto U).

Lemma insert_holds fs l w (p : packet U) e o w' : w_mem (map (map blen) fs) (map blen l) (w_slots w) (w_loc w) -> packet_enc P p e -> w_insert p w = (o, w') ->
  w_mem (map (map blen) (fst (push fs l e))) (map blen (snd (push fs l e))) (w_slots w') (w_loc w') /\
  (forall i x, nth_error (concat fs ++ l) i = Some x -> holds (w_data w) (packet_place (concat fs ++ l) i) x -> holds (w_data w') (packet_place (concat fs ++ l) i) x) /\
  (o = Ok tt /\ holds (w_data w') (packet_place ((concat fs ++ l) ++ [e]) (length (concat fs ++ l))) e \/ exists k, o = Err k).
Proof.
  intros M HE E. pose proof (mem_shaped _ _ _ _ M) as SH. pose proof SH as (F & L). pose proof (packet_enc_nonempty _ _ _ HE) as NE.
  rewrite (insert_ok _ _ _ _ _ M (pkt_write_all_ok P p e [] HE)) in E.
  assert (length (map blen l ++ [blen e]) <= C)%nat as LS by (rewrite app_length, map_length; cbn [length]; lia).
  destruct (w_store _ _ _ _ _) as (o1 & f1) eqn:ST. injection E as <- <-. cbn [w_slots w_loc].
  destruct (store_crash _ _ _ _ _ _ _ _ (lsl_bytes _ LS) ST) as (k1 & k2 & L1 & L2 & K & D & O). match goal with |- context [w_data (mk_writer ?a f1 ?b)] => change (w_data (mk_writer a f1 b)) with (fl_data f1) end. rewrite D. fold (w_data w).
  assert (N.of_nat (length (slot_table (map blen l ++ [blen e]))) = tsz) as LT by (apply slot_table_length; exact LS).
  split; [|split].
  - assert (0 < blen e) as PE by (destruct e; [contradiction|rewrite blen_cons; lia]).
    pose proof (mem_push _ _ (blen e) _ _ M PE) as Q. rewrite push_map in Q. exact Q.
  - intros i x N H. destruct (place_apart fs l i x SH N) as (A1 & A2). apply overwrite_keeps; [apply overwrite_keeps; [exact H|]|].
    + rewrite firstn_length. destruct A1; [left|right]; lia.
    + left. lia.
  - destruct O as [(-> & -> & ->)|(k & ->)]; [left|right; eauto]. split; [reflexivity|]. rewrite place_last by exact SH. rewrite firstn_all. now apply overwrite_holds.
Qed.

Lemma tries_holds ps : forall es' fs l w os w', w_mem (map (map blen) fs) (map blen l) (w_slots w) (w_loc w) -> Forall2 (packet_enc P) ps es' -> w_tries ps w = (os, w') ->
  let es := concat fs ++ l in
  Forall2 (fun o e => o = Ok tt \/ exists k, o = Err k) os es' /\
  (forall i x, nth_error es i = Some x -> holds (w_data w) (packet_place es i) x -> holds (w_data w') (packet_place es i) x) /\
  (forall i x, nth_error os i = Some (Ok tt) -> nth_error es' i = Some x -> holds (w_data w') (packet_place (es ++ es') (length es + i)) x).
Proof.
  induction ps as [|p ps IH]; intros es' fs l w os w' M FE E es; inversion FE as [|? e ? es2 HE FE2]; subst; cbn [w_tries] in E.
  - injection E as <- <-. split; [constructor|]. split; [auto|]. intros [|i] x N; discriminate N.
  - destruct (w_insert p w) as (o & w1) eqn:EI. destruct (w_tries ps w1) as (os2 & w2) eqn:ET. injection E as <- <-.
    destruct (insert_holds fs l w p e o w1 M HE EI) as (M1 & K1 & O1). fold es in K1, O1.
    destruct (IH es2 _ _ w1 os2 w2 M1 FE2 ET) as (F2 & K2 & O2). rewrite concat_push in K2, O2. fold es in K2, O2.
    assert (forall i x, nth_error es i = Some x -> holds (w_data w) (packet_place es i) x -> holds (w_data w2) (packet_place es i) x) as KK.
    { intros i x N H. assert (i < length es)%nat as LI by (apply nth_error_Some; congruence). rewrite <- (place_app es [e] i) by lia. apply K2; [rewrite nth_error_app1; assumption|]. rewrite place_app by lia. auto. }
    split; [|split; [exact KK|]].
    + constructor; [|exact F2]. destruct O1 as [(-> & _)|O1]; auto.
    + intros [|i] x NO NX; cbn [nth_error] in *.
      * injection NO as ->. injection NX as ->. destruct O1 as [(_ & H)|(k & Q)]; [|discriminate Q]. rewrite Nat.add_0_r.
        rewrite place_app in H by lia. rewrite place_app by lia. rewrite <- (place_app es [x] (length es)) by lia. apply K2; [apply nth_mid|]. now rewrite place_app by lia.
      * specialize (O2 i x NO NX). rewrite <- app_assoc in O2. cbn [app] in O2. rewrite app_length in O2. cbn [length] in O2.
        replace (length es + S i)%nat with (length es + 1 + i)%nat by lia. exact O2.
Qed.
End Tries.

(** The packets of a working storage are in their places. *)
Lemma ok_holds fs l i x : shaped fs l -> nth_error (concat fs ++ l) i = Some x -> holds (storage_file (concat fs ++ l)) (packet_place (concat fs ++ l) i) x.
Proof.
  intros SH N. rewrite storage_shaped by exact SH. pose proof cap_pos as CP.
  assert (i < length (concat (gro fs l)))%nat as LI by (rewrite concat_gro; apply nth_error_Some; congruence).
  destruct (locate_group (gro fs l) i LI) as (gs1 & g & gs2 & j & EG & EI & LJ).
  destruct (group_bounds fs l gs1 g gs2 SH EG ltac:(lia)) as (L1 & LG & _). rewrite <- concat_gro in *. rewrite EG in *.
  assert (nth_error g j = Some x) as NG.
  { rewrite concat_app, nth_error_app2, EI in N by lia. replace (length (concat gs1) + j - length (concat gs1))%nat with j in N by lia. cbn [concat] in N. now rewrite nth_error_app1 in N. }
  assert (nth_error (gs1 ++ g :: gs2) (length gs1) = Some g) as N1 by apply nth_mid.
  pose proof (shaped_small _ _ SH) as SM. rewrite EG in SM.
  destruct (place_split _ _ _ _ _ N1 NG SM) as (A & B & E & LA). exists A, B. split; [exact E|].
  rewrite firstn_app_exact in LA by reflexivity.
  assert (N.of_nat (length A) = blen A) as QA by reflexivity. apply Nat2N.inj. rewrite QA, LA. rewrite place_eq.
  rewrite EI, concat_app. cbn [concat]. rewrite firstn_app_2, firstn_app. replace (j - length g)%nat with O by lia. cbn [firstn]. rewrite app_nil_r.
  assert (Forall (fun h => length h = C) gs1) as F1.
  { clear - SH EG CP LJ. destruct SH as (F & L). unfold gro in EG. apply Forall_forall. intros h IH.
    assert (In h (removelast (fs ++ match l with [] => [] | _ => [l] end))) as IR by (rewrite EG, removelast_app by discriminate; apply in_app_iff; now left).
    rewrite Forall_forall in F. apply F. destruct l; [rewrite app_nil_r in IR|now rewrite removelast_last in IR].
    destruct fs as [|z fs _] using rev_ind; [contradiction IR|]. rewrite removelast_last in IR. apply in_app_iff. now left. }
  pose proof (group_start gs1 [] F1) as G. rewrite L1, (Nat.mul_comm C (length gs1)), Nat.div_add_l, Nat.div_small by lia. rewrite concat_app, app_length.
  rewrite firstn_map, <- concat_blen. apply N2Nat.inj. rewrite Nat2N.id, !N2Nat.inj_add, to_nat_blen, G, Nat.add_0_r, Nat.mul_add_distr_l. lia.
Qed.

(** ** Storages left by a crash *)

(** What an unfinished insert can leave when the slot has packets already: a table in which the new length and the checksum
    are partly written. *)
Definition zeros (n : nat) : bytes := repeat (n2b 0) n.
Definition table_of (lens : list N) (w x : bytes) : bytes :=
  slot_sig ++ le 8 (N.of_nat C) ++ concat (map (le 8) lens) ++ w ++ zeros (8 * (C - length lens - 1)) ++ x.

Lemma table_new lens n : (length lens < C)%nat -> exists x, slot_table (lens ++ [n]) = table_of lens (le 8 n) x /\ length x = 4%nat.
Proof.
  intros L. rewrite slot_table_eq. unfold slot_content, lsl, tab, with_crc, slot_crc. cbn [sl_capacity sl_lengths sl_crc].
  eexists (crc32_le _). split; [|apply crc32_le_length]. unfold table_of. rewrite !map_app, !concat_app, le8_zeros, app_length. cbn [map concat length].
  rewrite app_nil_r, <- !app_assoc. do 6 f_equal. unfold zeros. do 2 f_equal. lia.
Qed.
Lemma table_old lens : (length lens < C)%nat -> exists x, slot_table lens = table_of lens (zeros 8) x /\ length x = 4%nat.
Proof.
  intros L. rewrite slot_table_eq. unfold slot_content, lsl, tab, with_crc, slot_crc. cbn [sl_capacity sl_lengths sl_crc].
  eexists (crc32_le _). split; [|apply crc32_le_length]. unfold table_of. rewrite !map_app, !concat_app, le8_zeros.
  rewrite <- !app_assoc. do 3 f_equal. rewrite (app_assoc (zeros 8)). f_equal. unfold zeros. rewrite <- repeat_app. f_equal. lia.
Qed.

Definition mix {A} (k : nat) (a b : list A) : list A := firstn k a ++ skipn k b.
Lemma mix_app {A} k (a a' b b' : list A) : length a = length b -> mix k (a ++ a') (b ++ b') = mix k a b ++ mix (k - length a) a' b'.
Proof.
  intros L. unfold mix. rewrite firstn_app, skipn_app, <- L. destruct (Nat.le_ge_cases k (length a)) as [H|H].
  - replace (k - length a)%nat with O by lia. cbn [firstn skipn]. rewrite app_nil_r, <- app_assoc. reflexivity.
  - rewrite (skipn_all2 (n := k) b) by lia. rewrite firstn_all2 by exact H. cbn [app]. rewrite app_nil_r, <- app_assoc. reflexivity.
Qed.
Lemma mix_same {A} k (a : list A) : mix k a a = a.
Proof. apply firstn_skipn. Qed.
Lemma mix_length {A} k (a b : list A) : length a = length b -> length (mix k a b) = length b.
Proof. intros L. unfold mix. rewrite app_length, firstn_length, skipn_length. lia. Qed.
Lemma mix_table lens k w w' x x' : length w = length w' -> mix k (table_of lens w x) (table_of lens w' x') =
  table_of lens (mix (k - 8 - 8 - length (concat (map (le 8) lens))) w w') (mix (k - 8 - 8 - length (concat (map (le 8) lens)) - length w' - length (zeros (8 * (C - length lens - 1)))) x x').
Proof.
  intros L. unfold table_of. rewrite !mix_app, !mix_same, le_length by (auto; rewrite ?le_length; auto). rewrite L. reflexivity.
Qed.

(** Reading such a table, followed by the earlier packets of the slot and by [y]. *)
Lemma try_partial A lens w x y c : c_data c = A ++ table_of lens w x ++ y -> (length lens < C)%nat -> Forall (fun n => n < two64) lens -> length w = 8%nat -> length x = 4%nat ->
  exists c', c_data c' = c_data c /\
    (slot_try_read (c_seek (blen A) c) = (Err ECrcDismatch, c') \/
     slot_try_read (c_seek (blen A) c) = (Ok (Success (lsl (lens ++ match unle w with 0 => [] | n => [n] end))), c') /\
       table_of lens w x = slot_table (lens ++ match unle w with 0 => [] | n => [n] end)).
Proof.
  intros D L F LW LX. destruct (c_at A (table_of lens w x ++ y) _ (blen A) D eq_refl c eq_refl) as (V & O & D').
  pose proof (unle_bound' w 8 LW) as UB.
  set (ls := lens ++ unle w :: repeat 0 (C - length lens - 1)).
  assert (concat (map (le 8) ls) = concat (map (le 8) lens) ++ w ++ zeros (8 * (C - length lens - 1))) as EL.
  { unfold ls. rewrite map_app, concat_app. cbn [map concat]. rewrite le8_zeros. do 2 f_equal. rewrite <- LW. apply le_unle. }
  destruct (slot_try_table (c_seek (blen A) c) ls (N.of_nat C) x y O) as (c' & E & _).
  - unfold ls. rewrite app_length. cbn [length]. rewrite repeat_length. lia.
  - rewrite cap_eq. vm_compute. reflexivity.
  - unfold ls. apply Forall_app. split; [exact F|]. constructor; [exact UB|]. clear. generalize (C - length lens - 1)%nat. intros n. induction n; cbn [repeat]; constructor; auto. reflexivity.
  - exact LX.
  - rewrite V. unfold table_of. rewrite EL, <- !app_assoc. reflexivity.
  - exists c'. pose proof (slot_try_data _ _ _ E) as DD. split; [cbn [c_seek c_data] in DD; congruence|].
    destruct (bytes_eqb x _) eqn:B; [right|left; exact E]. apply bytes_eqb_eq in B.
    assert (ls = (lens ++ match unle w with 0 => [] | n => [n] end) ++ repeat 0 (C - length (lens ++ match unle w with 0 => [] | n => [n] end))) as LS.
    { unfold ls. rewrite <- app_assoc. f_equal. rewrite app_length. destruct (unle w); cbn [app length].
      - change (0 :: repeat 0 ?n) with (repeat 0 (S n)). f_equal. lia.
      - do 2 f_equal. lia. }
    set (l1 := lens ++ match unle w with 0 => [] | n => [n] end) in *.
    assert (lsl l1 = mk_slot ls (N.of_nat C) x) as SL.
    { unfold lsl, tab, with_crc. cbn [sl_lengths sl_capacity]. rewrite <- LS. f_equal. rewrite B. reflexivity. }
    split; [rewrite SL; exact E|]. rewrite slot_table_eq, SL. unfold slot_content. cbn [sl_capacity sl_lengths sl_crc]. rewrite EL. unfold table_of. now rewrite <- !app_assoc.
Qed.

(** A table that announces more bytes than there are. *)
Lemma load_past gs ls y c : c_data c = files gs ++ slot_table ls ++ y -> Forall filled gs -> blen (files gs) < two63 ->
  good ls -> Forall (fun n => n < two64) ls -> blen y < sum ls -> exists c', load c = (Panic POverflow, c').
Proof.
  intros D F B G FL Y. unfold load. pose proof (files_fuel gs F) as FU. pose proof (slot_table_length ls (proj1 G)) as LT.
  assert (length (slot_table ls) <> O) as NZ by (unfold blen, tsz in LT; lia).
  set (f := (length (c_data c) - length gs - 1)%nat).
  replace (length (c_data c) + 1)%nat with (length gs + S (S f))%nat by (unfold f; rewrite D, !app_length; lia).
  destruct (load_skip (slot_table ls ++ y) gs (S (S f)) [] [] c D F B) as (c' & E & D'). change (blen []) with 0 in E. rewrite E. clear E. cbn [app].
  set (A := files gs) in *. rewrite D in D'. set (acc := anch 0 gs). clearbody acc f. cbn [load_go].
  destruct (c_at A (slot_table ls ++ y) _ (blen A) D' eq_refl c' eq_refl) as (V & O & _). rewrite slot_table_eq, <- !app_assoc in V.
  destruct (slot_try_ok _ (lsl ls) y O) as (c2 & E2 & _).
  - apply tab_ok; [exact (proj1 G)|rewrite cap_eq; vm_compute; reflexivity|exact FL].
  - exact V.
  - rewrite E2. apply slot_try_data in E2. cbn [c_seek c_data] in E2. rewrite lsl_total by exact G.
    destruct (two64 <=? blen A + gsz ls) eqn:Q; [eauto|]. unfold slot_try_read at 1.
    assert (c_available (c_seek (blen A + gsz ls) c2) = Panic POverflow) as ->.
    { unfold c_available, c_len. cbn [c_seek c_pos c_data]. rewrite E2, D', !blen_app, LT. unfold gsz. replace (_ <=? _) with false by lia. reflexivity. }
    cbn [sbind]. eauto.
Qed.

(** A table that is not complete. *)
Lemma load_short gs ls k c : c_data c = files gs ++ firstn k (slot_table ls) -> Forall filled gs -> blen (files gs) < two63 ->
  (length ls <= C)%nat -> (16 <= k)%nat -> N.of_nat k < tsz -> exists c', load c = (Panic POverflow, c').
Proof.
  intros D F B G K1 K2. unfold load. pose proof (files_fuel gs F) as FU. pose proof (slot_table_length ls G) as LT.
  set (f := (length (c_data c) - length gs)%nat).
  replace (length (c_data c) + 1)%nat with (length gs + S f)%nat by (unfold f; rewrite D, !app_length; lia).
  destruct (load_skip _ gs (S f) [] [] c D F B) as (c' & E & D'). change (blen []) with 0 in E. rewrite E. clear E. cbn [app].
  set (A := files gs) in *. rewrite D in D'. set (acc := anch 0 gs). clearbody acc f. cbn [load_go].
  destruct (c_at A _ _ (blen A) D' eq_refl c' eq_refl) as (V & O & _).
  assert (exists y, firstn k (slot_table ls) = slot_sig ++ le 8 (N.of_nat C) ++ y) as (y & EY).
  { rewrite slot_table_eq. replace k with (length (slot_sig ++ le 8 (sl_capacity (lsl ls))) + (k - 16))%nat by (rewrite app_length, le_length; change (length slot_sig) with 8%nat; lia).
    rewrite app_assoc, firstn_app_2, <- app_assoc. eexists. reflexivity. }
  assert (blen (firstn k (slot_table ls)) = N.of_nat k) as LK by (unfold blen in *; rewrite firstn_length; lia).
  unfold slot_try_read. rewrite c_available_ok by exact O. rewrite V, LK. cbn [sbind].
  rewrite EY in V. destruct (slot_hdr_try_ok _ (N.of_nat C) y O ltac:(rewrite cap_eq; reflexivity) V) as (c1 & E1 & _). rewrite E1. cbn [stbind sbind].
  assert (slot_hdr_size + N.of_nat C * 8 + 4 = tsz) as -> by (rewrite <- tsz_eq; unfold slot_hdr_size; lia).
  replace (N.of_nat k <? tsz) with true by lia. cbn. eauto.
Qed.

(** The table partly overwritten. *)
Lemma load_partial fs l w x c : c_data c = files fs ++ table_of (map blen l) w x ++ concat l -> Forall filled fs -> (length l < C)%nat -> nonempty_all l ->
  blen (c_data c) < two63 -> length w = 8%nat -> length x = 4%nat ->
  (exists c', load c = (Err (EDamagedSlot ECrcDismatch), c')) \/ (exists c', load c = (Panic POverflow, c')) \/ c_data c = files fs ++ gfile l.
Proof.
  intros D F L NE B LW LX. rewrite D, !blen_app in B.
  assert (pos_all (map blen l)) as PA. { apply Forall_map. eapply Forall_impl; [|exact NE]. intros e Q. destruct e; [contradiction|rewrite blen_cons; lia]. }
  assert (Forall (fun n => n < two64) (map blen l)) as FS.
  { apply Forall_forall. intros n I. apply sum_in in I. rewrite <- concat_blen in I. unfold two63, two64 in *. lia. }
  pose proof (files_fuel fs F) as FU.
  set (f := (length (c_data c) - length fs)%nat).
  assert (length (c_data c) + 1 = length fs + S f)%nat as EF by (unfold f; rewrite D, !app_length; lia).
  destruct (load_skip (table_of (map blen l) w x ++ concat l) fs (S f) [] [] c D F ltac:(cbn [app]; lia)) as (c1 & E & D1). change (blen []) with 0 in E. cbn [app] in E.
  rewrite D in D1. destruct (try_partial (files fs) (map blen l) w x (concat l) c1 D1) as (c2 & D2 & [Q|(Q & TE)]); auto; [now rewrite map_length| |].
  - left. unfold load. rewrite EF, E. cbn [load_go]. rewrite Q. eauto.
  - right. pose proof (unle_bound' w 8 LW) as UB. destruct (unle w) as [|n].
    + right. rewrite app_nil_r in TE. rewrite D, TE. reflexivity.
    + left. rewrite TE in D. apply (load_past fs _ _ c D F); [lia| | |].
      * split; [rewrite app_length, map_length; cbn [length]; lia|]. apply Forall_app. split; [exact PA|]. repeat constructor.
      * apply Forall_app. split; [exact FS|]. repeat constructor. exact UB.
      * rewrite concat_blen, sum_app. cbn [sum fold_right]. lia.
Qed.

Lemma table_len lens : (length lens <= C)%nat -> length (slot_table lens) = N.to_nat tsz.
Proof. intros L. rewrite <- (slot_table_length lens L), to_nat_blen. reflexivity. Qed.

(** All that an insert can leave in the file. *)
Lemma crash_cases {U} (P : proto U) fs l w (p : packet U) e sched flushes o w' : w_ok fs l w -> nonempty_all (concat fs ++ l) -> packet_enc P p e ->
  blen (storage_file ((concat fs ++ l) ++ [e])) < two63 -> w_insert p (w_faults sched flushes w) = (o, w') ->
  (exists J, blen J < 16 /\ (l <> [] -> J = []) /\ w_data w' = storage_file (concat fs ++ l) ++ J) \/ w_data w' = storage_file ((concat fs ++ l) ++ [e]) \/
  (exists c', load (mk_cursor (w_data w') 0) = (Err (EDamagedSlot ECrcDismatch), c')) \/ (exists c', load (mk_cursor (w_data w') 0) = (Panic POverflow, c')).
Proof.
  intros OK NE HE B E. pose proof (ok_shaped _ _ _ OK) as SH. pose proof SH as (F & L). destruct OK as [M (c0 & FI & D0)].
  pose proof (shaped_filled _ _ SH NE) as FG. assert (Forall filled fs) as FF by (unfold gro in FG; now apply Forall_app in FG).
  assert (NE' := NE). apply Forall_app in NE' as (_ & NL).
  rewrite (insert_ok (map (map blen) fs) (map blen l) (w_faults sched flushes w) p e M (pkt_write_all_ok P p e [] HE)) in E.
  assert (length (map blen l ++ [blen e]) <= C)%nat as LS by (rewrite app_length, map_length; cbn [length]; lia).
  destruct (w_store _ _ _ _ _) as (o1 & f1) eqn:ST. injection E as <- <-.
  destruct (store_crash _ _ _ _ _ _ _ _ (lsl_bytes _ LS) ST) as (k1 & k2 & L1 & L2 & K & D & _).
  match goal with |- context [w_data (mk_writer ?a f1 ?b)] => change (w_data (mk_writer a f1 b)) with (fl_data f1) end. clear ST.
  assert (fl_data (w_file (w_faults sched flushes w)) = files (gro fs l)) as D1 by (unfold w_faults, fl_data; cbn [w_file fl_cur]; rewrite FI; exact D0).
  rewrite D1 in D. clear D0 D1. set (d := fl_data f1) in *. clearbody d. rewrite (storage_shaped fs l SH).
  assert (blen (files fs) = gszs (map (map blen) fs)) as LA by (apply files_blen; eapply Forall_impl; [|exact FF]; intros g Q; apply Q).
  assert (length (files fs) = N.to_nat (gszs (map (map blen) fs))) as LA' by (rewrite <- LA, to_nat_blen; reflexivity).
  set (T' := slot_table (map blen l ++ [blen e])) in *. assert (blen T' = tsz) as LT by now apply slot_table_length.
  assert (storage_file ((concat fs ++ l) ++ [e]) = files fs ++ T' ++ concat l ++ e) as EN.
  { rewrite <- concat_push, storage_shaped by now apply shaped_push. rewrite gro_push, files_app, files_one. unfold gfile. rewrite map_app, concat_app. cbn [map concat]. now rewrite app_nil_r. }
  assert (blen (files fs) < two63) as BF by (rewrite EN, !blen_app in B; lia).
  assert (pos_all (map blen l ++ [blen e])) as PA.
  { pose proof (packet_enc_nonempty _ _ _ HE). apply Forall_app. split; [|repeat constructor; destruct e; [contradiction|rewrite blen_cons; lia]].
    apply Forall_map. eapply Forall_impl; [|exact NL]. intros x Q. destruct x; [contradiction|rewrite blen_cons; lia]. }
  assert (Forall (fun n => n < two64) (map blen l ++ [blen e])) as FS.
  { apply Forall_forall. intros n I. apply sum_in in I. rewrite EN, !blen_app in B. rewrite sum_app, <- concat_blen in I. cbn [sum fold_right] in I. unfold two63, two64 in *. lia. }
  assert (k1 = length T' -> d = files fs ++ T' ++ concat l ++ firstn k2 e) as FULL.
  { intros ->. rewrite D, firstn_all. unfold gro. rewrite files_app.
    rewrite overwrite_at; [|exact LA'|intros Q; rewrite Q in LT; discriminate LT].
    assert (skipn (length T') (files match l with [] => [] | _ => [l] end) = concat l) as ->.
    { destruct l as [|y l']; [apply skipn_nil|]. rewrite files_one. unfold gfile. apply skipn_app_exact.
      unfold T'. rewrite !table_len; [reflexivity|rewrite map_length; lia|exact LS]. }
    destruct k2 as [|k2]; [cbn [firstn]; rewrite app_nil_r; reflexivity|].
    rewrite <- (app_nil_r (concat l)), !app_assoc. rewrite overwrite_at, skipn_nil, app_nil_r.
    - now rewrite <- !app_assoc.
    - rewrite !app_length. rewrite !N2Nat.inj_add, <- LA', <- concat_blen, to_nat_blen, <- LT, to_nat_blen. lia.
    - destruct e; [now apply packet_enc_nonempty in HE|discriminate]. }
  destruct (Nat.eq_dec k1 (length T')) as [Q1|Q1].
  - specialize (FULL Q1). destruct (Nat.eq_dec k2 (length e)) as [Q2|Q2].
    + right. left. rewrite FULL, Q2, firstn_all, EN. reflexivity.
    + do 3 right. apply (load_past fs (map blen l ++ [blen e]) (concat l ++ firstn k2 e) (mk_cursor d 0) FULL FF BF); [split; assumption|exact FS|].
      rewrite sum_app, <- concat_blen, blen_app. cbn [sum fold_right]. unfold blen. rewrite firstn_length. lia.
  - assert (k2 = O) as -> by (destruct k2; [reflexivity|elim Q1; apply K; discriminate]). clear K FULL L2. cbn [firstn] in D.
    assert (d = overwrite (gszs (map (map blen) fs)) (firstn k1 T') (files (gro fs l))) as D2 by exact D. clear D.
    destruct k1 as [|k1]; [left; exists []; split; [reflexivity|]; split; [auto|]; rewrite D2, app_nil_r; reflexivity|].
    assert (0 < blen T') as PT by (rewrite LT; reflexivity).
    assert (firstn (S k1) T' <> []) as NF by (clear - PT; destruct T'; [discriminate PT|discriminate]).
    unfold gro in D2. rewrite files_app, overwrite_at in D2 by assumption. rewrite firstn_length in D2. replace (Nat.min (S k1) (length T')) with (S k1) in D2 by lia.
    destruct l as [|y l'].
    + change (files []) with (@nil byte) in D2. rewrite skipn_nil, app_nil_r in D2.
      destruct (Nat.lt_ge_cases (S k1) 16) as [Q|Q].
      * left. exists (firstn (S k1) T'). split; [unfold blen; rewrite firstn_length; lia|]. split; [intros X; now elim X|]. unfold gro. rewrite app_nil_r. exact D2.
      * do 3 right. apply (load_short fs _ _ (mk_cursor d 0) D2 FF BF LS Q). unfold blen in LT. lia.
    + set (l := y :: l') in *. rewrite files_one in D2. unfold gfile in D2.
      assert (length (map blen l) < C)%nat as LM by (rewrite map_length; exact L).
      destruct (table_new (map blen l) (blen e) LM) as (x' & ET' & LX'). destruct (table_old (map blen l) LM) as (x & ET & LX).
      assert (length (slot_table (map blen l)) = length T') as LL. { unfold T'. rewrite !table_len; [reflexivity|exact LS|lia]. }
      rewrite skipn_app in D2. replace (S k1 - length (slot_table (map blen l)))%nat with O in D2 by lia. rewrite skipn_O in D2.
      rewrite (app_assoc (firstn _ _)) in D2. change (firstn (S k1) T' ++ skipn (S k1) (slot_table (map blen l))) with (mix (S k1) T' (slot_table (map blen l))) in D2. unfold T' in D2. rewrite ET', ET, mix_table in D2 by (rewrite le_length; reflexivity).
      set (wm := mix _ (le 8 _) _) in D2. set (xm := mix _ x' x) in D2.
      assert (length wm = 8%nat) as LWM by (unfold wm; now rewrite mix_length). assert (length xm = 4%nat) as LXM by (unfold xm; rewrite mix_length; congruence).
      assert (blen d < two63) as BD.
      { assert (blen (files (gro fs l)) = blen d) as <-; [|rewrite <- storage_shaped by exact SH; pose proof (storage_mono (concat fs ++ l) [e]); lia].
        rewrite D2. unfold gro. rewrite files_app, !blen_app. f_equal. change (files (match l with [] => [] | _ => [l] end)) with (files [l]). rewrite files_one. unfold gfile. rewrite blen_app. f_equal.
        rewrite ET. unfold table_of, blen. rewrite !app_length, LX, LXM, LWM. reflexivity. }
      destruct (load_partial fs l wm xm (mk_cursor d 0)) as [H|[H|H]]; auto; cbn [c_data] in *.
      * left. exists []. split; [reflexivity|]. split; [auto|]. rewrite app_nil_r, H. unfold gro. rewrite files_app, <- files_one. reflexivity.
Qed.

(** What an insert leaves in the file, byte by byte. *)
Lemma crash_shape {U} (P : proto U) fs l w (p : packet U) e sched flushes o w' : w_ok fs l w -> nonempty_all (concat fs ++ l) -> packet_enc P p e ->
  w_insert p (w_faults sched flushes w) = (o, w') ->
  l = [] /\ (exists k, w_data w' = files fs ++ firstn k (slot_table [blen e] ++ e)) \/
  l <> [] /\ exists k y, w_data w' = files fs ++ mix k (slot_table (map blen l ++ [blen e])) (slot_table (map blen l)) ++ concat l ++ firstn y e.
Proof.
  intros OK NE HE E. pose proof (ok_shaped _ _ _ OK) as SH. pose proof SH as (F & L). destruct OK as [M (c0 & FI & D0)].
  pose proof (shaped_filled _ _ SH NE) as FG. assert (Forall filled fs) as FF by (unfold gro in FG; now apply Forall_app in FG).
  rewrite (insert_ok (map (map blen) fs) (map blen l) (w_faults sched flushes w) p e M (pkt_write_all_ok P p e [] HE)) in E.
  assert (length (map blen l ++ [blen e]) <= C)%nat as LS by (rewrite app_length, map_length; cbn [length]; lia).
  destruct (w_store _ _ _ _ _) as (o1 & f1) eqn:ST. injection E as <- <-.
  destruct (store_crash _ _ _ _ _ _ _ _ (lsl_bytes _ LS) ST) as (k1 & k2 & L1 & L2 & K & D & _).
  match goal with |- context [w_data (mk_writer ?a f1 ?b)] => change (w_data (mk_writer a f1 b)) with (fl_data f1) end. clear ST.
  assert (fl_data (w_file (w_faults sched flushes w)) = files (gro fs l)) as D1 by (unfold w_faults, fl_data; cbn [w_file fl_cur]; rewrite FI; exact D0).
  rewrite D1 in D. clear D0 D1. set (d := fl_data f1) in *. clearbody d.
  assert (blen (files fs) = gszs (map (map blen) fs)) as LA by (apply files_blen; eapply Forall_impl; [|exact FF]; intros g Q; apply Q).
  assert (length (files fs) = N.to_nat (gszs (map (map blen) fs))) as LA' by (rewrite <- LA, to_nat_blen; reflexivity).
  set (T' := slot_table (map blen l ++ [blen e])) in *. assert (blen T' = tsz) as LT by now apply slot_table_length.
  assert (k1 = length T' -> d = files fs ++ T' ++ concat l ++ firstn k2 e) as FULL.
  { intros ->. rewrite D, firstn_all. unfold gro. rewrite files_app.
    rewrite overwrite_at; [|exact LA'|intros Q; rewrite Q in LT; discriminate LT].
    assert (skipn (length T') (files match l with [] => [] | _ => [l] end) = concat l) as ->.
    { destruct l as [|y l']; [apply skipn_nil|]. rewrite files_one. unfold gfile. apply skipn_app_exact.
      unfold T'. rewrite !table_len; [reflexivity|rewrite map_length; lia|exact LS]. }
    destruct k2 as [|k2]; [cbn [firstn]; rewrite app_nil_r; reflexivity|].
    rewrite <- (app_nil_r (concat l)), !app_assoc. rewrite overwrite_at, skipn_nil, app_nil_r.
    - now rewrite <- !app_assoc.
    - rewrite !app_length. rewrite !N2Nat.inj_add, <- LA', <- concat_blen, to_nat_blen, <- LT, to_nat_blen. lia.
    - destruct e; [now apply packet_enc_nonempty in HE|discriminate]. }
  destruct (Nat.eq_dec k1 (length T')) as [Q1|Q1].
  - specialize (FULL Q1). destruct l as [|y l'].
    + left. split; [reflexivity|]. exists (length T' + k2)%nat. rewrite FULL. cbn [map app concat] in *. rewrite firstn_app_2. reflexivity.
    + right. split; [discriminate|]. exists (length T'), k2. unfold mix. rewrite firstn_all, skipn_all2, app_nil_r; [exact FULL|].
      unfold T'. rewrite !table_len; [lia|exact LS|rewrite map_length; lia].
  - assert (k2 = O) as -> by (destruct k2; [reflexivity|elim Q1; apply K; discriminate]). clear K FULL L2. cbn [firstn] in D.
    assert (d = overwrite (gszs (map (map blen) fs)) (firstn k1 T') (files (gro fs l))) as D2 by exact D. clear D.
    assert (d = files fs ++ firstn k1 T' ++ skipn k1 (files match l with [] => [] | _ => [l] end)) as D3.
    { destruct k1 as [|k1]; [rewrite D2; unfold gro; rewrite files_app; reflexivity|].
      assert (0 < blen T') as PT by (rewrite LT; reflexivity).
      assert (firstn (S k1) T' <> []) as NF by (clear - PT; destruct T'; [discriminate PT|discriminate]).
      unfold gro in D2. rewrite files_app, overwrite_at in D2 by assumption. rewrite firstn_length in D2. replace (Nat.min (S k1) (length T')) with (S k1) in D2 by lia. exact D2. }
    clear D2. destruct l as [|y l'].
    + left. split; [reflexivity|]. exists k1. rewrite D3. change (files []) with (@nil byte). rewrite skipn_nil, app_nil_r. cbn [map app] in T'. fold T'.
      rewrite firstn_app. replace (k1 - length T')%nat with O by lia. cbn [firstn]. now rewrite app_nil_r.
    + right. split; [discriminate|]. exists k1, O. cbn [firstn]. rewrite app_nil_r, D3. set (l := y :: l') in *. rewrite files_one. unfold gfile, mix.
      assert (length (slot_table (map blen l)) = length T') as LL. { unfold T'. rewrite !table_len; [reflexivity|exact LS|rewrite map_length; lia]. }
      rewrite skipn_app. replace (k1 - length (slot_table (map blen l)))%nat with O by lia. now rewrite skipn_O, <- app_assoc.
Qed.

(** ** Going on after a crash *)
Lemma packet_enc_big {U} (P : proto U) p e : packet_enc P p e -> 29 <= blen e.
Proof.
  intros (tail & _ & _ & _ & ->). unfold blen. rewrite app_length, layout_length. lia.
Qed.

Lemma steps_tail {U} (P : proto U) os : forall fs l w c J es', w_mem (map (map blen) fs) (map blen l) (w_slots w) (w_loc w) ->
  w_file w = mk_file c [] [] -> c_data c = files (gro fs l) ++ J -> blen J < 16 ->
  nonempty_all (concat fs ++ l) -> Forall2 (packet_enc P) (w_inserted os) es' -> blen (storage_file ((concat fs ++ l) ++ es')) < two63 ->
  exists w' J', w_steps os w = Ok w' /\ blen J' < 16 /\ w_data w' = storage_file ((concat fs ++ l) ++ es') ++ J'.
Proof.
  induction os as [|o os IH]; intros fs l w c J es' M FI D LJ NE FE B; cbn [w_steps].
  - inversion FE; subst. exists w, J. rewrite app_nil_r. split; [reflexivity|]. split; [exact LJ|]. unfold w_data, fl_data. rewrite FI. cbn [fl_cur].
    rewrite storage_shaped by exact (mem_shaped _ _ _ _ M). exact D.
  - pose proof (mem_shaped _ _ _ _ M) as SH.
    destruct o as [p|]; cbn [w_step]; change (w_inserted (?o :: os)) with ((match o with WInsert p => [p] | WReopen => [] end) ++ w_inserted os) in FE; cbn [app] in FE.
    + inversion FE as [|? e ? es2 Hp FE2]; subst. pose proof (packet_enc_big _ _ _ Hp) as BG.
      destruct (ok_insert_tail fs l w p e c J M FI D (or_introl (conj LJ (N.lt_le_incl _ _ (N.lt_le_trans _ _ _ LJ (N.le_trans 16 29 _ ltac:(discriminate) BG))))) (pkt_write_all_ok P p e [] Hp) (packet_enc_nonempty _ _ _ Hp)) as (w1 & E & OK1). rewrite E. cbn [rbind].
      destruct (steps_ok P os (fst (push fs l e)) (snd (push fs l e)) w1 es2 OK1) as (fs' & l' & w' & E' & OK' & CC).
      * rewrite concat_push. apply Forall_app. split; [exact NE|]. repeat constructor. now apply (packet_enc_nonempty _ _ _ Hp).
      * exact FE2. * rewrite concat_push, <- app_assoc. exact B.
      * exists w', []. split; [exact E'|]. split; [reflexivity|]. rewrite app_nil_r, (history_data _ _ _ OK'), CC, concat_push, <- app_assoc. reflexivity.
    + rewrite FI. unfold fl_data. cbn [fl_cur]. rewrite D.
      destruct (open_tail fs l J SH NE) as (w1 & c1 & E & M1 & FI1 & D1); [|exact LJ|].
      { rewrite <- storage_shaped by exact SH. pose proof (storage_mono (concat fs ++ l) es'). lia. }
      rewrite E. cbn [rbind]. apply (IH fs l w1 c1 J es' M1 FI1 D1); auto.
Qed.

Lemma reopen_tail {U} (P : proto U) os es es' J : nonempty_all es -> Forall2 (packet_enc P) (w_inserted os) es' -> blen (storage_file (es ++ es')) < two63 -> blen J < 16 ->
  exists w w' J', w_open (healthy (storage_file es ++ J)) = Ok w /\ w_steps os w = Ok w' /\ blen J' < 16 /\ w_data w' = storage_file (es ++ es') ++ J'.
Proof.
  intros NE FE B LJ. destruct (decompose es) as (fs & l & SH & ->). pose proof (storage_mono (concat fs ++ l) es') as MO. rewrite storage_shaped in MO |- * by exact SH.
  destruct (open_tail fs l J SH NE ltac:(lia) LJ) as (w & c & E & M & FI & D). exists w.
  destruct (steps_tail P os fs l w c J es' M FI D LJ NE FE B) as (w' & J' & Q). exists w', J'. split; [exact E|exact Q].
Qed.

(** ** Inserts that fail *)

(** A crash between the two writes. *)
Lemma crash_between {U} (P : proto U) fs l w (p : packet U) e : w_ok fs l w -> nonempty_all (concat fs ++ l) -> packet_enc P p e ->
  blen (storage_file ((concat fs ++ l) ++ [e])) < two63 ->
  exists w' c', w_insert p (w_faults [Accept tsz; WFail OtherIo] [] w) = (Err (EIo OtherIo), w') /\ load (mk_cursor (w_data w') 0) = (Panic POverflow, c').
Proof.
  intros OK NE HE B. pose proof (ok_shaped _ _ _ OK) as SH. pose proof SH as (F & L). destruct OK as [M (c0 & FI & D0)].
  pose proof (shaped_filled _ _ SH NE) as FG. assert (Forall filled fs) as FF by (unfold gro in FG; now apply Forall_app in FG).
  rewrite (insert_ok (map (map blen) fs) (map blen l) (w_faults _ [] w) p e M (pkt_write_all_ok P p e [] HE)).
  assert (length (map blen l ++ [blen e]) <= C)%nat as LS by (rewrite app_length, map_length; cbn [length]; lia).
  unfold w_faults. cbn [w_file]. rewrite FI. cbn [fl_cur]. unfold w_store. cbn [file_flush fl_flushes sbind]. rewrite (lsl_bytes _ LS).
  set (T' := slot_table (map blen l ++ [blen e])) in *. assert (blen T' = tsz) as LT by now apply slot_table_length.
  assert (T' <> []) as NT by (intros Q; rewrite Q in LT; discriminate LT).
  cbn [sbind]. unfold file_seek, file_write_all. cbn [fl_sched fl_cur fl_flushes].
  assert (forall bs c s, bs <> [] -> file_write_all_go (Accept (blen bs) :: s) bs c = (Ok tt, (c_write bs c, s))) as W1.
  { intros bs c s NB. destruct bs as [|b bs]; [contradiction|]. set (X := b :: bs). unfold X at 2. cbn [file_write_all_go]. fold X. rewrite N.min_id, to_nat_blen.
    change (length X) with (S (length bs)). cbv iota. change (S (length bs)) with (length X). rewrite skipn_all, firstn_all. destruct s; reflexivity. }
  rewrite <- LT, W1 by exact NT. cbn [sbind fl_cur fl_sched fl_flushes file_flush].
  destruct e as [|e0 e]; [now apply packet_enc_nonempty in HE|]. cbn [file_write_all_go sbind].
  eexists. eassert (exists c', _) as (c' & Hc); [|exists c'; split; [reflexivity|exact Hc]].
  unfold w_data, fl_data. cbn [w_file fl_cur c_seek c_data c_write c_pos]. rewrite D0.
  assert (blen (files fs) = gszs (map (map blen) fs)) as LA by (apply files_blen; eapply Forall_impl; [|exact FF]; intros g Q; apply Q).
  assert (length (files fs) = N.to_nat (gszs (map (map blen) fs))) as LA' by (rewrite <- LA, to_nat_blen; reflexivity).
  apply (load_past fs (map blen l ++ [blen (e0 :: e)]) (concat l)); auto.
  - cbn [c_data]. unfold gro. rewrite files_app, overwrite_at by assumption. fold T'. do 2 f_equal.
    destruct l as [|y l']; [apply skipn_nil|]. rewrite files_one. unfold gfile. apply skipn_app_exact. unfold T'. rewrite !table_len; [reflexivity|rewrite map_length; lia|exact LS].
  - pose proof (storage_mono (concat fs ++ l) [e0 :: e]) as MO. rewrite (storage_shaped fs l SH) in MO. unfold gro in MO. rewrite files_app, blen_app in MO. lia.
  - split; [exact LS|]. pose proof (proj2 (proj2 (shaped_full fs l SH NE))) as PA. apply Forall_app. split; [exact PA|]. repeat constructor.
  - apply Forall_forall. intros n I. apply sum_in in I. rewrite sum_app, <- concat_blen in I. cbn [sum fold_right] in I.
    rewrite <- concat_push, storage_shaped in B by now apply shaped_push. rewrite gro_push, files_app, files_one, blen_app in B. unfold gfile in B. rewrite concat_app in B. cbn [concat] in B. rewrite !blen_app in B.
    unfold two63, two64 in *. lia.
  - rewrite concat_blen, sum_app. cbn [sum fold_right]. rewrite blen_cons. lia.
Qed.

Lemma overwrite_past p bs d : bs <> [] -> (length d <= N.to_nat p)%nat -> overwrite p bs d = d ++ zeros (N.to_nat p - length d) ++ bs.
Proof.
  intros NE L. unfold overwrite. destruct bs as [|b bs]; [contradiction|]. rewrite firstn_all2, skipn_all2 by lia. now rewrite app_nil_r.
Qed.

(** An insert that fails at once, and the next one. *)
Lemma fail_then {U} (P : proto U) fs l w (p q : packet U) e e' : w_ok fs l w -> nonempty_all (concat fs ++ l) -> packet_enc P p e -> packet_enc P q e' ->
  (length l + 1 < C)%nat ->
  exists w1, w_insert p (w_faults [] [Some OtherIo] w) = (Err (EIo OtherIo), w1) /\ w_data w1 = w_data w /\
    exists w2, w_insert q w1 = (Ok tt, w2) /\ w_data w2 = storage_file ((concat fs ++ l) ++ [zeros (length e); e']).
Proof.
  intros OK NE HE HE' LC. pose proof (ok_shaped _ _ _ OK) as SH. pose proof SH as (F & L). destruct OK as [M (c0 & FI & D0)].
  rewrite (insert_ok (map (map blen) fs) (map blen l) (w_faults _ _ w) p e M (pkt_write_all_ok P p e [] HE)).
  unfold w_store at 1. unfold w_faults. cbn [w_file]. cbn [file_flush fl_flushes sbind fl_cur fl_sched]. rewrite FI. cbn [fl_cur].
  eexists. split; [reflexivity|]. split; [unfold w_data; rewrite FI; reflexivity|].
  assert (0 < blen e) as PE by (pose proof (packet_enc_big _ _ _ HE); lia). assert (0 < blen e') as PE' by (pose proof (packet_enc_big _ _ _ HE'); lia).
  pose proof (mem_push _ _ (blen e) _ _ M PE) as Q. unfold push in Q. rewrite map_length in Q. replace (length l + 1 =? C)%nat with false in Q by lia. cbn [fst snd] in Q.
  set (w1 := mk_writer _ _ _).
  rewrite (insert_ok (map (map blen) fs) (map blen l ++ [blen e]) w1 q e' Q (pkt_write_all_ok P q e' [] HE')). cbn [w_file w1].
  set (lens := (map blen l ++ [blen e]) ++ [blen e']).
  assert (length lens <= C)%nat as LS by (unfold lens; rewrite !app_length, map_length; cbn [length]; lia).
  match goal with |- context [w_store _ ?so ?off _ _] => destruct (store_ok (lsl lens) so off _ e' c0 (lsl_bytes _ LS)) as (c' & -> & D') end.
  eexists. split; [reflexivity|]. unfold w_data, fl_data. cbn [w_file fl_cur]. rewrite D', D0.
  assert (blen (files fs) = gszs (map (map blen) fs)) as LA.
  { apply files_blen. eapply Forall_impl; [|exact F]. intros g Eg. cbv beta in Eg. unfold small. lia. }
  assert (length (files fs) = N.to_nat (gszs (map (map blen) fs))) as LA' by (rewrite <- LA, to_nat_blen; reflexivity).
  assert (blen (slot_table lens) = tsz) as LT by now apply slot_table_length.
  unfold gro. rewrite files_app, overwrite_at; [|exact LA'|intros Z; rewrite Z in LT; discriminate LT].
  assert (skipn (length (slot_table lens)) (files match l with [] => [] | _ => [l] end) = concat l) as ->.
  { destruct l as [|y l']; [apply skipn_nil|]. rewrite files_one. unfold gfile. apply skipn_app_exact. rewrite !table_len; [reflexivity|rewrite map_length; lia|exact LS]. }
  assert (N.to_nat (gszs (map (map blen) fs) + (sum (map blen l ++ [blen e]) + tsz)) = length (files fs ++ slot_table lens ++ concat l) + length e)%nat as EO.
  { rewrite sum_app, <- concat_blen. cbn [sum fold_right]. rewrite N.add_0_r, !N2Nat.inj_add, !to_nat_blen, !app_length, table_len, LA' by exact LS. lia. }
  rewrite overwrite_past; [|intros ->; discriminate PE'|rewrite EO; lia]. rewrite EO. rewrite Nat.add_comm, Nat.add_sub.
  replace ((concat fs ++ l) ++ [zeros (length e); e']) with ((concat fs ++ (l ++ [zeros (length e)])) ++ [e']) by now rewrite <- !app_assoc.
  rewrite <- concat_push, storage_shaped by (apply shaped_push; split; [exact F|rewrite app_length; cbn [length]; lia]).
  rewrite gro_push, files_app, files_one. unfold gfile. rewrite !map_app, !concat_app. cbn [map concat]. rewrite !app_nil_r.
  replace (blen (zeros (length e))) with (blen e) by (unfold zeros, blen; now rewrite repeat_length). fold lens. now rewrite <- !app_assoc.
Qed.
