(** * What [reload] and [seek] do where they go wrong. *)
From Coq Require Import ZifyBool ZifyNat ZifyN.
From Verif Require Import Base Crc32 Io File Block Payload Packet Rules Slot Storage StreamReader Spec SpecStorage BaseProofs CrcProofs BlockProofs PayloadProofs PacketProofs PacketSafeProofs RulesProofs WireProofs StreamProofs StreamItemProofs SlotProofs StorageProofs StorageReadProofs ReloadProofs ReadingProofs.
Ltac Zify.zify_post_hook ::= Z.div_mod_to_equations.
Open Scope list_scope.
Local Notation C := default_capacity.

(** ** [reload] over a slot boundary *)
Definition entries (s : slot * N) : Prop := length (sl_lengths (fst s)) = C.
Lemma lsl_entries lens off : (length lens <= C)%nat -> entries (lsl lens, off).
Proof. intros L. unfold entries, lsl. cbn [fst]. rewrite tab_lengths, app_length, repeat_length. lia. Qed.
Lemma anch_entries gs off : Forall filled gs -> Forall entries (anch off gs).
Proof.
  intros F. revert off. induction F as [|g gs H F IH]; intros off; cbn [anch]; constructor; auto. apply lsl_entries. rewrite map_length. apply H.
Qed.
Lemma free_position_lt l : forall i, free_position l = Some i -> (i < length l)%nat.
Proof.
  induction l as [|n l IH]; intros i E; cbn [free_position] in E; [discriminate|]. destruct (n =? 0); [injection E as <-; cbn [length]; lia|].
  destruct (free_position l) as [j|]; [|discriminate E]. injection E as <-. specialize (IH j eq_refl). cbn [length]. lia.
Qed.
Lemma free_index_lt s i : free_slot_index s = Some i -> (i < length (sl_lengths s))%nat.
Proof. unfold free_slot_index. destruct (slot_is_full s); [discriminate|]. apply free_position_lt. Qed.

Lemma count_bound {U} (r : sreader U) : Forall entries (d_slots r) -> (d_count r <= length (d_slots r) * C)%nat.
Proof.
  intros F. unfold d_count. destruct (nth_error (d_slots r) (lc_next (d_loc r))) as [(s & o)|] eqn:N; [|lia].
  destruct (free_slot_index s) as [i|] eqn:E; [|lia]. apply free_index_lt in E.
  assert (lc_next (d_loc r) < length (d_slots r))%nat by (apply nth_error_Some; congruence).
  rewrite Forall_forall in F. apply nth_error_In in N. apply F in N. unfold entries in N. cbn [fst] in N. nia.
Qed.

Lemma set_nth_length {A} (l : list A) : forall i x, length (set_nth i x l) = length l.
Proof. induction l as [|y l IH]; intros [|i] x; cbn [set_nth length]; auto. Qed.
Lemma set_nth_forall {A} (Q : A -> Prop) (l : list A) : Forall Q l -> forall i x, Q x -> Forall Q (set_nth i x l).
Proof. induction 1 as [|y l H F IH]; intros [|i] x HX; cbn [set_nth]; constructor; auto. Qed.

(** Once the last slot is found changed, every new table replaces it. *)
Lemma reload_replaces k crc count gs : forall fuel A slots c, c_data c = A ++ files gs -> Forall filled gs -> blen (A ++ files gs) < two63 -> (length gs < fuel)%nat ->
  length slots = count -> (0 < count)%nat -> Forall entries slots ->
  exists o slots' c', reload_go fuel (Some (k, crc)) count (blen A) slots c = (Ok o, (slots', c')) /\ (o = inl O \/ o = inr tt) /\ length slots' = count /\ Forall entries slots'.
Proof.
  induction gs as [|g gs IH]; intros fuel A slots c D F B LF LS CP FE; (destruct fuel as [|fuel]; [lia|]); cbn [reload_go].
  - change (files []) with (@nil byte) in D. rewrite app_nil_r in D. rewrite try_end by exact D. rewrite LS, Nat.eqb_refl.
    change (16 =? slot_hdr_size) with true. cbv iota. eauto 8.
  - inversion F as [|? ? Hg F']; subst. change (files (g :: gs)) with (gfile g ++ files gs) in *. rewrite !blen_app, gfile_blen in B by apply Hg.
    destruct (try_group A g (files gs) c D (proj1 Hg)) as (c1 & E & D1).
    { unfold gsz in B. rewrite concat_blen. unfold two63, two64 in *. lia. }
    rewrite E. rewrite Nat.eqb_refl. destruct (bytes_eqb crc _); [eauto 8|].
    destruct (nth_error slots (length slots - 1)) as [(s0 & off)|] eqn:N; [|apply nth_error_None in N; lia].
    set (slots1 := set_nth _ _ slots). assert (length slots1 = length slots) as L1 by apply set_nth_length.
    assert (Forall entries slots1) as F1 by (apply set_nth_forall; [exact FE|]; apply lsl_entries; rewrite map_length; apply Hg).
    rewrite lsl_total by now apply filled_good.
    destruct (free_slot_index (lsl (map blen g))); [replace (two64 <=? gsz (map blen g)) with false by (unfold two63, two64 in *; lia); eauto 8|].
    assert (blen (A ++ gfile g) = blen A + gsz (map blen g)) as LA by (rewrite blen_app, gfile_blen by apply Hg; reflexivity). rewrite <- LA.
    cbv zeta. replace (two64 <=? blen (A ++ gfile g)) with false by (rewrite LA; unfold two63, two64 in *; lia).
    apply (IH fuel (A ++ gfile g) slots1 c1); auto.
    + rewrite D1, D, <- app_assoc. reflexivity. + rewrite !blen_app, gfile_blen by apply Hg. lia. + cbn [length] in LF. lia.
Qed.

(** New packets beyond a partly filled slot: some are always missed. *)
Lemma reload_misses {U} es es' (r : sreader U) : d_ok es r -> nonempty_all es' -> blen (storage_file (es ++ es')) < two63 ->
  (length es mod 500 <> 0)%nat -> (500 * (length es / 500 + 1) < length (es ++ es'))%nat ->
  exists n r', d_reload (d_refresh (storage_file (es ++ es')) r) = (Ok n, r') /\ (n < length es')%nat /\ (d_count r' < length (es ++ es'))%nat.
Proof.
  intros [(fs & l & J & SH & EE & DS & DD & DL) NE _] NE' B M X. clear DD.
  assert (nonempty_all (es ++ es')) as NA by (apply Forall_app; auto). rewrite <- cap_eq in *. pose proof cap_pos as CP. pose proof SH as (F & L).
  assert (length es = length fs * C + length l)%nat as LE by (rewrite EE, app_length, length_concat_full by exact F; reflexivity).
  assert (l <> []) as LN. { intros ->. apply M. rewrite LE. cbn [length]. rewrite Nat.add_0_r. apply Nat.mod_mul. lia. }
  assert (length es / C = length fs)%nat as DV by (rewrite LE, Nat.div_add_l, Nat.div_small by lia; lia). rewrite DV in X.
  rewrite EE in NE. destruct (shaped_full _ _ SH NE) as (A1 & A2 & A3). rewrite map_length in A2.
  assert (Forall filled fs) as FF. { pose proof (shaped_filled _ _ SH NE) as Q. unfold gro in Q. now apply Forall_app in Q as (Q & _). }
  assert (gro fs l = fs ++ [l]) as GL by (unfold gro; destruct l; [contradiction|reflexivity]).
  assert (exists gs, storage_file (es ++ es') = files fs ++ files gs /\ Forall filled (fs ++ gs)) as (gs & EF & FG).
  { destruct (decompose (l ++ es')) as (fs2 & l2 & SH2 & E2). exists (gro fs2 l2).
    assert (es ++ es' = concat (fs ++ fs2) ++ l2) as EN by (rewrite EE, <- app_assoc, E2, concat_app, <- app_assoc; reflexivity).
    assert (shaped (fs ++ fs2) l2) as SHN by (split; [apply Forall_app; split; [exact F|apply SH2]|apply SH2]).
    assert (gro (fs ++ fs2) l2 = fs ++ gro fs2 l2) as GG by (unfold gro; now rewrite app_assoc).
    rewrite EN in *. rewrite storage_shaped, GG by exact SHN. split; [apply files_app|]. rewrite <- GG. now apply shaped_filled. }
  assert (Forall small fs) as FS by (eapply Forall_impl; [|exact FF]; intros g Hg; apply Hg).
  unfold d_reload. cbn [d_refresh d_slots d_file d_loc d_rules c_data]. rewrite DS, GL, last_some by assumption.
  rewrite anch_length, app_length. cbn [length]. rewrite <- files_blen by exact FS.
  destruct (reload_replaces (length l) (sl_crc (lsl (map blen l))) (length fs + 1) gs (length (storage_file (es ++ es')) + 1) (files fs) (anch 0 (fs ++ [l])) (mk_cursor (storage_file (es ++ es')) (c_pos (d_file r)))) as (o & slots & c' & E & O & LS & FE).
  - exact EF. - now apply Forall_app in FG. - rewrite <- EF. exact B.
  - pose proof (files_fuel _ FG) as Q. rewrite files_app, <- EF, app_length in Q. lia.
  - rewrite anch_length, app_length. reflexivity. - lia.
  - apply anch_entries. rewrite <- GL. now apply shaped_filled.
  - rewrite E. assert (length (es ++ es') = length fs * C + length l + length es')%nat as LL by (rewrite app_length, LE; reflexivity).
    assert (forall r' : sreader U, d_slots r' = slots -> (d_count r' < length (es ++ es'))%nat) as CB.
    { intros r' Q. pose proof (count_bound r') as Z. rewrite Q, LS in Z. specialize (Z FE). nia. }
    destruct O as [->| ->]; eexists _, _; (split; [reflexivity|]); split; try (apply CB; reflexivity); [nia|].
    unfold reload_count. rewrite LS, Nat.eqb_refl. destruct (rev slots) as [|(s & off) z] eqn:RV; [nia|].
    assert (entries (s, off)) as ES.
    { assert (In (s, off) slots) as I by (rewrite in_rev, RV; now left). rewrite Forall_forall in FE. now apply FE. }
    unfold entries in ES. cbn [fst] in ES. destruct (free_slot_index s) as [i|] eqn:FI; [apply free_index_lt in FI|]; nia.
Qed.

(** ** Behind the slot sought *)
Section SeekWrong.
Context {U : Type} (P : proto U) (HP : proto_ok P).

(** The iterator goes back to the start of the slot sought, and reads as many bytes as the packets of the next slot have. *)
Lemma seek_wrong es (r : sreader U) ps n p0 e0 : d_ok es r -> Forall2 (packet_enc P) ps es -> Forall few ps ->
  (500 * (n / 500 + 1) < length ps)%nat -> nth_error ps (500 * (n / 500)) = Some p0 -> nth_error es (500 * (n / 500)) = Some e0 ->
  blen e0 <= blen (concat (firstn 500 (skipn (500 * (n / 500 + 1)) es))) ->
  exists t t' t'', d_seek n r = Ok t /\ gives (t_next P) t (map Ok (firstn (500 - n mod 500) (skipn n ps))) t' /\ t_next P t' = (Some (Ok p0), t'').
Proof.
  intros OK FE FW LN NP NE0 SZ. pose proof (encs_length P ps es FE) as LE. pose proof OK as [(fs & l & J & SH & EE & DS & DD & DL) NE B].
  assert (n < length ps)%nat as LN' by (pose proof (Nat.div_mod_eq n 500); pose proof (Nat.mod_upper_bound n 500 ltac:(discriminate)); lia).
  destruct (locate_group (gro fs l) n) as (gs1 & g & gs2 & j & GG & EN & LJ). { rewrite concat_gro, <- EE. lia. }
  destruct (group_bounds fs l gs1 g gs2 SH GG ltac:(lia)) as (L1 & LG & FG). pose proof cap_pos as CP.
  pose proof (shaped_filled fs l SH ltac:(now rewrite <- EE)) as FF. rewrite GG in FF.
  assert (blen (files (gs1 ++ g :: gs2)) < two63) as BF by (now rewrite <- GG, <- storage_shaped, <- EE by exact SH).
  destruct (seek_ok r gs1 g gs2 j J BF) as (c & ES & DC); [now rewrite DS, anch_fst, GG|now rewrite DD, GG|exact FF|exact LJ|]. rewrite <- EN in ES.
  assert (n mod C = j /\ n / C = length gs1)%nat as (MJ & DJ).
  { split; [|].
    - rewrite EN, L1, Nat.add_comm, Nat.mul_comm, Nat.mod_add by (pose proof cap_pos; lia). apply Nat.mod_small. lia.
    - rewrite EN, L1, Nat.mul_comm, Nat.div_add_l, Nat.div_small by (pose proof cap_pos; lia). lia. }
  rewrite <- !cap_eq, ?MJ, DJ in *.
  assert (es = concat gs1 ++ g ++ concat gs2) as EC by (rewrite EE, <- concat_gro, GG, concat_app; reflexivity).
  destruct gs2 as [|h gs2].
  { exfalso. cbn [concat] in EC. rewrite app_nil_r in EC. apply (f_equal (@length bytes)) in EC. rewrite app_length, L1 in EC. lia. }
  specialize (FG ltac:(discriminate)).
  assert (firstn (C - j) (skipn n es) = skipn j g) as EG.
  { rewrite EE, <- concat_gro, GG, EN, skip_groups by lia. rewrite firstn_app, firstn_all2 by (rewrite skipn_length; lia).
    rewrite skipn_length. replace (C - j - (length g - j))%nat with O by lia. cbn [firstn]. apply app_nil_r. }
  assert (firstn C (skipn (C * (length gs1 + 1)) es) = h) as EH.
  { rewrite EC, app_assoc, skipn_app_exact by (rewrite app_length, L1, FG; lia). cbn [concat].
    assert (0 < length h)%nat as LH0.
    { pose proof (shaped_sound fs l SH ltac:(now rewrite <- EE)) as SD. rewrite GG in SD. apply Forall_app in SD as (_ & SD). inversion SD as [|? ? _ SD2]; subst. inversion SD2 as [|? ? (_ & Hh) _]; subst. destruct h; [contradiction|cbn; lia]. }
    destruct (group_bounds fs l (gs1 ++ [g]) h gs2 SH) as (_ & LH & FH); [rewrite GG, <- app_assoc; reflexivity|exact LH0|].
    destruct gs2 as [|k gs2]; [cbn [concat]; rewrite app_nil_r; now apply firstn_all2|].
    rewrite firstn_app, firstn_all2 by lia. rewrite (FH ltac:(discriminate)), Nat.sub_diag. cbn [firstn]. apply app_nil_r. }
  rewrite EH in SZ. clear EH. rewrite EC, <- L1, nth_error_app2, Nat.sub_diag in NE0 by lia.
  destruct g as [|e g]; [cbn [length] in LJ; lia|]. injection NE0 as ->.
  pose proof (forall2_firstn _ (C - j) _ _ (forall2_skipn _ n _ _ FE)) as F2. rewrite EG in F2.
  set (t0 := mk_siter _ _ _ _) in ES. destruct (cursor_start (concat (skipn j (e0 :: g)))) as (V & O).
  destruct (buffer_gives P HP _ _ F2 (forall_firstn _ _ _ (forall_skipn _ _ _ FW)) t0 V O) as (t' & G & TO & TS & TC & TV & _).
  apply Forall_app in FF as (F1 & FF). pose proof (Forall_inv FF) as Hg. pose proof (Forall_inv (Forall_inv_tail FF)) as Hh.
  assert (Forall small gs1) as S1 by (eapply Forall_impl; [|exact F1]; intros x Hx; apply Hx).
  assert (blen (slot_table (map blen (e0 :: g))) = tsz) as LT by (apply slot_table_length; rewrite map_length; apply Hg).
  set (R := concat g ++ files (h :: gs2) ++ J).
  assert (c_data (t_src t') = (files gs1 ++ slot_table (map blen (e0 :: g))) ++ e0 ++ R) as DT.
  { rewrite TC. unfold t0. cbn [t_src]. rewrite DC, DD, GG, files_app. change (files ((e0 :: g) :: h :: gs2)) with (gfile (e0 :: g) ++ files (h :: gs2)). unfold gfile, R. cbn [concat]. rewrite <- !app_assoc. reflexivity. }
  assert (blen (concat h) <= blen (e0 ++ R)) as LR.
  { unfold R. change (files (h :: gs2)) with (gfile h ++ files gs2). unfold gfile. rewrite !blen_app. lia. }
  set (k := (N.to_nat (blen (concat h)) - length e0)%nat).
  assert (length e0 <= N.to_nat (blen (concat h)) /\ N.to_nat (blen (concat h)) <= length e0 + length R)%nat as (K1 & K2).
  { rewrite blen_app in LR. rewrite to_nat_blen. unfold blen in *. lia. }
  assert (e0 ++ R = (e0 ++ firstn k R) ++ skipn k R) as ER by (rewrite <- app_assoc, firstn_skipn; reflexivity).
  rewrite ER in DT. assert (blen (e0 ++ firstn k R) = blen (concat h)) as LK by (apply N2Nat.inj; rewrite to_nat_blen, app_length, firstn_length_le by (unfold k; lia); unfold k; lia).
  destruct (filled_good _ Hh) as (GH1 & GH2).
  assert (slot_width (lsl (map blen h)) = sum (map blen h)) as WH by (apply lsl_width; split; [lia|exact GH2]).
  assert (sum (map blen h) = blen (concat h)) as SH2 by (symmetry; apply concat_blen).
  assert (0 < blen e0) as E0P. { destruct Hg as (_ & Hg). apply Forall_inv in Hg. destruct e0; [contradiction|rewrite blen_cons; lia]. }
  set (t1 := mk_siter (t_off t' + (slot_width (lsl (map blen h)) + slot_size (lsl (map blen h)))) (map (fun g => lsl (map blen g)) gs2) (t_src t') (t_buf t')).
  assert (c_data (t_src t1) = (files gs1 ++ slot_table (map blen (e0 :: g))) ++ (e0 ++ firstn k R) ++ skipn k R) as D1 by exact DT.
  destruct (fetch_ok _ _ _ t1 D1) as (c2 & E2 & _).
  { rewrite files_app, !blen_app in BF. change (files ((e0 :: g) :: h :: gs2)) with (gfile (e0 :: g) ++ gfile h ++ files gs2) in BF. unfold gfile in BF. rewrite !blen_app in *. unfold two63, two64 in *. lia. }
  rewrite blen_app, LT, LK, files_blen in E2 by exact S1.
  assert (Forall2 (packet_enc P) ps (concat gs1 ++ e0 :: (g ++ concat (h :: gs2)))) as FE2 by (rewrite EC in FE; exact FE). clear EC EE NE DD DS.
  apply Forall2_app_inv_r in FE2 as (pa & pb & FA & FB & EP). inversion FB as [|p e pc ec HE FB2 EQ1 EQ2]; subst.
  assert (nth_error (pa ++ p :: pc) (C * length gs1) = Some p) as NP2.
  { rewrite <- L1, <- (encs_length P _ _ FA), nth_error_app2, Nat.sub_diag by lia. reflexivity. }
  rewrite NP2 in NP. injection NP as <-.
  assert (few p) as FP by (apply Forall_app in FW as (_ & FW); now inversion FW).
  destruct (cursor_start (e0 ++ firstn k R)) as (V2 & O2).
  destruct (pkt_read_rt cursor_reader c_rest c_ok (lawful_okl _ _ _ cursor_lawful) P p e0 _ (firstn k R) HP HE FP O2 V2) as (b & EB & _).
  exists t0, t'. eexists. split; [exact ES|]. split; [exact G|].
  unfold t_next, t_ready. rewrite TV. unfold t_locate. rewrite TS. unfold t0. cbn [t_slots map]. rewrite WH.
  replace (sum (map blen h) =? 0) with false by lia. rewrite TO. unfold t0. cbn [t_off].
  match goal with |- context [t_fetch ?a ?b] => replace a with (gszs (map (map blen) gs1) + tsz, gszs (map (map blen) gs1) + tsz + blen (concat h)) end.
  2:{ rewrite lsl_size, SH2. f_equal. lia. }
  match goal with |- context [t_fetch ?a ?b] => replace b with t1 end.
  2:{ unfold t1. rewrite TO, WH. reflexivity. }
  rewrite E2. cbn [t_buf]. rewrite EB. reflexivity.
Qed.
End SeekWrong.

(** ** Tables with the same checksum *)
Definition blind : list N := [324; 81; 77; 247].
Lemma crc_blind pre post : crc32 (pre ++ concat (map (le 8) blind) ++ post) = crc32 (pre ++ concat (map (le 8) (repeat 0 4)) ++ post).
Proof.
  unfold crc32. rewrite !update_app. apply (f_equal (fun x => N.lxor (crc_update x post) u32_max)). set (s := crc_update u32_max pre). clearbody s.
  apply N.lxor_eq. rewrite update_diff by reflexivity. rewrite N.lxor_nilpotent, N.lxor_0_l. vm_compute. reflexivity.
Qed.
Lemma table_blind es es' : map blen es' = blind -> (1 <= length es mod 500 <= 496)%nat -> table_sum (length es) es = table_sum (length es) (es ++ es').
Proof.
  intros E M. assert (length es' = 4)%nat as L4 by (rewrite <- (map_length blen), E; reflexivity).
  destruct (decompose es) as (fs & l & SH & EE). subst es. pose proof SH as (F & L).
  assert (length (concat fs ++ l) mod C = length l)%nat as MOD.
  { rewrite app_length, length_concat_full by exact F. rewrite Nat.add_comm, Nat.mod_add by (pose proof cap_pos; lia). now apply Nat.mod_small. }
  rewrite cap_eq in MOD. rewrite MOD in M. clear MOD.
  rewrite <- app_assoc. rewrite !table_sum_eq by exact SH. rewrite !table_crc by (rewrite map_length, ?app_length, cap_eq; lia).
  rewrite !lsl_crc, (map_app blen), E. set (a := map blen l). assert (length a = length l) as LA by apply map_length. unfold crc32_le. f_equal.
  set (k := (C - length (a ++ blind))%nat). assert (C - length a = 4 + k)%nat as LC by (unfold k; rewrite app_length, LA, cap_eq; cbn [blind length]; lia).
  rewrite LC, repeat_app, <- app_assoc, !map_app, !concat_app, app_assoc, (app_assoc (le 8 (N.of_nat C))). symmetry. apply crc_blind.
Qed.

(** New packets that leave the checksum as it was are not noticed. *)
Lemma reload_blind {U} es es' (r : sreader U) : d_ok es r -> nonempty_all es' -> blen (storage_file (es ++ es')) < two63 ->
  (length es mod 500 <> 0)%nat -> (length (es ++ es') <= 500 * (length es / 500 + 1))%nat -> table_sum (length es) es = table_sum (length es) (es ++ es') ->
  exists r', d_reload (d_refresh (storage_file (es ++ es')) r) = (Ok O, r') /\ d_count r' = length es.
Proof.
  intros OK NE' B M X TS. pose proof (count_ok _ _ OK) as CO. destruct OK as [(fs & l & J & SH & EE & DS & DD & DL) NE _]. clear DD.
  rewrite <- cap_eq in *. pose proof cap_pos as CP. pose proof SH as (F & L).
  assert (length es = length fs * C + length l)%nat as LE by (rewrite EE, app_length, length_concat_full by exact F; reflexivity).
  assert (l <> []) as LN. { intros ->. apply M. rewrite LE. cbn [length]. rewrite Nat.add_0_r. apply Nat.mod_mul. lia. }
  assert (length es / C = length fs)%nat as DV by (rewrite LE, Nat.div_add_l, Nat.div_small by lia; lia). rewrite DV, app_length in X.
  assert (length l + length es' <= C)%nat as FIT by nia. pose proof NE as NE2. rewrite EE in NE2. destruct (shaped_full _ _ SH NE2) as (A1 & A2 & A3). rewrite map_length in A2.
  assert (Forall filled fs) as FF. { pose proof (shaped_filled _ _ SH NE2) as Q. unfold gro in Q. now apply Forall_app in Q as (Q & _). }
  assert (gro fs l = fs ++ [l]) as GL by (unfold gro; destruct l; [contradiction|reflexivity]).
  assert (filled (l ++ es')) as FLN.
  { split; [rewrite app_length; exact FIT|]. apply Forall_app. split; [|exact NE']. now apply Forall_app in NE2 as (_ & NE2). }
  assert (storage_file (es ++ es') = files (fs ++ [l ++ es'])) as EF.
  { rewrite EE, <- app_assoc. destruct (Nat.lt_ge_cases (length (l ++ es')) C) as [H|H].
    - rewrite storage_shaped by (split; assumption). f_equal. unfold gro. destruct (l ++ es') eqn:Q; [destruct l; [contradiction|discriminate]|reflexivity].
    - rewrite <- (app_nil_r (l ++ es')), app_assoc. replace (concat fs ++ (l ++ es')) with (concat (fs ++ [l ++ es'])) by (rewrite concat_app; cbn [concat]; now rewrite app_nil_r).
      rewrite storage_shaped; [unfold gro; now rewrite !app_nil_r|]. split; [|exact CP]. apply Forall_app. split; [exact F|]. repeat constructor. rewrite app_length in *. lia. }
  assert (Forall small fs) as FS by (eapply Forall_impl; [|exact FF]; intros g Hg; apply Hg).
  unfold d_reload. cbn [d_refresh d_slots d_file d_loc d_rules c_data]. rewrite DS, GL, last_some by assumption.
  rewrite anch_length, app_length. cbn [length]. rewrite <- files_blen, (Nat.add_1_r (length (storage_file _))) by exact FS. cbn [reload_go].
  rewrite EF in *. rewrite files_app, files_one in B.
  destruct (try_group (files fs) (l ++ es') [] (mk_cursor (files (fs ++ [l ++ es'])) (c_pos (d_file r)))) as (c1 & E1 & D1).
  { cbn [c_data]. rewrite files_app, files_one, app_nil_r. reflexivity. } { apply FLN. }
  { rewrite blen_app, gfile_blen in B by apply FLN. unfold gsz in B. rewrite concat_blen. unfold two63, two64 in *. lia. }
  rewrite E1. rewrite anch_length, app_length. cbn [length]. rewrite Nat.eqb_refl.
  assert (sl_crc (lsl (map blen l)) = sl_crc (lsl (map blen (l ++ es')))) as EC.
  { rewrite EE, <- app_assoc, !table_sum_eq, !table_crc in TS by (exact SH || rewrite map_length; rewrite ?app_length; lia). exact TS. }
  rewrite <- EC. rewrite bytes_eqb_refl. eexists. split; [reflexivity|].
  rewrite <- CO. unfold d_count. cbn [d_slots d_loc]. rewrite DS, GL. reflexivity.
Qed.
