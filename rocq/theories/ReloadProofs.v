(** * [reload] and readers in use. *)
From Coq Require Import ZifyBool ZifyNat ZifyN.
From Verif Require Import Base Crc32 Io File Block Payload Packet Rules Slot Storage StreamReader Spec SpecStorage BaseProofs CrcProofs BlockProofs PayloadProofs PacketProofs PacketSafeProofs RulesProofs WireProofs StreamProofs StreamItemProofs SlotProofs StorageProofs StorageReadProofs.
Ltac Zify.zify_post_hook ::= Z.div_mod_to_equations.
Open Scope list_scope.
Local Notation C := default_capacity.

Lemma setup_next fs l slots loc : Forall fullg fs -> (length l < C)%nat -> pos_all l ->
  slots = map lsl fs ++ [lsl l] \/ l = [] /\ slots = map lsl fs -> lc_next (lc_setup slots loc) = length fs.
Proof.
  intros F L Q [->|(-> & ->)]; unfold lc_setup.
  - rewrite setup_full by exact F. cbn [lc_setup_go]. now rewrite lsl_free.
  - rewrite <- (app_nil_r (map lsl fs)), setup_full by exact F. reflexivity.
Qed.

Lemma anch_app a b : forall off, anch off (a ++ b) = anch off a ++ anch (off + gszs (map (map blen) a)) b.
Proof.
  induction a as [|g a IH]; intros off; cbn [app anch map].
  - unfold gszs. cbn [map sum fold_right]. now rewrite N.add_0_r.
  - rewrite IH. change (gszs (map blen g :: map (map blen) a)) with (gsz (map blen g) + gszs (map (map blen) a)). now rewrite N.add_assoc.
Qed.

Lemma reload_append count gs : forall fuel A slots c, c_data c = A ++ files gs -> Forall filled gs -> blen (A ++ files gs) < two63 -> (length gs < fuel)%nat ->
  (count <= length slots)%nat ->
  exists c', reload_go fuel None count (blen A) slots c =
    (Ok (match gs with [] => if (length slots =? count)%nat then inl O else inr tt | _ => inr tt end), (slots ++ anch (blen A) gs, c')) /\ c_data c' = c_data c.
Proof.
  induction gs as [|g gs IH]; intros fuel A slots c D F B LF CL; (destruct fuel as [|fuel]; [lia|]); cbn [reload_go].
  - change (files []) with (@nil byte) in D. rewrite app_nil_r in D. rewrite try_end by exact D. cbn [anch]. rewrite app_nil_r.
    destruct (length slots =? count)%nat; eexists; split; reflexivity.
  - inversion F as [|? ? Hg F']; subst. change (files (g :: gs)) with (gfile g ++ files gs) in *. rewrite !blen_app, gfile_blen in B by apply Hg.
    destruct (try_group A g (files gs) c D (proj1 Hg)) as (c1 & E & D1).
    { unfold gsz in B. rewrite concat_blen. unfold two63, two64 in *. lia. }
    rewrite E. rewrite lsl_total by now apply filled_good.
    assert (blen (A ++ gfile g) = blen A + gsz (map blen g)) as LA by (rewrite blen_app, gfile_blen by apply Hg; reflexivity). rewrite <- LA.
    cbv zeta. replace (two64 <=? blen (A ++ gfile g)) with false by (rewrite LA; unfold two63, two64 in *; lia).
    destruct (IH fuel (A ++ gfile g) (slots ++ [(lsl (map blen g), blen A)]) c1) as (c' & E' & D').
    + rewrite D1, D, <- app_assoc. reflexivity. + exact F'. + rewrite !blen_app, gfile_blen by apply Hg. lia. + cbn [length] in LF. lia.
    + rewrite app_length. lia.
    + exists c'. rewrite E', <- app_assoc. cbn [app anch]. rewrite LA. split; [|congruence]. do 2 f_equal.
      destruct gs; [|reflexivity]. rewrite app_length. cbn [length]. now replace (length slots + 1 =? count)%nat with false by lia.
Qed.

Lemma last_none fs : Forall fullg (map (map blen) fs) -> last_slot (anch 0 fs) = (None, gszs (map (map blen) fs)).
Proof.
  intros F. destruct fs as [|g fs] using rev_ind; [reflexivity|]. clear IHfs. rewrite map_app in F. apply Forall_app in F as (_ & F). inversion F as [|? ? Hg _]; subst.
  unfold last_slot. rewrite anch_app, rev_app_distr. cbn [anch rev app]. rewrite lsl_full by exact Hg.
  destruct Hg as (H1 & H2). unfold lsl at 1. rewrite tab_free_index by (auto; lia). replace (length (map blen g) <? C)%nat with false by lia.
  rewrite lsl_width, lsl_size by (split; [lia|exact H2]). rewrite map_app, gszs_app. unfold gszs at 3, gsz. cbn [map sum fold_right]. f_equal. unfold gsz. lia.
Qed.
Lemma last_some fs l : (length l < C)%nat -> pos_all (map blen l) ->
  last_slot (anch 0 (fs ++ [l])) = (Some (length l, sl_crc (lsl (map blen l))), gszs (map (map blen) fs)).
Proof.
  intros L Q. unfold last_slot. rewrite anch_app, rev_app_distr. cbn [anch rev app].
  rewrite lsl_free by (auto; now rewrite map_length). unfold lsl at 1. rewrite tab_free_index by (auto; rewrite map_length; lia).
  rewrite map_length. replace (length l <? C)%nat with true by lia. reflexivity.
Qed.

Lemma table_sum_eq fs l x : shaped fs l -> table_sum (length (concat fs ++ l)) (concat fs ++ x) = skipn 4016 (slot_table (map blen x)).
Proof.
  intros (F & L). unfold table_sum. do 3 f_equal. rewrite app_length, length_concat_full by exact F.
  rewrite <- cap_eq. rewrite Nat.div_add_l by (pose proof cap_pos; lia). rewrite Nat.div_small by exact L. rewrite Nat.add_0_r.
  apply skipn_app_exact. rewrite length_concat_full by exact F. apply Nat.mul_comm.
Qed.
Lemma table_crc lens : (length lens <= C)%nat -> skipn 4016 (slot_table lens) = sl_crc (lsl lens).
Proof.
  intros L. pose proof (slot_table_length lens L) as LT. rewrite slot_table_eq in *. unfold slot_content in *.
  assert (length (sl_crc (lsl lens)) = 4%nat) as L4 by apply crc32_le_length.
  rewrite !app_assoc in *. apply skipn_app_exact. rewrite blen_app in LT. unfold blen, tsz in LT. rewrite L4 in LT.
  change 4016%nat with (N.to_nat 4016). lia.
Qed.

(** A reader whose file ends with the last packet. *)
Record d_ok_exact {U} (es : list bytes) (r : sreader U) : Prop := {
  de_ex : exists fs l, shaped fs l /\ es = concat fs ++ l /\ d_slots r = anch 0 (gro fs l) /\
    c_data (d_file r) = files (gro fs l) /\ lc_next (d_loc r) = length fs;
  de_bytes : nonempty_all es }.
Lemma exact_ok {U} es (r : sreader U) : blen (storage_file es) < two63 -> d_ok_exact es r -> d_ok es r.
Proof. intros B [(fs & l & A1 & A2 & A3 & A4 & A5) NE]. split; auto. exists fs, l, []. rewrite app_nil_r. auto. Qed.

Lemma reload_fresh {U} es es' (r : sreader U) : d_ok es r -> nonempty_all es' -> blen (storage_file (es ++ es')) < two63 -> reload_follows es es' ->
  exists r', d_reload (d_refresh (storage_file (es ++ es')) r) = (Ok (reload_number es es'), r') /\ d_ok (es ++ es') r' /\ d_rules r' = d_rules r.
Proof.
  intros [(fs & l & J & SH & EE & DS & DD & DL) NE _] NE' B SEES. clear DD.
  assert (forall r' : sreader U, d_ok_exact (es ++ es') r' -> d_ok (es ++ es') r') as EX by (intros r' H; apply exact_ok; [exact B|exact H]). unfold d_reload. cbn [d_refresh d_slots d_file d_loc d_rules c_data]. rewrite DS.
  assert (nonempty_all (es ++ es')) as NA by (apply Forall_app; auto). subst es. set (es := concat fs ++ l) in *.
  destruct (shaped_full _ _ SH NE) as (A1 & A2 & A3). pose proof SH as (F & L). pose proof cap_pos as CP.
  assert (Forall filled fs) as FF.
  { pose proof (shaped_filled _ _ SH NE) as Q. unfold gro in Q. now apply Forall_app in Q as (Q & _). }
  assert (Forall small fs) as FS by (eapply Forall_impl; [|exact FF]; intros g Hg; apply Hg).
  assert (length es mod C = length l)%nat as MOD.
  { unfold es. rewrite app_length, length_concat_full by exact F. rewrite Nat.add_comm, Nat.mod_add by lia. now apply Nat.mod_small. }
  assert (l = [] \/ l <> []) as [LE|LN] by (destruct l; [left; reflexivity|right; discriminate]).
  - (* the last slot was full, or there was none *)
    subst l.
    destruct (decompose es') as (fs2 & l2 & SH2 & E2).
    assert (es ++ es' = concat (fs ++ fs2) ++ l2) as EN by (unfold es; rewrite E2, app_nil_r, concat_app, <- app_assoc; reflexivity).
    assert (shaped (fs ++ fs2) l2) as SHN by (split; [apply Forall_app; split; [exact F|apply SH2]|apply SH2]).
    assert (reload_number es es' = if (length l2 =? 0)%nat then length es' - C else length es')%nat as NUM.
    { unfold reload_number. rewrite EN, app_length, length_concat_full, <- cap_eq, MOD by apply SHN. cbn [length]. rewrite Nat.add_comm, Nat.mod_add, Nat.mod_small by (lia || apply SH2). reflexivity. }
    rewrite NUM. clear NUM. rewrite EN, storage_shaped in * by exact SHN. assert (gro (fs ++ fs2) l2 = fs ++ gro fs2 l2) as GG by (unfold gro; now rewrite app_assoc).
    assert (gro fs (@nil bytes) = fs) as GN by (unfold gro; apply app_nil_r). rewrite GN in *. rewrite GG in *.
    pose proof (shaped_filled _ _ SHN NA) as FN. rewrite GG in FN. pose proof FN as FN'. apply Forall_app in FN' as (_ & FG).
    rewrite last_none by exact A1. rewrite anch_length, <- files_blen by exact FS.
    destruct (reload_append (length fs) (gro fs2 l2) (length (files (fs ++ gro fs2 l2)) + 1) (files fs) (anch 0 fs) (mk_cursor (files (fs ++ gro fs2 l2)) (c_pos (d_file r)))) as (c' & E & D').
    + cbn [c_data]. apply files_app. + exact FG. + rewrite <- files_app. exact B.
    + pose proof (files_fuel _ FN) as Q. rewrite app_length in Q. lia. + rewrite anch_length. lia.
    + rewrite E. rewrite files_blen by exact FS. replace (anch 0 fs ++ anch (gszs (map (map blen) fs)) (gro fs2 l2)) with (anch 0 (fs ++ gro fs2 l2)) by (rewrite anch_app; reflexivity).
      rewrite anch_length, Nat.eqb_refl. destruct l2 as [|y l2].
      * cbn [length]. rewrite Nat.eqb_refl. rewrite app_nil_r in E2. assert (gro fs2 (@nil bytes) = fs2) as GN2 by (unfold gro; apply app_nil_r).
        destruct fs2 as [|g2 fs2] using rev_ind; [|clear IHfs2].
        -- cbn [concat] in E2. subst es'. change (gro [] []) with (@nil (list bytes)). cbv iota.
           eexists. split; [reflexivity|]. split; [|reflexivity]. apply EX. split; cbn [d_slots d_file d_loc]; [|exact NA].
           exists fs, []. rewrite !app_nil_r in *. rewrite GN. split; [exact SH|]. split; [reflexivity|]. split; [reflexivity|].
           split; [rewrite D'; cbn [c_data]; reflexivity|exact DL].
        -- destruct (gro (fs2 ++ [g2]) []) as [|h t] eqn:EG; [destruct fs2; discriminate|]. cbv iota. rewrite <- EG in *. clear EG. eexists. split.
           ++ f_equal. f_equal. unfold reload_count. rewrite anch_length, ?EG, GN2. rewrite app_assoc, anch_app, rev_app_distr. cbn [anch rev app].
              rewrite !app_length. replace (length fs + length fs2 + length [g2] =? length fs)%nat with false by (cbn [length]; lia).
              assert (length (map blen g2) = C /\ pos_all (map blen g2)) as (Z1 & Z2).
              { destruct (shaped_full _ _ SHN NA) as (B1 & _). rewrite !map_app in B1. apply Forall_app in B1 as (_ & B1). apply Forall_app in B1 as (_ & B1). inversion B1; subst. assumption. }
              unfold lsl. rewrite tab_free_index by (auto; lia). replace (length (map blen g2) <? C)%nat with false by lia.
              rewrite E2, length_concat_full, app_length by apply SH2. cbn [length]. replace (length fs + length fs2 + 1 - (length fs + 1))%nat with (length fs2) by lia. lia.
           ++ split; [|reflexivity]. apply EX. split; cbn [d_slots d_file d_loc]; [|exact NA].
              exists (fs ++ fs2 ++ [g2]), []. rewrite GG. split; [exact SHN|]. split; [reflexivity|]. split; [reflexivity|].
              split; [rewrite D'; reflexivity|].
              destruct (shaped_full _ _ SHN NA) as (B1 & B2 & B3). rewrite anch_fst, <- GG. erewrite setup_next; [|exact B1|exact B2|exact B3|apply gro_slots]. apply map_length.
      * assert (gro fs2 (y :: l2) = fs2 ++ [y :: l2]) as G2 by reflexivity.
        replace (length (y :: l2) =? 0)%nat with false by reflexivity.
        destruct (gro fs2 (y :: l2)) as [|h t] eqn:EG; [destruct fs2; discriminate|]. cbv iota. eexists. split.
        -- f_equal. f_equal. unfold reload_count. rewrite anch_length. rewrite G2.
           rewrite app_assoc, anch_app, rev_app_distr. cbn [anch rev app].
           assert (Forall fullg (map (map blen) (fs ++ fs2)) /\ (length (map blen (y :: l2)) < C)%nat /\ pos_all (map blen (y :: l2))) as (_ & B2 & B3) by (apply shaped_full; assumption).
           rewrite !app_length. replace (length fs + length fs2 + length [y :: l2] =? length fs)%nat with false by (cbn [length]; lia).
           unfold lsl. rewrite tab_free_index by (auto; lia). replace (length (map blen (y :: l2)) <? C)%nat with true by lia.
           rewrite map_length, E2, app_length, length_concat_full by apply SH2. replace (length fs + length fs2 + length [y :: l2] - (length fs + 1))%nat with (length fs2) by (cbn [length]; lia). lia.
        -- split; [|reflexivity]. apply EX. split; cbn [d_slots d_file d_loc]; [|exact NA].
           exists (fs ++ fs2), (y :: l2). rewrite GG. split; [exact SHN|]. split; [reflexivity|]. split; [reflexivity|].
           split; [rewrite D'; reflexivity|].
           destruct (shaped_full _ _ SHN NA) as (B1 & B2 & B3). rewrite anch_fst, <- GG. erewrite setup_next; [|exact B1|exact B2|exact B3|apply gro_slots]. apply map_length.
  - (* the last slot had room *)
    assert (gro fs l = fs ++ [l]) as GL by (unfold gro; destruct l; [contradiction|reflexivity]). rewrite GL in *.
    rewrite last_some, anch_length, app_length by (auto; now rewrite map_length in A2). cbn [length].
    assert (reload_number es es' = length es') as NUM.
    { unfold reload_number. rewrite <- cap_eq, MOD. destruct l; [contradiction|reflexivity]. }
    rewrite NUM. clear NUM. assert (length l + length es' <= C)%nat as FIT.
    { destruct SEES as [->|[Q|(Q & _)]]; [cbn [length]; lia| |].
      - exfalso. rewrite <- cap_eq, MOD in Q. destruct l; [contradiction|discriminate].
      - revert Q. rewrite <- cap_eq. unfold es. rewrite !app_length, !length_concat_full by exact F. rewrite Nat.div_add_l, Nat.div_small by lia. nia. }
    assert (filled (l ++ es')) as FLN.
    { split; [rewrite app_length; exact FIT|]. apply Forall_app. split; [|exact NE']. unfold es in NE. now apply Forall_app in NE as (_ & NE). }
    assert (storage_file (es ++ es') = files (fs ++ [l ++ es'])) as EF.
    { unfold es. rewrite <- app_assoc. destruct (Nat.lt_ge_cases (length (l ++ es')) C) as [H|H].
      - rewrite storage_shaped by (split; assumption). f_equal. unfold gro. destruct (l ++ es') eqn:Q; [destruct l; [contradiction|discriminate]|reflexivity].
      - rewrite <- (app_nil_r (l ++ es')), app_assoc. replace (concat fs ++ (l ++ es')) with (concat (fs ++ [l ++ es'])) by (rewrite concat_app; cbn [concat]; now rewrite app_nil_r).
        rewrite storage_shaped; [unfold gro; now rewrite !app_nil_r|]. split; [|exact CP]. apply Forall_app. split; [exact F|]. repeat constructor. rewrite app_length in *. lia. }
    rewrite EF in *. rewrite files_app, files_one in B.
    rewrite <- files_blen by exact FS. rewrite Nat.add_1_r. cbn [reload_go].
    destruct (try_group (files fs) (l ++ es') [] (mk_cursor (files (fs ++ [l ++ es'])) (c_pos (d_file r)))) as (c1 & E1 & D1).
    { cbn [c_data]. rewrite files_app, files_one, app_nil_r. reflexivity. } { apply FLN. }
    { rewrite blen_app, gfile_blen in B by apply FLN. unfold gsz in B. rewrite concat_blen. unfold two63, two64 in *. lia. }
    rewrite E1. rewrite anch_length, app_length. cbn [length]. rewrite Nat.add_1_r, Nat.eqb_refl.
    destruct (bytes_eqb (sl_crc (lsl (map blen l))) (sl_crc (lsl (map blen (l ++ es'))))) eqn:EC.
    + (* no change *)
      assert (es' = []) as ->.
      { destruct SEES as [Q|[Q|(_ & Q)]]; [exact Q| |].
        - exfalso. rewrite <- cap_eq, MOD in Q. destruct l; [contradiction|discriminate].
        - exfalso. apply Q. unfold es at 2 4. rewrite <- app_assoc. unfold es. rewrite !table_sum_eq, !table_crc by (exact SH || rewrite map_length; rewrite ?app_length; lia).
          now apply bytes_eqb_eq. }
      rewrite app_nil_r in *. eexists. split; [reflexivity|]. split; [|reflexivity]. apply EX. split; cbn [d_slots d_file d_loc]; [|exact NA].
      exists fs, l. rewrite GL. split; [exact SH|]. split; [reflexivity|]. split; [reflexivity|]. split; [|exact DL]. rewrite D1. reflexivity.
    + replace (S (length fs) - 1)%nat with (length fs) by lia. rewrite anch_app. cbn [anch].
      assert (length (anch 0 fs) = length fs) as LA by apply anch_length. rewrite <- LA. rewrite nth_mid, set_nth_end. rewrite LA.
      rewrite N.add_0_l. replace (anch 0 fs ++ [(lsl (map blen (l ++ es')), gszs (map (map blen) fs))]) with (anch 0 (fs ++ [l ++ es'])) by (rewrite anch_app; reflexivity).
      destruct (filled_good _ FLN) as (G1 & G2).
      assert (free_slot_index (lsl (map blen (l ++ es'))) = if (length (l ++ es') <? C)%nat then Some (length (l ++ es')) else None) as FI.
      { unfold lsl. rewrite tab_free_index by assumption. now rewrite map_length. }
      assert (exists c2, (match free_slot_index (lsl (map blen (l ++ es'))) with
          | Some _ => (if two64 <=? slot_size (lsl (map blen (l ++ es'))) + slot_width (lsl (map blen (l ++ es'))) then Panic POverflow else Ok (inr tt),
                       (anch 0 (fs ++ [l ++ es']), c1))
          | None =>
              let next := blen (files fs) + (slot_size (lsl (map blen (l ++ es'))) + slot_width (lsl (map blen (l ++ es')))) in
              if two64 <=? next then (Panic POverflow, (anch 0 (fs ++ [l ++ es']), c1)) else
              reload_go (length (files (fs ++ [l ++ es']))) (Some (length l, sl_crc (lsl (map blen l)))) (S (length fs)) next (anch 0 (fs ++ [l ++ es'])) c1
          end = (Ok (inr tt), (anch 0 (fs ++ [l ++ es']), c2))) /\ c_data c2 = files (fs ++ [l ++ es'])) as (c2 & E2 & D2).
      { rewrite FI, lsl_total by (split; assumption). destruct (length (l ++ es') <? C)%nat.
        { exists c1. rewrite <- gfile_blen by apply FLN. replace (two64 <=? blen (gfile (l ++ es'))) with false by (rewrite blen_app in B; unfold two63, two64 in *; lia).
          split; [reflexivity|rewrite D1; reflexivity]. } rewrite <- gfile_blen by apply FLN. rewrite <- blen_app, <- files_one, <- files_app. cbv zeta.
        replace (two64 <=? blen (files (fs ++ [l ++ es']))) with false by (rewrite files_app, files_one; unfold two63, two64 in *; lia).
        assert (exists f, length (files (fs ++ [l ++ es'])) = S f) as (f & ->).
        { pose proof (files_fuel (fs ++ [l ++ es'])) as Q. rewrite app_length in Q. cbn [length] in Q.
          destruct (length (files (fs ++ [l ++ es']))); [|eauto]. exfalso. assert (Forall filled (fs ++ [l ++ es'])) as Z by (apply Forall_app; split; [exact FF|repeat constructor; apply FLN]). apply Q in Z. lia. }
        cbn [reload_go]. rewrite try_end by (rewrite D1; reflexivity). rewrite anch_length, app_length. cbn [length]. rewrite Nat.add_1_r, Nat.eqb_refl.
        change (16 =? slot_hdr_size) with true. cbv iota. eexists. split; [reflexivity|]. cbn [c_seek c_data]. rewrite D1. reflexivity. }
      cbv zeta in E2. rewrite E2. eexists. split.
      * f_equal. f_equal. unfold reload_count. rewrite anch_length, app_length. cbn [length]. rewrite Nat.add_1_r, Nat.eqb_refl.
        rewrite anch_app, rev_app_distr. cbn [anch rev app]. rewrite FI, app_length. destruct (Nat.ltb_spec (length l + length es') C); lia.
      * split; [|reflexivity]. apply EX. clear EX. split; cbn [d_slots d_file d_loc]; [|exact NA].
        assert (es ++ es' = concat fs ++ (l ++ es')) as EA by (unfold es; now rewrite <- app_assoc).
        rewrite EA in *. destruct (Nat.lt_ge_cases (length (l ++ es')) C) as [H|H].
        -- exists fs, (l ++ es'). assert (gro fs (l ++ es') = fs ++ [l ++ es']) as GE by (unfold gro; destruct (l ++ es') eqn:Q; [destruct l; [contradiction|discriminate]|reflexivity]).
           assert (shaped fs (l ++ es')) as SHN by (split; assumption). rewrite GE. split; [exact SHN|]. split; [reflexivity|]. split; [reflexivity|]. split; [exact D2|].
           destruct (shaped_full _ _ SHN NA) as (B1 & B2 & B3). rewrite anch_fst, <- GE. erewrite setup_next; [|exact B1|exact B2|exact B3|apply gro_slots]. apply map_length.
        -- exists (fs ++ [l ++ es']), []. assert (gro (fs ++ [l ++ es']) [] = fs ++ [l ++ es']) as GE by (unfold gro; apply app_nil_r).
           assert (shaped (fs ++ [l ++ es']) []) as SHN by (split; [apply Forall_app; split; [exact F|repeat constructor; rewrite app_length in *; lia]|exact CP]).
           rewrite GE. split; [exact SHN|]. split; [rewrite concat_app; cbn [concat]; now rewrite !app_nil_r|]. split; [reflexivity|]. split; [exact D2|].
           assert (nonempty_all (concat (fs ++ [l ++ es']) ++ [])) as NB by (rewrite concat_app; cbn [concat]; rewrite !app_nil_r; exact NA).
           destruct (shaped_full _ _ SHN NB) as (B1 & B2 & B3). rewrite anch_fst, <- GE. erewrite setup_next; [|exact B1|exact B2|exact B3|apply gro_slots]. rewrite map_length, ?GE. reflexivity.
Qed.
