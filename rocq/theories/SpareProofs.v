(** * A file that ends with an empty slot. *)
From Coq Require Import ZifyBool ZifyNat ZifyN.
From Verif Require Import Base Crc32 Io File Block Payload Packet Rules Slot Storage StreamReader Spec SpecStorage BaseProofs CrcProofs BlockProofs PayloadProofs PacketProofs PacketSafeProofs RulesProofs StreamItemProofs SlotProofs StorageProofs StorageReadProofs ReadingProofs.
Ltac Zify.zify_post_hook ::= Z.div_mod_to_equations.
Open Scope list_scope.
Local Notation C := default_capacity.

Lemma full_groups (es : list bytes) : (length es mod 500 = 0)%nat -> exists fs, shaped fs [] /\ es = concat fs ++ [].
Proof.
  intros M. destruct (decompose es) as (fs & l & SH & EE). exists fs. destruct SH as (F & L).
  assert (l = []).
  { rewrite EE, app_length, length_concat_full in M by exact F. rewrite cap_eq in *. destruct l; [reflexivity|]. cbn [length] in *. lia. }
  subst l. split; [split; [exact F|rewrite cap_eq; cbn [length]; lia]|exact EE].
Qed.

Lemma spare_files fs : shaped fs [] -> storage_file (concat fs ++ []) ++ slot_table [] = files (fs ++ [[]]) /\ blen (slot_table []) = tsz.
Proof.
  intros SH. rewrite storage_shaped by exact SH. unfold gro. rewrite app_nil_r, files_app, files_one. unfold gfile. cbn [map concat]. rewrite app_nil_r.
  split; [reflexivity|]. apply slot_table_length. cbn [length]. lia.
Qed.

Section Spare.
Context {U : Type} (P : proto U) (HP : proto_ok P).

Lemma spare_load es : (length es mod 500 = 0)%nat -> nonempty_all es -> blen (storage_file es ++ slot_table []) < two63 ->
  exists fs c, shaped fs [] /\ es = concat fs ++ [] /\ load (mk_cursor (storage_file es ++ slot_table []) 0) = (Ok (anch 0 (fs ++ [[]])), c) /\
    c_data c = files fs ++ slot_table [] /\ lc_setup (map fst (anch 0 (fs ++ [[]]))) new_locator = at_loc (map (map blen) fs).
Proof.
  intros M NE B. destruct (full_groups es M) as (fs & SH & EE). pose proof (spare_files fs SH) as (EF & LT).
  rewrite EE in B |- *. rewrite EF in *. exists fs.
  assert (FF : Forall filled (fs ++ [[]])).
  { apply Forall_app. split; [|constructor; [split; [rewrite cap_eq; cbn [length]; lia|constructor]|constructor]].
    rewrite EE in NE. pose proof (shaped_filled _ _ SH NE) as Q. unfold gro in Q. rewrite app_nil_r in Q. exact Q. }
  destruct (load_ok (fs ++ [[]]) (mk_cursor (files (fs ++ [[]])) 0) eq_refl FF B) as (c & E & D). exists c.
  split; [exact SH|]. split; [reflexivity|]. split; [exact E|]. split.
  { rewrite D. cbn [c_data]. rewrite files_app, files_one. unfold gfile. cbn [map concat]. now rewrite app_nil_r. }
  rewrite EE in NE. destruct (shaped_full _ _ SH NE) as (A1 & A2 & A3). eapply setup_mem; [exact A1|exact A2|exact A3|left].
  rewrite anch_fst, map_app, map_map. reflexivity.
Qed.

(** The reader: the packets before the empty slot. *)
Lemma spare_reader ps es rs : (length es mod 500 = 0)%nat -> Forall2 (packet_enc P) ps es -> Forall few ps -> NoDup (map id_of rs) ->
  blen (storage_file es ++ slot_table []) < two63 ->
  exists r : sreader U, d_open (storage_file es ++ slot_table []) = Ok r /\ d_count r = length ps /\
    yields (t_next P) (d_iter r) (map Ok ps) /\
    (forall ks, kept P rs ps ks -> yields (t_next_filtered P rs) (d_iter r) (map Ok ks)) /\
    (forall n, exists r', d_nth P n r = (Ok (nth_error ps n), r')).
Proof.
  intros M FE FW ND B. pose proof (encs_nonempty _ _ _ FE) as NE.
  destruct (spare_load es M NE B) as (fs & c & SH & EE & E & D & ES). unfold d_open. rewrite E, ES. eexists. split; [reflexivity|].
  set (r := mk_sreader _ _ _ _).
  assert (DS : d_slots r = anch 0 fs ++ [(lsl [], gszs (map (map blen) fs))]).
  { unfold r. cbn [d_slots]. clear. assert (G : forall off, anch off (fs ++ [[]]) = anch off fs ++ [(lsl [], off + gszs (map (map blen) fs))]).
    { induction fs as [|g fs IH]; intros off; cbn [app anch map]; [unfold gszs; cbn [map sum fold_right]; now rewrite N.add_0_r|].
      rewrite IH. cbn [app]. do 4 f_equal. change (gszs (map blen g :: map (map blen) fs)) with (gsz (map blen g) + gszs (map (map blen) fs)). lia. }
    rewrite G. reflexivity. }
  assert (LE : length es = (length fs * C)%nat).
  { rewrite EE, app_nil_r. apply length_concat_full. apply SH. }
  pose proof (encs_length P ps es FE) as LP.
  assert (SND : sound fs). { rewrite EE in NE. pose proof (shaped_sound _ _ SH NE) as Q. unfold gro in Q. now rewrite app_nil_r in Q. }
  assert (SB : storage_file es = files fs) by (rewrite EE, storage_shaped by exact SH; unfold gro; now rewrite app_nil_r).
  assert (BF : blen (files fs) < two63) by (rewrite blen_app, SB in B; lia).
  assert (IT : it_ok [] fs (d_iter r)).
  { unfold d_iter. split; cbn [t_slots t_off t_src t_buf].
    - exists [lsl []]. split; [rewrite DS, map_app, anch_fst; reflexivity|auto].
    - right. exists [], (slot_table []). split; [reflexivity|]. split; [exact D|]. exact BF.
    - cbn [concat]. split; [|split; [apply cursor_start|constructor]]. apply cursor_start.
    - exact SND. }
  assert (FE' : Forall2 (packet_enc P) ps ([] ++ concat fs)) by (cbn [app]; rewrite EE, app_nil_r in FE; exact FE).
  split; [|split; [|split]].
  - unfold d_count. change (lc_next (d_loc r)) with (length (map (map blen) fs)). rewrite map_length, DS.
    rewrite nth_error_app2 by (rewrite anch_length; apply le_n). rewrite anch_length, Nat.sub_diag. cbn [nth_error].
    rewrite <- lsl_default. change (free_slot_index default_slot) with (Some 0%nat). rewrite LP, LE. apply Nat.add_0_r.
  - apply (iter_yields P HP ps [] fs (d_iter r) es IT); [rewrite EE, app_nil_r; reflexivity|exact FE|exact FW].
  - intros ks K. exact (filtered_yields P HP rs ks ND ps [] fs (d_iter r) K IT FE').
  - intros n. set (r0 := mk_sreader (anch 0 fs) (d_file r) (d_loc r) (d_rules r) : sreader U).
    assert (OK : d_ok es r0).
    { split; [|exact NE|rewrite SB; exact BF]. exists fs, [], (slot_table []). split; [exact SH|]. split; [exact EE|]. unfold gro. rewrite app_nil_r.
      split; [reflexivity|]. split; [exact D|]. unfold r0, r. cbn [d_loc at_loc lc_next]. apply map_length. }
    destruct (nth_ok P HP ps es r0 n OK FE FW) as (r' & EN & _).
    assert (PL : d_place n r = d_place n r0).
    { unfold d_place. rewrite DS. change (d_slots r0) with (anch 0 fs). destruct (Nat.lt_ge_cases (n / C) (length fs)) as [L|L].
      - rewrite nth_error_app1 by (rewrite anch_length; exact L). rewrite firstn_app, anch_length.
        replace (n / C - length fs)%nat with 0%nat by lia. cbn [firstn]. now rewrite app_nil_r.
      - rewrite nth_error_app2 by (rewrite anch_length; exact L). rewrite anch_length.
        replace (nth_error (anch 0 fs) (n / C)) with (@None (slot * N)) by (symmetry; apply nth_error_None; rewrite anch_length; exact L).
        destruct (n / C - length fs)%nat as [|k]; cbn [nth_error]; [|now destruct k].
        unfold lsl. rewrite tab_is_empty; [reflexivity| | | ]; try constructor; try apply Nat.le_0_l; apply Nat.mod_upper_bound; pose proof cap_pos; lia. }
    unfold d_nth in *. rewrite PL. destruct (d_place n r0) as [[off|]|e|w]; cbn [sbind] in *.
    + change (d_file r0) with (d_file r) in EN. destruct (pkt_try_read P (c_seek off (d_file r))) as [o c2]. eexists.
      apply (f_equal fst) in EN. cbn [fst] in EN. rewrite EN. reflexivity.
    + apply (f_equal fst) in EN. cbn [fst] in EN. rewrite EN. eauto.
    + apply (f_equal fst) in EN. cbn [fst] in EN. rewrite EN. eauto.
    + apply (f_equal fst) in EN. cbn [fst] in EN. rewrite EN. eauto.
Qed.

(** The writer fills the empty slot. *)
Lemma spare_writer es p e : (length es mod 500 = 0)%nat -> nonempty_all es -> packet_enc P p e -> blen (storage_file es ++ slot_table []) < two63 ->
  exists w w', w_open (healthy (storage_file es ++ slot_table [])) = Ok w /\ w_insert p w = (Ok tt, w') /\ w_data w' = storage_file (es ++ [e]).
Proof.
  intros M NE HE B. destruct (spare_load es M NE B) as (fs & c & SH & EE & E & D & ES).
  unfold w_open, healthy. cbn [fl_cur fl_sched fl_flushes]. rewrite E, ES. set (w := mk_writer _ _ _).
  rewrite EE in NE. destruct (shaped_full _ _ SH NE) as (A1 & A2 & A3).
  destruct (ok_insert_tail fs [] w p e c (slot_table [])) as (w' & EI & OK).
  - split; [exact A1|split; [exact A2|exact A3]|left|left; reflexivity]. unfold w. cbn [w_slots]. rewrite anch_fst, map_app, map_map. reflexivity.
  - reflexivity.
  - unfold gro. rewrite app_nil_r. exact D.
  - right. split; [reflexivity|]. rewrite (proj2 (spare_files fs SH)). apply N.le_refl.
  - apply (pkt_write_all_ok P p e [] HE).
  - exact (packet_enc_nonempty _ _ _ HE).
  - exists w, w'. split; [reflexivity|]. split; [exact EI|]. rewrite (history_data _ _ _ OK), concat_push, <- EE. reflexivity.
Qed.
End Spare.
