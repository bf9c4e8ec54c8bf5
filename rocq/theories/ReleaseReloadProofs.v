(** * Reloading in a release build *)
From Coq Require Import ZifyBool ZifyNat ZifyN Sorted.
From Verif Require Import Base Crc32 Io File Block Payload Packet Rules Slot Storage Release Spec SpecStorage SpecPoll SpecRelease BaseProofs CrcProofs IoProofs
  BlockProofs PayloadProofs PacketProofs PacketSafeProofs SlotProofs StorageProofs StorageReadProofs ReadingProofs CrashProofs ReloadProofs HostileProofs PollProofs ReleaseProofs.
Ltac Zify.zify_post_hook ::= Z.div_mod_to_equations.
Open Scope list_scope.
Local Notation C := default_capacity.

(** Where the other build does not panic. *)
Lemma rel_reload_go_same fuel : forall last count pos slots c o y, blen (c_data c) < two63 -> reload_go fuel last count pos slots c = (o, y) -> (forall w, o <> Panic w) ->
  forall k, rel_reload_go (fuel + k) last count pos slots c = (o, y).
Proof.
  induction fuel as [|fuel IH]; intros last count pos slots c o y B; cbn [reload_go]; [intros E NF; injection E as <- _; now elim (NF PFuel)|].
  intros E NP k. cbn [Nat.add rel_reload_go].
  assert (c_ok (c_seek pos c)) as O.
  { unfold c_ok, c_len. cbn [c_seek c_pos c_data]. destruct (N.le_gt_cases pos (blen (c_data c))) as [H|H]; [exact H|exfalso].
    destruct (try_beyond pos c H) as (c1 & E1). rewrite E1 in E. injection E as <- _. now elim (NP POverflow). }
  destruct (slot_try_read (c_seek pos c)) as [t c1] eqn:ET. pose proof (slot_try_data _ _ _ ET) as D1. cbn [c_seek c_data] in D1. assert (blen (c_data c1) < two63) as B1 by now rewrite D1.
  rewrite (rel_try_same _ t c1 O B ET).
  - assert (forall s sl0 slots, (let next := pos + (slot_size s + slot_width s) in if two64 <=? next then (Panic POverflow, (sl0, c1)) else reload_go fuel last count next slots c1) = (o, y) ->
      rel_reload_go (fuel + k) last count (wadd pos (rel_total s)) slots c1 = (o, y)) as STEP.
    { intros s sl0 sl Q. cbv zeta in Q. destruct (two64 <=? _) eqn:QB; [injection Q as <- _; now elim (NP POverflow)|]. rewrite rel_total_ok, wadd_small by lia. now apply IH. }
    destruct t as [[s|q]|x|x]; try exact E. destruct last as [(i & crc)|]; [|eapply STEP; exact E].
    destruct (length slots =? count)%nat; [|eapply STEP; exact E]. destruct (bytes_eqb crc (sl_crc s)); [exact E|]. destruct (nth_error slots (count - 1)) as [(s0 & off)|]; [|exact E].
    cbv zeta in E. destruct (free_slot_index s); [|eapply STEP; exact E]. destruct (two64 <=? slot_size s + slot_width s); [injection E as <- _; now elim (NP POverflow)|exact E].
  - intros ->. injection E as <- _. now elim (NP POverflow).
Qed.

Lemma rel_reload_same {U} n (r : sreader U) o r' : blen (c_data (d_file r)) < two63 -> snd (last_slot (d_slots r)) < two64 -> (length (c_data (d_file r)) < n)%nat ->
  d_reload r = (o, r') -> (forall w, o <> Panic w) -> rel_d_reload n r = (o, r').
Proof.
  intros B BP LN E NP. unfold d_reload, rel_d_reload, rel_last_slot in *. destruct (last_slot (d_slots r)) as (lst & pos). cbn [snd] in BP. rewrite N.mod_small by exact BP.
  destruct (reload_go _ _ _ _ _ _) as (o1 & slots & c) eqn:EG. replace n with (length (c_data (d_file r)) + 1 + (n - (length (c_data (d_file r)) + 1)))%nat by lia.
  rewrite (rel_reload_go_same _ _ _ _ _ _ _ _ B EG); [exact E|]. intros w ->. cbn in E. injection E as <- _. now elim (NP w).
Qed.

(** The place where a reader begins is within what it knows of. *)
Lemma reload_start fs l (slots : list (slot * N)) : shaped fs l -> nonempty_all (concat fs ++ l) -> slots = anch 0 (gro fs l) -> blen (files (gro fs l)) < two63 -> snd (last_slot slots) < two63.
Proof.
  intros SH NE -> B. destruct (shaped_full _ _ SH NE) as (A1 & A2 & A3). pose proof (shaped_small _ _ SH) as SM. pose proof SH as (_ & L). rewrite files_blen in B by exact SM. destruct l as [|x l].
  - unfold gro in *. rewrite app_nil_r in *. rewrite last_none by exact A1. exact B.
  - rewrite gro_some in * by discriminate. rewrite last_some by (exact L || exact A3). cbn [snd]. rewrite map_app, gszs_app in B. lia.
Qed.

(** [d_nth] when only the slots are known. *)
Definition knows {U} (es : list bytes) (r : sreader U) : Prop := exists fs l, shaped fs l /\ es = concat fs ++ l /\ d_slots r = anch 0 (gro fs l).
Lemma nth_knows {U} (P : proto U) xs qs (r : sreader U) i q x : proto_ok P -> knows xs r -> Forall2 (packet_enc P) qs xs -> blen (storage_file xs) < two63 ->
  nth_error qs i = Some q -> few q -> nth_error xs i = Some x -> holds (c_data (d_file r)) (packet_place xs i) x ->
  exists r', d_nth P i r = (Ok (Some q), r').
Proof.
  intros HP (fs & l & SH & EE & DS) FE B NQ FQ NX HO.
  destruct (@open_reader_tail U xs [] (encs_nonempty _ _ _ FE) B ltac:(reflexivity)) as (r0 & E0 & OK & _).
  pose proof (slots_shaped xs r0 fs l OK SH EE) as DS0. pose proof (place_at xs r0 i x OK NX) as PL.
  assert (d_place i r = d_place i r0) as EP by (unfold d_place; now rewrite DS, DS0). destruct HO as (A & T & ED & LA). unfold d_nth. rewrite EP, PL. cbn [sbind].
  pose proof (enc_nth P qs xs i FE) as EN. rewrite NQ in EN. destruct EN as (x' & NX' & HQ). rewrite NX in NX'. injection NX' as <-.
  destruct (c_at A (x ++ T) _ (blen A) ED eq_refl (d_file r) eq_refl) as (V & O & _). assert (N.of_nat (packet_place xs i) = blen A) as -> by (unfold blen; now rewrite LA).
  destruct (pkt_try_read_rt P q x _ T HP HQ FQ O V) as (E2 & _ & _). rewrite E2. cbn [rbind]. eauto.
Qed.
Lemma tracks_knows {U} (P : proto U) ps es (r : sreader U) : tracks es r -> Forall2 (packet_enc P) ps es -> blen (storage_file es) < two63 -> knows es r.
Proof.
  intros (r0 & RD & ER) FE B. destruct (reading_ok P es r0 RD ps FE B) as ([(fs & l & J & SH & EE & DS & _) _ _] & _). exists fs, l. rewrite ER. auto.
Qed.

Lemma shaped_unique {A} (fs : list (list A)) l fs' l' : shaped fs l -> shaped fs' l' -> concat fs ++ l = concat fs' ++ l' -> fs = fs' /\ l = l'.
Proof.
  intros SH SH' E. pose proof (groups_shaped _ _ SH) as G. pose proof (groups_shaped _ _ SH') as G'. rewrite E, G' in G. destruct SH as (F & L), SH' as (F' & L').
  assert (length fs = length fs') as LF.
  { apply (f_equal (@length A)) in E. rewrite !app_length, !length_concat_full in E by assumption. nia. }
  assert (fs = fs') as ->.
  { apply (f_equal (firstn (length fs))) in G. unfold gro in G. rewrite LF in G at 1. rewrite !firstn_app_exact in G by reflexivity. now symmetry. }
  split; [reflexivity|]. now apply app_inv_head in E.
Qed.

Section RelPolls.
Context {U : Type} (P : proto U).
Variables (ps : list (packet U)) (es : list bytes) (p : packet U) (e : bytes) (n : nat).
Hypothesis FE : Forall2 (packet_enc P) ps es.
Hypothesis HE : packet_enc P p e.
Hypothesis BE : blen e < two32.
Hypothesis B : blen (storage_file (es ++ [e])) < two63.
Hypothesis LN : (length (storage_file (es ++ [e])) < n)%nat.

Lemma rB0 : blen (storage_file es) < two63.
Proof. pose proof (storage_mono es [e]). lia. Qed.
Lemma during_le m : (length (during es e m) <= length (storage_file (es ++ [e])))%nat.
Proof.
  destruct (decompose es) as (fs & l & SH & EE). pose proof (encs_nonempty _ _ _ FE) as NE. rewrite EE in *. pose proof (during_size fs l e m SH NE) as Q. unfold blen in Q. lia.
Qed.

(** Where the other build does not panic. *)
Lemma poll_same m (r : sreader U) o r1 : tracks es r -> d_reload (d_refresh (during es e m) r) = (o, r1) -> (forall w, o <> Panic w) -> rel_d_reload n (d_refresh (during es e m) r) = (o, r1).
Proof.
  intros T E NP. pose proof (during_le m) as LE. apply rel_reload_same; [| | |exact E|exact NP]; cbn [d_refresh d_file c_data d_slots].
  - unfold blen in *. lia.
  - destruct (tracks_knows P ps es r T FE rB0) as (fs & l & SH & EE & DS). pose proof rB0 as Q. pose proof (encs_nonempty _ _ _ FE) as NE. rewrite EE in *. rewrite storage_shaped in Q by exact SH.
    pose proof (reload_start fs l (d_slots r) SH NE DS Q). unfold two63, two64 in *. lia.
  - lia.
Qed.
Lemma poll_same1 m (r : sreader U) o r1 : tracks (es ++ [e]) r -> d_reload (d_refresh (during es e m) r) = (o, r1) -> (forall w, o <> Panic w) -> rel_d_reload n (d_refresh (during es e m) r) = (o, r1).
Proof.
  intros T E NP. pose proof (during_le m) as LE. apply rel_reload_same; [| | |exact E|exact NP]; cbn [d_refresh d_file c_data d_slots].
  - unfold blen in *. lia.
  - destruct (tracks_knows P (ps ++ [p]) (es ++ [e]) r T (FE1 P ps es p e FE HE) B) as (fs & l & SH & EE & DS). pose proof B as Q. pose proof (encs_nonempty _ _ _ (FE1 P ps es p e FE HE)) as NE. rewrite EE in *. rewrite storage_shaped in Q by exact SH.
    pose proof (reload_start fs l (d_slots r) SH NE DS Q). unfold two63, two64 in *. lia.
  - lia.
Qed.

(** The table of the first or the last packet of a slot has been written, and the packet has not. *)
Definition brim (m : nat) : Prop := exists fs l, shaped fs l /\ es = concat fs ++ l /\
  (l = [] /\ (4020 <= m)%nat \/ (length l + 1 = C)%nat /\ fresh_table l e m = slot_table (map blen l ++ [blen e])).
Lemma brim_later m m' : (m <= m')%nat -> brim m -> brim m'.
Proof.
  intros L (fs & l & SH & EE & [(LN0 & H)|(LL & FT)]); exists fs, l; (split; [exact SH|]); (split; [exact EE|]); [left; split; [exact LN0|lia]|right]. split; [exact LL|]. revert FT. unfold fresh_table.
  set (T' := slot_table (map blen l ++ [blen e])). set (T := slot_table (map blen l)). unfold mix. intros FT. rewrite <- (firstn_skipn m T') in FT at 2. apply app_inv_head in FT.
  assert (skipn m' T = skipn m' T') as ->; [|apply firstn_skipn]. replace m' with (m + (m' - m))%nat by lia. rewrite <- !skipn_plus. now rewrite FT.
Qed.
Lemma brim_data m : brim m -> exists fs l, shaped fs l /\ es = concat fs ++ l /\ (l = [] \/ (length l + 1 = C)%nat) /\
  during es e m = files fs ++ slot_table (map blen l ++ [blen e]) ++ concat l ++ firstn (m - 4020) e.
Proof.
  intros (fs & l & SH & EE & H). exists fs, l. split; [exact SH|]. split; [exact EE|]. pose proof (encs_nonempty _ _ _ FE) as NE. destruct H as [(-> & H)|(LL & FT)].
  - split; [now left|]. rewrite EE in NE |- *. rewrite during_eq by assumption. rewrite skipn_nil. cbn [app]. f_equal. rewrite firstn_all2; [reflexivity|]. rewrite table_len, tsz_nat by (cbn; rewrite cap_eq; lia). exact H.
  - split; [now right|]. rewrite (during_mix P ps es e FE fs l m SH EE), FT; [reflexivity|]. intros ->. rewrite cap_eq in LL. discriminate.
Qed.

(** What a reader knows after that. *)
Definition noted (r : sreader U) : Prop := exists fs l, shaped fs l /\ es = concat fs ++ l /\ (l = [] \/ (length l + 1 = C)%nat) /\
  d_slots r = anch 0 (fs ++ [l ++ [e]]) /\ lc_next (d_loc r) = length fs.

Lemma noted_knows r : noted r -> knows (es ++ [e]) r.
Proof.
  intros (fs & l & SH & EE & _ & DS & _). exists (fst (push fs l e)), (snd (push fs l e)). split; [now apply shaped_push|]. rewrite concat_push, gro_push, EE. auto.
Qed.
Lemma noted_count r : noted r -> d_count r = (length es + 1)%nat.
Proof.
  intros (fs & l & SH & EE & H & DS & DL). unfold d_count. rewrite DL, DS. pose proof SH as (F & L). pose proof (encs_nonempty _ _ _ (FE1 P ps es p e FE HE)) as NE. rewrite EE, <- app_assoc in NE. apply Forall_app in NE as (_ & NE).
  rewrite anch_app. cbn [anch]. assert (length (anch 0 fs) = length fs) as LA by apply anch_length. rewrite <- LA at 1. rewrite nth_mid.
  assert (pos_all (map blen (l ++ [e]))) as PA. { apply Forall_map. eapply Forall_impl; [|exact NE]. intros x Q. destruct x; [contradiction|rewrite blen_cons; lia]. }
  unfold lsl. rewrite tab_free_index by (auto; rewrite map_length, app_length; cbn [length]; lia). rewrite map_length, !app_length, LA. cbn [length]. rewrite EE, app_length, length_concat_full by exact F.
  pose proof cap_eq as CE. destruct H as [->|H]; cbn [length].
  - replace (0 + 1 <? C)%nat with true by lia. lia.
  - replace (length l + 1 <? C)%nat with false by lia. lia.
Qed.

Lemma brim_bounds fs l : shaped fs l -> es = concat fs ++ l ->
  blen (files fs) + gsz (map blen l ++ [blen e]) < two63 /\ pos_all (map blen l ++ [blen e]) /\ pos_all (map blen l) /\ Forall (fun n => n < two64) (map blen l ++ [blen e]) /\
  (length (map blen l ++ [blen e]) = length l + 1)%nat /\ (length l + 1 <= C)%nat.
Proof.
  intros SH EE. pose proof SH as (F & L). pose proof (encs_nonempty _ _ _ (FE1 P ps es p e FE HE)) as NE. rewrite EE, <- app_assoc in NE. apply Forall_app in NE as (_ & NE).
  assert (map blen (l ++ [e]) = map blen l ++ [blen e]) as ME by (now rewrite map_app).
  assert (pos_all (map blen (l ++ [e]))) as PA. { apply Forall_map. eapply Forall_impl; [|exact NE]. intros x Q. destruct x; [contradiction|rewrite blen_cons; lia]. }
  rewrite ME in *. assert (length (map blen l ++ [blen e]) = length l + 1)%nat as LL by (rewrite app_length, map_length; reflexivity).
  assert (blen (files fs) + gsz (map blen l ++ [blen e]) < two63) as BB.
  { pose proof B as B'. rewrite EE, <- concat_push, storage_shaped in B' by now apply shaped_push. rewrite gro_push, files_app, files_one in B'. unfold gfile in B'.
    rewrite !blen_app, slot_table_length, concat_blen in B' by (rewrite map_length, app_length; cbn [length]; lia). rewrite ME in B'. unfold gsz. lia. }
  split; [exact BB|]. split; [exact PA|]. split; [now apply Forall_app in PA|]. split; [|lia].
  apply Forall_forall. intros x I. apply sum_in in I. unfold gsz, two63, two64 in *. lia.
Qed.

Lemma poll_brim m (r : sreader U) : tracks es r -> brim m -> (m < 4020 + length e)%nat ->
  exists r1, rel_d_reload n (d_refresh (during es e m) r) = (Err (EIo UnexpectedEof), r1) /\ noted r1.
Proof.
  intros T BR LM. destruct (tracks_refresh es r (during es e m) T) as (r0 & RD & ->). destruct (reading_ok P es r0 RD ps FE rB0) as (OK & _). clear T r.
  destruct (brim_data m BR) as (fs & l & SH & EE & H & D). pose proof (slots_shaped es r0 fs l OK SH EE) as DS.
  destruct (brim_bounds fs l SH EE) as (BB & PA & PL & FS & LL & LC). pose proof SH as (F & L). pose proof (small_fs _ _ SH) as SM.
  destruct (shaped_full _ _ SH ltac:(rewrite <- EE; exact (encs_nonempty _ _ _ FE))) as (A1 & _ & _).
  assert (lc_next (d_loc r0) = length fs) as DL.
  { destruct OK as [(fs2 & l2 & J & SH2 & EE2 & DS2 & _ & DL) _ _]. rewrite DL. assert (length (anch 0 (gro fs2 l2)) = length (anch 0 (gro fs l))) as Q by congruence. rewrite !anch_length in Q.
    assert (length (concat fs2) + length l2 = length (concat fs) + length l)%nat as Q2 by (rewrite <- !app_length; congruence). pose proof SH2 as (F2 & L2). rewrite !length_concat_full in Q2 by assumption. nia. }
  pose proof (during_le m) as LE. pose proof (slot_table_length (map blen l ++ [blen e]) ltac:(lia)) as LT. pose proof (table_len (map blen l ++ [blen e]) ltac:(lia)) as LT'. rewrite tsz_nat in LT'.
  set (data := during es e m) in *. assert (exists f, n = S (S f)) as (f & EN) by (exists (n - 2)%nat; rewrite D, !app_length in LE; lia).
  assert (blen data < blen (files fs) + gsz (map blen l ++ [blen e])) as SHORT.
  { rewrite D, !blen_app, LT. unfold gsz. rewrite sum_app, <- concat_blen. cbn [sum fold_right]. assert (blen (firstn (m - 4020) e) < blen e) by (unfold blen; rewrite firstn_length; pose proof (packet_enc_nonempty _ _ _ HE); destruct e; [contradiction|cbn [length] in *; lia]). lia. }
  assert (16 <= blen data) as L16 by (rewrite D, !blen_app, LT; unfold tsz; lia). assert (blen data < two63) as BD by lia.
  destruct (try_table (files fs) (map blen l ++ [blen e]) _ (mk_cursor data (c_pos (d_file r0))) D ltac:(lia) FS) as (c1 & E1 & D1). cbn [c_data] in D1.
  assert (rel_try_read (c_seek (blen (files fs)) (mk_cursor data (c_pos (d_file r0)))) = (Ok (Success (lsl (map blen l ++ [blen e]))), c1)) as R1.
  { apply rel_try_same; [apply c_ok_seek; cbn [c_data]; rewrite D, blen_app; lia|exact BD|exact E1|discriminate]. }
  assert (rel_total (lsl (map blen l ++ [blen e])) = gsz (map blen l ++ [blen e])) as RT.
  { pose proof (lsl_total (map blen l ++ [blen e]) ltac:(split; [lia|exact PA])) as Q. rewrite rel_total_ok by (rewrite Q; unfold two63, two64 in *; lia). exact Q. }
  assert (blen (files fs) + gsz (map blen l ++ [blen e]) < two64) as BB4 by (unfold two63, two64 in *; lia).
  destruct (rel_try_beyond (blen (files fs) + gsz (map blen l ++ [blen e])) c1 ltac:(rewrite D1; exact SHORT) BB4 ltac:(rewrite D1; exact L16)) as (c2 & R2 & D2).
  assert (map blen (l ++ [e]) = map blen l ++ [blen e]) as ME by (now rewrite map_app).
  assert (anch 0 (fs ++ [l ++ [e]]) = anch 0 fs ++ [(lsl (map blen l ++ [blen e]), blen (files fs))]) as EA by (rewrite anch_app; cbn [anch]; now rewrite ME, N.add_0_l, files_blen by exact SM).
  assert (blen (files fs) < two64) as BF by (unfold two63, two64 in *; lia).
  unfold rel_d_reload, rel_last_slot. cbn [d_refresh d_slots d_file d_loc d_rules c_data]. rewrite DS, EN. destruct H as [->|H].
  - unfold gro. rewrite app_nil_r. rewrite last_none by exact A1. rewrite <- files_blen by exact SM. rewrite N.mod_small by exact BF. cbn [rel_reload_go]. rewrite R1, RT, wadd_small, R2 by exact BB4.
    cbn [load_error]. eexists. split; [reflexivity|]. exists fs, []. split; [exact SH|]. split; [exact EE|]. split; [now left|]. cbn [d_slots d_loc]. rewrite EA. auto.
  - rewrite gro_some by (intros ->; rewrite cap_eq in H; discriminate). rewrite last_some by assumption. rewrite <- files_blen by exact SM. rewrite N.mod_small by exact BF. cbn [rel_reload_go]. rewrite R1.
    rewrite Nat.eqb_refl.
    assert (sl_crc (lsl (map blen l)) <> sl_crc (lsl (map blen l ++ [blen e]))) as NC.
    { assert (length es mod 500 = length l)%nat as LM5 by (rewrite EE; now apply shape_mod). pose proof (one_noticed es e ltac:(rewrite LM5; rewrite cap_eq in H; lia) (packet_enc_nonempty _ _ _ HE) BE) as Q. rewrite EE, <- app_assoc in Q. rewrite !table_sum_eq in Q by exact SH.
      rewrite ME in Q. rewrite !table_crc in Q by (rewrite ?map_length; lia). exact Q. }
    destruct (bytes_eqb _ _) eqn:EC; [apply bytes_eqb_eq in EC; contradiction|]. rewrite anch_length, app_length. cbn [length]. rewrite Nat.add_sub. rewrite anch_app. cbn [anch].
    assert (length (anch 0 fs) = length fs) as LA by apply anch_length. rewrite <- LA. rewrite nth_mid, set_nth_end. rewrite N.add_0_l, <- files_blen by exact SM.
    assert (free_slot_index (lsl (map blen l ++ [blen e])) = None) as FI.
    { unfold lsl. rewrite tab_free_index by (auto; lia). rewrite LL. now replace (length l + 1 <? C)%nat with false by lia. }
    rewrite FI, RT, wadd_small, R2 by exact BB4. cbn [load_error].
    eexists. split; [reflexivity|]. exists fs, l. split; [exact SH|]. split; [exact EE|]. split; [now right|]. cbn [d_slots d_loc]. rewrite EA. auto.
Qed.

Lemma poll_noted m (r : sreader U) : noted r -> brim m ->
  exists o r1, rel_d_reload n (d_refresh (during es e m) r) = (o, r1) /\ noted r1 /\ (o = Ok O \/ (m < 4020 + length e)%nat /\ o = Err (EIo UnexpectedEof)).
Proof.
  intros (fs & l & SH & EE & H & DS & DL) BR.
  destruct (brim_data m BR) as (fs2 & l2 & SH2 & EE2 & _ & D). assert (fs2 = fs /\ l2 = l) as (-> & ->).
  { apply (shaped_unique fs2 l2 fs l SH2 SH). congruence. }
  destruct (brim_bounds fs l SH EE) as (BB & PA & PL & FS & LL & LC). pose proof SH as (F & L). pose proof (small_fs _ _ SH) as SM.
  destruct (shaped_full _ _ SH ltac:(rewrite <- EE; exact (encs_nonempty _ _ _ FE))) as (A1 & _ & _).
  pose proof (during_le m) as LE. pose proof (slot_table_length (map blen l ++ [blen e]) ltac:(lia)) as LT. pose proof (table_len (map blen l ++ [blen e]) ltac:(lia)) as LT'. rewrite tsz_nat in LT'.
  set (data := during es e m) in *. assert (exists f, n = S f) as (f & EN) by (exists (n - 1)%nat; rewrite D, !app_length in LE; lia).
  assert (16 <= blen data) as L16 by (rewrite D, !blen_app, LT; unfold tsz; lia).
  assert (map blen (l ++ [e]) = map blen l ++ [blen e]) as ME by (now rewrite map_app).
  assert (blen data + (blen e - blen (firstn (m - 4020) e)) = blen (files fs) + gsz (map blen l ++ [blen e])) as EL.
  { rewrite D, !blen_app, LT. unfold gsz. rewrite sum_app, <- concat_blen. cbn [sum fold_right]. assert (blen (firstn (m - 4020) e) <= blen e) by (unfold blen; rewrite firstn_length; lia). lia. }
  assert (blen data < two63) as BD by lia.
  assert (forall c, noted (mk_sreader (anch 0 (fs ++ [l ++ [e]])) c (d_loc r) (d_rules r))) as NT by (intros c; exists fs, l; auto).
  unfold rel_d_reload, rel_last_slot. cbn [d_refresh d_slots d_file d_loc d_rules c_data]. rewrite DS, EN. destruct H as [->|H].
  - rewrite last_some by (rewrite ?ME; rewrite ?app_length; cbn [length]; rewrite ?cap_eq; auto; lia). rewrite <- files_blen by exact SM. rewrite N.mod_small by (unfold two63, two64 in *; lia). cbn [rel_reload_go].
    destruct (try_table (files fs) (map blen [] ++ [blen e]) _ (mk_cursor data (c_pos (d_file r))) D ltac:(lia) FS) as (c1 & E1 & D1). cbn [c_data] in D1.
    rewrite (rel_try_same _ (Ok (Success (lsl (map blen [] ++ [blen e])))) c1); [|apply c_ok_seek; cbn [c_data]; rewrite D, blen_app; lia|exact BD|exact E1|discriminate].
    rewrite Nat.eqb_refl, ME. destruct (bytes_eqb _ _) eqn:EC; [|apply not_true_iff_false in EC; elim EC; now apply bytes_eqb_eq].
    eexists _, _. split; [reflexivity|]. split; [apply NT|now left].
  - assert (Forall fullg (map (map blen) (fs ++ [l ++ [e]]))) as A1'.
    { rewrite map_app. apply Forall_app. split; [exact A1|]. repeat constructor; rewrite ME; [lia|exact PA]. }
    assert (Forall small (fs ++ [l ++ [e]])) as SM'. { apply Forall_app. split; [exact SM|]. repeat constructor. unfold small. rewrite app_length. cbn [length]. lia. }
    rewrite last_none by exact A1'. rewrite map_app, gszs_app. cbn [map]. rewrite ME. change (gszs [map blen l ++ [blen e]]) with (gsz (map blen l ++ [blen e]) + 0). rewrite N.add_0_r, <- files_blen by exact SM.
    rewrite N.mod_small by (unfold two63, two64 in *; lia). cbn [rel_reload_go].
    destruct (Nat.lt_ge_cases m (4020 + length e)) as [LM|LM].
    + assert (blen data < blen (files fs) + gsz (map blen l ++ [blen e])) as SHORT.
      { assert (blen (firstn (m - 4020) e) < blen e) by (unfold blen; rewrite firstn_length; pose proof (packet_enc_nonempty _ _ _ HE); destruct e; [contradiction|cbn [length] in *; lia]). lia. }
      destruct (rel_try_beyond (blen (files fs) + gsz (map blen l ++ [blen e])) (mk_cursor data (c_pos (d_file r))) SHORT ltac:(unfold two63, two64 in *; lia) L16) as (c2 & R2 & D2). rewrite R2.
      cbn [load_error]. eexists _, _. split; [reflexivity|]. split; [apply NT|right]. split; [exact LM|reflexivity].
    + rewrite firstn_all2, N.sub_diag, N.add_0_r in EL by lia. rewrite <- EL.
      assert (data = data ++ []) as DA by now rewrite app_nil_r.
      pose proof (try_tail data [] (mk_cursor data (c_pos (d_file r))) DA ltac:(reflexivity)) as TT.
      assert (c_ok (c_seek (blen data) (mk_cursor data (c_pos (d_file r))))) as CO by (apply c_ok_seek; cbn [c_data]; lia). rewrite (rel_try_same _ _ _ CO BD TT ltac:(discriminate)). rewrite Nat.eqb_refl.
      eexists _, _. split; [reflexivity|]. split; [apply NT|now left].
Qed.

Lemma noted_brim (r : sreader U) : noted r -> brim (4020 + length e).
Proof.
  intros (fs & l & SH & EE & H & _). pose proof SH as (F & L). exists fs, l. split; [exact SH|]. split; [exact EE|]. destruct H as [->|H]; [left; split; [reflexivity|lia]|right]. split; [exact H|]. unfold fresh_table, mix.
  assert (length (slot_table (map blen l ++ [blen e])) = 4020%nat) as LT by (rewrite <- tsz_nat; apply table_len; rewrite app_length, map_length; cbn [length]; lia).
  assert (length (slot_table (map blen l)) = 4020%nat) as LO by (rewrite <- tsz_nat; apply table_len; rewrite map_length; lia).
  rewrite firstn_all2, skipn_all2, app_nil_r by lia. reflexivity.
Qed.

(** Whatever the moment. *)
Lemma rel_poll_any m (r : sreader U) : tracks es r -> exists o r1, rel_d_reload n (d_refresh (during es e m) r) = (o, r1) /\
  ((o = Ok O \/ o = Err (EDamagedSlot ECrcDismatch)) /\ tracks es r1 \/ o = Ok 1%nat /\ tracks (es ++ [e]) r1 /\ seen es e m \/
   o = Err (EIo UnexpectedEof) /\ noted r1 /\ brim m /\ (m < 4020 + length e)%nat).
Proof.
  intros T. destruct (poll_any P ps es p e FE HE BE B m r T) as (o & r1 & E & [(OO & T1)|[(-> & T1 & SN)|(-> & NC)]]).
  - exists o, r1. split; [|auto]. apply poll_same; [exact T|exact E|]. intros w ->. destruct OO; discriminate.
  - exists (Ok 1%nat), r1. split; [|auto]. apply poll_same; [exact T|exact E|discriminate].
  - assert ((length es mod 500 = 0 /\ 16 <= m < 4020 + length e \/ length es mod 500 = 499 /\ 4016 < m < 4020 + length e)%nat) as H by (unfold calm in NC; lia).
    destruct (decompose es) as (fs & l & SH & EE). assert (length es mod 500 = length l)%nat as LM by (rewrite EE; now apply shape_mod). rewrite LM in H. pose proof SH as (F & L).
    assert (brim m -> (m < 4020 + length e)%nat -> exists o r1, rel_d_reload n (d_refresh (during es e m) r) = (o, r1) /\
      ((o = Ok O \/ o = Err (EDamagedSlot ECrcDismatch)) /\ tracks es r1 \/ o = Ok 1%nat /\ tracks (es ++ [e]) r1 /\ seen es e m \/ o = Err (EIo UnexpectedEof) /\ noted r1 /\ brim m /\ (m < 4020 + length e)%nat)) as GO.
    { intros BR LE. destruct (poll_brim m r T BR LE) as (r2 & E2 & NT). exists (Err (EIo UnexpectedEof)), r2. split; [exact E2|]. right. right. auto. }
    destruct H as [(H0 & H)|(H0 & H)].
    + destruct l; [|discriminate]. destruct (Nat.lt_ge_cases m 4020) as [H1|H1].
      * clear GO E r1. destruct (tracks_refresh es r (during es e m) T) as (r0 & RD & ->). destruct (reading_ok P es r0 RD ps FE rB0) as (OK & _). pose proof (slots_shaped es r0 fs [] OK SH EE) as DS.
        unfold gro in DS. rewrite app_nil_r in DS. pose proof (small_fs _ _ SH) as SM. pose proof (encs_nonempty _ _ _ FE) as NE. destruct (shaped_full _ _ SH ltac:(rewrite <- EE; exact NE)) as (A1 & _ & _).
        assert (during es e m = files fs ++ firstn m (slot_table [blen e])) as D.
        { rewrite EE in NE |- *. rewrite during_eq by assumption. rewrite skipn_nil. cbn [map app concat]. replace (m - 4020)%nat with O by lia. now rewrite firstn_O, app_nil_r. }
        pose proof (during_le m) as LE. assert (blen (during es e m) < two63) as BD by (unfold blen in *; lia).
        unfold rel_d_reload, rel_last_slot. cbn [d_refresh d_slots d_file d_loc d_rules c_data]. rewrite DS, last_none, anch_length by exact A1. rewrite <- files_blen by exact SM.
        rewrite N.mod_small by (rewrite D, blen_app in BD; unfold two63, two64 in *; lia). destruct n as [|f]; [lia|]. cbn [rel_reload_go].
        destruct (rel_cut (files fs) [blen e] m (mk_cursor (during es e m) (c_pos (d_file r0))) D ltac:(rewrite cap_eq; cbn [length]; lia) H1 BD) as (k & Q). rewrite Q, anch_length, Nat.eqb_refl.
        eexists _, _. split; [reflexivity|]. left. split; [now left|]. rewrite <- DS. apply tracks_file. now apply reading_tracks.
      * apply GO; [|lia]. exists fs, []. auto.
    + assert (l <> []) as LN0 by (destruct l; discriminate). destruct (Nat.lt_ge_cases m 4020) as [H1|H1].
      * destruct (tracks_refresh es r (during es e m) T) as (r0 & RD & ER). destruct (reading_ok P es r0 RD ps FE rB0) as (OK & _). pose proof (slots_shaped es r0 fs l OK SH EE) as DS. rewrite gro_some in DS by exact LN0.
        destruct (step_mixed fs l e m (during es e m) r0 (concat l ++ firstn (m - 4020) e) DS L (tail_ne P ps es p e FE HE fs l EE) (small_fs _ _ SH) (during_mix P ps es e FE fs l m SH EE LN0) (group_small es e BE B fs l SH EE)) as [(c & o & D & OO & E2)|(M & FT)].
        -- rewrite ER, E2 in E. apply (f_equal fst) in E. cbn [fst] in E. destruct OO; congruence.
        -- apply GO; [|lia]. exists fs, l. split; [exact SH|]. split; [exact EE|]. right. split; [rewrite cap_eq; lia|exact FT].
      * apply GO; [|lia]. exists fs, l. split; [exact SH|]. split; [exact EE|]. right. split; [rewrite cap_eq; lia|]. unfold fresh_table, mix.
        assert (length (slot_table (map blen l ++ [blen e])) = 4020%nat) as LT by (rewrite <- tsz_nat; apply table_len; rewrite app_length, map_length; cbn [length]; lia).
        assert (length (slot_table (map blen l)) = 4020%nat) as LO by (rewrite <- tsz_nat; apply table_len; rewrite map_length; lia).
        rewrite firstn_all2, skipn_all2, app_nil_r by lia. reflexivity.
Qed.

Definition eof (o : res nat) : Prop := o = Err (EIo UnexpectedEof).

Lemma rel_polls_noted ms : forall (r : sreader U) os r1 m0, noted r -> brim m0 -> StronglySorted Peano.le (m0 :: ms) -> rel_polls n (map (during es e) ms) r = (os, r1) ->
  Forall (fun o => o = Ok O \/ eof o) os /\ told_all os = O /\ noted r1.
Proof.
  induction ms as [|m ms IH]; intros r os r1 m0 NT BR ST; cbn [map rel_polls]; [intros E; injection E as <- <-; auto|].
  inversion ST as [|? ? ST1 F1]; subst. inversion F1 as [|? ? LE _]; subst. pose proof (brim_later _ _ LE BR) as BR1.
  destruct (poll_noted m r NT BR1) as (o & r2 & E & NT2 & OO). rewrite E. destruct (rel_polls n _ r2) as (os2 & r3) eqn:EP. intros Q. injection Q as <- <-.
  destruct (IH r2 os2 r3 m NT2 BR1 ST1 EP) as (A & A2 & A3). split; [constructor; [unfold eof; tauto|exact A]|]. split; [|exact A3].
  unfold told_all in *. cbn [map fold_right]. rewrite A2. destruct OO as [->|(_ & ->)]; reflexivity.
Qed.
Lemma rel_polls_after ms : forall (r : sreader U) os r1 m0, tracks (es ++ [e]) r -> seen es e m0 -> StronglySorted Peano.le (m0 :: ms) -> rel_polls n (map (during es e) ms) r = (os, r1) ->
  Forall (fun o => o = Ok O) os /\ told_all os = O /\ tracks (es ++ [e]) r1.
Proof.
  induction ms as [|m ms IH]; intros r os r1 m0 T SN ST; cbn [map rel_polls]; [intros E; injection E as <- <-; auto|].
  inversion ST as [|? ? ST1 F1]; subst. inversion F1 as [|? ? LE _]; subst. pose proof (seen_later es e BE B m0 m LE SN) as SN1.
  destruct (poll_after P ps es p e FE HE BE B m r T SN1) as (r2 & E & T2). rewrite (poll_same1 m r _ _ T E ltac:(discriminate)). destruct (rel_polls n _ r2) as (os2 & r3) eqn:EP. intros Q. injection Q as <- <-.
  destruct (IH r2 os2 r3 m T2 SN1 ST1 EP) as (A & A2 & A3). split; [constructor; auto|]. split; [exact A2|exact A3].
Qed.
Lemma rel_polls_any ms : forall (r : sreader U) os r1, tracks es r -> StronglySorted Peano.le ms -> rel_polls n (map (during es e) ms) r = (os, r1) ->
  Forall (fun o => o = Ok O \/ o = Ok 1%nat \/ o = Err (EDamagedSlot ECrcDismatch) \/ eof o) os /\
  (told_all os = O /\ tracks es r1 /\ ~ Exists eof os \/ told_all os = 1%nat /\ tracks (es ++ [e]) r1 /\ ~ Exists eof os \/ told_all os = O /\ noted r1 /\ Exists eof os).
Proof.
  induction ms as [|m ms IH]; intros r os r1 T ST; cbn [map rel_polls].
  { intros E; injection E as <- <-. split; [constructor|]. left. split; [reflexivity|]. split; [exact T|]. intros Q. inversion Q. }
  inversion ST as [|? ? ST1 F1]; subst.
  destruct (rel_poll_any m r T) as (o & r2 & E & [(OO & T2)|[(-> & T2 & SN)|(-> & NT & BR & _)]]); rewrite E; destruct (rel_polls n _ r2) as (os2 & r3) eqn:EP; intros Q; injection Q as <- <-.
  - destruct (IH r2 os2 r3 T2 ST1 EP) as (A & A2). split; [constructor; [tauto|exact A]|]. assert (told o = O /\ ~ eof o) as (TO & TE) by (destruct OO; subst o; split; discriminate || reflexivity).
    unfold told_all in *. cbn [map fold_right]. rewrite TO. cbn [Nat.add].
    assert (Exists eof (o :: os2) <-> Exists eof os2) as EX by (split; [intros Q; inversion Q; [contradiction|assumption]|intros Q; now right]). rewrite EX. exact A2.
  - destruct (rel_polls_after ms r2 os2 r3 m T2 SN ST EP) as (A & A2 & A3). split; [constructor; [tauto|]|].
    + eapply Forall_impl; [|exact A]. intros x ->. now left.
    + right. left. split; [|split; [exact A3|]]; [unfold told_all in *; cbn [map fold_right told]; now rewrite A2|].
      intros Q. inversion Q as [? ? Q1|? ? Q1]; subst; [discriminate|]. apply Exists_exists in Q1 as (x & I & X). rewrite Forall_forall in A. rewrite (A x I) in X. discriminate.
  - destruct (rel_polls_noted ms r2 os2 r3 m NT BR ST EP) as (A & A2 & A3). split; [constructor; [unfold eof; tauto|]|].
    + eapply Forall_impl; [|exact A]. cbv beta. tauto.
    + right. right. split; [unfold told_all in *; cbn [map fold_right told]; now rewrite A2|]. split; [exact A3|]. left. reflexivity.
Qed.
End RelPolls.

(** The file of a reader is not changed. *)
Lemma rel_hdr_try_data c o c' : rel_hdr_try_read c = (o, c') -> c_data c' = c_data c.
Proof.
  unfold rel_hdr_try_read. destruct (_ <? _); [intros E; now injection E as _ <-|].
  destruct (rd_exact cursor_reader 8 c) as ([sig|x|x] & c1) eqn:E1; apply cursor_exact_data in E1; cbn [sbind]; [|intros E; injection E as _ <-; exact E1|intros E; injection E as _ <-; exact E1].
  destruct (negb _); [intros E; injection E as _ <-; exact E1|].
  destruct (rd_exact cursor_reader 8 c1) as ([cap|x|x] & c2) eqn:E2; apply cursor_exact_data in E2; cbn [sbind]; intros E; injection E as _ <-; congruence.
Qed.
Lemma rel_try_data c o c' : rel_try_read c = (o, c') -> c_data c' = c_data c.
Proof.
  unfold rel_try_read. destruct (rel_hdr_try_read c) as ([[cap|k]|x|x] & c1) eqn:E1; apply rel_hdr_try_data in E1; cbn [stbind sbind];
    [|intros E; injection E as _ <-; exact E1|intros E; injection E as _ <-; exact E1|intros E; injection E as _ <-; exact E1].
  destruct (_ <? _); [intros E; injection E as _ <-; exact E1|].
  destruct (slot_body cursor_reader cap c1) as ([sl|e|w] & c2) eqn:E2; cbn [sbind]; apply slot_body_data in E2; intros E; injection E as _ <-; congruence.
Qed.
Lemma rel_reload_go_data fuel : forall last count pos slots c o slots' c', rel_reload_go fuel last count pos slots c = (o, (slots', c')) -> c_data c' = c_data c.
Proof.
  induction fuel as [|fuel IH]; intros last count pos slots c o slots' c'; cbn [rel_reload_go]; [intros E; now injection E as _ _ <-|].
  destruct (rel_try_read (c_seek pos c)) as (t & c1) eqn:ET. apply rel_try_data in ET. cbn [c_seek c_data] in ET. rewrite <- ET. clear ET c. cbv zeta.
  destruct t as [[s|n]|x|x]; repeat match goal with
    | |- rel_reload_go _ _ _ _ _ _ = _ -> _ => apply IH
    | |- context [match ?d with _ => _ end] => match type of d with bool => destruct d | option _ => destruct d | prod _ _ => destruct d end
    | |- (_, (_, ?c)) = (_, (_, _)) -> _ => let E := fresh in intros E; now injection E as _ _ <-
    end.
Qed.
Lemma rel_reload_data {U} n (r : sreader U) : c_data (d_file (snd (rel_d_reload n r))) = c_data (d_file r).
Proof.
  unfold rel_d_reload, rel_last_slot. destruct (last_slot (d_slots r)) as (lst & pos). destruct (rel_reload_go _ _ _ _ _ _) as (o & slots & c) eqn:E. apply rel_reload_go_data in E.
  destruct o as [[k|u]|x|x]; exact E.
Qed.
