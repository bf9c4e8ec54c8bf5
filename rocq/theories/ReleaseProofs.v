(** * Storages in a release build *)
From Coq Require Import ZifyBool ZifyNat ZifyN.
From Verif Require Import Base Crc32 Io File Block Payload Packet Rules Slot Storage Release Spec SpecStorage SpecPoll SpecRelease BaseProofs CrcProofs IoProofs
  BlockProofs PayloadProofs PacketProofs SlotProofs StorageProofs StorageReadProofs ReadingProofs CrashProofs ReloadProofs HostileProofs PollProofs.
Ltac Zify.zify_post_hook ::= Z.div_mod_to_equations.
Open Scope list_scope.
Local Notation C := default_capacity.

Lemma wsub_le a b : b <= a -> a < two64 -> wsub a b = a - b.
Proof. intros H B. unfold wsub. replace (a + two64 - b) with (a - b + 1 * two64) by lia. rewrite N.mod_add by discriminate. apply N.mod_small. lia. Qed.
Lemma wsub_gt a b : a < b -> b <= two64 -> wsub a b = two64 - (b - a).
Proof. intros H B. unfold wsub. rewrite N.mod_small by lia. lia. Qed.
Lemma wadd_small a b : a + b < two64 -> wadd a b = a + b.
Proof. intros H. apply N.mod_small. exact H. Qed.

Lemma rel_available_ok c : c_ok c -> c_len c < two63 -> rel_available c = blen (c_rest c).
Proof. intros O B. unfold rel_available. rewrite c_rest_len by exact O. unfold c_ok in O. apply wsub_le; [exact O|]. unfold two63, two64 in *. lia. Qed.

Lemma rel_needed cap : wadd (wadd slot_hdr_size ((cap * 8) mod two64)) 4 = (20 + 8 * cap) mod two64.
Proof.
  unfold wadd, slot_hdr_size. rewrite N.add_mod_idemp_r by discriminate. rewrite N.add_mod_idemp_l by discriminate. f_equal. lia.
Qed.

Lemma rel_hdr_same c : c_ok c -> c_len c < two63 -> rel_hdr_try_read c = slot_hdr_try_read c.
Proof. intros O B. unfold rel_hdr_try_read, slot_hdr_try_read. rewrite rel_available_ok, c_available_ok by assumption. reflexivity. Qed.

(** Where the other build does not panic. *)
Lemma rel_try_same c o c' : c_ok c -> c_len c < two63 -> slot_try_read c = (o, c') -> o <> Panic POverflow -> rel_try_read c = (o, c').
Proof.
  intros O B. unfold rel_try_read, slot_try_read. rewrite rel_hdr_same, rel_available_ok, c_available_ok by assumption. cbn [sbind].
  destruct (slot_hdr_try_read c) as [[[cap|n]|x|x] c1]; cbn [stbind sbind]; try (intros E _; exact E).
  rewrite rel_needed. unfold slot_hdr_size. destruct (two64 <=? 16 + cap * 8 + 4) eqn:Q; [intros E NO; injection E as <- _; contradiction|].
  rewrite N.mod_small by lia. replace (16 + cap * 8 + 4) with (20 + 8 * cap) by lia. destruct (blen (c_rest c) <? 20 + 8 * cap); [|intros E _; exact E].
  destruct (29 <? 20 + 8 * cap) eqn:Q2; intros E NO; [injection E as <- _; contradiction|]. rewrite wsub_le by (unfold two64; lia). exact E.
Qed.
(** An incomplete table. *)
Lemma rel_try_cut c cap body : c_ok c -> c_len c < two63 -> cap < two64 -> c_rest c = slot_sig ++ le 8 cap ++ body -> blen body < 8 * cap + 4 ->
  if 16 + blen body <? (20 + 8 * cap) mod two64 then exists n, rel_try_read c = (Ok (NotEnough n), c)
  else two64 <= 20 + 8 * cap /\ exists c', rel_try_read c = (Panic PCapacity, c') /\ c_data c' = c_data c.
Proof.
  intros O B BC V L. unfold rel_try_read. rewrite rel_hdr_same, rel_available_ok by assumption.
  destruct (slot_hdr_try_ok c cap body O BC V) as (c1 & E1 & V1 & O1). rewrite E1. cbn [stbind sbind]. rewrite rel_needed.
  assert (blen (c_rest c) = 16 + blen body) as LR by (rewrite V, !blen_app; unfold blen; rewrite le_length; change (length slot_sig) with 8%nat; lia). rewrite LR.
  apply slot_hdr_try_data in E1. destruct (16 + blen body <? _) eqn:Q.
  - eexists. f_equal. destruct c as [d q], c1 as [d1 q1]. cbn in *. now subst d1.
  - assert (two64 <= 20 + 8 * cap) as W by (destruct (N.le_gt_cases two64 (20 + 8 * cap)); [assumption|rewrite N.mod_small in Q by lia; lia]). split; [exact W|].
    unfold slot_body. replace (two63 <=? cap * 8) with true by (unfold two63, two64 in *; lia). cbn [sbind]. eauto.
Qed.
(** Behind the end of the file. *)
Lemma rel_try_beyond pos c : blen (c_data c) < pos -> pos < two64 -> 16 <= blen (c_data c) ->
  exists c', rel_try_read (c_seek pos c) = (Err (EIo UnexpectedEof), c') /\ c_data c' = c_data c.
Proof.
  intros H B L. unfold rel_try_read, rel_hdr_try_read, rel_available, c_len. cbn [c_seek c_pos c_data]. rewrite wsub_gt by lia.
  replace (two64 - (pos - blen (c_data c)) <? slot_hdr_size) with false by (unfold slot_hdr_size; lia).
  cbn [rd_exact cursor_reader]. unfold cursor_read_exact, c_rest. cbn [c_seek c_pos c_data]. replace (pos <=? blen (c_data c)) with false by lia.
  replace (8 <=? blen (@nil byte)) with false by reflexivity. cbn [sbind stbind]. eexists. split; [reflexivity|]. reflexivity.
Qed.

(** ** Opening *)
Lemma rel_total_ok s : slot_size s + slot_width s < two64 -> rel_total s = slot_size s + slot_width s.
Proof. intros H. unfold rel_total. rewrite !N.mod_small by lia. now apply wadd_small. Qed.

Lemma c_ok_seek off c : off <= blen (c_data c) -> c_ok (c_seek off c).
Proof. intros H. exact H. Qed.

(** Where the other build opens the file or reports an error. *)
Lemma rel_load_same fuel : forall off acc c o c', blen (c_data c) < two63 -> load_go fuel off acc c = (o, c') -> o <> Panic POverflow -> o <> Panic PFuel ->
  forall k, rel_load_go (fuel + k) off acc c = (o, c').
Proof.
  induction fuel as [|fuel IH]; intros off acc c o c' B; cbn [load_go]; [intros E _ NF; injection E as <- _; contradiction|].
  intros E NO NF k. cbn [Nat.add rel_load_go].
  assert (c_ok (c_seek off c)) as O.
  { unfold c_ok, c_len. cbn [c_seek c_pos c_data]. destruct (N.le_gt_cases off (blen (c_data c))) as [H|H]; [exact H|exfalso].
    destruct (try_beyond off c H) as (c1 & E1). rewrite E1 in E. injection E as <- _. contradiction. }
  destruct (slot_try_read (c_seek off c)) as [t c1] eqn:ET. pose proof (slot_try_data _ _ _ ET) as D1. cbn [c_seek c_data] in D1.
  rewrite (rel_try_same _ t c1 O B ET).
  - destruct t as [[s|n]|x|x]; try exact E. cbv zeta in E. destruct (two64 <=? off + (slot_size s + slot_width s)) eqn:Q; [injection E as <- _; contradiction|].
    rewrite rel_total_ok, wadd_small by lia. apply IH; [now rewrite D1|exact E|exact NO|exact NF].
  - intros ->. injection E as <- _. contradiction.
Qed.

(** For every file, as long as the tables do not announce 2^64 bytes. *)
Lemma rel_load_tables data ls next : forall off fuel acc c, c_data c = data -> blen data < two63 -> next < two64 ->
  tables data off ls next -> (forall lens rest, Forall (fun n => n < two64) lens -> skipn (N.to_nat next) data <> table lens ++ rest) ->
  (off = 0 \/ 16 <= blen data) -> (0 < fuel)%nat -> blen data + 1 <= N.of_nat fuel + off ->
  let (o, c') := rel_load_go fuel off acc c in
  c_data c' = data /\ rel_stops data next (un o) /\ (forall a, o = Ok a -> a = acc ++ anchored off ls).
Proof.
  induction ls as [|lens ls IH]; intros off fuel acc c D B BN T NT Z F0 F; destruct fuel as [|f]; try lia; cbn [rel_load_go].
  - inversion T; subst off0 next. destruct (N.le_gt_cases off (blen data)) as [LE|GT].
    + set (c0 := c_seek off c). assert (D0 : c_data c0 = data) by exact D.
      assert (R0 : c_rest c0 = skipn (N.to_nat off) data) by (rewrite rest_skipn; unfold c0, c_seek; cbn [c_data c_pos]; rewrite D; reflexivity).
      assert (P0 : c_pos c0 = off) by reflexivity. assert (L0 : c_len c0 = blen data) by (unfold c_len; now rewrite D0). clearbody c0.
      assert (O : c_ok c0) by (unfold c_ok; lia). assert (B0 : c_len c0 < two63) by lia. pose proof (slot_try_total c0 O B0) as Q. rewrite R0 in Q.
      destruct (slot_try_read c0) as [r c1] eqn:E. pose proof (slot_try_data _ _ _ E) as D1. rewrite D0 in D1.
      destruct r as [[s|n]|e|w].
      * destruct Q as (K & V & _). exfalso. apply (NT (sl_lengths s) (c_rest c1)); [exact (proj1 (proj2 (proj2 K)))|].
        rewrite table_eq, <- slot_of_ok by exact K. rewrite <- !app_assoc. exact V.
      * rewrite (rel_try_same _ _ _ O B0 E ltac:(discriminate)). destruct Q as (-> & Q). split; [exact D0|].
        split; [|intros a H; apply (f_equal (fun x => match x with Ok y => y | _ => [] end)) in H; cbn [anchored]; rewrite app_nil_r; congruence].
        cbn [un rbind rel_stops]. split; [exact LE|]. destruct Q as [(Q & _)|(cap & body & V & Q1 & Q2 & _)]; [left; exact Q|right]. exists cap, body.
        split; [exact V|]. split; [unfold two64; lia|]. rewrite N.mod_small by (unfold two64; lia). lia.
      * rewrite (rel_try_same _ _ _ O B0 E ltac:(discriminate)). split; [exact D1|]. split; [|discriminate]. cbn [un rbind rel_stops load_error].
        right. split; [exact LE|].
        destruct (N.lt_ge_cases (blen (skipn (N.to_nat off) data)) 16) as [S|S].
        { rewrite slot_try_short in E by (assumption || now rewrite R0). discriminate. }
        split; [exact S|]. destruct Q as [(-> & _ & Q)|(-> & l & crc & V & Q1 & Q2 & Q3)]; [left; auto|right; split; [reflexivity|]].
        exists l, crc, (c_rest c1). cbv zeta. unfold slot_crc in Q3. cbn [sl_capacity sl_lengths] in Q3. rewrite <- app_assoc. auto.
      * destruct Q as (-> & cap & body & V & (Q1 & Q2) & Q3). pose proof V as V0. rewrite <- R0 in V0. pose proof (rel_try_cut c0 cap body O B0 Q2 V0 Q3) as Q.
        destruct (16 + blen body <? _) eqn:QL.
        -- destruct Q as (n & Q). rewrite Q. split; [exact D0|].
           split; [|intros a H; apply (f_equal (fun x => match x with Ok y => y | _ => [] end)) in H; cbn [anchored]; rewrite app_nil_r; congruence].
           cbn [un rbind rel_stops]. split; [exact LE|]. right. exists cap, body. split; [exact V|]. split; [exact Q2|lia].
        -- destruct Q as (W & c2 & Q & D2). rewrite Q. split; [congruence|]. split; [|discriminate]. cbn [un rbind rel_stops]. split; [reflexivity|].
           exists cap, body. split; [exact V|]. split; [split; [exact Q2|exact W]|lia].
    + destruct Z as [->|Z]; [lia|]. rewrite <- D in GT, Z. destruct (rel_try_beyond off c GT BN Z) as (c1 & E1 & D1). rewrite E1. split; [congruence|].
      split; [|discriminate]. cbn [un rbind rel_stops load_error]. left. split; [reflexivity|]. rewrite <- D. exact GT.
  - inversion T as [|? ? ? ? rest FL V T']; subst off0 lens0 ls0 next0.
    pose proof (table_fits _ _ _ _ V) as FI. set (c0 := c_seek off c).
    assert (D0 : c_data c0 = data) by exact D. assert (R0 : c_rest c0 = table lens ++ rest) by (rewrite rest_skipn; unfold c0, c_seek; cbn [c_data c_pos]; rewrite D; assumption || reflexivity).
    assert (O : c_ok c0) by (unfold c_ok, c_len; rewrite D0; unfold c0; cbn [c_seek c_pos]; lia).
    assert (K : slot_ok (slot_of lens)) by (apply slot_of_slot_ok; [unfold SpecStorage.table_len in FI; lia|exact FL]).
    rewrite table_eq, <- !app_assoc in R0. destruct (slot_try_ok c0 _ _ O K R0) as (c1 & E & _). pose proof (slot_try_data _ _ _ E) as D1.
    assert (B0 : c_len c0 < two63) by (unfold c_len; now rewrite D0). clearbody c0. rewrite (rel_try_same _ _ _ O B0 E ltac:(discriminate)).
    pose proof (tables_le _ _ _ _ T') as LN. pose proof (slot_of_size lens) as SS. pose proof (slot_of_width lens) as SW.
    rewrite rel_total_ok by (rewrite SS, SW; unfold SpecStorage.table_len in *; lia). rewrite SS, SW, wadd_small by lia. rewrite N.add_assoc.
    specialize (IH (off + SpecStorage.table_len lens + announced lens) f (acc ++ [(slot_of lens, off)]) c1 ltac:(congruence) B BN T' NT).
    unfold SpecStorage.table_len in *. specialize (IH ltac:(lia) ltac:(lia) ltac:(lia)). destruct (rel_load_go f _ _ c1) as [o c2].
    destruct IH as (I1 & I2 & I3). split; [exact I1|]. split; [exact I2|]. intros a H. rewrite (I3 a H), <- app_assoc. reflexivity.
Qed.

Lemma rel_open_all {U} data ls next n : blen data < two63 -> all_tables data ls next -> next < two64 -> (length data < n)%nat ->
  rel_stops data next (un (rel_d_open (U := U) n data)) /\
  (forall r : sreader U, rel_d_open n data = Ok r -> d_slots r = anchored 0 ls /\ c_data (d_file r) = data /\ d_rules r = []) /\
  (forall f, fl_data f = data -> un (rel_w_open n f) = un (rel_d_open (U := U) n data) /\ forall w, rel_w_open n f = Ok w -> w_slots w = map slot_of ls /\ fl_data (w_file w) = data).
Proof.
  intros B (T & NT) BN LN.
  assert (G : forall c, c_data c = data -> let (o, c') := rel_load n c in c_data c' = data /\ rel_stops data next (un o) /\ (forall a, o = Ok a -> a = anchored 0 ls)).
  { intros c D. unfold rel_load. apply (rel_load_tables data ls next 0 n [] c); auto; unfold blen; lia. }
  assert (S : forall c1 c2, c_data c1 = c_data c2 -> fst (rel_load n c1) = fst (rel_load n c2)).
  { intros c1 c2 E. unfold rel_load. destruct n as [|n']; [lia|]. cbn [rel_load_go]. unfold c_seek. rewrite E. reflexivity. }
  unfold rel_d_open. pose proof (G (mk_cursor data 0) eq_refl) as Q. specialize (S (mk_cursor data 0)). destruct (rel_load n (mk_cursor data 0)) as [o c'].
  destruct Q as (Q1 & Q2 & Q3). split; [now destruct o|]. split.
  - intros r E. destruct o as [a|e|w]; try discriminate. specialize (Q3 a eq_refl).
    apply (f_equal (fun x => match x with Ok y => y | _ => r end)) in E. subst r a. auto.
  - intros f D. unfold rel_w_open. unfold fl_data in D. pose proof (G (fl_cur f) D) as H. specialize (S (fl_cur f)). cbn [c_data fst] in S. rewrite D in S. specialize (S eq_refl).
    destruct (rel_load n (fl_cur f)) as [o2 c2]. cbn [fst] in S. subst o2. destruct H as (H1 & _ & H3). split; [now destruct o|].
    intros w E. destruct o as [a|e|w0]; try discriminate. specialize (H3 a eq_refl).
    apply (f_equal (fun x => match x with Ok y => y | _ => w end)) in E. subst w a. cbn [w_slots w_file]. split; [apply anchored_fst|exact H1].
Qed.

(** The whole result is the same where the other build does not panic. *)
Lemma setup_go_same slots : forall l, lc_setup_go slots l = lc_setup_go slots (mk_locator (lc_next l) (lc_off l)).
Proof. intros l. now destruct l. Qed.
Lemma setup_bound slots : forall l, lc_off (lc_setup_go slots l) <= lc_off l + sum (map (fun s => slot_size s + slot_width s) slots).
Proof.
  induction slots as [|s slots IH]; intros l; cbn [lc_setup_go map sum fold_right]; [lia|]. fold (sum (map (fun s => slot_size s + slot_width s) slots)).
  destruct (free_slot_offset s); [lia|]. pose proof (IH (mk_locator (S (lc_next l)) (lc_off l + (slot_size s + slot_width s)))) as Q. cbn [lc_off] in Q. lia.
Qed.
Lemma load_bound fuel : forall off acc c slots c', load_go fuel off acc c = (Ok slots, c') -> off < two64 ->
  sum (map (fun s => slot_size s + slot_width s) (map fst acc)) = off -> sum (map (fun s => slot_size s + slot_width s) (map fst slots)) < two64.
Proof.
  induction fuel as [|fuel IH]; intros off acc c slots c'; cbn [load_go]; [discriminate|]. destruct (slot_try_read (c_seek off c)) as [[[s|n]|x|x] c1]; try discriminate; cbv zeta.
  - destruct (two64 <=? off + (slot_size s + slot_width s)) eqn:Q; [discriminate|]. intros E H1 H2. apply (IH _ _ _ _ _ E); [lia|].
    rewrite !map_app, sum_app. cbn [map sum fold_right]. rewrite H2. cbn [fst]. lia.
  - intros E H1 H2. injection E as <- _. lia.
Qed.

Lemma rel_setup_ok slots : sum (map (fun s => slot_size s + slot_width s) slots) < two64 -> rel_setup slots = lc_setup slots new_locator.
Proof.
  intros H. unfold rel_setup. pose proof (setup_bound slots (mk_locator 0 0)) as Q. unfold lc_setup. cbn [new_locator lc_off] in *. rewrite N.mod_small by lia.
  now destruct (lc_setup_go slots (mk_locator 0 0)).
Qed.
Lemma load_same n c : blen (c_data c) < two63 -> (length (c_data c) < n)%nat -> fst (load c) <> Panic POverflow ->
  rel_load n c = load c /\ forall slots c', load c = (Ok slots, c') -> rel_setup (map fst slots) = lc_setup (map fst slots) new_locator.
Proof.
  intros B L NO. destruct (load c) as [o c'] eqn:E. cbn [fst] in NO.
  assert (o <> Panic PFuel) as NF.
  { intros ->. destruct (all_tables_exist (c_data c) B) as (ls & next & T & NT).
    pose proof (load_tables (c_data c) ls next 0 (length (c_data c) + 1) [] c eq_refl B T NT ltac:(lia) ltac:(unfold blen; lia)) as Q. unfold load in E. rewrite E in Q.
    destruct Q as (_ & Q & _). cbn [un rbind stops] in Q. destruct Q as (Q & _). discriminate Q. }
  unfold load in E. split.
  - unfold rel_load. replace n with (length (c_data c) + 1 + (n - length (c_data c) - 1))%nat by lia. exact (rel_load_same _ _ _ _ _ _ B E NO NF _).
  - intros slots c1 Q. injection Q as -> ->. apply rel_setup_ok. exact (load_bound _ _ _ _ _ _ E ltac:(reflexivity) eq_refl).
Qed.
Lemma open_same {U} n data : blen data < two63 -> (length data < n)%nat -> d_open (U := U) data <> Panic POverflow -> rel_d_open (U := U) n data = d_open data.
Proof.
  intros B L NO. unfold d_open in NO |- *. unfold rel_d_open. destruct (load_same n (mk_cursor data 0) B L) as (-> & S).
  { intros Q. destruct (load _) as [o c]. cbn [fst] in Q. subst o. contradiction. }
  destruct (load (mk_cursor data 0)) as [[slots|x|x] c]; try reflexivity. now rewrite (S slots c eq_refl).
Qed.
Lemma w_open_same n f : blen (fl_data f) < two63 -> (length (fl_data f) < n)%nat -> w_open f <> Panic POverflow -> rel_w_open n f = w_open f.
Proof.
  intros B L NO. unfold w_open in NO |- *. unfold rel_w_open. destruct (load_same n (fl_cur f) B L) as (-> & S).
  { intros Q. destruct (load _) as [o c]. cbn [fst] in Q. subst o. contradiction. }
  destruct (load (fl_cur f)) as [[slots|x|x] c]; try reflexivity. cbv zeta. now rewrite (S slots c eq_refl).
Qed.

(** ** What a crash leaves *)
Lemma rel_skip J gs : forall fuel A acc c, c_data c = A ++ files gs ++ J -> Forall filled gs -> blen (c_data c) < two63 ->
  exists c', rel_load_go (length gs + fuel) (blen A) acc c = rel_load_go fuel (blen (A ++ files gs)) (acc ++ anch (blen A) gs) c' /\ c_data c' = c_data c.
Proof.
  induction gs as [|g gs IH]; intros fuel A acc c D F B.
  - change (files []) with (@nil byte). rewrite !app_nil_r. exists c. cbn [anch length Nat.add]. rewrite ?app_nil_r. split; reflexivity.
  - cbn [length Nat.add rel_load_go].
    inversion F as [|? ? Hg F']; subst. change (files (g :: gs)) with (gfile g ++ files gs) in *. pose proof B as B'. rewrite D, !blen_app, gfile_blen in B by apply Hg.
    rewrite <- app_assoc in D.
    destruct (try_group A g (files gs ++ J) c D (proj1 Hg)) as (c1 & E & D1).
    { unfold gsz in B. rewrite concat_blen. unfold two63, two64 in *. lia. }
    assert (blen (A ++ gfile g) = blen A + gsz (map blen g)) as LA by (rewrite blen_app, gfile_blen by apply Hg; reflexivity).
    assert (c_ok (c_seek (blen A) c)) as O by (apply c_ok_seek; rewrite D, blen_app; lia). rewrite (rel_try_same _ _ _ O B' E ltac:(discriminate)).
    pose proof (lsl_total (map blen g) (filled_good _ Hg)) as LT. rewrite rel_total_ok by (rewrite LT; unfold two63, two64 in *; lia). rewrite LT, wadd_small by (unfold two63, two64 in *; lia).
    rewrite <- LA.
    destruct (IH fuel (A ++ gfile g) (acc ++ [(lsl (map blen g), blen A)]) c1) as (c' & E' & D').
    + rewrite D1, D, <- app_assoc. reflexivity. + exact F'. + now rewrite D1.
    + exists c'. rewrite E', <- !app_assoc. cbn [app anch]. rewrite LA. split; [reflexivity|congruence].
Qed.

Lemma rel_past gs ls y c n : c_data c = files gs ++ slot_table ls ++ y -> Forall filled gs -> blen (c_data c) < two63 ->
  good ls -> Forall (fun n => n < two64) ls -> blen y < sum ls -> blen (files gs) + gsz ls < two64 -> (length (c_data c) < n)%nat ->
  exists c', rel_load n c = (Err (EIo UnexpectedEof), c').
Proof.
  intros D F B G FL Y BN LN. unfold rel_load. pose proof (files_fuel gs F) as FU. pose proof (slot_table_length ls (proj1 G)) as LT.
  assert (length (slot_table ls) = 4020%nat) as LT' by (rewrite <- to_nat_blen, LT; apply tsz_nat).
  set (f := (n - length gs - 2)%nat).
  replace n with (length gs + S (S f))%nat by (unfold f; rewrite D, !app_length in LN; lia).
  destruct (rel_skip (slot_table ls ++ y) gs (S (S f)) [] [] c D F B) as (c' & E & D'). change (blen []) with 0 in E. rewrite E. clear E. cbn [app].
  set (A := files gs) in *. clearbody f. set (acc := anch 0 gs). clearbody acc. cbn [rel_load_go].
  destruct (try_table A ls y c' ltac:(congruence) (proj1 G) FL) as (c2 & E2 & D2).
  assert (16 <= blen (c_data c2)) as L16 by (rewrite D2, D', D, !blen_app, LT; unfold tsz; lia).
  assert (blen (c_data c2) < blen A + gsz ls) as LB by (rewrite D2, D', D, !blen_app, LT; unfold gsz; lia).
  assert (c_ok (c_seek (blen A) c')) as O by (apply c_ok_seek; rewrite D', D, blen_app; lia). assert (c_len (c_seek (blen A) c') < two63) as B2 by (unfold c_len; cbn [c_seek c_data]; now rewrite D').
  rewrite (rel_try_same _ _ _ O B2 E2 ltac:(discriminate)).
  pose proof (lsl_total ls G) as LG. rewrite rel_total_ok by (rewrite LG; lia). rewrite LG, wadd_small by exact BN.
  destruct (rel_try_beyond (blen A + gsz ls) c2 LB BN L16) as (c3 & E3 & _). rewrite E3. eauto.
Qed.

Lemma rel_cut A lens k c : c_data c = A ++ firstn k (slot_table lens) -> (length lens <= C)%nat -> (k < 4020)%nat -> blen (c_data c) < two63 ->
  exists m, rel_try_read (c_seek (blen A) c) = (Ok (NotEnough m), c_seek (blen A) c).
Proof.
  intros D G K B. assert (length (slot_table lens) = 4020%nat) as LT by (rewrite <- tsz_nat; now apply table_len).
  destruct (c_at A _ _ (blen A) D eq_refl c eq_refl) as (V & O & _).
  assert (blen (firstn k (slot_table lens)) = N.of_nat k) as LK by (unfold blen in *; rewrite firstn_length; lia).
  destruct (Nat.lt_ge_cases k 16) as [K1|K1].
  - exists 16. apply rel_try_same; [exact O|exact B|apply slot_try_short; [exact O|rewrite V; lia]|discriminate].
  - assert (exists y, firstn k (slot_table lens) = slot_sig ++ le 8 (N.of_nat C) ++ y) as (y & EY).
    { rewrite slot_table_eq. replace k with (length (slot_sig ++ le 8 (sl_capacity (lsl lens))) + (k - 16))%nat by (rewrite app_length, le_length; change (length slot_sig) with 8%nat; lia).
      rewrite app_assoc, firstn_app_2, <- app_assoc. eexists. reflexivity. }
    rewrite EY in V. pose proof cap_eq as CE.
    assert (16 + blen y = N.of_nat k) as LY by (rewrite <- LK, EY, !blen_app; unfold blen; rewrite le_length; change (length slot_sig) with 8%nat; lia).
    pose proof (rel_try_cut (c_seek (blen A) c) (N.of_nat C) y O B ltac:(rewrite CE; reflexivity) V ltac:(lia)) as Q. rewrite N.mod_small in Q by (rewrite CE; reflexivity).
    replace (16 + blen y <? 20 + 8 * N.of_nat C) with true in Q by lia. exact Q.
Qed.
Lemma rel_short gs ls k c n : c_data c = files gs ++ firstn k (slot_table ls) -> Forall filled gs -> blen (c_data c) < two63 ->
  (length ls <= C)%nat -> (k < 4020)%nat -> (length (c_data c) < n)%nat -> exists c', rel_load n c = (Ok (anch 0 gs), c') /\ c_data c' = c_data c.
Proof.
  intros D F B G K LN. unfold rel_load. pose proof (files_fuel gs F) as FU. set (f := (n - length gs - 1)%nat).
  replace n with (length gs + S f)%nat by (unfold f; rewrite D, !app_length in LN; lia).
  destruct (rel_skip _ gs (S f) [] [] c D F B) as (c' & E & D'). change (blen []) with 0 in E. rewrite E. clear E. cbn [app rel_load_go].
  destruct (rel_cut (files gs) ls k c' ltac:(congruence) G K ltac:(now rewrite D')) as (m & Q). rewrite Q. eexists. split; [reflexivity|]. exact D'.
Qed.

Lemma unle_part k n : n < two64 -> unle (mix k (le 8 n) (zeros 8)) <= n.
Proof.
  intros B. unfold mix. rewrite unle_app. assert (unle (skipn k (zeros 8)) = 0) as ->.
  { do 9 (destruct k as [|k]; [reflexivity|]). now rewrite skipn_all2 by (cbn; lia). }
  rewrite N.mul_0_r, N.add_0_r. rewrite <- (unle_le 8 n B) at 2. rewrite <- (firstn_skipn k (le 8 n)) at 2. rewrite unle_app. lia.
Qed.

Lemma during_size fs l e m : shaped fs l -> nonempty_all (concat fs ++ l) -> blen (during (concat fs ++ l) e m) <= blen (storage_file ((concat fs ++ l) ++ [e])).
Proof.
  intros SH NE. pose proof SH as (F & L). rewrite during_eq by assumption. rewrite <- concat_push, storage_shaped by now apply shaped_push.
  rewrite gro_push, files_app, files_one. unfold gfile. rewrite map_app, concat_app. cbn [map concat]. rewrite app_nil_r.
  assert (length (slot_table (map blen l ++ [blen e])) = 4020%nat) as LT by (rewrite <- tsz_nat; apply table_len; rewrite app_length, map_length; cbn [length]; lia).
  assert (length (slot_table (map blen l)) = 4020%nat) as LO by (rewrite <- tsz_nat; apply table_len; rewrite map_length; lia).
  rewrite !blen_app. revert LT LO. generalize (slot_table (map blen l ++ [blen e])), (slot_table (map blen l)). intros T T0 LT LO. unfold blen. rewrite !firstn_length, skipn_length.
  destruct l; cbn [length concat]; lia.
Qed.

(** The file at any moment of an insert before it is complete. *)
Lemma rel_during fs l e m n : shaped fs l -> nonempty_all ((concat fs ++ l) ++ [e]) -> blen (storage_file ((concat fs ++ l) ++ [e])) < two63 ->
  (m < 4020 + length e)%nat -> (length (during (concat fs ++ l) e m) < n)%nat -> let d := during (concat fs ++ l) e m in
  (m < 4020)%nat /\ (l = [] /\ d = files fs ++ firstn m (slot_table [blen e]) /\ (exists c', rel_load n (mk_cursor d 0) = (Ok (anch 0 fs), c') /\ c_data c' = d) \/
    l <> [] /\ d = files (gro fs l) \/
    l <> [] /\ exists c', rel_load n (mk_cursor d 0) = (Err (EDamagedSlot ECrcDismatch), c')) \/
  ((m < 4020)%nat -> l <> []) /\ exists c', rel_load n (mk_cursor d 0) = (Err (EIo UnexpectedEof), c').
Proof.
  intros SH NEa B LM LN d. pose proof NEa as NEb. apply Forall_app in NEb as (NE & NEe). inversion NEe as [|? ? He _]; subst x l0. pose proof SH as (F & L).
  pose proof NE as NEc. apply Forall_app in NEc as (_ & NL).
  assert (Forall filled fs) as FF by (pose proof (shaped_filled _ _ SH NE) as FG; unfold gro in FG; now apply Forall_app in FG).
  pose proof (during_size fs l e m SH NE) as DZ. fold d in DZ, LN.
  assert (storage_file ((concat fs ++ l) ++ [e]) = files fs ++ slot_table (map blen l ++ [blen e]) ++ concat l ++ e) as EN.
  { rewrite <- concat_push, storage_shaped by now apply shaped_push. rewrite gro_push, files_app, files_one. unfold gfile. rewrite map_app, concat_app. cbn [map concat]. now rewrite app_nil_r. }
  assert (length (map blen l ++ [blen e]) <= C)%nat as LS by (rewrite app_length, map_length; cbn [length]; lia).
  assert (blen (slot_table (map blen l ++ [blen e])) = tsz) as LTb by now apply slot_table_length.
  assert (length (slot_table (map blen l ++ [blen e])) = 4020%nat) as LT by (rewrite <- tsz_nat; now apply table_len).
  assert (blen (files fs) + tsz + sum (map blen l) + blen e < two63) as BB by (rewrite EN, !blen_app, LTb, concat_blen in B; lia).
  assert (pos_all (map blen l)) as PL. { apply Forall_map. eapply Forall_impl; [|exact NL]. intros x Q. destruct x; [contradiction|rewrite blen_cons; lia]. }
  assert (Forall (fun n => n < two64) (map blen l)) as FS. { apply Forall_forall. intros k I. apply sum_in in I. unfold two63, two64 in *. lia. }
  pose proof (during_eq fs l e m SH NE) as DE. fold d in DE.
  assert (blen d < two63) as BD by lia.
  destruct (Nat.lt_ge_cases m 4020) as [H|H].
  - replace (m - 4020)%nat with O in DE by lia. rewrite firstn_O, app_nil_r in DE. destruct (list_eq_dec (list_eq_dec Byte.byte_eq_dec) l []) as [->|LNE].
    + left. split; [exact H|]. left. split; [reflexivity|]. cbn [map app concat] in *. rewrite skipn_nil, app_nil_r in DE. cbn [app] in DE. rewrite ?app_nil_r in DE. split; [exact DE|].
      apply (rel_short fs [blen e] m (mk_cursor d 0) n DE FF BD LS H LN).
    + assert (length (map blen l) < C)%nat as LMm by (rewrite map_length; exact L).
      destruct (table_new (map blen l) (blen e) LMm) as (x' & ET' & LX'). destruct (table_old (map blen l) LMm) as (x & ET & LX).
      assert (d = files fs ++ mix m (slot_table (map blen l ++ [blen e])) (slot_table (map blen l)) ++ concat l) as DM.
      { rewrite DE. unfold mix. destruct l; [contradiction|]. now rewrite <- !app_assoc. }
      rewrite ET', ET, mix_table in DM by (rewrite le_length; reflexivity).
      set (wm := mix _ (le 8 _) _) in DM. set (xm := mix _ x' x) in DM.
      assert (length wm = 8%nat) as LWM by (unfold wm; now rewrite mix_length). assert (length xm = 4%nat) as LXM by (unfold xm; rewrite mix_length; congruence).
      assert (unle wm <= blen e) as UE by (apply unle_part; unfold two63, two64 in *; lia). clearbody wm xm.
      pose proof (files_fuel fs FF) as FU. set (f := (n - length fs - 1)%nat).
      assert (n = length fs + S f)%nat as EF by (unfold f; rewrite DM, !app_length in LN; lia).
      destruct (rel_skip (table_of (map blen l) wm xm ++ concat l) fs (S f) [] [] (mk_cursor d 0) DM FF BD) as (c1 & E & D1). change (blen []) with 0 in E. cbn [app] in E. cbn [c_data] in D1.
      assert (c_data c1 = files fs ++ table_of (map blen l) wm xm ++ concat l) as D1' by congruence.
      destruct (try_partial (files fs) (map blen l) wm xm (concat l) c1 D1' LMm FS LWM LXM) as (c2 & D2 & Q).
      assert (c_ok (c_seek (blen (files fs)) c1)) as O by (apply c_ok_seek; rewrite D1', blen_app; lia).
      assert (c_len (c_seek (blen (files fs)) c1) < two63) as B1 by (unfold c_len; cbn [c_seek c_data]; now rewrite D1).
      destruct Q as [Q|(Q & TE)].
      * left. split; [exact H|]. right. right. split; [exact LNE|]. unfold rel_load. rewrite EF, E. cbn [rel_load_go]. rewrite (rel_try_same _ _ _ O B1 Q ltac:(discriminate)). eauto.
      * destruct (unle wm) as [|k] eqn:UW.
        -- left. split; [exact H|]. right. left. split; [exact LNE|]. rewrite app_nil_r in TE. rewrite DM, TE. rewrite gro_some, files_app, files_one by exact LNE. reflexivity.
        -- right. split; [auto|]. rewrite TE in DM. apply (rel_past fs _ _ (mk_cursor d 0) n DM FF BD); [| | | |exact LN].
           ++ split; [rewrite app_length, map_length; cbn [length]; lia|]. apply Forall_app. split; [exact PL|]. repeat constructor.
           ++ apply Forall_app. split; [exact FS|]. repeat constructor. unfold two63, two64 in *. lia.
           ++ rewrite concat_blen, sum_app. cbn [sum fold_right]. lia.
           ++ unfold gsz. rewrite sum_app. cbn [sum fold_right]. unfold two63, two64 in *. lia.
  - right. split; [lia|]. rewrite firstn_all2 in DE by lia. rewrite skipn_all2 in DE by (destruct l; [cbn; lia|rewrite table_len, tsz_nat; [exact H|rewrite map_length; lia]]). cbn [app] in DE.
    apply (rel_past fs (map blen l ++ [blen e]) (concat l ++ firstn (m - 4020) e) (mk_cursor d 0) n DE FF BD); [| | | |exact LN].
    + split; [exact LS|]. apply Forall_app. split; [exact PL|]. repeat constructor. destruct e; [contradiction|rewrite blen_cons; lia].
    + apply Forall_app. split; [exact FS|]. repeat constructor. unfold two63, two64 in *. lia.
    + rewrite sum_app, <- concat_blen, blen_app. cbn [sum fold_right]. unfold blen. rewrite firstn_length. lia.
    + unfold gsz. rewrite sum_app. cbn [sum fold_right]. unfold two63, two64 in *. lia.
Qed.

Lemma rel_setup_anch gs : gszs (map (map blen) gs) < two64 -> Forall filled gs -> rel_setup (map fst (anch 0 gs)) = lc_setup (map fst (anch 0 gs)) new_locator.
Proof.
  intros B F. apply rel_setup_ok. rewrite anch_fst. eapply N.le_lt_trans; [|exact B]. clear B. apply N.eq_le_incl. induction F as [|g gs Hg F IH]; [reflexivity|].
  cbn [map sum fold_right]. change (gszs (map blen g :: map (map blen) gs)) with (gsz (map blen g) + gszs (map (map blen) gs)). rewrite <- IH. f_equal.
  rewrite N.add_comm. rewrite N.add_comm. apply lsl_total. now apply filled_good.
Qed.

(** An incomplete table behind full slots is as good as nothing. *)
Lemma rel_reopen {U} (P : proto U) fs e m n : shaped fs [] -> nonempty_all (concat fs ++ []) -> blen (files fs) < two63 -> blen e < two64 -> (m < 4020)%nat ->
  let d := files fs ++ firstn m (slot_table [blen e]) in blen d < two63 -> (length d < n)%nat ->
  (exists r : sreader U, rel_d_open n d = Ok r /\ d_ok (concat fs ++ []) r /\ d_rules r = []) /\
  exists w, rel_w_open n (healthy d) = Ok w /\
    forall (p' : packet U) e', packet_enc P p' e' -> exists w', w_insert p' w = (Ok tt, w') /\ w_ok (fst (push fs [] e')) (snd (push fs [] e')) w'.
Proof.
  intros SH NE B BE M d BD LN. pose proof (shaped_filled _ _ SH NE) as FF. unfold gro in FF. rewrite app_nil_r in FF.
  destruct (rel_short fs [blen e] m (mk_cursor d 0) n eq_refl FF BD ltac:(rewrite cap_eq; cbn [length]; lia) M LN) as (c & E & D). cbn [c_data] in D.
  destruct (shaped_full _ _ SH NE) as (A1 & A2 & A3).
  assert (Forall small fs) as SM by (eapply Forall_impl; [|exact FF]; intros g Q; apply Q).
  assert (gszs (map (map blen) fs) < two64) as GB by (rewrite <- files_blen by exact SM; unfold two63, two64 in *; lia).
  pose proof (rel_setup_anch fs GB FF) as RS. pose proof (gro_slots fs []) as GS. cbv zeta in GS. unfold gro in GS. rewrite app_nil_r in GS. cbn [map] in GS.
  assert (files (gro fs []) = files fs) as FG by (unfold gro; now rewrite app_nil_r).
  split.
  - unfold rel_d_open. rewrite E. eexists. split; [reflexivity|]. split; [|reflexivity]. split; auto; cbn [d_slots d_file d_loc].
    + exists fs, [], (firstn m (slot_table [blen e])). split; [exact SH|]. split; [reflexivity|]. split; [unfold gro; now rewrite app_nil_r|]. split; [rewrite FG; exact D|].
      rewrite RS, anch_fst. erewrite setup_mem; [|exact A1|exact A2|exact A3|exact GS]. cbn [at_loc lc_next]. apply map_length.
    + rewrite storage_shaped, FG by exact SH. exact B.
  - unfold rel_w_open, healthy. cbn [fl_cur fl_sched fl_flushes]. rewrite E. eexists. split; [reflexivity|]. intros p' e' HE.
    apply (ok_insert_tail fs [] _ p' e' c (firstn m (slot_table [blen e]))); cbn [w_slots w_loc w_file].
    + rewrite RS, anch_fst. split; auto. left. eapply setup_mem; eauto.
    + reflexivity. + rewrite FG. exact D. + right. split; [reflexivity|]. unfold blen, tsz. rewrite firstn_length. lia.
    + exact (pkt_write_all_ok P p' e' [] HE). + exact (packet_enc_nonempty _ _ _ HE).
Qed.
