(** * Opening and reading storage files of unknown origin *)
From Coq Require Import ZifyBool ZifyNat ZifyN.
From Verif Require Import Base Crc32 Io File Block Payload Packet Rules Slot Storage Spec SpecStorage BaseProofs CrcProofs IoProofs
  BlockProofs PayloadProofs PacketSafeProofs SlotProofs.
Ltac Zify.zify_post_hook ::= Z.div_mod_to_equations.
Open Scope list_scope.

Lemma rest_skipn c : c_rest c = skipn (N.to_nat (c_pos c)) (c_data c).
Proof. unfold c_rest, blen. destruct (_ <=? _) eqn:E; [reflexivity|]. symmetry. apply skipn_all2. lia. Qed.

(** A slot with the entries [lens]. *)
Definition slot_of (lens : list N) : slot := with_crc (mk_slot lens (N.of_nat (length lens)) []).

Lemma slot_of_ok s : slot_ok s -> s = slot_of (sl_lengths s).
Proof.
  intros (L & _ & _ & C). destruct s as [lens cap crc]. cbn [sl_lengths sl_capacity sl_crc] in *. subst cap.
  unfold slot_of, with_crc, slot_crc. cbn [sl_lengths sl_capacity]. now rewrite <- C.
Qed.
Lemma table_eq lens : table lens = slot_sig ++ le 8 (sl_capacity (slot_of lens)) ++ slot_content (slot_of lens).
Proof.
  unfold table, slot_content, slot_of, with_crc, slot_crc. cbn [sl_capacity sl_lengths sl_crc]. now rewrite <- !app_assoc.
Qed.
Lemma table_length lens : blen (table lens) = table_len lens.
Proof.
  unfold table, table_len. rewrite !blen_app. unfold blen at 1 2 4. rewrite map_length, le_length, crc32_le_length. cbn [length].
  assert (blen (concat (map (le 8) lens)) = 8 * N.of_nat (length lens)) as ->; [|lia].
  induction lens as [|n l IH]; [reflexivity|]. cbn [map concat length]. rewrite blen_app, IH. unfold blen. rewrite le_length. lia.
Qed.
Lemma slot_of_size lens : slot_size (slot_of lens) = table_len lens.
Proof. unfold slot_size, slot_of, with_crc, slot_hdr_size, table_len. cbn [sl_capacity]. lia. Qed.

Lemma before_firstn l : match free_position l with None => before_zero l = l | Some i => before_zero l = firstn i l end.
Proof.
  induction l as [|n l IH]; [reflexivity|]. cbn [free_position before_zero]. destruct (n =? 0); [reflexivity|].
  destruct (free_position l); cbn [option_map firstn]; now rewrite IH.
Qed.
Lemma slot_of_width lens : slot_width (slot_of lens) = announced lens.
Proof.
  unfold slot_width, slot_is_full, announced, slot_of, with_crc. cbn [sl_lengths]. destruct (0 <? last lens 0); [apply sum_total|].
  pose proof (before_firstn lens) as Q. destruct (free_position lens); rewrite Q; apply sum_total.
Qed.

Lemma slot_of_slot_ok lens : N.of_nat (length lens) * 8 + 20 < two63 -> Forall (fun n => n < two64) lens -> slot_ok (slot_of lens).
Proof. intros B F. unfold slot_ok, slot_of, with_crc, slot_crc. cbn [sl_lengths sl_capacity sl_crc]. auto. Qed.

(** The slots with their places. *)
Fixpoint anchored (off : N) (ls : list (list N)) : list (slot * N) :=
  match ls with [] => [] | l :: r => (slot_of l, off) :: anchored (off + table_len l + announced l) r end.

Lemma anchored_fst ls : forall off, map fst (anchored off ls) = map slot_of ls.
Proof. induction ls as [|l ls IH]; intros off; cbn [anchored map fst]; [reflexivity|now rewrite IH]. Qed.

(** The bytes of a table at [off] are in the file. *)
Lemma table_fits data off lens rest : skipn (N.to_nat off) data = table lens ++ rest -> off + table_len lens <= blen data.
Proof.
  intros E. pose proof (table_length lens) as T. unfold table_len in *.
  assert (length (skipn (N.to_nat off) data) = (length (table lens) + length rest)%nat) as L by now rewrite E, app_length.
  rewrite skipn_length in L. unfold blen in *. lia.
Qed.

Lemma tables_le data off ls next : tables data off ls next -> off <= next.
Proof. induction 1; lia. Qed.

Lemma load_tables data ls next : forall off fuel acc c, c_data c = data -> blen data < two63 ->
  tables data off ls next -> (forall lens rest, Forall (fun n => n < two64) lens -> skipn (N.to_nat next) data <> table lens ++ rest) ->
  (0 < fuel)%nat -> blen data + 1 <= N.of_nat fuel + off ->
  let (o, c') := load_go fuel off acc c in
  c_data c' = data /\ stops data next (un o) /\ (forall a, o = Ok a -> a = acc ++ anchored off ls).
Proof.
  induction ls as [|lens ls IH]; intros off fuel acc c D B T N F0 F; destruct fuel as [|f]; try lia; cbn [load_go].
  - inversion T; subst off0 next. set (c0 := c_seek off c).
    assert (D0 : c_data c0 = data) by exact D. assert (R0 : c_rest c0 = skipn (N.to_nat off) data) by (rewrite rest_skipn; unfold c0, c_seek; cbn [c_data c_pos]; rewrite D; assumption || reflexivity).
    assert (P0 : c_pos c0 = off) by reflexivity. assert (L0 : c_len c0 = blen data) by (unfold c_len; now rewrite D0).
    clearbody c0. destruct (N.le_gt_cases off (blen data)) as [LE|GT].
    + assert (O : c_ok c0) by (unfold c_ok; lia). pose proof (slot_try_total c0 O ltac:(lia)) as Q. rewrite R0 in Q.
      destruct (slot_try_read c0) as [r c1] eqn:E. pose proof (slot_try_data _ _ _ E) as D1. rewrite D0 in D1.
      destruct r as [[s|n]|e|w].
      * destruct Q as (K & V & _). exfalso. apply (N (sl_lengths s) (c_rest c1)); [exact (proj1 (proj2 (proj2 K)))|].
        rewrite table_eq, <- slot_of_ok by exact K. rewrite <- !app_assoc. exact V.
      * destruct Q as (-> & Q). split; [exact D0|]. split; [|intros a H; apply (f_equal (fun x => match x with Ok y => y | _ => [] end)) in H; cbn [anchored]; rewrite app_nil_r; congruence].
        cbn [un rbind stops]. split; [exact LE|]. destruct Q as [(Q & _)|(cap & body & V & Q1 & Q2 & _)]; [left; exact Q|right; eauto].
      * split; [exact D1|]. split; [|discriminate]. cbn [un rbind stops load_error]. split; [exact LE|].
        destruct (N.lt_ge_cases (blen (skipn (N.to_nat off) data)) 16) as [S|S].
        { rewrite slot_try_short in E by (assumption || now rewrite R0). discriminate. }
        split; [exact S|]. destruct Q as [(-> & _ & Q)|(-> & l & crc & V & Q1 & Q2 & Q3)]; [left; auto|right; split; [reflexivity|]].
        exists l, crc, (c_rest c1). cbv zeta. unfold slot_crc in Q3. cbn [sl_capacity sl_lengths] in Q3. rewrite <- app_assoc. auto.
      * destruct Q as (-> & Q). split; [exact D1|]. split; [|discriminate]. cbn [un rbind stops]. split; [reflexivity|right; exact Q].
    + unfold slot_try_read, c_available. replace (c_pos c0 <=? c_len c0) with false by lia. cbn [sbind].
      split; [exact D0|]. split; [|discriminate]. cbn [un rbind stops]. auto.
  - inversion T as [|? ? ? ? rest FL V T']; subst off0 lens0 ls0 next0.
    pose proof (table_fits _ _ _ _ V) as FI. set (c0 := c_seek off c).
    assert (D0 : c_data c0 = data) by exact D. assert (R0 : c_rest c0 = table lens ++ rest) by (rewrite rest_skipn; unfold c0, c_seek; cbn [c_data c_pos]; rewrite D; assumption || reflexivity).
    assert (O : c_ok c0) by (unfold c_ok, c_len; rewrite D0; unfold c0; cbn [c_seek c_pos]; lia).
    assert (K : slot_ok (slot_of lens)) by (apply slot_of_slot_ok; [unfold table_len in FI; lia|exact FL]).
    rewrite table_eq, <- !app_assoc in R0. destruct (slot_try_ok c0 _ _ O K R0) as (c1 & E & _). pose proof (slot_try_data _ _ _ E) as D1.
    clearbody c0. rewrite E, slot_of_size, slot_of_width. cbv zeta. rewrite N.add_assoc.
    destruct (two64 <=? off + table_len lens + announced lens) eqn:Q.
    + pose proof (tables_le _ _ _ _ T'). split; [congruence|]. split; [|discriminate]. cbn [un rbind stops]. split; [reflexivity|left].
      unfold two63, two64 in *. lia.
    + specialize (IH (off + table_len lens + announced lens) f (acc ++ [(slot_of lens, off)]) c1 ltac:(congruence) B T' N).
      unfold table_len in *. specialize (IH ltac:(lia) ltac:(lia)). destruct (load_go f _ _ c1) as [o c2].
      destruct IH as (I1 & I2 & I3). split; [exact I1|]. split; [exact I2|]. intros a H. rewrite (I3 a H), <- app_assoc. reflexivity.
Qed.

(** There is always such a sequence. *)
Lemma tables_exist data : blen data < two63 -> forall n off, (N.to_nat (blen data) <= n + N.to_nat off)%nat -> exists ls next, tables data off ls next /\
  forall lens rest, Forall (fun n => n < two64) lens -> skipn (N.to_nat next) data <> table lens ++ rest.
Proof.
  intros BD. induction n as [|n IH]; intros off B.
  - exists [], off. split; [constructor|]. intros lens rest _ E. pose proof (table_fits _ _ _ _ E). unfold table_len in *. lia.
  - assert (K : (exists lens rest, Forall (fun n => n < two64) lens /\ skipn (N.to_nat off) data = table lens ++ rest) \/
                forall lens rest, Forall (fun n => n < two64) lens -> skipn (N.to_nat off) data <> table lens ++ rest).
    { destruct (N.le_gt_cases off (blen data)) as [LE|GT];
        [|right; intros lens rest _ E; pose proof (table_fits _ _ _ _ E); unfold table_len in *; lia].
      assert (O : c_ok (mk_cursor data off)) by exact LE. pose proof (slot_try_total _ O BD) as Q.
      pose proof (rest_skipn (mk_cursor data off)) as R. cbn [c_pos c_data] in R. rewrite R in Q.
      assert (T : forall lens rest, Forall (fun n => n < two64) lens -> skipn (N.to_nat off) data = table lens ++ rest ->
        exists c', slot_try_read (mk_cursor data off) = (Ok (Success (slot_of lens)), c')).
      { intros lens rest F E. pose proof (table_fits _ _ _ _ E). rewrite E, table_eq, <- !app_assoc in R.
        destruct (slot_try_ok _ (slot_of lens) _ O (slot_of_slot_ok lens ltac:(unfold table_len in *; lia) F) R) as (c' & E' & _). eauto. }
      destruct (slot_try_read (mk_cursor data off)) as [[[s|k]|e|w] c1];
        try (right; intros lens rest F E; destruct (T lens rest F E) as (c' & H); discriminate).
      left. destruct Q as (K & V & _). exists (sl_lengths s), (c_rest c1). split; [exact (proj1 (proj2 (proj2 K)))|].
      rewrite table_eq, <- slot_of_ok by exact K. rewrite <- !app_assoc. exact V. }
    destruct K as [(lens & rest & F & E)|K].
    + pose proof (table_fits _ _ _ _ E). destruct (IH (off + table_len lens + announced lens)) as (ls & next & T & N); [unfold table_len in *; lia|].
      exists (lens :: ls), next. split; [eapply tables_more; eauto|exact N].
    + exists [], off. split; [constructor|exact K].
Qed.

Lemma all_tables_exist data : blen data < two63 -> exists ls next, all_tables data ls next.
Proof. intros B. apply (tables_exist data B (length data) 0). unfold blen. lia. Qed.

Lemma open_all {U} data ls next : blen data < two63 -> all_tables data ls next ->
  stops data next (un (d_open (U := U) data)) /\
  (forall r : sreader U, d_open data = Ok r -> d_slots r = anchored 0 ls /\ c_data (d_file r) = data /\ d_rules r = []) /\
  (forall f, fl_data f = data -> un (w_open f) = un (d_open (U := U) data) /\ forall w, w_open f = Ok w -> w_slots w = map slot_of ls /\ fl_data (w_file w) = data).
Proof.
  intros B (T & N).
  assert (G : forall c, c_data c = data -> let (o, c') := load c in c_data c' = data /\ stops data next (un o) /\ (forall a, o = Ok a -> a = anchored 0 ls)).
  { intros c D. unfold load. rewrite D. apply (load_tables data ls next 0 _ [] c); auto; unfold blen; lia. }
  assert (S : forall c1 c2, c_data c1 = c_data c2 -> fst (load c1) = fst (load c2)).
  { intros c1 c2 E. unfold load. rewrite E, Nat.add_1_r. cbn [load_go]. unfold c_seek. rewrite E. reflexivity. }
  unfold d_open. pose proof (G (mk_cursor data 0) eq_refl) as Q. specialize (S (mk_cursor data 0)). destruct (load (mk_cursor data 0)) as [o c'].
  destruct Q as (Q1 & Q2 & Q3). split; [now destruct o|]. split.
  - intros r E. destruct o as [a|e|w]; try discriminate. specialize (Q3 a eq_refl).
    apply (f_equal (fun x => match x with Ok y => y | _ => r end)) in E. subst r a. auto.
  - intros f D. unfold w_open. unfold fl_data in D. pose proof (G (fl_cur f) D) as H. specialize (S (fl_cur f)). cbn [c_data fst] in S. rewrite D in S. specialize (S eq_refl).
    destruct (load (fl_cur f)) as [o2 c2]. cbn [fst] in S. subst o2. destruct H as (H1 & _ & H3). split; [now destruct o|].
    intros w E. destruct o as [a|e|w0]; try discriminate. specialize (H3 a eq_refl).
    apply (f_equal (fun x => match x with Ok y => y | _ => w end)) in E. subst w a. cbn [w_slots w_file]. rewrite anchored_fst. auto.
Qed.

(** ** Reading *)

Lemma anchored_nth ls : forall off i, nth_error (anchored off ls) i =
  option_map (fun l => (slot_of l, off + table_place ls i)) (nth_error ls i).
Proof.
  induction ls as [|l ls IH]; intros off [|i]; try reflexivity; cbn [anchored nth_error option_map].
  - unfold table_place. cbn [firstn map total fold_right]. now rewrite N.add_0_r.
  - rewrite IH. destruct (nth_error ls i); [|reflexivity]. cbn [option_map]. do 2 f_equal.
    unfold table_place. cbn [firstn map total fold_right]. unfold total. lia.
Qed.
Lemma anchored_sum ls : forall off i, sum (map (fun s : slot * N => slot_width (fst s) + slot_size (fst s)) (firstn i (anchored off ls))) = table_place ls i.
Proof.
  induction ls as [|l ls IH]; intros off [|i]; try reflexivity; cbn [anchored firstn map]; unfold sum in *; cbn [fold_right fst].
  rewrite IH, slot_of_width, slot_of_size. unfold table_place. cbn [firstn map]. unfold total. cbn [fold_right]. lia.
Qed.

Lemma tables_place data off ls next : tables data off ls next -> off + table_place ls (length ls) = next.
Proof.
  induction 1 as [off|off lens ls next rest F E T IH]; unfold table_place in *; cbn [length firstn map total fold_right] in *; [lia|].
  unfold total in *. cbn [fold_right]. rewrite firstn_all in *. lia.
Qed.
Lemma place_step ls i l : nth_error ls i = Some l -> table_place ls (S i) = table_place ls i + table_len l + announced l.
Proof.
  revert i. induction ls as [|a ls IH]; intros [|i] E; try discriminate; unfold table_place in *.
  - cbn in E. injection E as ->. cbn [firstn map]. unfold total. cbn [fold_right]. lia.
  - cbn [nth_error] in E. specialize (IH i E). cbn [firstn map] in *. unfold total in *. cbn [fold_right] in *. lia.
Qed.
Lemma place_le ls i : (i <= length ls)%nat -> table_place ls i <= table_place ls (length ls).
Proof.
  intros L. unfold table_place. rewrite firstn_all. rewrite <- (firstn_skipn i ls) at 2. rewrite map_app, <- !sum_total, sum_app. lia.
Qed.

Lemma nth_error_seq' n : forall s i, (i < n)%nat -> nth_error (seq s n) i = Some (s + i)%nat.
Proof. induction n as [|n IH]; intros s [|i] L; try lia; cbn [seq nth_error]; [f_equal; lia|]. rewrite IH by lia. f_equal. lia. Qed.
Lemma anchored_places ls : map snd (anchored 0 ls) = map (table_place ls) (seq 0 (length ls)).
Proof.
  assert (L : length (anchored 0 ls) = length ls) by (rewrite <- (map_length fst), anchored_fst; apply map_length).
  apply nth_error_ext. intros i. destruct (Nat.lt_ge_cases i (length ls)) as [H|H].
  - rewrite nth_error_map, anchored_nth, nth_error_map, nth_error_seq' by exact H. destruct (nth_error ls i) eqn:E; [reflexivity|apply nth_error_None in E; lia].
  - rewrite (proj2 (nth_error_None _ i)), (proj2 (nth_error_None _ i)); [reflexivity|rewrite map_length, seq_length; exact H|rewrite map_length, L; exact H].
Qed.

Section Read.
Context {U : Type}.
Implicit Types (P : proto U).

Lemma place_all ls (r : sreader U) n : d_slots r = anchored 0 ls ->
  d_place n r = match nth_place ls n with Ok (Some x) => if two64 <=? x then Panic POverflow else Ok (Some x) | o => o end.
Proof.
  intros E. unfold d_place, nth_place. change default_capacity with 500%nat. rewrite E, anchored_nth, N.add_0_l. cbv zeta.
  destruct (nth_error ls (n / 500)) as [lens|]; cbn [option_map]; [|reflexivity].
  unfold slot_is_empty. change (sl_lengths (slot_of lens)) with lens.
  destruct (nth_error lens (n mod 500)) as [x|] eqn:EX; cbn [rbind]; [|reflexivity].
  destruct x as [|x]; cbn [N.eqb]; [reflexivity|].
  unfold slot_offset. change (sl_lengths (slot_of lens)) with lens.
  assert (n mod 500 < length lens)%nat by (apply nth_error_Some; congruence).
  replace (_ <=? _)%nat with false by lia. rewrite anchored_sum, slot_of_size, sum_total.
  replace (total _ + table_len lens + table_place ls (n / 500)) with (table_place ls (n / 500) + table_len lens + total (firstn (n mod 500) lens)) by lia.
  reflexivity.
Qed.

Lemma nth_all P data ls (r : sreader U) n : blen data < two63 -> d_slots r = anchored 0 ls -> c_data (d_file r) = data ->
  fst (d_nth P n r) =
  (let! o := nth_place ls n in
   match o with
   | None => Ok None
   | Some x => if blen data <? x then Panic POverflow
               else let! o := fst (pkt_try_read P (mk_cursor data x)) in
                    match o with Success p => Ok (Some p) | NotEnough n => Err (ENotEnoughData n) end
   end).
Proof.
  intros B E D. unfold d_nth. rewrite (place_all ls r n E). destruct (nth_place ls n) as [[x|]|e|w]; cbn [rbind sbind]; try reflexivity.
  destruct (two64 <=? x) eqn:Q; cbn [sbind].
  - replace (blen data <? x) with true by (unfold two63, two64 in *; lia). reflexivity.
  - unfold c_seek. rewrite D. destruct (blen data <? x) eqn:Q2.
    + unfold pkt_try_read, c_available, c_len. cbn [c_pos c_data]. replace (x <=? blen data) with false by lia. reflexivity.
    + destruct (pkt_try_read P _) as [o c]. reflexivity.
Qed.

Lemma nth_filtered_all P data ls (r : sreader U) n : blen data < two63 -> d_slots r = anchored 0 ls -> c_data (d_file r) = data ->
  fst (d_nth_filtered P n r) =
  (let! o := nth_place ls n in
   match o with
   | None => Ok None
   | Some x => if two64 <=? x then Panic POverflow
               else let! o := fst (filtered cursor_reader P (d_rules r) (mk_cursor data x)) in Ok (Some o)
   end).
Proof.
  intros B E D. unfold d_nth_filtered. rewrite (place_all ls r n E). destruct (nth_place ls n) as [[x|]|e|w]; cbn [rbind sbind]; try reflexivity.
  destruct (two64 <=? x) eqn:Q; cbn [sbind]; [reflexivity|].
  unfold c_seek. rewrite D. destruct (filtered _ P _ _) as [o c]. reflexivity.
Qed.

(** Without holes the place is in the file. *)
Lemma holes_before used k : Forall (fun n => 0 < n) used -> before_zero (used ++ repeat 0 k) = used.
Proof.
  intros F. induction F as [|n l H F IH]; cbn [app before_zero].
  - destruct k; reflexivity.
  - replace (n =? 0) with false by lia. now rewrite IH.
Qed.
Lemma holes_announced lens : no_holes lens -> announced lens = total lens.
Proof.
  intros (used & k & -> & F). unfold announced. destruct (0 <? _); [reflexivity|]. rewrite holes_before by exact F.
  rewrite <- !sum_total, sum_app, sum_zeros. lia.
Qed.
Lemma total_firstn j lens : total (firstn j lens) <= total lens.
Proof. rewrite <- (firstn_skipn j lens) at 2. rewrite <- !sum_total, sum_app. lia. Qed.

Lemma nth_place_in ls n x : Forall no_holes ls -> nth_place ls n = Ok (Some x) -> x <= table_place ls (length ls).
Proof.
  intros F E. unfold nth_place in E. destruct (nth_error ls (n / 500)) as [lens|] eqn:EL; [|discriminate].
  destruct (nth_error lens (n mod 500)) as [[|y]|]; try discriminate.
  apply (f_equal (fun x => match x with Ok (Some y) => y | _ => 0 end)) in E. subst x.
  pose proof (place_step _ _ _ EL) as PS.
  assert (n / 500 < length ls)%nat by (apply nth_error_Some; congruence). pose proof (place_le ls (S (n / 500)) ltac:(lia)).
  pose proof (total_firstn (n mod 500) lens). rewrite Forall_forall in F. rewrite (holes_announced lens) in PS by (apply F; eapply nth_error_In; eauto). lia.
Qed.
End Read.

(** ** Iterators *)

(** A reader that takes at least one byte and never goes back, and whose panics are those of huge headers. *)
Definition forward {A} (rd : cursor -> res A * cursor) : Prop := forall c o c', c_ok c -> c_rest c <> [] -> rd c = (o, c') ->
  c_data c' = c_data c /\ c_ok c' /\ c_pos c < c_pos c' /\ harmless (c_rest c) o.

Lemma exact_fwd n c o c' : c_ok c -> cursor_read_exact n c = (o, c') ->
  c_data c' = c_data c /\ c_ok c' /\ c_pos c <= c_pos c' /\ (0 < n -> c_rest c <> [] -> c_pos c < c_pos c') /\ (forall w, o <> Panic w).
Proof.
  intros O E. pose proof (c_rest_len c O) as RL. unfold cursor_read_exact in E. unfold c_ok, c_len in *.
  destruct (n <=? blen (c_rest c)) eqn:Q; apply pair_equal_spec in E as (<- & <-); cbn [c_seek c_data c_pos]; (split; [reflexivity|]);
    (split; [lia|]); (split; [lia|]); (split; [|discriminate]); intros Hn NE; [lia|].
  assert (0 < blen (c_rest c)) by (destruct (c_rest c); [easy|unfold blen; cbn [length]; lia]). lia.
Qed.

(** Going on from a state. *)
Definition onward {A} (c : cursor) (m : res A * cursor) : Prop := c_data (snd m) = c_data c /\ c_ok (snd m) /\ c_pos c <= c_pos (snd m).
Lemma onward_refl {A} c (o : res A) : c_ok c -> onward c (o, c).
Proof. intros O. split; [reflexivity|]. split; [exact O|]. cbn [snd]. lia. Qed.
Lemma onward_bind {A B} c (m : res A * cursor) (k : A -> cursor -> res B * cursor) : onward c m ->
  (forall a c1, c_ok c1 -> onward c1 (k a c1)) -> onward c (sbind m k).
Proof.
  intros (D & O & L) K. destruct m as [[a|e|w] c1]; cbn [sbind snd] in *; [|split; auto..].
  destruct (K a c1 O) as (D2 & O2 & L2). split; [congruence|]. split; [exact O2|lia].
Qed.
Lemma onward_exact n c : c_ok c -> onward c (rd_exact cursor_reader n c).
Proof. intros O. cbn [rd_exact cursor_reader]. destruct (cursor_read_exact n c) as [o c'] eqn:E. destruct (exact_fwd _ _ _ _ O E) as (A & B & C & _). split; auto. Qed.

Lemma hdr_fwd c : c_ok c -> c_rest c <> [] -> onward c (hdr_read cursor_reader c) /\ c_pos c < c_pos (snd (hdr_read cursor_reader c)).
Proof.
  intros O NE. unfold hdr_read. cbn [rd_exact cursor_reader]. destruct (cursor_read_exact 8 c) as [o c1] eqn:E.
  destruct (exact_fwd _ _ _ _ O E) as (D1 & O1 & L1 & L2 & _). specialize (L2 eq_refl NE).
  destruct o as [sig|e|w]; cbn [sbind]; try (split; [split; auto|exact L2]).
  match goal with |- onward c ?m /\ _ => assert (H : onward c1 m) end.
  { destruct (negb _); [now apply onward_refl|]. do 4 (apply onward_bind; [now apply onward_exact|]; intros ? ? ?).
    cbv zeta. destruct (bytes_eqb _ _); now apply onward_refl. }
  destruct H as (D & O2 & L). split; [split; [congruence|split; [exact O2|lia]]|lia].
Qed.

(** A header that was read was there. *)
Lemma hdr_there c h c1 : hdr_read cursor_reader c = (Ok h, c1) -> exists post, c_rest c = packet_sig ++ le 8 (h_size h) ++ post /\ h_size h < two64.
Proof.
  intros E. unfold hdr_read in E. cbn [rd_exact cursor_reader] in E.
  assert (G : forall n c0 o c1, cursor_read_exact n c0 = (Ok o, c1) -> c_ok c0 -> c_rest c0 = o ++ c_rest c1 /\ blen o = n /\ c_ok c1).
  { intros n c0 o c2 H O. pose proof (exact_fwd _ _ _ _ O H) as (_ & O2 & _). pose proof (c_rest_len c0 O) as RL. unfold cursor_read_exact in H. destruct (n <=? _) eqn:Q; [|discriminate].
    apply pair_equal_spec in H as (H1 & <-). apply (f_equal (fun x => match x with Ok y => y | _ => [] end)) in H1. subst o.
    rewrite !rest_skipn. cbn [c_seek c_data c_pos]. rewrite rest_skipn in Q. unfold blen in Q |- *. rewrite firstn_length.
    split; [|split; [lia|exact O2]].
    replace (N.to_nat (c_pos c0 + n)) with (N.to_nat n + N.to_nat (c_pos c0))%nat by lia. rewrite <- skipn_skipn. now rewrite firstn_skipn. }
  destruct (N.le_gt_cases (c_pos c) (c_len c)) as [O|O].
  2: { exfalso. unfold cursor_read_exact at 1 in E. assert (c_rest c = []) as R by (unfold c_rest; replace (c_pos c <=? _) with false by (unfold c_len in O; lia); reflexivity).
       rewrite R in E. discriminate. }
  destruct (cursor_read_exact 8 c) as [[sig|e|w] c2] eqn:E1; cbn [sbind] in E; try discriminate.
  destruct (G _ _ _ _ E1 O) as (V1 & L1 & O1).
  destruct (bytes_eqb sig packet_sig) eqn:EB; cbn [negb] in E; [|discriminate]. apply bytes_eqb_eq in EB. subst sig.
  destruct (cursor_read_exact 8 c2) as [[size|e|w] c3] eqn:E2; cbn [sbind] in E; try discriminate.
  destruct (G _ _ _ _ E2 O1) as (V2 & L2 & O2).
  destruct (cursor_read_exact 8 c3) as [[bl|e|w] c4]; cbn [sbind] in E; try discriminate.
  destruct (cursor_read_exact 1 c4) as [[fl|e|w] c5]; cbn [sbind] in E; try discriminate.
  destruct (cursor_read_exact 4 c5) as [[crc|e|w] c6]; cbn [sbind] in E; try discriminate. cbv zeta in E.
  destruct (bytes_eqb _ _); [|discriminate]. apply (f_equal fst) in E. cbn [fst] in E. apply (f_equal (fun x => match x with Ok y => h_size y | _ => 0 end)) in E. cbn [h_size] in E.
  assert (L8 : length size = 8%nat) by (unfold blen in L2; lia).
  exists (c_rest c3). rewrite <- E, <- L8, le_unle, V1, V2. split; [reflexivity|]. exact (unle_bound' size 8 L8).
Qed.

Section Iter.
Context {U : Type}.
Implicit Types (P : proto U).

Lemma read_forward P : forward (pkt_read cursor_reader P).
Proof.
  intros c o c' O NE E. destruct (hdr_fwd c O NE) as (HO & HL).
  assert (N : onward c (pkt_read cursor_reader P c) /\ c_pos c < c_pos (snd (pkt_read cursor_reader P c))).
  { unfold pkt_read. destruct (hdr_read cursor_reader c) as [[h|e|w] c1]; cbn [sbind snd] in *; try (split; auto; fail).
    destruct HO as (D1 & O1 & L1). cbn [snd] in D1, O1, L1.
    match goal with |- onward c ?m /\ _ => assert (H : onward c1 m) end.
    { destruct (alloc (h_size h)); [|now apply onward_refl..]. apply onward_bind; [now apply onward_exact|]. intros inner c3 O3. cbv zeta.
      destruct (if 0 <? h_blocks_len h then _ else _) as [[[blocks|n]|e|w] r]; try now apply onward_refl.
      destruct (h_payload h); [|now apply onward_refl]. destruct (fst _); now apply onward_refl. }
    destruct H as (D & O2 & L). split; [split; [congruence|split; [exact O2|lia]]|lia]. }
  rewrite E in N. destruct N as ((D & O2 & _) & L). cbn [snd] in *. split; [exact D|]. split; [exact O2|]. split; [exact L|].
  intros w ->. destruct (pkt_read_panic cursor_reader c_rest c_ok cursor_lawful P c w c' O E) as (h & c1 & E1 & B & ->). split; [reflexivity|].
  destruct (hdr_there _ _ _ E1) as (post & V & L2). exists [], (h_size h), post. auto.
Qed.

Lemma filtered_forward P rs : forward (filtered cursor_reader P rs).
Proof.
  intros c o c' O NE E. destruct (hdr_fwd c O NE) as (HO & HL).
  assert (N : onward c (filtered cursor_reader P rs c) /\ c_pos c < c_pos (snd (filtered cursor_reader P rs c))).
  { unfold filtered. destruct (hdr_read cursor_reader c) as [[h|e|w] c1]; cbn [sbind snd] in *; try (split; auto; fail).
    destruct HO as (D1 & O1 & L1). cbn [snd] in D1, O1, L1.
    match goal with |- onward c ?m /\ _ => assert (H : onward c1 m) end.
    { destruct (alloc (h_size h)); [|now apply onward_refl..]. apply onward_bind; [now apply onward_exact|]. intros buf c3 O3.
      repeat (match goal with |- onward c3 (match ?x with _ => _ end) => destruct x end; try now apply onward_refl). }
    destruct H as (D & O2 & L). split; [split; [congruence|split; [exact O2|lia]]|lia]. }
  rewrite E in N. destruct N as ((D & O2 & _) & L). cbn [snd] in *. split; [exact D|]. split; [exact O2|]. split; [exact L|].
  intros w ->. destruct (filtered_panic cursor_reader c_rest c_ok cursor_lawful P rs c w c' O E) as (h & c1 & E1 & B & ->). split; [reflexivity|].
  destruct (hdr_there _ _ _ E1) as (post & V & L2). exists [], (h_size h), post. auto.
Qed.

(** Reading to the end. *)
Lemma harmless_part {A} a b c (o : res A) : harmless b o -> harmless (a ++ b ++ c) o.
Proof.
  intros H w E. destruct (H w E) as (-> & pre & size & post & -> & B). split; [reflexivity|].
  exists (a ++ pre), size, (post ++ c). rewrite <- !app_assoc. auto.
Qed.
Lemma packets_end {A} (rd : cursor -> res A * cursor) data : forward rd -> forall n c, c_ok c -> c_data c = data -> blen (c_rest c) <= N.of_nat n ->
  exists l, yields (by_packet rd) c l /\ N.of_nat (length l) <= blen (c_rest c) /\ Forall (harmless data) l.
Proof.
  intros FW. induction n as [|n IH]; intros c O D B; destruct (c_rest c) as [|x t] eqn:R.
  1, 3: exists []; split; [eapply yields_end; unfold by_packet; rewrite R; reflexivity|]; split; [unfold blen; cbn [length]; lia|constructor].
  { unfold blen in B. cbn [length] in B. lia. }
  destruct (rd c) as [o c'] eqn:E. destruct (FW c o c' O ltac:(congruence) E) as (D' & O' & L & H).
  pose proof (c_rest_len c O) as RL. pose proof (c_rest_len c' O') as RL'. rewrite R in RL.
  assert (c_len c' = c_len c) as LL by (unfold c_len; now rewrite D').
  destruct (IH c' O' ltac:(congruence)) as (l & Y & LE & F); [unfold c_ok in *; lia|].
  exists (o :: l). split; [eapply yields_next; [unfold by_packet; rewrite R, E; reflexivity|exact Y]|]. split; [cbn [length]; unfold c_ok in *; lia|].
  constructor; [|exact F]. rewrite rest_skipn in H. rewrite <- D, <- (firstn_skipn (N.to_nat (c_pos c)) (c_data c)).
  rewrite <- (app_nil_r (skipn _ _)). now apply harmless_part.
Qed.

Lemma yields_same {I A} (next : I -> option A * I) i i' l : next i = next i' -> yields next i' l -> yields next i l.
Proof.
  intros E Y. destruct Y as [i0 i1 H|i0 a i1 l H Y]; rewrite <- E in H; [exact (yields_end _ _ _ H)|exact (yields_next _ _ _ _ _ H Y)].
Qed.

(** What the tables to come announce is in the file. *)
Definition it_fits (data : bytes) (ls : list (list N)) (t : siter) : Prop :=
  t_slots t = map slot_of ls /\ c_data (t_src t) = data /\ c_ok (t_buf t) /\
  t_off t + total (map (fun lens => table_len lens + announced lens) ls) <= blen data.

(** The bytes read for the next slot. *)
Definition content (data : bytes) (off : N) (lens : list N) : bytes :=
  firstn (N.to_nat (announced lens)) (skipn (N.to_nat (off + table_len lens)) data).

Lemma content_len data off lens : off + table_len lens + announced lens <= blen data -> blen (content data off lens) = announced lens.
Proof. intros L. unfold content, blen in *. rewrite firstn_length, skipn_length. lia. Qed.

Lemma fetch_any start len t : start + len <= blen (c_data (t_src t)) -> len < two63 ->
  exists c, t_fetch (start, start + len) t = (Ok tt, mk_siter (t_off t) (t_slots t) c (mk_cursor (firstn (N.to_nat len) (skipn (N.to_nat start) (c_data (t_src t)))) 0)) /\
    c_data c = c_data (t_src t).
Proof.
  intros L B. unfold t_fetch. replace (start + len <? start) with false by lia. replace (start + len - start) with len by lia.
  unfold alloc. replace (len <? two63) with true by lia. cbn [sbind]. unfold cursor_read_exact.
  assert (O : c_ok (c_seek start (t_src t))) by (unfold c_ok, c_len, c_seek; cbn [c_pos c_data]; lia).
  pose proof (c_rest_len _ O) as RL. unfold c_len, c_seek in RL. cbn [c_pos c_data] in RL. unfold c_seek.
  replace (len <=? _) with true by lia. rewrite rest_skipn. cbn [c_pos c_data]. eexists. split; [reflexivity|]. reflexivity.
Qed.

Lemma ready_all data ls t : blen data < two63 -> it_fits data ls t ->
  match c_rest (t_buf t) with
  | _ :: _ => t_ready t = (Some (Ok tt), t)
  | [] =>
      match ls with
      | [] => t_ready t = (None, t)
      | lens :: ls' =>
          if announced lens =? 0 then exists t', t_ready t = (None, t')
          else exists t', t_ready t = (Some (Ok tt), t') /\ it_fits data ls' t' /\ t_buf t' = mk_cursor (content data (t_off t) lens) 0 /\
                 t_off t' = t_off t + table_len lens + announced lens
      end
  end.
Proof.
  intros B (E1 & E2 & E3 & E4). unfold t_ready. destruct (c_rest (t_buf t)) as [|x r]; [|reflexivity].
  unfold t_locate. rewrite E1. destruct ls as [|lens ls']; cbn [map]; [reflexivity|].
  rewrite slot_of_width, slot_of_size. destruct (announced lens =? 0) eqn:Q; [eauto|].
  cbn [map] in E4. unfold total in E4. cbn [fold_right] in E4.
  set (t0 := mk_siter _ _ _ _). replace (t_off t + announced lens + table_len lens) with (t_off t + table_len lens + announced lens) by lia.
  destruct (fetch_any (t_off t + table_len lens) (announced lens) t0) as (c & E & D); [unfold t0; cbn [t_src]; rewrite E2; lia|lia|].
  rewrite E. eexists. split; [reflexivity|]. unfold t0 in *. cbn [t_off t_slots t_src t_buf] in *.
  split; [|split; [unfold content; now rewrite E2|cbn [t_off]; lia]]. split; [reflexivity|]. split; [cbn [t_src]; congruence|].
  split; [unfold c_ok, c_len; cbn [t_buf c_pos]; lia|]. cbn [t_off]. unfold total. lia.
Qed.

Lemma regions_read {A} (rd : cursor -> res A * cursor) data : forward rd -> forall ls off, off + total (map (fun lens => table_len lens + announced lens) ls) <= blen data ->
  exists lss, Forall2 (fun region l => yields (by_packet rd) (mk_cursor region 0) l) (contents data off ls) lss /\
    N.of_nat (length (concat lss)) <= total (map announced ls) /\ Forall (harmless data) (concat lss).
Proof.
  intros fw. induction ls as [|lens ls IH]; intros off L; cbn [contents].
  - exists []. split; [constructor|]. split; [cbn; lia|constructor].
  - destruct (announced lens =? 0) eqn:Z; [exists []; split; [constructor|]; split; [cbn; lia|constructor]|].
    cbn [map] in L. unfold total in L. cbn [fold_right] in L. fold (content data off lens).
    destruct (IH (off + table_len lens + announced lens)) as (lss & I1 & I2 & I3); [unfold total; lia|].
    pose proof (content_len data off lens ltac:(lia)) as CL. set (ct := content data off lens) in *.
    assert (R0 : c_rest (mk_cursor ct 0) = ct) by (rewrite rest_skipn; cbn [c_pos c_data]; apply skipn_O).
    destruct (packets_end rd ct fw (N.to_nat (blen ct)) (mk_cursor ct 0)) as (l & Y & LL & HL).
    { unfold c_ok, c_len. cbn [c_pos]. lia. } { reflexivity. } { rewrite R0. lia. }
    rewrite R0 in LL. exists (l :: lss). split; [now constructor|]. cbn [concat map]. rewrite app_length. unfold total in *. cbn [fold_right]. split; [lia|].
    apply Forall_app. split; [|exact I3]. eapply Forall_impl; [|exact HL]. intros o H. unfold ct, content in H.
    rewrite <- (firstn_skipn (N.to_nat (off + table_len lens)) data), <- (firstn_skipn (N.to_nat (announced lens)) (skipn (N.to_nat (off + table_len lens)) data)).
    now apply harmless_part.
Qed.

(** An iterator whose calls are: get a buffer, read from it. *)
Section Any.
Context (A B : Type) (rd : cursor -> res A * cursor) (shows : res A -> list (res B)) (next : siter -> option (res B) * siter).
Context (data : bytes) (small : blen data < two63) (fw : forward rd).
Definition with_buf (b : cursor) (t : siter) : siter := mk_siter (t_off t) (t_slots t) (t_src t) b.
Context (next_end : forall ls t t', it_fits data ls t -> t_ready t = (None, t') -> exists t2, next t = (None, t2)).
Context (next_ready : forall ls t t', it_fits data ls t -> t_ready t = (Some (Ok tt), t') -> next t = next t').
Context (next_read : forall ls t o b, it_fits data ls t -> c_rest (t_buf t) <> [] -> rd (t_buf t) = (o, b) ->
  match shows o with
  | [] => next t = next (with_buf b t)
  | [x] => next t = (Some x, with_buf b t)
  | _ => False
  end).

Lemma buffer_yields ls l2 : forall c l, yields (by_packet rd) c l -> forall t, it_fits data ls t -> t_buf t = c ->
  (forall t', it_fits data ls t' -> t_off t' = t_off t -> c_rest (t_buf t') = [] -> yields next t' l2) ->
  yields next t (flat_map shows l ++ l2).
Proof.
  induction 1 as [c c' E|c o c' l E Y IH]; intros t FT EB T.
  - unfold by_packet in E. destruct (c_rest c) as [|x r] eqn:R; [|destruct (rd c); discriminate]. cbn [flat_map app].
    apply T; [exact FT|reflexivity|now rewrite EB].
  - unfold by_packet in E. destruct (c_rest c) as [|x r] eqn:R; [discriminate|]. destruct (rd c) as [o1 c1] eqn:ER.
    apply pair_equal_spec in E as (E1 & <-). apply (f_equal (fun x => match x with Some y => y | None => o end)) in E1. subst o1.
    pose proof FT as (F1 & F2 & F3 & F4). rewrite EB in F3.
    destruct (fw c o c1 F3 ltac:(congruence) ER) as (D & O & L & _).
    assert (FT' : it_fits data ls (with_buf c1 t)) by (split; [exact F1|split; [exact F2|split; [exact O|exact F4]]]).
    specialize (IH (with_buf c1 t) FT' eq_refl T). rewrite <- EB in ER, R. pose proof (next_read ls t o c1 FT ltac:(congruence) ER) as N.
    cbn [flat_map]. destruct (shows o) as [|x1 [|? ?]]; [|cbn [app]; eapply yields_next; [exact N|exact IH]|contradiction].
    cbn [app]. eapply yields_same; [exact N|exact IH].
Qed.

Lemma slots_yield ls : forall off lss, Forall2 (fun region l => yields (by_packet rd) (mk_cursor region 0) l) (contents data off ls) lss ->
  forall t, it_fits data ls t -> t_off t = off -> c_rest (t_buf t) = [] -> yields next t (flat_map shows (concat lss)).
Proof.
  induction ls as [|lens ls IH]; intros off lss F t FT EO R; pose proof (ready_all data _ t small FT) as Q; rewrite R in Q; cbn [contents] in F.
  - inversion F; subst lss. destruct (next_end _ _ _ FT Q) as (t2 & E). eapply yields_end. exact E.
  - destruct (announced lens =? 0) eqn:Z.
    + destruct Q as (t' & Q). inversion F; subst lss. destruct (next_end _ _ _ FT Q) as (t2 & E). eapply yields_end. exact E.
    + destruct Q as (t' & Q & FT' & EB & EO'). inversion F as [|region l regions lss' Y F' E1 E2]; subst region regions lss.
      cbn [concat]. rewrite flat_map_app. eapply yields_same; [exact (next_ready _ _ _ FT Q)|].
      eapply buffer_yields; [exact Y|exact FT'|rewrite EB; unfold content; now rewrite EO|].
      intros t2 FT2 EO2 R2. eapply IH; [exact F'|exact FT2|congruence|exact R2].
Qed.

(** From any state: first what is left in the buffer. *)
Lemma any_yields ls t : it_fits data ls t -> forall l lss, yields (by_packet rd) (t_buf t) l ->
  Forall2 (fun region l => yields (by_packet rd) (mk_cursor region 0) l) (contents data (t_off t) ls) lss ->
  yields next t (flat_map shows (l ++ concat lss)).
Proof.
  intros FT l lss Y F. rewrite flat_map_app. eapply buffer_yields; [exact Y|exact FT|reflexivity|].
  intros t' FT' EO R. eapply slots_yield; eauto.
Qed.
End Any.

(** The two iterators. *)
Lemma ready_result data ls t : blen data < two63 -> it_fits data ls t ->
  (exists t', t_ready t = (None, t')) \/
  (exists ls' t', t_ready t = (Some (Ok tt), t') /\ it_fits data ls' t' /\ c_rest (t_buf t') <> [] /\ t_ready t' = (Some (Ok tt), t')).
Proof.
  intros S FT. pose proof (ready_all data ls t S FT) as Q. destruct (c_rest (t_buf t)) as [|x r] eqn:R.
  - destruct ls as [|lens ls]; [eauto|]. destruct (announced lens =? 0) eqn:Z; [destruct Q; eauto|].
    destruct Q as (t' & Q & FT' & EB & _). right. exists ls, t'. split; [exact Q|]. split; [exact FT'|].
    assert (NE : c_rest (t_buf t') <> []).
    { rewrite EB, rest_skipn. cbn [c_pos c_data]. change (N.to_nat 0) with 0%nat. rewrite skipn_O. intros E.
      pose proof FT as (_ & _ & _ & F4). cbn [map] in F4. unfold total in F4. cbn [fold_right] in F4.
      pose proof (content_len data (t_off t) lens ltac:(lia)) as CL. rewrite E in CL. unfold blen in CL. cbn [length] in CL. lia. }
    split; [exact NE|]. unfold t_ready. destruct (c_rest (t_buf t')); [easy|reflexivity].
  - right. exists ls, t. split; [exact Q|]. split; [exact FT|]. split; [congruence|exact Q].
Qed.

Lemma next_yields P data ls t : blen data < two63 -> it_fits data ls t -> forall l lss, yields (by_packet (pkt_read cursor_reader P)) (t_buf t) l ->
  Forall2 (fun region l => yields (by_packet (pkt_read cursor_reader P)) (mk_cursor region 0) l) (contents data (t_off t) ls) lss ->
  yields (t_next P) t (l ++ concat lss).
Proof.
  intros S FT l lss Y F.
  assert (E : forall l : list (res (packet U)), flat_map (fun o => [o]) l = l) by (induction l0 as [|a l0 IH]; cbn [flat_map app]; congruence).
  rewrite <- (E (l ++ concat lss)). apply (any_yields _ _ (pkt_read cursor_reader P) (fun o => [o]) (t_next P) data S (read_forward P)) with (ls := ls); auto.
  - intros ls0 t0 t' _ R. unfold t_next. rewrite R. eauto.
  - intros ls0 t0 t' FT0 R. destruct (ready_result data ls0 t0 S FT0) as [(t2 & Q)|(ls' & t2 & Q & _ & _ & Q2)]; [congruence|].
    assert (t2 = t') as -> by congruence. unfold t_next. now rewrite R, Q2.
  - intros ls0 t0 o b FT0 NE R. unfold t_next, t_ready. destruct (c_rest (t_buf t0)); [easy|]. rewrite R. reflexivity.
Qed.

(** Enough rounds. *)
Definition measure (t : siter) : N := blen (c_rest (t_buf t)) + sum (map slot_width (t_slots t)).
Lemma ready_measure t t' : forall data ls, blen data < two63 -> it_fits data ls t -> t_ready t = (Some (Ok tt), t') -> measure t' <= measure t.
Proof.
  intros data ls S FT E. pose proof (ready_all data ls t S FT) as Q. unfold measure. destruct (c_rest (t_buf t)) as [|x r] eqn:R.
  - destruct ls as [|lens ls]; [congruence|]. destruct (announced lens =? 0) eqn:Z; [destruct Q; congruence|].
    destruct Q as (t2 & Q & (E1 & _) & EB & _). assert (t2 = t') as -> by congruence. destruct FT as (F1 & _ & _ & F4).
    rewrite F1, E1, EB, rest_skipn. cbn [c_pos c_data map]. change (N.to_nat 0) with 0%nat. rewrite skipn_O.
    cbn [map] in F4. unfold total in F4. cbn [fold_right] in F4. rewrite content_len by lia. unfold sum. cbn [fold_right]. rewrite slot_of_width.
    unfold blen. cbn [length]. lia.
  - assert (t' = t) as -> by congruence. rewrite R. lia.
Qed.

Lemma filtered_fuel P rs data : blen data < two63 -> forall f1 f2 t ls, it_fits data ls t -> measure t < N.of_nat f1 -> measure t < N.of_nat f2 ->
  t_next_filtered_go f1 P rs t = t_next_filtered_go f2 P rs t.
Proof.
  intros S. induction f1 as [|f1 IH]; intros f2 t ls FT M1 M2; [lia|]. destruct f2 as [|f2]; [lia|]. cbn [t_next_filtered_go].
  destruct (ready_result data ls t S FT) as [(t' & Q)|(ls' & t' & Q & FT' & NE & _)]; rewrite Q; [reflexivity|].
  pose proof (ready_measure t t' data ls S FT Q) as MR. destruct (filtered cursor_reader P rs (t_buf t')) as [o b] eqn:E.
  pose proof FT' as (F1 & F2 & F3 & F4). destruct (filtered_forward P rs _ _ _ F3 NE E) as (D & O & L & _).
  destruct o as [[a p|a]|e|w]; try reflexivity.
  pose proof (c_rest_len _ F3) as R1. pose proof (c_rest_len _ O) as R2. assert (c_len b = c_len (t_buf t')) as LL by (unfold c_len; now rewrite D).
  assert (M : measure (mk_siter (t_off t') (t_slots t') (t_src t') b) < measure t') by (unfold measure; cbn [t_buf t_slots]; unfold c_ok in *; lia).
  apply (IH f2 _ ls'); [split; [exact F1|split; [exact F2|split; [exact O|exact F4]]]|lia|lia].
Qed.

Lemma filtered_enough t data ls : it_fits data ls t ->
  measure t < N.of_nat (length (c_data (t_src t)) + length (c_data (t_buf t)) + length (t_slots t) + 1).
Proof.
  intros (E1 & E2 & E3 & E4). unfold measure. rewrite rest_skipn. unfold blen at 1. rewrite skipn_length, E2.
  assert (sum (map slot_width (t_slots t)) <= total (map (fun lens => table_len lens + announced lens) ls)).
  { rewrite E1. clear. induction ls as [|a ls IH]; [cbn; lia|]. cbn [map]. unfold sum, total in *. cbn [fold_right]. rewrite slot_of_width. lia. }
  unfold blen in E4. lia.
Qed.

Lemma filtered_yields P rs data ls t : blen data < two63 -> it_fits data ls t -> forall l lss, yields (by_packet (filtered cursor_reader P rs)) (t_buf t) l ->
  Forall2 (fun region l => yields (by_packet (filtered cursor_reader P rs)) (mk_cursor region 0) l) (contents data (t_off t) ls) lss ->
  yields (t_next_filtered P rs) t (flat_map shown (l ++ concat lss)).
Proof.
  intros S FT l lss Y F.
  apply (any_yields _ _ (filtered cursor_reader P rs) shown (t_next_filtered P rs) data S (filtered_forward P rs)) with (ls := ls); auto.
  - intros ls0 t0 t' _ R. unfold t_next_filtered. rewrite Nat.add_1_r. cbn [t_next_filtered_go]. rewrite R. eauto.
  - intros ls0 t0 t' FT0 R. destruct (ready_result data ls0 t0 S FT0) as [(t2 & Q)|(ls' & t2 & Q & FT2 & _ & Q2)]; [congruence|].
    assert (t2 = t') as -> by congruence. unfold t_next_filtered.
    pose proof (ready_measure t0 t' data ls0 S FT0 R) as M. pose proof (filtered_enough t0 data ls0 FT0) as M0. pose proof (filtered_enough t' data ls' FT2) as M1.
    rewrite (filtered_fuel P rs data S _ (length (c_data (t_src t0)) + length (c_data (t_buf t0)) + length (t_slots t0) + 1) t' ls' FT2 M1) by lia.
    rewrite Nat.add_1_r. cbn [t_next_filtered_go]. now rewrite R, Q2.
  - intros ls0 t0 o b FT0 NE R.
    assert (N : t_next_filtered P rs t0 =
      match o with
      | Ok (Accepted _ p) => (Some (Ok p), with_buf b t0)
      | Ok (Denied _) => t_next_filtered_go (length (c_data (t_src t0)) + length (c_data (t_buf t0)) + length (t_slots t0)) P rs (with_buf b t0)
      | Err e => (Some (Err e), with_buf b t0)
      | Panic w => (Some (Panic w), with_buf b t0)
      end).
    { unfold t_next_filtered. rewrite Nat.add_1_r. cbn [t_next_filtered_go]. unfold t_ready. destruct (c_rest (t_buf t0)); [easy|]. now rewrite R. }
    pose proof FT0 as (F1 & F2 & F3 & F4). destruct (filtered_forward P rs _ _ _ F3 NE R) as (D & O & L & _).
    destruct o as [[a p|a]|e|w]; cbn [shown]; try exact N. rewrite N. unfold with_buf.
    assert (FT1 : it_fits data ls0 (mk_siter (t_off t0) (t_slots t0) (t_src t0) b)) by (split; [exact F1|split; [exact F2|split; [exact O|exact F4]]]).
    unfold t_next_filtered. eapply filtered_fuel; [exact S|exact FT1| |eapply filtered_enough; exact FT1].
    pose proof (filtered_enough _ _ _ FT0) as M0. pose proof (c_rest_len _ F3) as R1. pose proof (c_rest_len _ O) as R2.
    assert (c_len b = c_len (t_buf t0)) as LL by (unfold c_len; now rewrite D). unfold measure in *. cbn [t_buf t_slots]. unfold c_ok in *. lia.
Qed.
End Iter.

(** ** Seeking *)

Lemma in_use_app a b : in_use (a ++ b) = (in_use a + in_use b)%nat.
Proof. unfold in_use. now rewrite filter_app, app_length. Qed.
Lemma in_use_used used : Forall (fun n => 0 < n) used -> in_use used = length used.
Proof. intros F. unfold in_use. induction F as [|n l H F IH]; cbn [filter]; [reflexivity|]. replace (0 <? n) with true by lia. cbn [length]. now rewrite IH. Qed.
Lemma in_use_zeros k : in_use (repeat 0 k) = 0%nat.
Proof. unfold in_use. induction k; cbn [repeat filter]; [reflexivity|]. exact IHk. Qed.

(** What is known about the entry [j] of a table. *)
Definition entry (lens : list N) (j : nat) : bool := match nth_error lens j with Some n => 0 <? n | None => false end.

Lemma from_found packet j lens ls2 : (j < in_use lens)%nat -> forall ls1 off idx,
  t_from_go (map slot_of (ls1 ++ lens :: ls2)) off idx (all_in_use ls1 + j) packet =
  (let start := off + table_place ls1 (length ls1) + table_len lens in
   if entry lens j then
     (if two64 <=? start + total (firstn j lens) then Panic POverflow else Ok (start + total (firstn j lens), start + announced lens))
   else Err (EOutOfBounds (N.of_nat (in_use lens + (idx + length ls1) * 500)) (N.of_nat packet)),
   (off + table_place ls1 (length ls1), map slot_of ls2)).
Proof.
  intros J. induction ls1 as [|l ls1 IH]; intros off idx; cbn [app map t_from_go].
  - change (slot_count (slot_of lens)) with (in_use lens). unfold all_in_use. cbn [map list_sum fold_right Nat.add].
    replace (in_use lens <=? j)%nat with false by lia. cbv zeta.
    change (slot_is_used j (slot_of lens)) with (entry lens j). unfold table_place. cbn [length firstn map]. change (total []) with 0. rewrite N.add_0_r.
    destruct (entry lens j) eqn:US; cbn [negb].
    2: { rewrite Nat.add_0_r. reflexivity. }
    assert (OF : slot_offset_of j (slot_of lens) = Some (total (firstn j lens))).
    { unfold slot_offset_of. destruct j as [|j]; [reflexivity|]. change (slot_is_used _ (slot_of lens)) with (entry lens (S j)).
      change (sl_lengths (slot_of _)) with lens. assert (S j < length lens)%nat.
      { apply nth_error_Some. unfold entry in US. destruct (nth_error lens (S j)); congruence. }
      rewrite US. replace (_ <=? _)%nat with false by lia. cbn [negb orb]. now rewrite sum_total. }
    rewrite OF, slot_of_size, slot_of_width. reflexivity.
  - change (slot_count (slot_of l)) with (in_use l). unfold all_in_use. cbn [map list_sum fold_right]. fold (all_in_use ls1).
    change (fold_right Nat.add 0%nat (map in_use ls1)) with (all_in_use ls1).
    replace (in_use l <=? in_use l + all_in_use ls1 + j)%nat with true by lia.
    replace (in_use l + all_in_use ls1 + j - in_use l)%nat with (all_in_use ls1 + j)%nat by lia.
    rewrite slot_of_size, slot_of_width. rewrite IH. cbv zeta. unfold table_place. cbn [length firstn map]. unfold total. cbn [fold_right].
    rewrite !N.add_assoc. replace (S idx + length ls1)%nat with (idx + S (length ls1))%nat by lia. reflexivity.
Qed.

Lemma from_past packet ls : forall off idx target, (all_in_use ls <= target)%nat ->
  fst (t_from_go (map slot_of ls) off idx target packet) =
  Err (if (idx + length ls =? 0)%nat then EEmptySource else EOutOfBounds (N.of_nat ((idx + length ls) * 500)) (N.of_nat packet)).
Proof.
  induction ls as [|l ls IH]; intros off idx target T; cbn [map t_from_go length].
  - rewrite Nat.add_0_r. reflexivity.
  - change (slot_count (slot_of l)) with (in_use l). unfold all_in_use in T. cbn [map list_sum fold_right] in T.
    change (fold_right Nat.add 0%nat (map in_use ls)) with (all_in_use ls) in T.
    replace (in_use l <=? target)%nat with true by lia. rewrite IH by lia.
    now rewrite Nat.add_succ_r.
Qed.

Lemma seek_found {U} data next ls (r : sreader U) i lens j : blen data < two63 -> tables data 0 ls next -> next <= blen data ->
  d_slots r = anchored 0 ls -> c_data (d_file r) = data -> nth_error ls i = Some lens -> (j < in_use lens)%nat ->
  if entry lens j then
    if announced lens <? total (firstn j lens) then d_seek (all_in_use (firstn i ls) + j) r = Panic POverflow
    else exists c, d_seek (all_in_use (firstn i ls) + j) r =
      Ok (mk_siter (table_place ls i) (map slot_of (skipn (S i) ls)) c
           (mk_cursor (firstn (N.to_nat (announced lens - total (firstn j lens))) (skipn (N.to_nat (table_place ls i + table_len lens + total (firstn j lens))) data)) 0)) /\
      it_fits data (skipn (S i) ls) (mk_siter (table_place ls i) (map slot_of (skipn (S i) ls)) c (mk_cursor [] 0))
  else d_seek (all_in_use (firstn i ls) + j) r = Err (EOutOfBounds (N.of_nat (in_use lens + i * 500)) (N.of_nat (all_in_use (firstn i ls) + j))).
Proof.
  intros B T NX DS DF EN J.
  pose proof (tables_place _ _ _ _ T) as TP. pose proof (place_step _ _ _ EN) as PS.
  assert (LI : (i < length ls)%nat) by (apply nth_error_Some; congruence). pose proof (place_le ls (S i) LI) as PL.
  assert (LS : ls = firstn i ls ++ lens :: skipn (S i) ls).
  { rewrite <- (firstn_skipn i ls) at 1. f_equal. clear -EN. revert i EN. induction ls as [|a ls IH]; intros [|i] E; try discriminate; [cbn in E; injection E as ->; reflexivity|].
    cbn [skipn nth_error] in *. now apply IH. }
  assert (L1 : length (firstn i ls) = i) by (rewrite firstn_length; lia).
  assert (P1 : table_place (firstn i ls) (length (firstn i ls)) = table_place ls i) by (unfold table_place; now rewrite firstn_all).
  assert (PT : table_place ls (length ls) = table_place ls i + table_len lens + announced lens + total (map (fun lens => table_len lens + announced lens) (skipn (S i) ls))).
  { unfold table_place at 1. rewrite firstn_all. rewrite LS at 1. rewrite map_app, <- sum_total, sum_app, !sum_total. cbn [map]. unfold table_place, total, sum. cbn [fold_right]. lia. }
  unfold d_seek. rewrite DS, anchored_fst. replace (map slot_of ls) with (map slot_of (firstn i ls ++ lens :: skipn (S i) ls)) by now rewrite <- LS.
  rewrite (from_found _ j lens (skipn (S i) ls) J (firstn i ls) 0 0). rewrite P1, L1, N.add_0_l. cbv zeta.
  destruct (entry lens j); [|reflexivity].
  destruct (announced lens <? total (firstn j lens)) eqn:AN.
  - destruct (two64 <=? _); [reflexivity|]. cbn [rbind]. unfold t_fetch.
    replace (table_place ls i + table_len lens + announced lens <? table_place ls i + table_len lens + total (firstn j lens)) with true by lia. reflexivity.
  - replace (two64 <=? _) with false by (unfold two63, two64 in *; lia). cbn [rbind].
    replace (table_place ls i + table_len lens + announced lens)
      with (table_place ls i + table_len lens + total (firstn j lens) + (announced lens - total (firstn j lens))) by lia.
    destruct (fetch_any (table_place ls i + table_len lens + total (firstn j lens)) (announced lens - total (firstn j lens))
       (mk_siter (table_place ls i) (map slot_of (skipn (S i) ls)) (d_file r) (mk_cursor [] 0))) as (c & E & D).
    { cbn [t_src]. rewrite DF. lia. } { lia. }
    rewrite E. cbn [rbind t_off t_slots t_src] in *. rewrite DF in *. exists c. split; [reflexivity|].
    split; [reflexivity|]. split; [exact D|]. split; [unfold c_ok, c_len; cbn; lia|]. cbn [t_off]. lia.
Qed.

Lemma seek_past {U} ls (r : sreader U) n : d_slots r = anchored 0 ls -> (all_in_use ls <= n)%nat ->
  d_seek n r = Err (match ls with [] => EEmptySource | _ => EOutOfBounds (N.of_nat (length ls * 500)) (N.of_nat n) end).
Proof.
  intros E L. unfold d_seek. rewrite E, anchored_fst. pose proof (from_past n ls 0 0 n L) as Q.
  destruct (t_from_go _ 0 0 n n) as [o (off & slots)]. cbn [fst] in Q. subst o. cbn [rbind Nat.add]. now destruct ls.
Qed.

Lemma holes_entry lens j : no_holes lens -> (j < in_use lens)%nat -> entry lens j = true /\ total (firstn j lens) <= announced lens.
Proof.
  intros NH J. split; [|rewrite holes_announced by exact NH; apply total_firstn].
  destruct NH as (used & k & -> & F). rewrite in_use_app, in_use_zeros, in_use_used in J by exact F. unfold entry. rewrite nth_error_app1 by lia.
  destruct (nth_error used j) as [n|] eqn:E; [|apply nth_error_None in E; lia]. rewrite Forall_forall in F. apply nth_error_In in E. specialize (F n E). lia.
Qed.

(** Every number below the number of entries in use belongs to one table. *)
Lemma in_some_table ls : forall n, (n < all_in_use ls)%nat ->
  exists i lens j, nth_error ls i = Some lens /\ (j < in_use lens)%nat /\ n = (all_in_use (firstn i ls) + j)%nat.
Proof.
  induction ls as [|l ls IH]; intros n L; unfold all_in_use in L; cbn [map list_sum fold_right] in L; [lia|].
  change (fold_right Nat.add 0%nat (map in_use ls)) with (all_in_use ls) in L.
  destruct (Nat.lt_ge_cases n (in_use l)) as [H|H].
  - exists 0%nat, l, n. auto.
  - destruct (IH (n - in_use l)%nat ltac:(lia)) as (i & lens & j & E & J & Q). exists (S i), lens, j. split; [exact E|]. split; [exact J|].
    unfold all_in_use in *. cbn [firstn map list_sum fold_right]. change (fold_right Nat.add 0%nat (map in_use (firstn i ls))) with (list_sum (map in_use (firstn i ls))). lia.
Qed.

Section Props.
Context {U : Type}.
Implicit Types (P : proto U).

Lemma nth_harmless P data ls rs n : blen data < two63 -> table_place ls (length ls) <= blen data -> Forall no_holes ls ->
  (forall w, (let! o := nth_place ls n in
     match o with
     | None => Ok None
     | Some x => if blen data <? x then Panic POverflow
                 else let! o := fst (pkt_try_read P (mk_cursor data x)) in
                      match o with Success p => Ok (Some p) | NotEnough n => Err (ENotEnoughData n) end
     end) <> Panic w) /\
  harmless data (let! o := nth_place ls n in
     match o with
     | None => Ok None
     | Some x => if two64 <=? x then Panic POverflow
                 else let! o := fst (filtered cursor_reader P rs (mk_cursor data x)) in Ok (Some o)
     end).
Proof.
  intros B NX F. destruct (nth_place ls n) as [[x|]|e|w] eqn:E; cbn [rbind]; try (split; [discriminate|intros w H; discriminate]).
  - pose proof (nth_place_in ls n x F E) as L. replace (blen data <? x) with false by lia.
    replace (two64 <=? x) with false by (unfold two63, two64 in *; lia). assert (O : c_ok (mk_cursor data x)) by (unfold c_ok, c_len; cbn; lia). split.
    + intros w. pose proof (pkt_try_read_pres P (mk_cursor data x) O) as Q. destruct (pkt_try_read P (mk_cursor data x)) as [[[p|k]|e|w'] c']; cbn [fst rbind]; try discriminate.
      exfalso. exact Q.
    + intros w H. destruct (filtered cursor_reader P rs (mk_cursor data x)) as [o c'] eqn:EF. destruct o as [o|e|w']; cbn [fst rbind] in H; try discriminate.
      destruct (filtered_panic cursor_reader c_rest c_ok cursor_lawful P rs _ w' c' O EF) as (h & c1 & E1 & B1 & ->).
      destruct (hdr_there _ _ _ E1) as (post & V & L2). split; [congruence|].
      exists (firstn (N.to_nat x) data), (h_size h), post. split; [|auto]. rewrite rest_skipn in V. cbn [c_pos c_data] in V. now rewrite <- V, firstn_skipn.
  - exfalso. unfold nth_place in E. destruct (nth_error ls (n / 500)) as [lens|]; [|discriminate]. destruct (nth_error lens (n mod 500)) as [[|y]|]; discriminate.
Qed.

Lemma total_le ls : total (map announced ls) <= total (map (fun lens => table_len lens + announced lens) ls).
Proof. induction ls as [|l ls IH]; [cbn; lia|]. cbn [map]. unfold total in *. cbn [fold_right]. lia. Qed.

Lemma empty_yields {A} (rd : cursor -> res A * cursor) : yields (by_packet rd) (mk_cursor [] 0) [].
Proof. eapply yields_end. reflexivity. Qed.

Lemma iterate_all P data ls next (r : sreader U) : blen data < two63 -> tables data 0 ls next -> next <= blen data ->
  d_slots r = anchored 0 ls -> c_data (d_file r) = data ->
  (exists lss, Forall2 (fun region l => yields (by_packet (pkt_read cursor_reader P)) (mk_cursor region 0) l) (contents data 0 ls) lss /\
     yields (t_next P) (d_iter r) (concat lss) /\
     N.of_nat (length (concat lss)) <= blen data /\ Forall (harmless data) (concat lss)) /\
  (exists lss, Forall2 (fun region l => yields (by_packet (filtered cursor_reader P (d_rules r))) (mk_cursor region 0) l) (contents data 0 ls) lss /\
     yields (t_next_filtered P (d_rules r)) (d_iter r) (flat_map shown (concat lss)) /\
     N.of_nat (length (concat lss)) <= blen data /\ Forall (harmless data) (concat lss)).
Proof.
  intros B T NX DS DF. pose proof (tables_place _ _ _ _ T) as TP. unfold table_place in TP. rewrite firstn_all in TP. pose proof (total_le ls) as TL.
  assert (FT : it_fits data ls (d_iter r)).
  { unfold d_iter. split; [cbn [t_slots]; rewrite DS; apply anchored_fst|]. split; [exact DF|]. split; [unfold c_ok, c_len; cbn; lia|cbn [t_off]; lia]. }
  split.
  - destruct (regions_read (pkt_read cursor_reader P) data (read_forward P) ls 0) as (lss & I1 & I2 & I3); [lia|].
    exists lss. split; [exact I1|]. split; [|split; [lia|exact I3]].
    exact (next_yields P data ls (d_iter r) B FT [] lss (empty_yields _) I1).
  - destruct (regions_read (filtered cursor_reader P (d_rules r)) data (filtered_forward P (d_rules r)) ls 0) as (lss & I1 & I2 & I3); [lia|].
    exists lss. split; [exact I1|]. split; [|split; [lia|exact I3]].
    exact (filtered_yields P (d_rules r) data ls (d_iter r) B FT [] lss (empty_yields _) I1).
Qed.

Lemma seek_all P data ls next (r : sreader U) i lens j : blen data < two63 -> tables data 0 ls next -> next <= blen data ->
  d_slots r = anchored 0 ls -> c_data (d_file r) = data -> nth_error ls i = Some lens -> (j < in_use lens)%nat ->
  entry lens j = true -> total (firstn j lens) <= announced lens ->
  let place := table_place ls i in
  let left := firstn (N.to_nat (announced lens - total (firstn j lens))) (skipn (N.to_nat (place + table_len lens + total (firstn j lens))) data) in
  exists t, d_seek (all_in_use (firstn i ls) + j) r = Ok t /\
    exists lss, Forall2 (fun region l => yields (by_packet (pkt_read cursor_reader P)) (mk_cursor region 0) l)
                  (left :: contents data place (skipn (S i) ls)) lss /\
      yields (t_next P) t (concat lss) /\ N.of_nat (length (concat lss)) <= blen data /\ Forall (harmless data) (concat lss).
Proof.
  intros B T NX DS DF EN J EY LE0. cbv zeta.
  pose proof (seek_found data next ls r i lens j B T NX DS DF EN J) as SF. rewrite EY in SF. replace (announced lens <? total (firstn j lens)) with false in SF by lia.
  destruct SF as (c & E & F1 & F2 & F3 & F4).
  set (left := firstn (N.to_nat _) (skipn _ data)) in *. cbn [t_slots t_src t_off] in *.
  pose proof (tables_place _ _ _ _ T) as TP. pose proof (place_step _ _ _ EN) as PS.
  assert (LI : (i < length ls)%nat) by (apply nth_error_Some; congruence). pose proof (place_le ls (S i) LI) as PL.
  pose proof (total_le (skipn (S i) ls)) as TL.
  assert (LL : blen left <= announced lens - total (firstn j lens)) by (unfold left, blen; rewrite firstn_length; lia).
  assert (SP : table_place ls (length ls) = table_place ls (S i) + total (map (fun lens => table_len lens + announced lens) (skipn (S i) ls))).
  { unfold table_place. rewrite firstn_all. rewrite <- (firstn_skipn (S i) ls) at 1. rewrite map_app, <- !sum_total. apply sum_app. }
  assert (R0 : c_rest (mk_cursor left 0) = left) by (rewrite rest_skipn; cbn [c_pos c_data]; apply skipn_O).
  destruct (packets_end (pkt_read cursor_reader P) left (read_forward P) (N.to_nat (blen left)) (mk_cursor left 0)) as (l & Y & LE & HL).
  { unfold c_ok, c_len. cbn [c_pos]. lia. } { reflexivity. } { rewrite R0. lia. }
  rewrite R0 in LE.
  destruct (regions_read (pkt_read cursor_reader P) data (read_forward P) (skipn (S i) ls) (table_place ls i) F4) as (lss & I1 & I2 & I3).
  eexists. split; [exact E|]. exists (l :: lss). split; [now constructor|]. cbn [concat]. split; [|split].
  - apply (next_yields P data (skipn (S i) ls)); [exact B| |exact Y|exact I1].
    split; [reflexivity|]. split; [exact F2|]. split; [unfold c_ok, c_len; cbn; lia|exact F4].
  - rewrite app_length. lia.
  - apply Forall_app. split; [|exact I3]. eapply Forall_impl; [|exact HL]. intros o H. unfold left in H.
    set (x := table_place ls i + table_len lens + total (firstn j lens)) in *. set (m := announced lens - total (firstn j lens)) in *.
    rewrite <- (firstn_skipn (N.to_nat x) data), <- (firstn_skipn (N.to_nat m) (skipn (N.to_nat x) data)). now apply harmless_part.
Qed.
End Props.
