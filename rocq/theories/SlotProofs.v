(** * Slots: bookkeeping and codec. *)
From Coq Require Import ZifyBool ZifyNat ZifyN.
From Verif Require Import Base Crc32 Io File Block Payload Packet Rules Slot Storage StreamReader Spec SpecStorage BaseProofs CrcProofs BlockProofs.
Ltac Zify.zify_post_hook ::= Z.div_mod_to_equations.
Open Scope list_scope.

(** ** Sums and positions *)
Lemma sum_app a b : sum (a ++ b) = sum a + sum b.
Proof. induction a as [|x a IH]; cbn [app sum fold_right]; [reflexivity|]. fold (sum a) (sum (a ++ b)). rewrite IH. lia. Qed.
Lemma sum_zeros n : sum (repeat 0 n) = 0.
Proof. induction n; cbn [repeat sum fold_right]; [reflexivity|]. fold (sum (repeat 0 n)). lia. Qed.
Lemma sum_total l : sum l = total l.
Proof. reflexivity. Qed.

Definition tab (cap : nat) (lens : list N) : slot :=
  with_crc (mk_slot (lens ++ repeat 0 (cap - length lens)) (N.of_nat cap) []).
Definition pos_all (l : list N) : Prop := Forall (fun n => 0 < n) l.

Lemma tab_lengths cap lens : sl_lengths (tab cap lens) = lens ++ repeat 0 (cap - length lens).
Proof. reflexivity. Qed.
Lemma tab_capacity cap lens : sl_capacity (tab cap lens) = N.of_nat cap.
Proof. reflexivity. Qed.
Lemma tab_size cap lens : slot_size (tab cap lens) = N.of_nat (20 + 8 * cap).
Proof. unfold slot_size, slot_hdr_size. rewrite tab_capacity. lia. Qed.
Lemma tab_empty cap : empty_slot cap = tab cap [].
Proof. unfold tab, empty_slot, with_crc, slot_crc. cbn [sl_lengths sl_capacity length app]. now rewrite Nat.sub_0_r. Qed.

Lemma free_position_tab lens n : pos_all lens ->
  free_position (lens ++ repeat 0 n) = match n with O => None | _ => Some (length lens) end.
Proof.
  intros P. induction P as [|x l H P IH]; cbn [app free_position length].
  - destruct n; reflexivity.
  - replace (x =? 0) with false by lia. rewrite IH. now destruct n.
Qed.

Lemma last_app_repeat lens n : last (lens ++ repeat 0 n) 0 = match n with O => last lens 0 | _ => 0 end.
Proof.
  destruct n as [|n]; [now rewrite app_nil_r|]. replace (repeat 0 (S n)) with (repeat 0 n ++ [0]).
  - now rewrite app_assoc, last_last.
  - clear. induction n; cbn [repeat app]; [reflexivity|]. now rewrite IHn.
Qed.

Lemma last_pos lens : pos_all lens -> lens <> [] -> 0 < last lens 0.
Proof.
  intros P NE. destruct (exists_last NE) as (l & x & ->). rewrite last_last.
  apply Forall_app in P as (_ & P). now inversion P.
Qed.

Lemma tab_is_full cap lens : pos_all lens -> (length lens <= cap)%nat ->
  slot_is_full (tab cap lens) = ((length lens =? cap)%nat && negb (cap =? 0)%nat)%bool.
Proof.
  intros P L. unfold slot_is_full. rewrite tab_lengths, last_app_repeat.
  destruct (cap - length lens)%nat as [|m] eqn:E.
  - replace (length lens =? cap)%nat with true by lia. destruct lens as [|x lens].
    + cbn [length] in *. replace (cap =? 0)%nat with true by lia. reflexivity.
    + pose proof (last_pos _ P ltac:(discriminate)). replace (cap =? 0)%nat with false by (cbn [length] in *; lia).
      cbn [negb andb]. lia.
  - replace (length lens =? cap)%nat with false by lia. reflexivity.
Qed.

Lemma tab_free_position cap lens : pos_all lens -> (length lens <= cap)%nat ->
  free_position (sl_lengths (tab cap lens)) = if (length lens <? cap)%nat then Some (length lens) else None.
Proof.
  intros P L. rewrite tab_lengths, free_position_tab by exact P.
  destruct (cap - length lens)%nat as [|m] eqn:E; [replace (length lens <? cap)%nat with false by lia|replace (length lens <? cap)%nat with true by lia]; reflexivity.
Qed.

Lemma tab_free_index cap lens : pos_all lens -> (length lens <= cap)%nat ->
  free_slot_index (tab cap lens) = if (length lens <? cap)%nat then Some (length lens) else None.
Proof.
  intros P L. unfold free_slot_index. rewrite tab_is_full, tab_free_position by assumption.
  destruct (Nat.ltb_spec (length lens) cap); [replace (length lens =? cap)%nat with false by lia; reflexivity|].
  replace (length lens =? cap)%nat with true by lia. now destruct (cap =? 0)%nat.
Qed.

Lemma firstn_tab i lens n : (i <= length lens)%nat -> firstn i (lens ++ repeat 0 n) = firstn i lens.
Proof. intros L. rewrite firstn_app. replace (i - length lens)%nat with 0%nat by lia. now rewrite firstn_O, app_nil_r. Qed.

Lemma tab_width cap lens : pos_all lens -> (length lens <= cap)%nat -> slot_width (tab cap lens) = sum lens.
Proof.
  intros P L. unfold slot_width. rewrite tab_free_position by assumption.
  assert (sum (sl_lengths (tab cap lens)) = sum lens) as -> by (rewrite tab_lengths, sum_app, sum_zeros; lia).
  destruct (slot_is_full _); [reflexivity|]. destruct (Nat.ltb_spec (length lens) cap); [|reflexivity].
  rewrite tab_lengths, firstn_tab, firstn_all by lia. reflexivity.
Qed.

Lemma tab_free_offset cap lens : pos_all lens -> (length lens <= cap)%nat ->
  free_slot_offset (tab cap lens) = if (length lens <? cap)%nat then Some (sum lens + N.of_nat (20 + 8 * cap)) else None.
Proof.
  intros P L. unfold free_slot_offset. rewrite tab_is_full, tab_free_position by assumption.
  destruct (Nat.ltb_spec (length lens) cap).
  - replace (length lens =? cap)%nat with false by lia. cbn [andb option_map].
    rewrite tab_lengths, firstn_tab, firstn_all, tab_size by lia. reflexivity.
  - replace (length lens =? cap)%nat with true by lia. now destruct (cap =? 0)%nat.
Qed.

Lemma tab_count cap lens : pos_all lens -> slot_count (tab cap lens) = length lens.
Proof.
  intros P. unfold slot_count. rewrite tab_lengths, filter_app, app_length.
  assert (length (filter (fun n => 0 <? n) (repeat 0 (cap - length lens))) = 0%nat) as ->.
  { induction (cap - length lens)%nat; cbn [repeat filter]; auto. }
  rewrite Nat.add_0_r. induction P as [|x l H P IH]; cbn [filter length]; [reflexivity|].
  replace (0 <? x) with true by lia. cbn [length]. now rewrite IH.
Qed.

Lemma nth_tab i lens n :
  nth_error (lens ++ repeat 0 n) i = if (i <? length lens)%nat then nth_error lens i else if (i <? length lens + n)%nat then Some 0 else None.
Proof.
  destruct (Nat.ltb_spec i (length lens)); [now rewrite nth_error_app1|]. rewrite nth_error_app2 by lia.
  destruct (Nat.ltb_spec i (length lens + n)).
  - rewrite nth_error_repeat by lia. reflexivity.
  - apply nth_error_None. rewrite repeat_length. lia.
Qed.

Lemma pos_nth lens i n : pos_all lens -> nth_error lens i = Some n -> 0 < n.
Proof. intros P E. apply nth_error_In in E. unfold pos_all in P. rewrite Forall_forall in P. auto. Qed.

Lemma tab_is_used i cap lens : pos_all lens -> slot_is_used i (tab cap lens) = (i <? length lens)%nat.
Proof.
  intros P. unfold slot_is_used. rewrite tab_lengths, nth_tab. destruct (Nat.ltb_spec i (length lens)) as [L|L].
  - destruct (nth_error lens i) eqn:E; [apply (pos_nth _ _ _ P) in E; lia|]. apply nth_error_None in E. lia.
  - destruct (_ <? _)%nat; reflexivity.
Qed.

Lemma tab_is_empty i cap lens : pos_all lens -> (length lens <= cap)%nat -> (i < cap)%nat ->
  slot_is_empty i (tab cap lens) = Ok (negb (i <? length lens)%nat).
Proof.
  intros P LL L. unfold slot_is_empty. rewrite tab_lengths, nth_tab. destruct (Nat.ltb_spec i (length lens)) as [M|M].
  - destruct (nth_error lens i) eqn:E; [apply (pos_nth _ _ _ P) in E; cbn [negb]; f_equal; lia|]. apply nth_error_None in E. lia.
  - replace (i <? length lens + (cap - length lens))%nat with true by lia. reflexivity.
Qed.

Lemma tab_offset i cap lens : (length lens <= cap)%nat -> (i < length lens)%nat ->
  slot_offset i (tab cap lens) = Some (sum (firstn i lens) + N.of_nat (20 + 8 * cap)).
Proof.
  intros LL L. unfold slot_offset. rewrite tab_size, tab_lengths, app_length, repeat_length.
  replace (length lens + (cap - length lens) <=? i)%nat with false by lia. now rewrite firstn_tab by lia.
Qed.

Lemma tab_offset_of i cap lens : pos_all lens -> (i < length lens)%nat -> slot_offset_of i (tab cap lens) = Some (sum (firstn i lens)).
Proof.
  intros P L. destruct i as [|i]; [reflexivity|]. unfold slot_offset_of. rewrite tab_is_used by exact P.
  rewrite tab_lengths, app_length, repeat_length. replace (S i <? length lens)%nat with true by lia. cbn [negb].
  replace (length lens + (cap - length lens) <=? S i)%nat with false by lia. cbn [orb].
  rewrite firstn_tab by lia. reflexivity.
Qed.

Lemma firstn_tab_free i cap lens : (length lens <= i)%nat -> sum (firstn i (lens ++ repeat 0 (cap - length lens))) = sum lens.
Proof.
  intros L. rewrite firstn_app, firstn_all2 by exact L. rewrite sum_app.
  replace (sum (firstn _ (repeat 0 _))) with 0; [lia|]. generalize (i - length lens)%nat as a. generalize (cap - length lens)%nat as b.
  induction b as [|b IH]; intros [|a]; try reflexivity. cbn [repeat firstn sum fold_right]. fold (sum (firstn a (repeat 0 b))). rewrite <- IH. reflexivity.
Qed.

Lemma tab_offset_free i cap lens : (length lens <= cap)%nat -> (length lens <= i)%nat ->
  slot_offset i (tab cap lens) = if (i <? cap)%nat then Some (sum lens + N.of_nat (20 + 8 * cap)) else None.
Proof.
  intros LL L. unfold slot_offset. rewrite tab_size, tab_lengths, app_length, repeat_length, firstn_tab_free by exact L.
  replace (length lens + (cap - length lens) <=? i)%nat with (negb (i <? cap)%nat) by lia. destruct (i <? cap)%nat; reflexivity.
Qed.

Lemma tab_offset_of_free i cap lens : pos_all lens -> (length lens <= i)%nat ->
  slot_offset_of i (tab cap lens) = if (i =? 0)%nat then Some 0 else None.
Proof.
  intros P L. destruct i as [|i]; [reflexivity|]. unfold slot_offset_of. rewrite tab_is_used by exact P.
  replace (S i <? length lens)%nat with false by lia. cbn [negb]. now rewrite orb_true_r.
Qed.

Lemma tab_is_empty_all i cap lens : pos_all lens -> (length lens <= cap)%nat ->
  slot_is_empty i (tab cap lens) =
    if (i <? cap)%nat then Ok (length lens <=? i)%nat else Err (EOutOfBounds (N.of_nat cap) (N.of_nat i)).
Proof.
  intros P LL. destruct (Nat.ltb_spec i cap) as [L|L].
  - rewrite tab_is_empty by assumption. f_equal. lia.
  - unfold slot_is_empty. rewrite tab_lengths. replace (nth_error _ i) with (@None N).
    + rewrite app_length, repeat_length. do 2 f_equal. lia.
    + symmetry. apply nth_error_None. rewrite app_length, repeat_length. lia.
Qed.

Lemma tab_insert cap lens n : pos_all lens -> (length lens <= cap)%nat ->
  slot_insert n (tab cap lens) =
    if (length lens <? cap)%nat then (Ok tt, tab cap (lens ++ [n])) else (Err ECannotInsertIntoSlot, tab cap lens).
Proof.
  intros P L. unfold slot_insert. rewrite tab_free_position by assumption. destruct (Nat.ltb_spec (length lens) cap) as [M|M]; [|reflexivity].
  f_equal. rewrite tab_lengths, tab_capacity. unfold tab. rewrite firstn_tab, firstn_all by lia.
  rewrite skipn_app, skipn_all2 by lia. replace (S (length lens) - length lens)%nat with 1%nat by lia.
  rewrite app_length. cbn [length app]. replace (cap - length lens)%nat with (S (cap - (length lens + 1))) by lia. cbn [repeat skipn].
  rewrite <- app_assoc. reflexivity.
Qed.

Fixpoint ranges_spec (lens : list N) (base : N) : list (N * N) :=
  match lens with [] => [] | n :: r => (base, base + n) :: ranges_spec r (base + n) end.
Lemma ranges_go_tab lens n size : pos_all lens -> forall off, slot_ranges_go (lens ++ repeat 0 n) off size = ranges_spec lens (off + size).
Proof.
  intros P. induction P as [|x l H P IH]; intros off; cbn [app slot_ranges_go ranges_spec].
  - destruct n; reflexivity.
  - replace (x =? 0) with false by lia. rewrite IH. f_equal; [f_equal; lia|f_equal; lia].
Qed.
Lemma tab_ranges cap lens : pos_all lens -> slot_ranges (tab cap lens) = ranges_spec lens (N.of_nat (20 + 8 * cap)).
Proof. intros P. unfold slot_ranges. now rewrite tab_lengths, ranges_go_tab, tab_size by exact P. Qed.
Lemma ranges_spec_nth lens : forall base i, (i < length lens)%nat ->
  nth_error (ranges_spec lens base) i = Some (base + sum (firstn i lens), base + sum (firstn (S i) lens)).
Proof.
  induction lens as [|n l IH]; intros base i L; [cbn [length] in L; lia|]. destruct i as [|i]; cbn [ranges_spec nth_error].
  - cbn [firstn sum fold_right]. f_equal. f_equal; lia.
  - rewrite IH by (cbn [length] in L; lia). change (firstn (S i) (n :: l)) with (n :: firstn i l).
    change (firstn (S (S i)) (n :: l)) with (n :: firstn (S i) l). cbn [sum fold_right]. fold (sum (firstn i l)) (sum (firstn (S i) l)).
    f_equal. f_equal; lia.
Qed.
Lemma ranges_spec_length lens : forall base, length (ranges_spec lens base) = length lens.
Proof. induction lens; intros base; cbn [ranges_spec length]; auto. Qed.

Lemma inserts_tab cap l : forall lens, pos_all lens -> pos_all l -> (length lens + length l <= cap)%nat ->
  slot_inserts (tab cap lens) l (tab cap (lens ++ l)).
Proof.
  induction l as [|n l IH]; intros lens P Q L; [rewrite app_nil_r; constructor|]. inversion Q; subst. cbn [length] in L.
  apply ins_next with (s1 := tab cap (lens ++ [n])).
  - rewrite tab_insert by (auto; lia). replace (length lens <? cap)%nat with true by lia. reflexivity.
  - change (n :: l) with ([n] ++ l). rewrite app_assoc. apply IH; [|assumption|rewrite app_length; cbn [length]; lia].
    apply Forall_app. split; [exact P|]. now constructor.
Qed.
Lemma inserts_only cap l : forall lens s, pos_all lens -> pos_all l -> (length lens <= cap)%nat ->
  slot_inserts (tab cap lens) l s -> s = tab cap (lens ++ l) /\ (length lens + length l <= cap)%nat.
Proof.
  induction l as [|n l IH]; intros lens s P Q L H; inversion H; subst; [rewrite app_nil_r; cbn [length]; split; [reflexivity|lia]|].
  inversion Q; subst. rewrite tab_insert in * by assumption. destruct (Nat.ltb_spec (length lens) cap) as [M|M]; [|discriminate].
  match goal with E : (Ok tt, _) = (Ok tt, _) |- _ => injection E as E; subst end.
  match goal with E : slot_inserts _ _ _ |- _ => apply IH in E end; [|apply Forall_app; split; [exact P|now constructor]|assumption|rewrite app_length; cbn [length]; lia].
  rewrite app_length in *. cbn [length] in *. rewrite <- app_assoc in *. cbn [app] in *. intuition lia.
Qed.

(** ** The bytes of a slot *)
Lemma le8_length lens : length (concat (map (le 8) lens)) = (8 * length lens)%nat.
Proof. induction lens as [|n l IH]; cbn [map concat length]; [reflexivity|]. rewrite app_length, le_length, IH. lia. Qed.

Lemma slot_bytes_ok s : slot_ok s -> slot_bytes s = Ok (slot_sig ++ le 8 (sl_capacity s) ++ slot_content s).
Proof.
  intros (L & B & _ & C). unfold slot_bytes, slot_content.
  set (b := slot_sig ++ _). assert (blen b = slot_size s) as E.
  { unfold b, blen, slot_size, slot_hdr_size. rewrite !app_length, le_length, le8_length, C, crc32_le_length.
    change (length slot_sig) with 8%nat. lia. }
  rewrite E, N.leb_refl, N.sub_diag. cbn [N.to_nat repeat]. now rewrite app_nil_r.
Qed.

Lemma tab_ok cap lens : (length lens <= cap)%nat -> N.of_nat cap * 8 + 20 < two63 -> Forall (fun n => n < two64) lens -> slot_ok (tab cap lens).
Proof.
  intros L B F. split; [|split; [exact B|split]].
  - rewrite tab_lengths, tab_capacity, app_length, repeat_length. lia.
  - rewrite tab_lengths. apply Forall_app. split; [exact F|]. apply Forall_forall. intros x I. apply repeat_spec in I. subst. reflexivity.
  - reflexivity.
Qed.

(** Reading any [8 * n] bytes as lengths. *)
Lemma split_le8 n : forall raw, length raw = (8 * n)%nat ->
  exists lens, concat (map (le 8) lens) = raw /\ length lens = n /\ Forall (fun x => x < two64) lens.
Proof.
  induction n as [|n IH]; intros raw L.
  - exists []. destruct raw; [auto|discriminate].
  - destruct (IH (skipn 8 raw)) as (lens & E1 & E2 & E3); [rewrite skipn_length; lia|].
    exists (unle (firstn 8 raw) :: lens). cbn [map concat length]. assert (length (firstn 8 raw) = 8%nat) as L8 by (rewrite firstn_length; lia).
    split; [|split; [lia|constructor; [|exact E3]]].
    + rewrite E1. rewrite <- L8 at 1. rewrite le_unle. apply firstn_skipn.
    + pose proof (unle_bound (firstn 8 raw)) as B. unfold blen in B. rewrite L8 in B. exact B.
Qed.
Lemma le8_inj a : forall b, Forall (fun x => x < two64) a -> Forall (fun x => x < two64) b -> length a = length b ->
  concat (map (le 8) a) = concat (map (le 8) b) -> a = b.
Proof.
  induction a as [|x a IH]; intros [|y b] FA FB L E; try discriminate; [reflexivity|]. cbn [map concat] in E.
  inversion FA; inversion FB; subst. apply app_len_inj in E as (E1 & E2); [|now rewrite !le_length].
  apply le_inj in E1; try assumption. f_equal; [exact E1|]. apply IH; auto.
Qed.

Section Reading.
Context {S : Type} (R : reader S) (view : S -> bytes) (okst : S -> Prop) (L : lawful R view okst).

Lemma read_lengths_ok lens : forall acc s rest, Forall (fun x => x < two64) lens -> okst s ->
  view s = concat (map (le 8) lens) ++ rest ->
  exists s', read_lengths R (length lens) acc s = (Ok (acc ++ lens), s') /\ view s' = rest /\ okst s'.
Proof.
  induction lens as [|n lens IH]; intros acc s rest F O V; cbn [length read_lengths].
  - rewrite app_nil_r. cbn [map concat app] in V. eauto.
  - inversion F; subst. cbn [map concat] in V. rewrite <- app_assoc in V.
    destruct (lw_ok _ _ _ L 8 s _ _ O V) as (s1 & R1 & V1 & O1); [unfold blen; now rewrite le_length|]. rewrite R1. cbn [sbind].
    rewrite unle_le by assumption. destruct (IH (acc ++ [n]) s1 rest) as (s' & R2 & V2 & O2); auto.
    exists s'. rewrite R2, <- app_assoc. auto.
Qed.

Lemma slot_body_ok lens cap crc s rest : okst s -> N.of_nat (length lens) = cap -> cap * 8 < two63 -> Forall (fun x => x < two64) lens -> length crc = 4%nat ->
  view s = concat (map (le 8) lens) ++ crc ++ rest ->
  exists s', slot_body R cap s =
    (if bytes_eqb crc (slot_crc (mk_slot lens cap crc)) then Ok (mk_slot lens cap crc) else Err ECrcDismatch, s') /\ view s' = rest /\ okst s'.
Proof.
  intros O C B F LC V. unfold slot_body. replace (two63 <=? cap * 8) with false by lia.
  replace (N.to_nat cap) with (length lens) by lia.
  destruct (read_lengths_ok lens [] s _ F O V) as (s1 & R1 & V1 & O1). rewrite R1. cbn [sbind app].
  destruct (lw_ok _ _ _ L 4 s1 _ _ O1 V1) as (s2 & R2 & V2 & O2); [unfold blen; now rewrite LC|]. rewrite R2. cbn [sbind sl_crc].
  exists s2. destruct (bytes_eqb _ _); auto.
Qed.

Lemma slot_hdr_read_ok cap s rest : okst s -> cap < two64 -> view s = slot_sig ++ le 8 cap ++ rest ->
  exists s', slot_hdr_read R s = (Ok cap, s') /\ view s' = rest /\ okst s'.
Proof.
  intros O B V. unfold slot_hdr_read. destruct (lw_ok _ _ _ L 8 s _ _ O V) as (s1 & R1 & V1 & O1); [reflexivity|]. rewrite R1. cbn [sbind].
  rewrite bytes_eqb_refl. cbn [negb]. destruct (lw_ok _ _ _ L 8 s1 _ _ O1 V1) as (s2 & R2 & V2 & O2); [unfold blen; now rewrite le_length|].
  rewrite R2. cbn [sbind]. rewrite unle_le by exact B. eauto.
Qed.

Lemma slot_read_ok s sl rest : okst s -> slot_ok sl -> view s = slot_sig ++ le 8 (sl_capacity sl) ++ slot_content sl ++ rest ->
  exists s', slot_read R s = (Ok sl, s') /\ view s' = rest /\ okst s'.
Proof.
  intros O (K1 & K2 & K3 & K4) V. unfold slot_read.
  destruct (slot_hdr_read_ok (sl_capacity sl) s _ O ltac:(unfold two63, two64 in *; lia) V) as (s1 & R1 & V1 & O1). rewrite R1. cbn [sbind].
  unfold slot_content in V1. rewrite <- app_assoc in V1.
  destruct (slot_body_ok (sl_lengths sl) (sl_capacity sl) (sl_crc sl) s1 rest) as (s2 & R2 & V2 & O2); auto; [unfold two63 in *; lia|now rewrite K4, crc32_le_length|].
  exists s2. rewrite R2. split; [|auto]. destruct sl as [lens cap crc]. cbn [sl_lengths sl_capacity sl_crc] in *.
  replace (bytes_eqb crc _) with true; [reflexivity|]. symmetry. apply bytes_eqb_eq. exact K4.
Qed.
End Reading.

(** ** Seekable sources *)
Lemma cursor_exact_data n c o c' : cursor_read_exact n c = (o, c') -> c_data c' = c_data c.
Proof. unfold cursor_read_exact. destruct (n <=? _); intros E; injection E as <- <-; reflexivity. Qed.
Lemma read_lengths_data n : forall acc c o c', read_lengths cursor_reader n acc c = (o, c') -> c_data c' = c_data c.
Proof.
  induction n as [|n IH]; intros acc c o c' E; cbn [read_lengths] in E; [injection E as <- <-; reflexivity|].
  destruct (rd_exact cursor_reader 8 c) as ([b|e|w] & c1) eqn:E1; cbn [sbind] in E; apply cursor_exact_data in E1.
  - apply IH in E. congruence.
  - injection E as <- <-. exact E1.
  - injection E as <- <-. exact E1.
Qed.
Lemma slot_body_data cap c o c' : slot_body cursor_reader cap c = (o, c') -> c_data c' = c_data c.
Proof.
  unfold slot_body. destruct (two63 <=? cap * 8); [intros E; injection E as <- <-; reflexivity|].
  destruct (read_lengths _ _ _ c) as ([lens|e|w] & c1) eqn:E1; cbn [sbind]; apply read_lengths_data in E1;
    [|intros E; injection E as <- <-; exact E1|intros E; injection E as <- <-; exact E1].
  destruct (rd_exact cursor_reader 4 c1) as ([b|e|w] & c2) eqn:E2; cbn [sbind]; apply cursor_exact_data in E2; cbn [sl_crc].
  - destruct (bytes_eqb b _); intros E; injection E as <- <-; congruence.
  - intros E; injection E as <- <-; congruence.
  - intros E; injection E as <- <-; congruence.
Qed.
Lemma slot_hdr_try_data c o c' : slot_hdr_try_read c = (o, c') -> c_data c' = c_data c.
Proof.
  unfold slot_hdr_try_read. destruct (c_available c) as [len|e|w]; cbn [sbind]; [|intros E; injection E as <- <-; reflexivity|intros E; injection E as <- <-; reflexivity].
  destruct (len <? slot_hdr_size); [intros E; injection E as <- <-; reflexivity|].
  destruct (rd_exact cursor_reader 8 c) as ([b|e|w] & c1) eqn:E1; cbn [sbind]; apply cursor_exact_data in E1;
    [|intros E; injection E as <- <-; exact E1|intros E; injection E as <- <-; exact E1].
  destruct (negb _); [intros E; injection E as <- <-; exact E1|].
  destruct (rd_exact cursor_reader 8 c1) as ([b2|e|w] & c2) eqn:E2; cbn [sbind]; apply cursor_exact_data in E2;
    intros E; injection E as <- <-; congruence.
Qed.
Lemma slot_try_data c o c' : slot_try_read c = (o, c') -> c_data c' = c_data c.
Proof.
  unfold slot_try_read. destruct (c_available c) as [len|e|w]; cbn [sbind]; [|intros E; injection E as <- <-; reflexivity|intros E; injection E as <- <-; reflexivity].
  destruct (slot_hdr_try_read c) as ([[cap|n]|e|w] & c1) eqn:E1; cbn [stbind sbind]; apply slot_hdr_try_data in E1;
    [|intros E; injection E as <- <-; exact E1|intros E; injection E as <- <-; exact E1|intros E; injection E as <- <-; exact E1].
  destruct (two64 <=? _); [intros E; injection E as <- <-; exact E1|].
  destruct (len <? _); [intros E; injection E as _ <-; exact E1|].
  destruct (slot_body cursor_reader cap c1) as ([sl|e|w] & c2) eqn:E2; cbn [sbind]; apply slot_body_data in E2;
    intros E; injection E as <- <-; congruence.
Qed.

Lemma slot_hdr_try_ok c cap rest : c_ok c -> cap < two64 -> c_rest c = slot_sig ++ le 8 cap ++ rest ->
  exists c', slot_hdr_try_read c = (Ok (Success cap), c') /\ c_rest c' = rest /\ c_ok c'.
Proof.
  intros O B V. unfold slot_hdr_try_read. rewrite c_available_ok by exact O. cbn [sbind].
  assert (blen (c_rest c) = 16 + blen rest) as LV by (rewrite V, !blen_app; unfold blen; rewrite le_length; change (length slot_sig) with 8%nat; lia).
  rewrite LV. unfold slot_hdr_size. replace (16 + blen rest <? 16) with false by lia.
  destruct (lw_ok _ _ _ cursor_lawful 8 c _ _ O V) as (c1 & R1 & V1 & O1); [reflexivity|]. rewrite R1. cbn [sbind].
  rewrite bytes_eqb_refl. cbn [negb]. destruct (lw_ok _ _ _ cursor_lawful 8 c1 _ _ O1 V1) as (c2 & R2 & V2 & O2); [unfold blen; now rewrite le_length|].
  rewrite R2. cbn [sbind]. rewrite unle_le by exact B. eauto.
Qed.

(** A complete table of the announced capacity: accepted when the checksum fits. *)
Lemma slot_try_table c lens cap crc rest : c_ok c -> N.of_nat (length lens) = cap -> cap * 8 + 20 < two63 ->
  Forall (fun x => x < two64) lens -> length crc = 4%nat ->
  c_rest c = slot_sig ++ le 8 cap ++ concat (map (le 8) lens) ++ crc ++ rest ->
  exists c', slot_try_read c =
    (if bytes_eqb crc (slot_crc (mk_slot lens cap crc)) then Ok (Success (mk_slot lens cap crc)) else Err ECrcDismatch, c') /\
    c_rest c' = rest /\ c_ok c'.
Proof.
  intros O C B F LC V. unfold slot_try_read. rewrite c_available_ok by exact O. cbn [sbind].
  destruct (slot_hdr_try_ok c cap _ O ltac:(unfold two63, two64 in *; lia) V) as (c1 & R1 & V1 & O1). rewrite R1. cbn [stbind sbind].
  unfold slot_hdr_size. replace (two64 <=? 16 + cap * 8 + 4) with false by (unfold two63, two64 in *; lia).
  assert (blen (c_rest c) = 16 + cap * 8 + 4 + blen rest) as LV.
  { rewrite V. unfold blen. rewrite !app_length, le_length, le8_length, LC. change (length slot_sig) with 8%nat. lia. }
  rewrite LV. replace (16 + cap * 8 + 4 + blen rest <? 16 + cap * 8 + 4) with false by lia.
  destruct (slot_body_ok _ _ _ cursor_lawful lens cap crc c1 rest O1 C ltac:(unfold two63 in *; lia) F LC V1) as (c2 & R2 & V2 & O2).
  rewrite R2. exists c2. destruct (bytes_eqb _ _); cbn [sbind]; auto.
Qed.

Lemma slot_try_ok c sl rest : c_ok c -> slot_ok sl -> c_rest c = slot_sig ++ le 8 (sl_capacity sl) ++ slot_content sl ++ rest ->
  exists c', slot_try_read c = (Ok (Success sl), c') /\ c_rest c' = rest /\ c_ok c'.
Proof.
  intros O (K1 & K2 & K3 & K4) V. unfold slot_content in V. rewrite <- app_assoc in V.
  destruct (slot_try_table c (sl_lengths sl) (sl_capacity sl) (sl_crc sl) rest O K1 K2 K3) as (c' & E & V' & O'); [now rewrite K4, crc32_le_length|exact V|].
  exists c'. rewrite E. destruct sl as [lens cap crc]. cbn [sl_lengths sl_capacity sl_crc] in *.
  replace (bytes_eqb crc _) with true; [auto|]. symmetry. apply bytes_eqb_eq. exact K4.
Qed.

Lemma slot_try_short c : c_ok c -> blen (c_rest c) < 16 -> slot_try_read c = (Ok (NotEnough 16), c).
Proof.
  intros O L. unfold slot_try_read, slot_hdr_try_read. rewrite c_available_ok by exact O. cbn [sbind].
  rewrite c_available_ok by exact O. cbn [sbind]. unfold slot_hdr_size. replace (blen (c_rest c) <? 16) with true by lia. reflexivity.
Qed.

Lemma seek_back c c1 : c_data c1 = c_data c -> c_seek (c_pos c) c1 = c.
Proof. intros E. unfold c_seek. rewrite E. now destruct c. Qed.

(** Every outcome of [try_read]. *)
Lemma slot_try_total c : c_ok c -> c_len c < two63 ->
  match slot_try_read c with
  | (Ok (Success sl), c') => slot_ok sl /\ c_rest c = slot_sig ++ le 8 (sl_capacity sl) ++ slot_content sl ++ c_rest c' /\ c_ok c'
  | (Ok (NotEnough n), c') => c' = c /\
      (blen (c_rest c) < 16 /\ n = 16 \/
       exists cap rest, c_rest c = slot_sig ++ le 8 cap ++ rest /\ cap <= 1 /\ blen rest < 8 * cap + 4 /\ n = 9 - 8 * cap)
  | (Err e, c') => e = ESignatureDismatch /\ c' = c /\ firstn 8 (c_rest c) <> slot_sig \/
      e = ECrcDismatch /\ exists lens crc, let cap := N.of_nat (length lens) in
        c_rest c = slot_sig ++ le 8 cap ++ concat (map (le 8) lens) ++ crc ++ c_rest c' /\ length crc = 4%nat /\ Forall (fun x => x < two64) lens /\
        crc <> slot_crc (mk_slot lens cap crc)
  | (Panic w, c') => w = POverflow /\ exists cap rest, c_rest c = slot_sig ++ le 8 cap ++ rest /\ 2 <= cap < two64 /\ blen rest < 8 * cap + 4
  end.
Proof.
  intros O B. destruct (N.lt_ge_cases (blen (c_rest c)) 16) as [L|L]; [rewrite slot_try_short by assumption; auto|].
  pose proof (c_rest_len c O) as RL.
  set (sg := firstn 8 (c_rest c)). set (cp := firstn 8 (skipn 8 (c_rest c))). set (rest := skipn 16 (c_rest c)).
  assert (LS : length sg = 8%nat) by (unfold sg; rewrite firstn_length; unfold blen in L; lia).
  assert (LP : length cp = 8%nat) by (unfold cp; rewrite firstn_length, skipn_length; unfold blen in L; lia).
  assert (V : c_rest c = sg ++ cp ++ rest).
  { unfold sg, cp, rest. rewrite <- (firstn_skipn 8 (c_rest c)) at 1. f_equal.
    rewrite <- (firstn_skipn 8 (skipn 8 (c_rest c))) at 1. f_equal. now rewrite skipn_skipn. }
  clearbody rest. destruct (bytes_eqb sg slot_sig) eqn:EB.
  - apply bytes_eqb_eq in EB. set (cap := unle cp). assert (EC : cp = le 8 cap) by (unfold cap; rewrite <- LP; symmetry; apply le_unle).
    assert (BC : cap < two64). { unfold cap. exact (unle_bound' cp 8 LP). }
    rewrite EB, EC in V. clearbody cap. clear L.
    assert (LV : blen (c_rest c) = 16 + blen rest) by (rewrite V, !blen_app; unfold blen; rewrite le_length; change (length slot_sig) with 8%nat; lia).
    destruct (slot_hdr_try_ok c cap rest O BC V) as (c1 & R1 & V1 & O1).
    pose proof (slot_hdr_try_data _ _ _ R1) as D1.
    destruct (N.lt_ge_cases (blen rest) (8 * cap + 4)) as [LT|GE].
    + unfold slot_try_read. rewrite c_available_ok by exact O. cbn [sbind]. rewrite R1. cbn [stbind sbind]. unfold slot_hdr_size. rewrite LV.
      destruct (two64 <=? 16 + cap * 8 + 4) eqn:E1.
      { split; [reflexivity|]. exists cap, rest. split; [exact V|]. split; [unfold two64 in *; lia|exact LT]. }
      replace (16 + blen rest <? 16 + cap * 8 + 4) with true by lia.
      destruct (29 <? 16 + cap * 8 + 4) eqn:E2.
      * split; [reflexivity|]. exists cap, rest. split; [exact V|]. split; [lia|exact LT].
      * split; [now apply seek_back|]. right. exists cap, rest. split; [exact V|]. split; [lia|]. split; [exact LT|lia].
    + assert (CB : cap * 8 + 20 < two63) by (unfold c_ok, c_len in *; lia).
      destruct (split_le8 (N.to_nat cap) (firstn (N.to_nat (8 * cap)) rest)) as (lens & E1 & E2 & E3); [rewrite firstn_length; unfold blen in GE; lia|].
      set (crc := firstn 4 (skipn (N.to_nat (8 * cap)) rest)). assert (LC : length crc = 4%nat) by (unfold crc; rewrite firstn_length, skipn_length; unfold blen in GE; lia).
      set (rest2 := skipn 4 (skipn (N.to_nat (8 * cap)) rest)).
      assert (ER : rest = concat (map (le 8) lens) ++ crc ++ rest2) by (unfold crc, rest2; rewrite firstn_skipn, E1, firstn_skipn; reflexivity).
      rewrite ER in V. destruct (slot_try_table c lens cap crc rest2 O ltac:(lia) CB E3 LC V) as (c' & E & V' & O'). rewrite E.
      destruct (bytes_eqb crc _) eqn:EQ;
        [|right; split; [reflexivity|]; exists lens, crc; cbv zeta; replace (N.of_nat (length lens)) with cap by lia; rewrite V';
          split; [exact V|]; split; [exact LC|]; split; [exact E3|now apply bytes_eqb_neq]]. apply bytes_eqb_eq in EQ.
      split; [split; [cbn [sl_lengths sl_capacity]; lia|]; split; [exact CB|]; split; [exact E3|exact EQ]|].
      split; [|exact O']. unfold slot_content. cbn [sl_capacity sl_lengths sl_crc]. rewrite V', <- !app_assoc. exact V.
  - unfold slot_try_read, slot_hdr_try_read. rewrite c_available_ok by exact O. cbn [sbind].
    rewrite c_available_ok by exact O. cbn [sbind]. unfold slot_hdr_size. replace (_ <? 16) with false by lia.
    destruct (rd_exact cursor_reader 8 c) as (o & c1) eqn:R1. pose proof (cursor_exact_data _ _ _ _ R1) as D1.
    destruct (lw_ok _ _ _ cursor_lawful 8 c _ _ O V) as (s1 & R2 & _); [unfold blen; now rewrite LS|]. rewrite R1 in R2. injection R2 as -> ->. cbn [sbind].
    rewrite EB. cbn [negb stbind]. left. split; [reflexivity|]. split; [now apply seek_back|]. fold sg. now apply bytes_eqb_neq.
Qed.

(** ** Every outcome of [read] *)
Section ReadTotal.
Context {S : Type} (R : reader S) (view : S -> bytes) (okst : S -> Prop) (L : lawful R view okst).

Lemma read_lengths_short n : forall acc s, okst s -> blen (view s) < 8 * N.of_nat n -> exists s', read_lengths R n acc s = (Err (EIo UnexpectedEof), s').
Proof.
  induction n as [|n IH]; intros acc s O B; [lia|]. cbn [read_lengths].
  destruct (lw_cases L 8 s O) as [(a & b & t & V & LA & E & W & OT)|(_ & t & E)]; rewrite E; cbn [sbind]; [|eauto].
  apply IH; [exact OT|]. rewrite V, blen_app in B. rewrite W. lia.
Qed.

Lemma slot_body_short cap s : okst s -> cap * 8 < two63 -> blen (view s) < 8 * cap + 4 ->
  exists s', slot_body R cap s = (Err (EIo UnexpectedEof), s').
Proof.
  intros O C B. unfold slot_body. replace (two63 <=? cap * 8) with false by lia.
  destruct (N.lt_ge_cases (blen (view s)) (8 * cap)) as [LT|GE].
  - destruct (read_lengths_short (N.to_nat cap) [] s O ltac:(lia)) as (s' & ->). cbn [sbind]. eauto.
  - destruct (split_le8 (N.to_nat cap) (firstn (N.to_nat (8 * cap)) (view s))) as (lens & E1 & E2 & E3); [rewrite firstn_length; unfold blen in GE; lia|].
    assert (V : view s = concat (map (le 8) lens) ++ skipn (N.to_nat (8 * cap)) (view s)) by (rewrite E1; now rewrite firstn_skipn).
    destruct (read_lengths_ok R view okst L lens [] s _ E3 O V) as (t & E & W & OT). rewrite E2 in E. rewrite E. cbn [sbind].
    destruct (lw_short _ _ _ L 4 t OT) as (u & ->); [rewrite W; unfold blen in *; rewrite skipn_length; lia|]. cbn [sbind]. eauto.
Qed.

Lemma slot_read_total s : okst s -> blen (view s) < two63 ->
  match slot_read R s with
  | (Ok sl, s') => slot_ok sl /\ view s = slot_sig ++ le 8 (sl_capacity sl) ++ slot_content sl ++ view s' /\ okst s'
  | (Err e, s') =>
      e = EIo UnexpectedEof /\ (blen (view s) < 8 \/
        (exists rest, view s = slot_sig ++ rest /\ blen rest < 8) \/
        exists cap rest, view s = slot_sig ++ le 8 cap ++ rest /\ 8 * cap < two63 /\ blen rest < 8 * cap + 4) \/
      e = ESignatureDismatch /\ 8 <= blen (view s) /\ firstn 8 (view s) <> slot_sig \/
      e = ECrcDismatch /\ exists lens crc, let cap := N.of_nat (length lens) in
        view s = slot_sig ++ le 8 cap ++ concat (map (le 8) lens) ++ crc ++ view s' /\ length crc = 4%nat /\ Forall (fun x => x < two64) lens /\
        crc <> slot_crc (mk_slot lens cap crc)
  | (Panic w, s') => w = PCapacity /\ exists cap rest, view s = slot_sig ++ le 8 cap ++ rest /\ two63 <= 8 * cap /\ cap < two64
  end.
Proof.
  intros O B. unfold slot_read, slot_hdr_read.
  destruct (lw_cases L 8 s O) as [(sg & b & t & V & LA & E & W & OT)|(LT & t & E)]; rewrite E; cbn [sbind]; [|left; auto].
  destruct (bytes_eqb sg slot_sig) eqn:EB; cbn [negb].
  2: { right. left. split; [reflexivity|]. apply bytes_eqb_neq in EB. rewrite V. split; [rewrite blen_app; lia|].
       rewrite firstn_app, firstn_all2 by (unfold blen in LA; lia). replace (8 - length sg)%nat with 0%nat by (unfold blen in LA; lia). cbn [firstn]. now rewrite app_nil_r. }
  apply bytes_eqb_eq in EB. subst sg.
  destruct (lw_cases L 8 t OT) as [(cp & b' & t2 & V2 & LA2 & E2 & W2 & OT2)|(LT & t2 & E2)]; rewrite E2; cbn [sbind];
    [|left; split; [reflexivity|]; right; left; exists b; split; [exact V|now rewrite <- W]].
  assert (LP : length cp = 8%nat) by (unfold blen in LA2; lia).
  set (cap := unle cp). assert (EC : cp = le 8 cap) by (unfold cap; rewrite <- LP; symmetry; apply le_unle).
  assert (BC : cap < two64) by exact (unle_bound' cp 8 LP). clearbody cap. subst cp.
  rewrite <- W, V2 in V. rewrite <- W2 in V. clear V2 W W2 LA LA2 LP E E2.
  destruct (N.lt_ge_cases (8 * cap) two63) as [CB|CB].
  - destruct (N.lt_ge_cases (blen (view t2)) (8 * cap + 4)) as [LT|GE].
    + destruct (slot_body_short cap t2 OT2 ltac:(lia) LT) as (u & ->). left. split; [reflexivity|]. right. right. eauto.
    + destruct (split_le8 (N.to_nat cap) (firstn (N.to_nat (8 * cap)) (view t2))) as (lens & E1 & E2 & E3); [rewrite firstn_length; unfold blen in GE; lia|].
      set (crc := firstn 4 (skipn (N.to_nat (8 * cap)) (view t2))). assert (LC : length crc = 4%nat) by (unfold crc; rewrite firstn_length, skipn_length; unfold blen in GE; lia).
      set (rest2 := skipn 4 (skipn (N.to_nat (8 * cap)) (view t2))).
      assert (ER : view t2 = concat (map (le 8) lens) ++ crc ++ rest2) by (unfold crc, rest2; rewrite firstn_skipn, E1, firstn_skipn; reflexivity).
      clearbody crc rest2.
      destruct (slot_body_ok R view okst L lens cap crc t2 rest2 OT2 ltac:(lia) ltac:(lia) E3 LC ER) as (s' & E & V' & O'). rewrite E.
      assert (CB' : cap * 8 + 20 < two63).
      { rewrite V, !blen_app in B. unfold blen in *. rewrite le_length in B. change (length slot_sig) with 8%nat in B. lia. }
      rewrite ER, <- V' in V.
      destruct (bytes_eqb crc _) eqn:EQ.
      * apply bytes_eqb_eq in EQ. split; [split; [cbn [sl_lengths sl_capacity]; lia|]; split; [exact CB'|]; split; [exact E3|exact EQ]|].
        split; [|exact O']. rewrite V. unfold slot_content. cbn [sl_capacity sl_lengths sl_crc]. now rewrite <- app_assoc.
      * right. right. split; [reflexivity|]. exists lens, crc. cbv zeta. replace (N.of_nat (length lens)) with cap by lia.
        split; [exact V|]. split; [exact LC|]. split; [exact E3|now apply bytes_eqb_neq].
  - unfold slot_body. replace (two63 <=? cap * 8) with true by lia. split; [reflexivity|]. exists cap, (view t2). auto.
Qed.
End ReadTotal.

(** Corruption of the table or of its checksum. *)
Lemma slot_burst sl lens' crc' : slot_ok sl -> length lens' = length (sl_lengths sl) -> Forall (fun x => x < two64) lens' -> length crc' = 4%nat ->
  burst 4 (slot_content sl) (concat (map (le 8) lens') ++ crc') ->
  crc' = slot_crc (mk_slot lens' (sl_capacity sl) crc') -> mk_slot lens' (sl_capacity sl) crc' = sl.
Proof.
  intros (K1 & K2 & K3 & K4) LL F LC HB EC. destruct sl as [lens cap crc]. unfold slot_content, slot_crc in *.
  cbn [sl_lengths sl_capacity sl_crc] in *. subst crc.
  assert (le 8 cap ++ concat (map (le 8) lens') = le 8 cap ++ concat (map (le 8) lens)) as E.
  { apply (crc_burst_core (le 8 cap ++ concat (map (le 8) lens)) (le 8 cap ++ concat (map (le 8) lens')) _ crc'); auto.
    - rewrite !app_length, !le8_length, LL. reflexivity.
    - rewrite !app_length, !le8_length, LL. reflexivity.
    - destruct HB as (pre & w & w' & post & E1 & E2 & E3 & E4).
      exists (le 8 cap ++ pre), w, w', post. rewrite <- !app_assoc, E1, E2. auto. }
  apply app_inv_head in E. apply le8_inj in E; auto. subst lens'. rewrite EC. reflexivity.
Qed.
