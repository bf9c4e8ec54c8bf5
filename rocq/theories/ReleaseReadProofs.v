(** * Single packets and seeking in a release build. *)
From Coq Require Import ZifyBool ZifyNat ZifyN.
From Verif Require Import Base Crc32 Io File Block Payload Packet Rules Slot Storage Release ReleaseRead Spec SpecStorage BaseProofs PacketProofs PacketSafeProofs SlotProofs StorageProofs
  StorageReadProofs ReadingProofs HostileProofs.
Ltac Zify.zify_post_hook ::= Z.div_mod_to_equations.
Open Scope list_scope.

Lemma wsub_le a b : b <= a -> a < two64 -> wsub a b = a - b.
Proof. intros L1 L2. unfold wsub. replace (a + two64 - b) with (a - b + 1 * two64) by lia. rewrite N.mod_add by discriminate. apply N.mod_small. lia. Qed.
Lemma wsub_gt a b : a < b -> b < two64 -> wsub a b = two64 - b + a.
Proof. intros L1 L2. unfold wsub. rewrite N.mod_small; lia. Qed.
Lemma wadd_mod a b : wadd (a mod two64) (b mod two64) = (a + b) mod two64.
Proof. unfold wadd. now rewrite <- N.add_mod. Qed.
Lemma total_mod s : rel_total s = (slot_size s + slot_width s) mod two64.
Proof. apply wadd_mod. Qed.
Lemma sum_mod {A} (f g : A -> N) l : (forall x, g x = f x mod two64) -> sum (map g l) mod two64 = sum (map f l) mod two64.
Proof.
  intros H. unfold sum. induction l as [|x l IH]; cbn [map fold_right]; [reflexivity|].
  rewrite H, N.add_mod, IH, N.mod_mod, <- N.add_mod by discriminate. reflexivity.
Qed.

Section Read.
Context {U : Type}.
Implicit Types (P : proto U).

Lemma try_read_same P c : c_pos c <= c_len c -> c_len c < two64 -> rel_pkt_try_read P c = pkt_try_read P c.
Proof.
  intros L1 L2. assert (A : rel_available c = c_len c - c_pos c) by (unfold rel_available; now apply wsub_le).
  unfold rel_pkt_try_read, pkt_try_read, rel_pkt_hdr_try_read, hdr_try_read, c_available. rewrite A. assert (Q : (c_pos c <=? c_len c) = true) by lia. rewrite Q. cbn [sbind]. rewrite Q. reflexivity.
Qed.

Lemma try_read_beyond P c : c_len c < c_pos c -> c_pos c < two64 ->
  fst (rel_pkt_try_read P c) = (let a := two64 - c_pos c + c_len c in if a <? 29 then Ok (NotEnough (29 - a)) else Err (EIo UnexpectedEof)).
Proof.
  intros L1 L2. assert (A : rel_available c = two64 - c_pos c + c_len c) by (unfold rel_available; now apply wsub_gt).
  unfold rel_pkt_try_read, rel_pkt_hdr_try_read. rewrite A. change (N.of_nat hdr_size) with 29. cbv zeta. destruct (_ <? 29); [reflexivity|].
  unfold hdr_read, cursor_reader, cursor_read_exact. cbn [rd_exact].
  assert (R : c_rest c = []). { unfold c_rest. change (blen (c_data c)) with (c_len c). now replace (c_pos c <=? c_len c) with false by lia. }
  rewrite R. reflexivity.
Qed.

Lemma rel_place ls (r : sreader U) n : map fst (d_slots r) = map slot_with ls ->
  rel_d_place n r = match nth_place ls n with Ok (Some x) => Ok (Some (x mod two64)) | o => o end.
Proof.
  intros E. unfold rel_d_place, nth_place. change default_capacity with 500%nat. cbv zeta.
  assert (EN : option_map fst (nth_error (d_slots r) (n / 500)) = option_map slot_with (nth_error ls (n / 500))) by (rewrite <- !nth_error_map, E; reflexivity).
  destruct (nth_error (d_slots r) (n / 500)) as [[s o]|], (nth_error ls (n / 500)) as [lens|]; try discriminate; [|reflexivity].
  cbn [option_map fst] in EN. assert (s = slot_with lens) as -> by congruence. clear EN.
  unfold slot_is_empty. change (sl_lengths (slot_with lens)) with lens.
  destruct (nth_error lens (n mod 500)) as [x|] eqn:EX; cbn [rbind]; [|reflexivity].
  destruct x as [|x]; cbn [N.eqb]; [reflexivity|].
  unfold slot_offset. change (sl_lengths (slot_with lens)) with lens.
  assert (n mod 500 < length lens)%nat by (apply nth_error_Some; congruence).
  replace (_ <=? _)%nat with false by lia. do 2 f_equal.
  rewrite <- (map_map fst rel_total), <- firstn_map, E, firstn_map, map_map.
  rewrite (sum_mod (fun l => table_len l + announced l)).
  - rewrite wadd_mod. f_equal. unfold table_place. change (slot_size (slot_with lens)) with (slot_size (slot_of lens)). rewrite slot_of_size. unfold sum, total. lia.
  - intros l. rewrite total_mod. change (slot_with l) with (slot_of l). now rewrite slot_of_size, slot_of_width.
Qed.

Lemma rel_nth_all P data ls (r : sreader U) n : blen data < two63 -> map fst (d_slots r) = map slot_with ls -> c_data (d_file r) = data ->
  fst (rel_d_nth P n r) =
  (let! o := nth_place ls n in
   match o with
   | None => Ok None
   | Some x => let x := x mod two64 in
               if x <=? blen data then
                 let! o := fst (pkt_try_read P (mk_cursor data x)) in
                 match o with Success p => Ok (Some p) | NotEnough n => Err (ENotEnoughData n) end
               else let a := two64 - x + blen data in if a <? 29 then Err (ENotEnoughData (29 - a)) else Err (EIo UnexpectedEof)
   end).
Proof.
  intros B E D. unfold rel_d_nth. rewrite (rel_place ls r n E). destruct (nth_place ls n) as [[x|]|e|w]; cbn [rbind sbind]; try reflexivity. cbv zeta.
  assert (X : x mod two64 < two64) by (apply N.mod_lt; discriminate). unfold c_seek. rewrite D. destruct (x mod two64 <=? blen data) eqn:Q.
  - rewrite try_read_same by (unfold c_len; cbn [c_pos c_data]; unfold two63, two64 in *; lia). now destruct (pkt_try_read P _) as [o c].
  - pose proof (try_read_beyond P (mk_cursor data (x mod two64))) as T. unfold c_len in T. cbn [c_pos c_data] in T. specialize (T ltac:(lia) X). cbv zeta in T.
    destruct (rel_pkt_try_read P _) as [o c]. cbn [fst] in T. subst o. cbn [fst]. now destruct (_ <? 29).
Qed.

Lemma rel_nth_filtered_all P data ls (r : sreader U) n : map fst (d_slots r) = map slot_with ls -> c_data (d_file r) = data ->
  fst (rel_d_nth_filtered P n r) =
  (let! o := nth_place ls n in
   match o with
   | None => Ok None
   | Some x => let! o := fst (filtered cursor_reader P (d_rules r) (mk_cursor data (x mod two64))) in Ok (Some o)
   end).
Proof.
  intros E D. unfold rel_d_nth_filtered. rewrite (rel_place ls r n E). destruct (nth_place ls n) as [[x|]|e|w]; cbn [rbind sbind]; try reflexivity.
  unfold c_seek. rewrite D. now destruct (filtered _ _ _ _) as [o c].
Qed.

(** ** Seeking *)
Lemma from_rel slots : forall off idx target packet o off' r, t_from_go slots off idx target packet = (o, (off', r)) ->
  (forall w, o = Panic w -> w = POverflow) /\
  (o <> Panic POverflow -> exists o', rel_t_from_go slots (off mod two64) idx target packet = (o', (off' mod two64, r)) /\
    match o with Ok (a, b) => o' = Ok (a mod two64, b mod two64) /\ off' <= a /\ a < two64 /\
                   (exists s pre, slots = pre ++ s :: r /\ b = off + sum (map (fun s => slot_size s + slot_width s) pre) + slot_size s + slot_width s)
               | Err e => o' = Err e | Panic _ => False end).
Proof.
  induction slots as [|s slots IH]; intros off idx target packet o off' r; cbn [t_from_go rel_t_from_go].
  - intros E. injection E as <- <- <-. split; [discriminate|]. intros _. eexists. split; reflexivity.
  - destruct (slot_count s <=? target)%nat.
    + intros E. destruct (IH _ _ _ _ _ _ _ E) as (I1 & I2). split; [exact I1|]. intros NP. destruct (I2 NP) as (o' & R & M). exists o'.
      rewrite total_mod, wadd_mod. split; [exact R|]. destruct o as [[a b]|e|w]; [|exact M|exact M]. destruct M as (M1 & M2 & M3 & s' & pre & -> & M5).
      split; [exact M1|]. split; [exact M2|]. split; [exact M3|]. exists s', (s :: pre). split; [reflexivity|]. rewrite M5. unfold sum. cbn [map fold_right]. lia.
    + destruct (slot_is_used target s); cbn [negb]; [|intros E; injection E as <- <- <-; split; [discriminate|]; intros _; eexists; split; reflexivity].
      destruct (slot_offset_of target s) as [x|]; [|intros E; injection E as <- <- <-; split; [discriminate|]; intros _; eexists; split; reflexivity].
      intros E. apply pair_equal_spec in E as (E1 & E2). apply pair_equal_spec in E2 as (<- & <-).
      destruct (two64 <=? off + slot_size s + x) eqn:Q; subst o; (split; [intros w W; congruence|]); [congruence|]. intros _.
      eexists. split; [reflexivity|]. rewrite !wadd_mod. split; [reflexivity|]. split; [lia|]. split; [lia|]. exists s, []. split; [reflexivity|]. unfold sum. cbn [map fold_right]. lia.
Qed.

Lemma rel_seek_same ls (r : sreader U) n : map fst (d_slots r) = map slot_with ls -> table_place ls (length ls) < two64 ->
  d_seek n r <> Panic POverflow -> rel_d_seek n r = d_seek n r.
Proof.
  intros E T. unfold d_seek, rel_d_seek. destruct (t_from_go (map fst (d_slots r)) 0 0 n n) as [o [off slots]] eqn:EF.
  destruct (from_rel _ _ _ _ _ _ _ _ EF) as (F1 & F2). destruct o as [[a b]|e|w]; cbn [rbind].
  - destruct F2 as (o' & R & -> & L1 & L2 & s & pre & ES & EB); [discriminate|]. rewrite (N.mod_small 0) in R by reflexivity. rewrite R. cbn [rbind].
    assert (LB : b < two64).
    { eapply N.le_lt_trans; [|exact T]. unfold table_place. rewrite firstn_all.
      assert (Q : map (fun l => table_len l + announced l) ls = map (fun s => slot_size s + slot_width s) (map fst (d_slots r))).
      { rewrite E, map_map. apply map_ext. intros l. change (slot_with l) with (slot_of l). now rewrite slot_of_size, slot_of_width. }
      rewrite Q, ES, map_app, <- sum_total, sum_app. cbn [map]. rewrite EB. unfold sum. cbn [fold_right]. lia. }
    rewrite !N.mod_small by lia. unfold t_fetch, rel_t_fetch. cbn [t_src t_off t_slots t_buf].
    destruct (b <? a) eqn:Q; [cbn [rbind]; congruence|]. intros _. rewrite wsub_le by lia. unfold alloc.
    destruct (_ <? two63); cbn [sbind t_off t_slots t_buf]; reflexivity.
  - intros _. destruct F2 as (o' & R & ->); [discriminate|]. rewrite (N.mod_small 0) in R by reflexivity. rewrite R. reflexivity.
  - intros NP. rewrite (F1 w eq_refl) in NP. congruence.
Qed.
End Read.
