(** * Ranges in, and inserting into, storage files of unknown origin *)
From Coq Require Import ZifyBool ZifyNat ZifyN.
From Verif Require Import Base Crc32 Io File Block Payload Packet Rules Slot Storage Spec SpecStorage BaseProofs CrcProofs IoProofs
  BlockProofs PayloadProofs PacketProofs PacketSafeProofs SinkProofs SlotProofs StorageProofs HostileProofs.
Ltac Zify.zify_post_hook ::= Z.div_mod_to_equations.
Open Scope list_scope.

(** ** Ranges *)
Definition still {A} (c : cursor) (m : res A * cursor) : Prop := c_data (snd m) = c_data c.
Lemma still_bind {A B} c (m : res A * cursor) (k : A -> cursor -> res B * cursor) : still c m ->
  (forall a c', c_data c' = c_data c -> still c' (k a c')) -> still c (sbind m k).
Proof. unfold still. destruct m as [[a|e|w] c']; cbn [sbind snd]; auto. intros H K. rewrite (K a c' H). exact H. Qed.
Lemma still_exact n c : still c (rd_exact cursor_reader n c).
Proof. unfold still. cbn [rd_exact cursor_reader]. destruct (cursor_read_exact n c) as [o c'] eqn:E. exact (cursor_exact_data _ _ _ _ E). Qed.
Lemma still_pure {A} c (o : res A) : still c (o, c).
Proof. reflexivity. Qed.

Section Ranges.
Context {U : Type}.
Implicit Types (P : proto U).

Lemma filtered_still P rs c : still c (filtered cursor_reader P rs c).
Proof.
  unfold filtered. apply still_bind.
  - unfold hdr_read. apply still_bind; [apply still_exact|]. intros sg c1 _. destruct (negb _); [apply still_pure|].
    do 4 (apply still_bind; [apply still_exact|]; intros ? ? _). cbv zeta. destruct (bytes_eqb _ _); apply still_pure.
  - intros h c1 _. apply still_bind; [apply still_pure|]. intros _ c2 _. apply still_bind; [apply still_exact|]. intros buf c3 _.
    apply still_bind; [apply still_pure|]. intros bs c4 _. destruct (negb _); [apply still_pure|].
    apply still_bind; [apply still_pure|]. intros [p|] c5 _; [|apply still_pure]. destruct (filter_packet _ _); apply still_pure.
Qed.

Lemma try_read_still P c : still c (pkt_try_read P c).
Proof.
  destruct (c_pos c <=? c_len c) eqn:E.
  - pose proof (pkt_try_read_pres P c ltac:(unfold c_ok; lia)) as H. unfold still. destruct (pkt_try_read P c) as [[a|e|w] c']; cbn [pres snd] in *; [apply H|apply H|contradiction].
  - unfold pkt_try_read, c_available. rewrite E. reflexivity.
Qed.

(** The reader after [nth]: only the position of the file has changed. *)
Definition moved (r r' : sreader U) : Prop := d_slots r' = d_slots r /\ c_data (d_file r') = c_data (d_file r) /\ d_rules r' = d_rules r.
Lemma nth_moved P n r : moved r (snd (d_nth P n r)).
Proof.
  unfold d_nth, moved. destruct (d_place n r) as [[x|]|e|w]; cbn [sbind snd]; auto.
  pose proof (try_read_still P (c_seek x (d_file r))) as H. unfold still in H. destruct (pkt_try_read P _) as [o c]. cbn [snd d_with_file d_slots d_file d_rules] in *. auto.
Qed.
Lemma nth_filtered_moved P n r : moved r (snd (d_nth_filtered P n r)).
Proof.
  unfold d_nth_filtered, moved. destruct (d_place n r) as [[x|]|e|w]; cbn [sbind snd]; auto.
  pose proof (filtered_still P (d_rules r) (c_seek x (d_file r))) as H. unfold still in H. destruct (filtered _ P _ _) as [o c]. cbn [snd d_with_file d_slots d_file d_rules] in *. auto.
Qed.
Lemma place_moved n r r' : moved r r' -> d_place n r' = d_place n r.
Proof. intros (E & _). unfold d_place. now rewrite E. Qed.
Lemma seek_moved x r r' : moved r r' -> c_seek x (d_file r') = c_seek x (d_file r).
Proof. intros (_ & E & _). unfold c_seek. now rewrite E. Qed.
Lemma nth_same P n r r' : moved r r' -> fst (d_nth P n r') = fst (d_nth P n r).
Proof.
  intros M. unfold d_nth. rewrite (place_moved n r r' M). destruct (d_place n r) as [[x|]|e|w]; cbn [sbind]; try reflexivity.
  rewrite (seek_moved x r r' M). destruct (pkt_try_read P _) as [o c]. reflexivity.
Qed.
Lemma nth_filtered_same P n r r' : moved r r' -> fst (d_nth_filtered P n r') = fst (d_nth_filtered P n r).
Proof.
  intros M. unfold d_nth_filtered. rewrite (place_moved n r r' M). destruct (d_place n r) as [[x|]|e|w]; cbn [sbind]; try reflexivity.
  rewrite (seek_moved x r r' M). destruct M as (_ & _ & ->). destruct (filtered _ P _ _) as [o c]. reflexivity.
Qed.
Lemma moved_trans r r1 r2 : moved r r1 -> moved r1 r2 -> moved r r2.
Proof. intros (A1 & A2 & A3) (B1 & B2 & B3). unfold moved. rewrite B1, B2, B3. auto. Qed.

Lemma range_any P r : forall len from r1, moved r r1 ->
  yields (g_next P) (mk_ranged r1 len from) (until_none (map (fun n => fst (d_nth P n r)) (seq from len))).
Proof.
  induction len as [|len IH]; intros from r1 M; cbn [seq map until_none]; [eapply yields_end; reflexivity|].
  rewrite <- (nth_same P from r r1 M). pose proof (nth_moved P from r1) as M1.
  destruct (d_nth P from r1) as [o r2] eqn:E. cbn [fst snd] in *. pose proof (IH (S from) r2 (moved_trans _ _ _ M M1)) as Y.
  assert (G : g_next P (mk_ranged r1 (S len) from) = (match o with Ok None => None | Ok (Some p) => Some (Ok p) | Err e => Some (Err e) | Panic w => Some (Panic w) end, mk_ranged r2 len (S from))).
  { unfold g_next. cbn [g_len g_from g_reader]. rewrite E. reflexivity. }
  destruct o as [[p|]|e|w]; [eapply yields_next; eassumption|eapply yields_end; exact G|eapply yields_next; eassumption|eapply yields_next; eassumption].
Qed.

Lemma nth_none P r n : (length (d_slots r) * 500 <= n)%nat -> fst (d_nth_filtered P n r) = Ok None.
Proof.
  intros L. unfold d_nth_filtered, d_place. change default_capacity with 500%nat. replace (nth_error (d_slots r) (n / 500)) with (@None (slot * N)); [reflexivity|].
  symmetry. apply nth_error_None. apply Nat.div_le_lower_bound; lia.
Qed.

Lemma next_filtered_any P r : forall m fuel len from r1, moved r r1 -> m = (length (d_slots r) * 500 - from)%nat -> (m < fuel)%nat ->
  match picks len (map (fun n => fst (d_nth_filtered P n r)) (seq from m)) with
  | [] => exists g, g_next_filtered_go fuel P (mk_ranged r1 len from) = (None, g)
  | a :: l => exists r2 len' from', g_next_filtered_go fuel P (mk_ranged r1 len from) = (Some a, mk_ranged r2 len' from') /\ moved r r2 /\ (from < from')%nat /\
      l = picks len' (map (fun n => fst (d_nth_filtered P n r)) (seq from' (length (d_slots r) * 500 - from')))
  end.
Proof.
  induction m as [|m IH]; intros fuel len from r1 M EM LF; (destruct fuel as [|fuel]; [lia|]); cbn [g_next_filtered_go g_len g_from g_reader seq map].
  - destruct len as [|len]; [cbn [picks]; eauto|]. cbn [picks]. pose proof (nth_none P r from ltac:(lia)) as N. rewrite <- (nth_filtered_same P from r r1 M) in N.
    destruct (d_nth_filtered P from r1) as [o r2]. cbn [fst] in N. subst o. eauto.
  - destruct len as [|len]; [cbn [picks]; eauto|].
    rewrite <- (nth_filtered_same P from r r1 M). pose proof (nth_filtered_moved P from r1) as M1.
    destruct (d_nth_filtered P from r1) as [o r2] eqn:E. cbn [fst snd] in *. pose proof (moved_trans _ _ _ M M1) as M2.
    assert (EM' : m = (length (d_slots r) * 500 - S from)%nat) by lia.
    destruct o as [[[n p|n]|]|e|w]; cbn [picks].
    + exists r2, len, (S from). rewrite <- EM'. repeat split; auto; apply M2.
    + specialize (IH fuel (S len) (S from) r2 M2 EM' ltac:(lia)). destruct (picks (S len) _); [exact IH|].
      destruct IH as (r3 & len' & from' & I1 & I2 & I3 & I4). exists r3, len', from'. repeat split; auto; try apply I2; lia.
    + eauto.
    + exists r2, (S len), (S from). rewrite <- EM'. repeat split; auto; apply M2.
    + exists r2, (S len), (S from). rewrite <- EM'. repeat split; auto; apply M2.
Qed.

Lemma range_filtered_any P r : forall k len from r1, moved r r1 -> (length (d_slots r) * 500 - from <= k)%nat ->
  yields (g_next_filtered P) (mk_ranged r1 len from) (picks len (map (fun n => fst (d_nth_filtered P n r)) (seq from (length (d_slots r) * 500 - from)))).
Proof.
  induction k as [|k IH]; intros len from r1 M L;
  (pose proof (next_filtered_any P r _ (length (d_slots r1) * default_capacity + 1) len from r1 M eq_refl) as Q;
   change default_capacity with 500%nat in Q at 1; rewrite (proj1 M) in Q; specialize (Q ltac:(lia));
   destruct (picks len _) as [|a l] eqn:EP;
   [destruct Q as (g & E); eapply yields_end; unfold g_next_filtered; cbn [g_reader]; rewrite (proj1 M); exact E|]).
  - exfalso. replace (length (d_slots r) * 500 - from)%nat with 0%nat in EP by lia. destruct len; discriminate.
  - destruct Q as (r2 & len' & from' & E & M2 & LT & ->). eapply yields_next.
    + unfold g_next_filtered. cbn [g_reader]. rewrite (proj1 M). exact E.
    + destruct (Nat.le_gt_cases (length (d_slots r) * 500) from') as [H|H]; [|apply IH; [exact M2|lia]].
      replace (length (d_slots r) * 500 - from')%nat with 0%nat by lia.
      pose proof (next_filtered_any P r 0%nat (length (d_slots r2) * default_capacity + 1) len' from' r2 M2 ltac:(lia) ltac:(lia)) as Q.
      cbn [seq map] in *. assert (EN : picks len' ([] : list (res (option (look U)))) = []) by (now destruct len'). rewrite EN in *. destruct Q as (g & E2). eapply yields_end. exact E2.
Qed.
End Ranges.

(** ** Inserting *)
Lemma zero_in l : free_position (l ++ [0]) <> None.
Proof. induction l as [|n l IH]; [discriminate|]. cbn [app free_position]. destruct (n =? 0); [discriminate|]. destruct (free_position _); [discriminate|contradiction]. Qed.
Lemma free_room lens : room lens -> free_slot_offset (slot_of lens) = Some (announced lens + table_len lens) /\ announced lens = total (before_zero lens) /\
  exists i, free_position lens = Some i /\ before_zero lens = firstn i lens /\ (i < length lens)%nat.
Proof.
  intros (l & ->). assert (LZ : last (l ++ [0]) 0 = 0) by apply last_last. pose proof (zero_in l) as Z. pose proof (before_firstn (l ++ [0])) as B.
  destruct (free_position (l ++ [0])) as [i|] eqn:E; [|contradiction].
  assert (AN : announced (l ++ [0]) = total (before_zero (l ++ [0]))) by (unfold announced; now rewrite LZ).
  split; [|split; [exact AN|exists i; split; [reflexivity|split; [exact B|]]]].
  - unfold free_slot_offset, slot_is_full. change (sl_lengths (slot_of (l ++ [0]))) with (l ++ [0]). rewrite LZ, E. cbn [N.ltb N.compare option_map].
    rewrite slot_of_size, AN, B, sum_total. reflexivity.
  - clear -E. revert i E. generalize (l ++ [0]). induction l0 as [|n l0 IH]; intros i E; [discriminate|]. cbn [free_position] in E. destruct (n =? 0); [injection E as <-; cbn; lia|].
    destruct (free_position l0) as [j|]; [|discriminate]. injection E as <-. specialize (IH j eq_refl). cbn [length]. lia.
Qed.
Lemma room_cases lens : room lens \/ ~ room lens /\ free_slot_offset (slot_of lens) = None.
Proof.
  destruct lens as [|n l] using rev_ind; [right; split; [intros (l & E); destruct l; discriminate|reflexivity]|].
  destruct n as [|n]; [left; now exists l|]. right. split; [intros (l' & E); apply app_inj_tail in E as (_ & E); discriminate|].
  unfold free_slot_offset, slot_is_full. change (sl_lengths (slot_of ?x)) with x. rewrite last_last. reflexivity.
Qed.
Lemma no_room lens : ~ room lens -> free_slot_offset (slot_of lens) = None.
Proof. intros N. destruct (room_cases lens) as [R|(_ & E)]; [contradiction|exact E]. Qed.

Lemma setup_past ls rest : Forall (fun l => ~ room l) ls -> forall loc,
  lc_setup_go (map slot_of ls ++ rest) loc = lc_setup_go rest (mk_locator (lc_next loc + length ls) (lc_off loc + table_place ls (length ls))).
Proof.
  induction ls as [|l ls IH]; intros F loc; cbn [map app].
  - unfold table_place. cbn [length firstn map]. change (total []) with 0. rewrite N.add_0_r, Nat.add_0_r. now destruct loc.
  - cbn [lc_setup_go]. rewrite (no_room l (Forall_inv F)), (IH (Forall_inv_tail F)). cbn [lc_next lc_off]. rewrite slot_of_size, slot_of_width. f_equal.
    unfold table_place. cbn [length firstn map]. unfold total. cbn [fold_right]. f_equal; lia.
Qed.

Lemma insert_entry n lens : room lens -> slot_insert n (slot_of lens) = (Ok tt, slot_of (add_entry n lens)) /\ length (add_entry n lens) = length lens.
Proof.
  intros R. destruct (free_room lens R) as (_ & _ & i & E & B & L). unfold slot_insert. change (sl_lengths (slot_of lens)) with lens. rewrite E.
  assert (LE : length (add_entry n lens) = length lens).
  { unfold add_entry. rewrite B, app_length, firstn_length. cbn [length]. rewrite skipn_length. lia. }
  split; [|exact LE]. unfold slot_of at 3. rewrite LE. unfold with_crc, slot_crc. cbn [sl_lengths sl_capacity slot_of with_crc]. unfold add_entry. rewrite B, firstn_length.
  replace (Nat.min i (length lens)) with i by lia. reflexivity.
Qed.
Lemma bytes_of lens : slot_bytes (slot_of lens) = Ok (table lens).
Proof.
  unfold slot_bytes. rewrite table_eq. unfold slot_content.
  assert (E : blen (slot_sig ++ le 8 (sl_capacity (slot_of lens)) ++ concat (map (le 8) (sl_lengths (slot_of lens))) ++ sl_crc (slot_of lens)) = slot_size (slot_of lens)).
  { rewrite slot_of_size, <- table_length, table_eq. unfold slot_content. reflexivity. }
  cbv zeta. rewrite E. replace (_ <=? _) with true by lia. replace (_ - _) with 0 by lia. cbn [N.to_nat repeat]. now rewrite app_nil_r.
Qed.
Lemma overwrite_put p x data : x <> [] -> p <= blen data -> overwrite p x data = put p x data.
Proof. intros NE L. unfold overwrite, put. destruct x; [contradiction|]. replace (N.to_nat p - length data)%nat with 0%nat by (unfold blen in L; lia). reflexivity. Qed.
Lemma put_blen p x data : p + blen x <= blen data -> blen (put p x data) = blen data.
Proof. intros L. unfold put, blen in *. rewrite !app_length, firstn_length, skipn_length. lia. Qed.
Lemma table_nonempty lens : table lens <> [].
Proof. discriminate. Qed.

Section Insert.
Context {U : Type} (P : proto U).

Lemma set_mid {A} (a : list A) x y r : set_nth (length a) y (a ++ x :: r) = a ++ y :: r.
Proof. induction a as [|z a IH]; [reflexivity|]. cbn [length app set_nth]. now rewrite IH. Qed.

Lemma opened_writer data ls next w : blen data < two63 -> all_tables data ls next -> w_open (healthy data) = Ok w ->
  w_slots w = map slot_of ls /\ (exists c, w_file w = mk_file c [] [] /\ c_data c = data) /\ w_loc w = lc_setup (map slot_of ls) new_locator /\
  stops data next (Ok tt).
Proof.
  intros B T E. destruct (open_all (U := U) data ls next B T) as (S & _ & W). destruct (W (healthy data) eq_refl) as (EO & WO). destruct (WO w E) as (E1 & E2).
  rewrite E in EO. cbn [un rbind] in EO. rewrite <- EO in S. split; [exact E1|].
  unfold w_open in E. destruct (load (fl_cur (healthy data))) as [[a|e|x] c]; try discriminate.
  apply (f_equal (fun x => match x with Ok y => y | _ => w end)) in E. subst w. cbn [w_slots w_file w_loc fl_data fl_cur] in *. rewrite E1.
  split; [exists c; split; [reflexivity|exact E2]|]. split; [reflexivity|exact S].
Qed.

Lemma insert_free ls1 lens ls2 data next w (p : packet U) e : blen data < two63 -> all_tables data (ls1 ++ lens :: ls2) next -> w_open (healthy data) = Ok w ->
  Forall (fun l => ~ room l) ls1 -> room lens -> packet_enc P p e ->
  exists c loc, w_insert p w = (Ok tt, mk_writer (map slot_of (ls1 ++ add_entry (blen e) lens :: ls2)) (mk_file c [] []) loc) /\
    c_data c = put (table_place ls1 (length ls1) + table_len lens + announced lens) e (put (table_place ls1 (length ls1)) (table (add_entry (blen e) lens)) data).
Proof.
  intros B T O F R HE. destruct (opened_writer _ _ _ _ B T O) as (E1 & (c0 & E2 & D0) & E3 & ST).
  pose proof (packet_enc_nonempty _ _ _ HE) as NE.
  set (place := table_place ls1 (length ls1)) in *.
  assert (LOC : w_loc w = mk_locator (length ls1) place).
  { rewrite E3. unfold lc_setup. rewrite map_app. rewrite (setup_past ls1 _ F). cbn [map lc_setup_go new_locator lc_next lc_off Nat.add]. rewrite (proj1 (free_room lens R)), N.add_0_l. reflexivity. }
  assert (NTH : forall x, nth_error (map slot_of ls1 ++ x :: map slot_of ls2) (length ls1) = Some x) by (intros x; rewrite <- (map_length slot_of ls1); apply nth_mid).
  assert (FIND : w_find w = (Some (place + (announced lens + table_len lens)), w)).
  { unfold w_find, lc_find. rewrite E1, LOC. cbn [lc_next lc_off]. rewrite map_app. cbn [map]. rewrite NTH, (proj1 (free_room lens R)). rewrite <- LOC.
    replace (map slot_of ls1 ++ slot_of lens :: map slot_of ls2) with (w_slots w) by (rewrite E1, map_app; reflexivity). now destruct w. }
  unfold w_insert. rewrite FIND, (pkt_write_all_ok P p e [] HE). cbn [sbind k_got app].
  unfold lc_insert. rewrite E1, LOC. cbn [lc_next lc_off]. rewrite map_app. cbn [map]. rewrite NTH. destruct (insert_entry (blen e) lens R) as (EI & EL). rewrite EI.
  rewrite <- (map_length slot_of ls1), set_mid. cbn [sbind w_loc w_slots w_file lc_next lc_off]. rewrite ?LOC. cbn [lc_next lc_off]. rewrite <- ?(map_length slot_of ls1), nth_mid.
  rewrite E2. destruct (store_ok (slot_of (add_entry (blen e) lens)) place (place + (announced lens + table_len lens)) (table (add_entry (blen e) lens)) e c0 (bytes_of _)) as (c' & SO & DC).
  rewrite SO. exists c', (mk_locator (length ls1) place). rewrite map_length. split; [rewrite map_app; reflexivity|].
  pose proof (tables_place _ _ _ _ (proj1 T)) as TP. rewrite N.add_0_l in TP.
  assert (EN : nth_error (ls1 ++ lens :: ls2) (length ls1) = Some lens) by apply nth_mid.
  pose proof (place_step _ _ _ EN) as PS. pose proof (place_le (ls1 ++ lens :: ls2) (S (length ls1)) ltac:(rewrite app_length; cbn; lia)) as PL.
  assert (PP : table_place (ls1 ++ lens :: ls2) (length ls1) = place) by (unfold table_place, place, table_place; now rewrite firstn_app_exact, firstn_all).
  assert (NX : next <= blen data) by apply ST.
  assert (TL : blen (table (add_entry (blen e) lens)) = table_len lens) by (rewrite table_length; unfold table_len; now rewrite EL).
  rewrite DC, D0. rewrite (overwrite_put place) by (discriminate || lia). rewrite overwrite_put; [f_equal; lia|exact NE|].
  rewrite put_blen; lia.
Qed.

Lemma insert_new ls data next w (p : packet U) e : blen data < two63 -> all_tables data ls next -> w_open (healthy data) = Ok w ->
  Forall (fun l => ~ room l) ls -> packet_enc P p e ->
  exists c loc, w_insert p w = (Ok tt, mk_writer (map slot_of (ls ++ [blen e :: repeat 0 499])) (mk_file c [] []) loc) /\
    c_data c = firstn (N.to_nat next) data ++ table (blen e :: repeat 0 499) ++ e.
Proof.
  intros B T O F HE. destruct (opened_writer _ _ _ _ B T O) as (E1 & (c0 & E2 & D0) & E3 & ST).
  pose proof (packet_enc_nonempty _ _ _ HE) as NE.
  pose proof (tables_place _ _ _ _ (proj1 T)) as TP. rewrite N.add_0_l in TP.
  assert (LOC : w_loc w = mk_locator (length ls) next).
  { rewrite E3. unfold lc_setup. rewrite <- (app_nil_r (map slot_of ls)). rewrite (setup_past ls [] F). cbn [lc_setup_go new_locator lc_next lc_off Nat.add]. now rewrite N.add_0_l, TP. }
  assert (DS : default_slot = slot_of (repeat 0 500)) by (unfold default_slot, empty_slot, slot_of; rewrite repeat_length; reflexivity).
  assert (RO : room (repeat 0 500)) by (exists (repeat 0 499); reflexivity).
  assert (NTH : forall x, nth_error (map slot_of ls ++ [x]) (length ls) = Some x) by (intros x; apply nth_map_end).
  assert (FR : free_slot_offset default_slot = Some 4020) by reflexivity.
  assert (FIND : w_find w = (Some (next + 4020), mk_writer (map slot_of ls ++ [default_slot]) (w_file w) (mk_locator (length ls) next))).
  { unfold w_find, lc_find. rewrite E1, LOC. cbn [lc_next lc_off]. rewrite nth_map_none. rewrite NTH, FR. reflexivity. }
  unfold w_insert. rewrite FIND, (pkt_write_all_ok P p e [] HE). cbn [sbind k_got app w_slots w_loc w_file].
  unfold lc_insert. cbn [lc_next lc_off]. rewrite NTH, DS. destruct (insert_entry (blen e) _ RO) as (EI & _). rewrite EI.
  change (add_entry (blen e) (repeat 0 500)) with (blen e :: repeat 0 499).
  rewrite set_nth_map_end. cbn [sbind w_loc w_slots w_file lc_next lc_off]. rewrite nth_map_end.
  rewrite E2. destruct (store_ok (slot_of (blen e :: repeat 0 499)) next (next + 4020) (table (blen e :: repeat 0 499)) e c0 (bytes_of _)) as (c' & SO & DC).
  rewrite SO. exists c', (mk_locator (length ls) next). split; [rewrite map_app; reflexivity|].
  destruct ST as (NX & RE).
  assert (TL : blen (table (blen e :: repeat 0 499)) = 4020) by (rewrite table_length; unfold table_len; cbn [length]; now rewrite repeat_length).
  set (t := table _) in *. assert (TN : t <> []) by discriminate. clearbody t.
  assert (LR : (length data <= N.to_nat next + 4020)%nat).
  { assert (length (skipn (N.to_nat next) data) <= 28)%nat as Q; [|rewrite skipn_length in Q; lia].
    destruct RE as [H|(cap & body & -> & HC & HB)]; [unfold blen in H; lia|]. rewrite !app_length, le_length, map_length. cbn [length]. unfold blen in HB. lia. }
  rewrite DC, D0. unfold blen in NX, TL. rewrite <- (firstn_skipn (N.to_nat next) data) at 1.
  rewrite (overwrite_at _ _ t next); [|rewrite firstn_length; lia|exact TN].
  rewrite skipn_all2 by (rewrite skipn_length; lia). rewrite app_nil_r, app_assoc.
  rewrite <- (app_nil_r (firstn _ data ++ t)) at 1. rewrite (overwrite_at _ [] e); [rewrite skipn_nil, app_nil_r, <- ?app_assoc; reflexivity|rewrite app_length, firstn_length; lia|exact NE].
Qed.
End Insert.

(** ** What is kept *)
Lemma skipn_In' {A} n (l : list A) x : In x (skipn n l) -> In x l.
Proof. intros H. rewrite <- (firstn_skipn n l). apply in_or_app. now right. Qed.
Lemma prefix_skip {A} n k (d d' : list A) : firstn n d = firstn n d' -> firstn (n - k) (skipn k d) = firstn (n - k) (skipn k d').
Proof.
  intros E. destruct (Nat.le_gt_cases k n) as [H|H]; [|now replace (n - k)%nat with 0%nat by lia].
  replace n with (k + (n - k))%nat in E by lia. rewrite !firstn_skipn_comm. now rewrite E.
Qed.
Lemma tables_prefix data data' n : firstn n data = firstn n data' -> forall off ls next, tables data off ls next -> (N.to_nat next <= n)%nat -> tables data' off ls next.
Proof.
  intros E off ls next T. induction T as [off|off lens ls next rest F SK T IH]; intros L; [constructor|].
  pose proof (tables_le _ _ _ _ T) as LE.
  assert (LT : (length (table lens) <= n - N.to_nat off)%nat) by (pose proof (table_length lens) as Q; unfold blen in Q; lia).
  apply (tables_more _ off lens ls next (skipn (length (table lens)) (skipn (N.to_nat off) data'))); [exact F| |now apply IH].
  rewrite <- (firstn_skipn (length (table lens)) (skipn (N.to_nat off) data')) at 1. f_equal.
  pose proof (prefix_skip n (N.to_nat off) _ _ E) as Q. rewrite SK in Q.
  apply (f_equal (firstn (length (table lens)))) in Q. rewrite !firstn_firstn in Q. replace (Nat.min _ _) with (length (table lens)) in Q by lia.
  rewrite <- Q. now apply firstn_app_exact.
Qed.
Lemma tables_join data ls1 ls2 : forall off mid next, tables data off ls1 mid -> tables data mid ls2 next -> tables data off (ls1 ++ ls2) next.
Proof. intros off mid next T1 T2. induction T1; [exact T2|]. cbn [app]. econstructor; eauto. Qed.
Lemma tables_split data ls1 ls2 : forall off next, tables data off (ls1 ++ ls2) next -> exists mid, tables data off ls1 mid /\ tables data mid ls2 next.
Proof.
  induction ls1 as [|l ls1 IH]; intros off next T; cbn [app] in T; [exists off; split; [constructor|exact T]|].
  inversion T; subst. destruct (IH _ _ ltac:(eassumption)) as (mid & A & B). exists mid. split; [econstructor; eauto|exact B].
Qed.
Lemma contents_prefix data data' n ls : firstn n data = firstn n data' -> forall off next, tables data off ls next -> (N.to_nat next <= n)%nat ->
  contents data' off ls = contents data off ls.
Proof.
  intros E. induction ls as [|lens ls IH]; intros off next T L; [reflexivity|]. cbn [contents]. inversion T; subst. pose proof (tables_le _ _ _ _ H5) as LE.
  destruct (announced lens =? 0); [reflexivity|]. f_equal; [|now apply (IH _ next)].
  pose proof (prefix_skip n (N.to_nat (off + table_len lens)) _ _ E) as Q.
  apply (f_equal (firstn (N.to_nat (announced lens)))) in Q. rewrite !firstn_firstn in Q. replace (Nat.min _ _) with (N.to_nat (announced lens)) in Q by lia. now symmetry.
Qed.
Lemma contents_app data ls1 ls2 : Forall (fun l => announced l <> 0) ls1 -> forall off mid, tables data off ls1 mid ->
  contents data off (ls1 ++ ls2) = contents data off ls1 ++ contents data mid ls2.
Proof.
  induction ls1 as [|l ls1 IH]; intros F off mid T; inversion T; subst; [reflexivity|]. cbn [app contents]. pose proof (Forall_inv F) as A. cbn beta in A.
  replace (announced l =? 0) with false by lia. cbn [app]. f_equal. apply IH; [exact (Forall_inv_tail F)|assumption].
Qed.
Lemma contents_drop data ls1 : forall off, Forall (fun l => announced l <> 0) ls1 -> contents data off (ls1 ++ []) = contents data off ls1.
Proof. intros off _. now rewrite app_nil_r. Qed.

Lemma end_tables data ls : tables data 0 ls (blen data) -> all_tables data ls (blen data).
Proof.
  intros T. split; [exact T|]. intros lens rest _ E. rewrite skipn_all2 in E by (unfold blen; lia). discriminate.
Qed.
Lemma end_opens {U} data ls : blen data < two63 -> all_tables data ls (blen data) -> exists r : sreader U, d_open data = Ok r.
Proof.
  intros B T. destruct (open_all (U := U) data ls _ B T) as (S & _). destruct (d_open data) as [r|e|w]; cbn [un rbind] in S; [eauto|exfalso..].
  - destruct S as (_ & L & _). rewrite skipn_all2 in L by (unfold blen; lia). unfold blen in L. cbn [length] in L. lia.
  - destruct S as (_ & [L|(cap & body & E & _)]); [lia|]. rewrite skipn_all2 in E by (unfold blen; lia). discriminate.
Qed.

Lemma holes_full lens : no_holes lens -> ~ room lens -> Forall (fun n => 0 < n) lens.
Proof.
  intros (used & k & -> & F) N. destruct k as [|k]; [now rewrite app_nil_r|]. exfalso. apply N. exists (used ++ repeat 0 k).
  rewrite <- app_assoc. f_equal. clear. induction k; [reflexivity|]. cbn [repeat app] in *. now f_equal.
Qed.
Lemma full_announced lens : lens <> [] -> Forall (fun n => 0 < n) lens -> announced lens <> 0.
Proof.
  intros NE F. rewrite holes_announced by (exists lens, 0%nat; rewrite app_nil_r; auto). destruct lens as [|n l]; [contradiction|].
  pose proof (Forall_inv F) as H. cbn beta in H. unfold total. cbn [fold_right]. lia.
Qed.
Lemma holes_room lens n : no_holes lens -> room lens -> 0 < n -> no_holes (add_entry n lens) /\ announced (add_entry n lens) = announced lens + n /\
  in_use (add_entry n lens) = S (in_use lens).
Proof.
  intros (used & k & -> & F) R P. assert (K : exists j, k = S j).
  { destruct k as [|k]; [|eauto]. exfalso. rewrite app_nil_r in R. destruct R as (l & ->). apply Forall_app in F as (_ & F). apply Forall_inv in F. lia. }
  destruct K as (j & ->). unfold add_entry. rewrite holes_before by exact F. rewrite skipn_app, skipn_all2 by lia.
  replace (S (length used) - length used)%nat with 1%nat by lia. cbn [app repeat skipn].
  assert (NH : no_holes (used ++ n :: repeat 0 j)).
  { exists (used ++ [n]), j. split; [now rewrite <- app_assoc|]. apply Forall_app. split; [exact F|now constructor]. }
  split; [exact NH|]. split.
  2: { rewrite !in_use_app. unfold in_use at 2 4. cbn [filter]. replace (0 <? n) with true by lia. cbn [N.ltb N.compare length]. fold (in_use (repeat 0 j)). lia. }
  rewrite !holes_announced; [|exists used, (S j); auto|exact NH].
  rewrite <- !sum_total. rewrite !sum_app. cbn [repeat]. unfold sum at 2 4. cbn [fold_right]. fold (sum (repeat 0 j)). lia.
Qed.

Lemma contents_within data x ls : forall off, In x (contents data off ls) -> blen x <= blen data.
Proof.
  induction ls as [|lens ls IH]; intros off H; cbn [contents] in H; [easy|]. destruct (announced lens =? 0); [easy|].
  destruct H as [<-|H]; [|exact (IH _ H)]. unfold blen. rewrite firstn_length, skipn_length. lia.
Qed.

Section Kept.
Context {U : Type} (P : proto U).

Lemma enc_pos (p : packet U) e : packet_enc P p e -> 0 < blen e.
Proof. intros (tail & _ & _ & _ & ->). unfold blen. rewrite app_length, layout_length. lia. Qed.

Lemma insert_last fulls lens data next w (p : packet U) e : blen data < two63 -> all_tables data (fulls ++ [lens]) next -> w_open (healthy data) = Ok w ->
  Forall (fun l => ~ room l /\ no_holes l /\ l <> []) fulls -> room lens -> no_holes lens -> packet_enc P p e ->
  exists w', w_insert p w = (Ok tt, w') /\
    let data' := fl_data (w_file w') in let ls' := fulls ++ [add_entry (blen e) lens] in
    (blen e < two64 -> all_tables data' ls' (blen data')) /\
    exists region, contents data 0 (fulls ++ [lens]) = contents data 0 fulls ++ (if announced lens =? 0 then [] else [region]) /\
      blen region = announced lens /\ contents data' 0 ls' = contents data 0 fulls ++ [region ++ e].
Proof.
  intros B T O F R NH HE. pose proof (packet_enc_nonempty _ _ _ HE) as NE. assert (PE : 0 < blen e) by (destruct e; [contradiction|rewrite blen_cons; lia]).
  assert (FR : Forall (fun l => ~ room l) fulls) by (eapply Forall_impl; [|exact F]; now intros l (H & _)).
  assert (FA : Forall (fun l => announced l <> 0) fulls) by (eapply Forall_impl; [|exact F]; intros l (H1 & H2 & H3); apply full_announced; [exact H3|now apply holes_full]).
  destruct (insert_free P fulls lens [] data next w p e B T O FR R HE) as (c & loc & E & D).
  destruct (opened_writer (U := U) _ _ _ _ B T O) as (_ & _ & _ & (NX & RE)).
  exists (mk_writer (map slot_of (fulls ++ [add_entry (blen e) lens])) (mk_file c [] []) loc). split; [exact E|]. cbv zeta. unfold fl_data. cbn [w_file fl_cur]. rewrite D. clear E D c loc.
  destruct (holes_room lens (blen e) NH R PE) as (NH' & AN' & _). destruct (insert_entry (blen e) lens R) as (_ & EL).
  destruct (tables_split _ _ _ _ _ (proj1 T)) as (mid & T1 & T2). inversion T2 as [|? ? ? ? rest FL SK T3]; subst. inversion T3; subst.
  pose proof (tables_place _ _ _ _ T1) as TP. rewrite N.add_0_l in TP. rewrite TP in *.
  set (lens' := add_entry (blen e) lens) in *.
  assert (TL : table_len lens' = table_len lens) by (unfold table_len; now rewrite EL).
  pose proof (table_length lens') as TB. rewrite TL in TB.
  set (next := mid + table_len lens + announced lens) in *.
  assert (LR : (length data <= N.to_nat next + 28)%nat).
  { assert (length (skipn (N.to_nat next) data) <= 28)%nat as Q; [|rewrite skipn_length in Q; lia].
    destruct RE as [H|(cap & body & -> & HC & HB)]; [unfold blen in H; lia|]. rewrite !app_length, le_length, map_length. cbn [length]. unfold blen in HB. lia. }
  assert (BE : 29 <= blen e) by (destruct HE as (tail & _ & _ & _ & ->); unfold blen; rewrite app_length, layout_length; lia).
  set (A := firstn (N.to_nat mid) data). set (region := firstn (N.to_nat (announced lens)) (skipn (N.to_nat (mid + table_len lens)) data)).
  assert (LA : length A = N.to_nat mid) by (unfold A; rewrite firstn_length; unfold blen in NX; lia).
  assert (LG : length region = N.to_nat (announced lens)) by (unfold region; rewrite firstn_length, skipn_length; unfold blen in NX; lia).
  assert (ED : put next e (put mid (table lens') data) = A ++ table lens' ++ region ++ e).
  { assert (E1 : put mid (table lens') data = (A ++ table lens' ++ region) ++ skipn (N.to_nat next) data).
    { unfold put. fold A. rewrite <- !app_assoc. f_equal. f_equal. unfold region. unfold blen in TB. replace (N.to_nat mid + length (table lens'))%nat with (N.to_nat (mid + table_len lens)) by lia.
      rewrite <- (firstn_skipn (N.to_nat (announced lens)) (skipn (N.to_nat (mid + table_len lens)) data)) at 1. f_equal.
      rewrite skipn_skipn. f_equal. lia. }
    rewrite E1. unfold put. rewrite firstn_app_exact by (rewrite !app_length; unfold blen in TB; lia).
    rewrite skipn_all2; [now rewrite app_nil_r, <- !app_assoc|]. rewrite !app_length, skipn_length. unfold blen in TB, BE. lia. }
  rewrite ED. set (data' := A ++ table lens' ++ region ++ e).
  assert (PR : firstn (N.to_nat mid) data = firstn (N.to_nat mid) data') by (unfold data'; now rewrite firstn_app_exact).
  pose proof (tables_prefix data data' _ PR _ _ _ T1 (le_n _)) as T1'.
  assert (BD : blen data' = mid + table_len lens' + announced lens').
  { rewrite AN', TL. unfold data'. rewrite !blen_app. rewrite TB. unfold blen at 1 2. lia. }
  split.
  - intros BE'. apply end_tables. eapply tables_join; [exact T1'|]. rewrite BD. apply (tables_more _ _ _ _ _ (region ++ e)); [|unfold data'; now apply skipn_app_exact|constructor].
    destruct NH as (used & k & -> & FU). unfold lens', add_entry. rewrite holes_before by exact FU. apply Forall_app in FL as (FL1 & FL2).
    apply Forall_app. split; [exact FL1|]. constructor; [exact BE'|]. rewrite skipn_app, skipn_all2 by lia. cbn [app]. apply Forall_forall. intros x HX.
    rewrite Forall_forall in FL2. apply FL2. eapply skipn_In'. exact HX.
  - exists region. split; [|split].
    + rewrite (contents_app _ _ _ FA _ _ T1). reflexivity.
    + unfold blen. lia.
    + rewrite (contents_app _ _ _ FA _ _ T1'). f_equal; [now apply (contents_prefix _ _ _ _ PR _ mid)|]. cbn [contents].
      replace (announced lens' =? 0) with false by lia. f_equal. rewrite TL, AN'. unfold data'.
      rewrite app_assoc, skipn_app_exact by (rewrite app_length; unfold blen in TB; lia).
      apply firstn_all2. rewrite app_length. unfold blen. lia.
Qed.

Lemma insert_added ls data next w (p : packet U) e : blen data < two63 -> all_tables data ls next -> w_open (healthy data) = Ok w ->
  Forall (fun l => ~ room l /\ no_holes l /\ l <> []) ls -> packet_enc P p e ->
  exists w', w_insert p w = (Ok tt, w') /\
    let data' := fl_data (w_file w') in let ls' := ls ++ [blen e :: repeat 0 499] in
    (blen e < two64 -> all_tables data' ls' (blen data')) /\ contents data' 0 ls' = contents data 0 ls ++ [e].
Proof.
  intros B T O F HE. pose proof (packet_enc_nonempty _ _ _ HE) as NE. assert (PE : 0 < blen e) by (destruct e; [contradiction|rewrite blen_cons; lia]).
  assert (FR : Forall (fun l => ~ room l) ls) by (eapply Forall_impl; [|exact F]; now intros l (H & _)).
  assert (FA : Forall (fun l => announced l <> 0) ls) by (eapply Forall_impl; [|exact F]; intros l (H1 & H2 & H3); apply full_announced; [exact H3|now apply holes_full]).
  destruct (insert_new P ls data next w p e B T O FR HE) as (c & loc & E & D).
  destruct (opened_writer (U := U) _ _ _ _ B T O) as (_ & _ & _ & (NX & _)).
  eexists. split; [exact E|]. cbv zeta. unfold fl_data. cbn [w_file fl_cur]. rewrite D. clear E D c loc.
  set (lens := blen e :: repeat 0 499). set (A := firstn (N.to_nat next) data). set (data' := A ++ table lens ++ e).
  assert (LA : length A = N.to_nat next) by (unfold A; rewrite firstn_length; unfold blen in NX; lia).
  assert (AN : announced lens = blen e).
  { rewrite holes_announced by (exists [blen e], 499%nat; split; [reflexivity|now constructor]). unfold lens, total. cbn [fold_right].
    change (fold_right N.add 0 (repeat 0 499)) with 0. lia. }
  pose proof (table_length lens) as TB.
  assert (PR : firstn (N.to_nat next) data = firstn (N.to_nat next) data') by (unfold data'; now rewrite firstn_app_exact).
  pose proof (tables_prefix data data' _ PR _ _ _ (proj1 T) (le_n _)) as T1'.
  assert (BD : blen data' = next + table_len lens + announced lens) by (rewrite AN; unfold data'; rewrite !blen_app, TB; unfold blen at 1; lia).
  split.
  - intros BE. apply end_tables. eapply tables_join; [exact T1'|]. rewrite BD. apply (tables_more _ _ _ _ _ e); [|unfold data'; now apply skipn_app_exact|constructor].
    constructor; [exact BE|]. apply Forall_forall. intros x HX. apply repeat_spec in HX. subst. unfold two64. lia.
  - rewrite (contents_app _ _ _ FA _ _ T1'). f_equal; [exact (contents_prefix _ _ _ _ PR _ next (proj1 T) (le_n _))|]. cbn [contents].
    replace (announced lens =? 0) with false by lia. rewrite AN. f_equal. unfold data'.
    rewrite app_assoc, skipn_app_exact by (rewrite app_length; unfold blen in TB; lia). apply firstn_all2. unfold blen. lia.
Qed.
End Kept.
