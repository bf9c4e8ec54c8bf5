(** * Storage files of unknown origin: opening them, reading from them and adding to them (C75-C78, C81, C82). *)
From Coq Require Import ZifyBool ZifyNat ZifyN.
From Verif Require Import Base Crc32 Io File Block Payload Packet Rules Slot Storage Spec SpecStorage BaseProofs SlotProofs HostileProofs ForeignProofs Samples.
Ltac Zify.zify_post_hook ::= Z.div_mod_to_equations.
Open Scope list_scope.

(** A reader opened on [data], whatever the rules and the position of its file. *)
Definition opened {U} (data : bytes) (r : sreader U) : Prop :=
  exists r0 rs pos, d_open data = Ok r0 /\ r = d_with_rules rs (d_with_file (c_seek pos (d_file r0)) r0).

Lemma opened_slots {U} data ls next (r : sreader U) : blen data < two63 -> all_tables data ls next -> opened data r ->
  d_slots r = anchored 0 ls /\ c_data (d_file r) = data /\ next <= blen data.
Proof.
  intros B T (r0 & rs & pos & E & ->). destruct (open_all (U := U) data ls next B T) as (S & O & _). destruct (O r0 E) as (E1 & E2 & _).
  rewrite E in S. destruct S as (S & _). auto.
Qed.

(** ** C75: opening.  Full claim: opening a file never panics, whatever its bytes. *)

(** A table that announces more than the file holds, and the first 16 bytes of a table. *)
Theorem C75_open_refuted : exists data data' : bytes,
  d_open (U := N) data = Panic POverflow /\ w_open (healthy data) = Panic POverflow /\ all_tables data [[7]] 35 /\ blen data = 34 /\
  d_open (U := N) data' = Panic POverflow /\ w_open (healthy data') = Panic POverflow /\ data' = firstn 16 (slot_table []).
Proof.
  exists (table [7] ++ str "sixsix"), (firstn 16 (slot_table [])).
  split; [vm_compute; reflexivity|]. split; [vm_compute; reflexivity|]. split.
  { split; [apply (tables_more _ 0 [7] [] 35 (str "sixsix")); [repeat constructor|reflexivity|apply tables_end]|].
    intros lens rest _ E. assert (length (table lens ++ rest) = 0%nat) as Z by (rewrite <- E; vm_compute; reflexivity).
    rewrite app_length in Z. pose proof (table_length lens) as L. unfold blen, table_len in L. lia. }
  split; [vm_compute; reflexivity|]. split; [vm_compute; reflexivity|]. split; [vm_compute; reflexivity|reflexivity].
Qed.
Print Assumptions C75_open_refuted.

(** Every outcome for every file, of the reader and of the writer: the tables are taken one after another ([announced] tells
    where the next one is), and [stops] tells what the result is from what follows the last one. *)
Theorem C75_open_partial : forall U data, blen data < two63 ->
  (exists ls next, all_tables data ls next) /\
  (forall ls next, all_tables data ls next ->
     stops data next (un (d_open (U := U) data)) /\
     (forall r : sreader U, d_open data = Ok r ->
        map (fun s => sl_lengths (fst s)) (d_slots r) = ls /\ map snd (d_slots r) = map (table_place ls) (seq 0 (length ls)) /\
        c_data (d_file r) = data /\ d_rules r = []) /\
     (forall f, fl_data f = data -> un (w_open f) = un (d_open (U := U) data) /\
        forall w, w_open f = Ok w -> map sl_lengths (w_slots w) = ls /\ fl_data (w_file w) = data)).
Proof.
  intros U data B. split; [now apply all_tables_exist|]. intros ls next T. destruct (open_all (U := U) data ls next B T) as (S & R & W).
  split; [exact S|]. split.
  - intros r E. destruct (R r E) as (-> & D & Q). split; [|split; [|auto]].
    + rewrite <- (map_map fst sl_lengths), anchored_fst, map_map. apply map_id.
    + exact (anchored_places ls).
  - intros f D. destruct (W f D) as (E & O). split; [exact E|]. intros w Ew. destruct (O w Ew) as (-> & Dw). split; [|exact Dw].
    rewrite map_map. apply map_id.
Qed.
Print Assumptions C75_open_partial.

(** Two tables with room for two packets; the second has one, and a few bytes follow it. *)
Definition odd_tables : list (list N) := [[33; 37]; [105; 0]].
Definition odd_file : bytes := table [33; 37] ++ str "thirty three bytes that are no packet" ++ repeat (n2b 7) 33 ++ table [105; 0] ++ wire p_num ++ str "end".
Lemma odd_file_tables : all_tables odd_file odd_tables 247.
Proof.
  split.
  - apply (tables_more _ 0 [33; 37] [[105; 0]] 247 (skipn 36 odd_file)); [repeat constructor|vm_compute; reflexivity|].
    apply (tables_more _ _ [105; 0] [] 247 (skipn 142 odd_file)); [repeat constructor|vm_compute; reflexivity|apply tables_end].
  - intros lens rest _ E. assert (length (table lens ++ rest) = 3%nat) as Z by (rewrite <- E; vm_compute; reflexivity).
    rewrite app_length in Z. pose proof (table_length lens) as L. unfold blen, table_len in L. lia.
Qed.
Example C75_example : blen odd_file = 250 /\ all_tables odd_file odd_tables 247 /\
  rmap (fun r => map (fun s => (sl_lengths (fst s), snd s)) (d_slots r)) (d_open (U := N) odd_file) = Ok [([33; 37], 0); ([105; 0], 106)] /\
  un (d_open (U := N) (odd_file ++ repeat (n2b 0) 13)) = Err (EDamagedSlot ESignatureDismatch) /\
  un (d_open (U := N) (firstn 140 odd_file ++ [n2b 0] ++ skipn 141 odd_file)) = Err (EDamagedSlot ECrcDismatch) /\
  un (d_open (U := N) (firstn 246 odd_file)) = Panic POverflow /\
  un (d_open (U := N) (table [1] ++ str "x" ++ slot_sig ++ le 8 1 ++ str "eleven byte")) = Ok tt.
Proof. split; [vm_compute; reflexivity|]. split; [exact odd_file_tables|]. vm_compute. auto. Qed.

(** ** C76: [nth].  Full claim: [nth] never panics on a storage that was opened. *)

(** The second entry of the table is empty and the third is not: nothing is known about the place of the third packet. *)
Theorem C76_nth_refuted : exists data (r : sreader N), d_open data = Ok r /\ all_tables data [[3; 0; 500; 600; 700; 0]] 71 /\
  fst (d_nth P0 3 r) = Panic POverflow.
Proof.
  exists (table [3; 0; 500; 600; 700; 0] ++ str "abc"). eexists. split; [vm_compute; reflexivity|]. split; [|vm_compute; reflexivity].
  split; [apply (tables_more _ 0 [3; 0; 500; 600; 700; 0] [] 71 (str "abc")); [repeat constructor|reflexivity|apply tables_end]|].
  intros lens rest _ E. assert (length (table lens ++ rest) = 0%nat) as Z by (rewrite <- E; vm_compute; reflexivity).
  rewrite app_length in Z. pose proof (table_length lens) as L. unfold blen, table_len in L. lia.
Qed.
Print Assumptions C76_nth_refuted.

(** Every outcome, the panics included.  [nth_place] takes 500 entries for every table, whatever its size.  Without holes
    in the tables there are no panics. *)
Theorem C76_nth_partial : forall U (P : proto U) data ls next (r : sreader U), blen data < two63 -> all_tables data ls next -> opened data r ->
  forall n,
  fst (d_nth P n r) =
    (let! o := nth_place ls n in
     match o with
     | None => Ok None
     | Some x => if blen data <? x then Panic POverflow
                 else let! o := fst (pkt_try_read P (mk_cursor data x)) in
                      match o with Success p => Ok (Some p) | NotEnough n => Err (ENotEnoughData n) end
     end) /\
  fst (d_nth_filtered P n r) =
    (let! o := nth_place ls n in
     match o with
     | None => Ok None
     | Some x => if two64 <=? x then Panic POverflow
                 else let! o := fst (filtered cursor_reader P (d_rules r) (mk_cursor data x)) in Ok (Some o)
     end) /\
  (Forall no_holes ls -> (forall w, fst (d_nth P n r) <> Panic w) /\ harmless data (fst (d_nth_filtered P n r))).
Proof.
  intros U P data ls next r B T O n. destruct (opened_slots data ls next r B T O) as (E1 & E2 & E3).
  pose proof (nth_all P data ls r n B E1 E2) as N1. pose proof (nth_filtered_all P data ls r n B E1 E2) as N2.
  split; [exact N1|]. split; [exact N2|]. intros F. rewrite N1, N2. apply (nth_harmless P data ls (d_rules r) n B); [|exact F]. rewrite <- (N.add_0_l (table_place _ _)), (tables_place _ _ _ _ (proj1 T)). exact E3.
Qed.
Print Assumptions C76_nth_partial.

Definition odd_reader : sreader N := match d_open odd_file with Ok r => r | _ => mk_sreader [] (mk_cursor [] 0) new_locator [] end.
Lemma odd_opened : opened odd_file odd_reader.
Proof. exists odd_reader, [], (c_pos (d_file odd_reader)). split; vm_compute; reflexivity. Qed.
(** The packet in the second table has the number 500; the entry 0 is no packet; the second table has no entry 2. *)
Example C76_example : Forall no_holes odd_tables /\
  rmap (option_map obs) (fst (d_nth P0 500 odd_reader)) = Ok (Some (obs p_num)) /\
  rmap (option_map obs) (fst (d_nth P0 0 odd_reader)) = Err ESignatureDismatch /\
  rmap (option_map obs) (fst (d_nth P0 501 odd_reader)) = Ok None /\
  rmap (option_map obs) (fst (d_nth P0 502 odd_reader)) = Err (EOutOfBounds 2 2).
Proof.
  split; [constructor; [exists [33; 37], 0%nat; split; [reflexivity|repeat constructor]|constructor; [exists [105], 1%nat; split; [reflexivity|repeat constructor]|constructor]]|].
  vm_compute. auto.
Qed.

(** ** C77: iterating *)

(** Iterating reads the bytes behind the tables ([contents]) packet by packet to their end; it ends after at most as many
    results as there are bytes, and there is no panic but that of a header announcing 2^63 bytes.  The same holds with
    filters. *)
Theorem C77_iterate : forall U (P : proto U) data ls next (r : sreader U), blen data < two63 -> all_tables data ls next -> opened data r ->
  (exists lss, Forall2 (fun region l => yields (by_packet (pkt_read cursor_reader P)) (mk_cursor region 0) l) (contents data 0 ls) lss /\
     yields (t_next P) (d_iter r) (concat lss) /\
     N.of_nat (length (concat lss)) <= blen data /\ Forall (harmless data) (concat lss)) /\
  (exists lss, Forall2 (fun region l => yields (by_packet (filtered cursor_reader P (d_rules r))) (mk_cursor region 0) l) (contents data 0 ls) lss /\
     yields (t_next_filtered P (d_rules r)) (d_iter r) (flat_map shown (concat lss)) /\
     N.of_nat (length (concat lss)) <= blen data /\ Forall (harmless data) (concat lss)).
Proof.
  intros U P data ls next r B T O. destruct (opened_slots data ls next r B T O) as (E1 & E2 & E3).
  exact (iterate_all P data ls next r B (proj1 T) E3 E1 E2).
Qed.
Print Assumptions C77_iterate.

(** Eight errors of the first table (each takes 8 bytes) and one for the six bytes left, then the packet. *)
Example C77_example : map blen (contents odd_file 0 odd_tables) = [70; 105] /\
  let fix calls n t := match n with
                       | O => []
                       | S n => let (o, t) := t_next P0 t in option_map (rmap obs) o :: calls n t
                       end in
  calls 11%nat (d_iter odd_reader) =
    repeat (Some (Err ESignatureDismatch)) 8 ++ [Some (Err (EIo UnexpectedEof)); Some (Ok (obs p_num)); None].
Proof. vm_compute. auto. Qed.

(** ** C78: seeking.  Full claim: [seek] never panics on a storage that was opened. *)

(** The same table as in C76. *)
Theorem C78_seek_refuted : exists data (r : sreader N), d_open data = Ok r /\ all_tables data [[3; 0; 500; 600; 700; 0]] 71 /\ d_seek 3 r = Panic POverflow.
Proof.
  exists (table [3; 0; 500; 600; 700; 0] ++ str "abc"). eexists. split; [vm_compute; reflexivity|]. split; [|vm_compute; reflexivity].
  split; [apply (tables_more _ 0 [3; 0; 500; 600; 700; 0] [] 71 (str "abc")); [repeat constructor|reflexivity|apply tables_end]|].
  intros lens rest _ E. assert (length (table lens ++ rest) = 0%nat) as Z by (rewrite <- E; vm_compute; reflexivity).
  rewrite app_length in Z. pose proof (table_length lens) as L. unfold blen, table_len in L. lia.
Qed.
Print Assumptions C78_seek_refuted.

(** Every outcome, the panics included.  The number counts the entries in use, but is then taken for the place of the entry in
    its table.  Behind the last one there is an error; otherwise the iterator first reads what is left of the table, then what
    it takes for the following tables (it forgets to step over the table found, see C37), and its results are harmless.
    Without holes in the tables there are no panics and all numbers below the number of entries in use are found. *)
Theorem C78_seek_partial : forall U (P : proto U) data ls next (r : sreader U), blen data < two63 -> all_tables data ls next -> opened data r ->
  (forall n, (all_in_use ls <= n)%nat ->
     d_seek n r = Err (match ls with [] => EEmptySource | _ => EOutOfBounds (N.of_nat (length ls * 500)) (N.of_nat n) end)) /\
  (forall i lens j, nth_error ls i = Some lens -> (j < in_use lens)%nat ->
     let n := (all_in_use (firstn i ls) + j)%nat in
     let place := table_place ls i in
     let before := total (firstn j lens) in
     let left := firstn (N.to_nat (announced lens - before)) (skipn (N.to_nat (place + table_len lens + before)) data) in
     match nth_error lens j with
     | None | Some 0 => d_seek n r = Err (EOutOfBounds (N.of_nat (in_use lens + i * 500)) (N.of_nat n))
     | Some _ =>
         (announced lens < before -> d_seek n r = Panic POverflow) /\
         (before <= announced lens -> exists t, d_seek n r = Ok t /\
            exists lss, Forall2 (fun region l => yields (by_packet (pkt_read cursor_reader P)) (mk_cursor region 0) l)
                     (left :: contents data place (skipn (S i) ls)) lss /\
              yields (t_next P) t (concat lss) /\ N.of_nat (length (concat lss)) <= blen data /\ Forall (harmless data) (concat lss))
     end) /\
  (Forall no_holes ls -> forall n, (n < all_in_use ls)%nat -> exists t, d_seek n r = Ok t).
Proof.
  intros U P data ls next r B T O. destruct (opened_slots data ls next r B T O) as (E1 & E2 & E3). split; [|split].
  - intros n L. exact (seek_past ls r n E1 L).
  - intros i lens j EN J n place before left. pose proof (seek_found data next ls r i lens j B (proj1 T) E3 E1 E2 EN J) as SF.
    pose proof (seek_all P data ls next r i lens j B (proj1 T) E3 E1 E2 EN J) as SA. cbv zeta in SA.
    unfold entry in SF, SA. destruct (nth_error lens j) as [[|e]|]; try exact SF. cbn [N.ltb N.compare] in SF, SA. split.
    + intros H. replace (announced lens <? total (firstn j lens)) with true in SF by (symmetry; apply N.ltb_lt; exact H). exact SF.
    + intros H. exact (SA eq_refl H).
  - intros F n L. destruct (in_some_table ls n L) as (i & lens & j & EN & J & ->).
    assert (NH : no_holes lens) by (rewrite Forall_forall in F; apply F; eapply nth_error_In; eauto). destruct (holes_entry lens j NH J) as (H1 & H2).
    destruct (seek_all P data ls next r i lens j B (proj1 T) E3 E1 E2 EN J H1 H2) as (t & E & _). eauto.
Qed.
Print Assumptions C78_seek_partial.

(** The second packet of three in a full table with an unused entry in the middle is not found; the others are. *)
Definition gap_file : bytes := table [33; 0; 37; 41] ++ repeat (n2b 7) 111.
Example C78_example : all_in_use odd_tables = 3%nat /\
  map (fun n => un (let! r := d_open (U := N) gap_file in d_seek n r)) [0; 1; 2; 3]%nat = [Ok tt; Err (EOutOfBounds 3 1); Ok tt; Err (EOutOfBounds 500 3)] /\
  un (d_seek 3 odd_reader) = Err (EOutOfBounds 1000 3) /\
  rmap (fun t => option_map (rmap obs) (fst (t_next P0 t))) (d_seek 2 odd_reader) = Ok (Some (Ok (obs p_num))).
Proof. split; [vm_compute; reflexivity|]. split; vm_compute; auto. Qed.

(** ** C81: ranges *)

(** A range gives what [nth] gives for its numbers, one after another, and ends at the first number without a packet; a
    filtered range goes on until it has accepted as many packets as asked for, and errors do not count.  Without holes in the
    tables there are no panics (but those of huge headers). *)
Theorem C81_ranges : forall U (P : proto U) data ls next (r : sreader U), blen data < two63 -> all_tables data ls next -> opened data r ->
  forall len from,
  let some := until_none (map (fun n => fst (d_nth P n r)) (seq from len)) in
  let kept := picks len (map (fun n => fst (d_nth_filtered P n r)) (seq from (500 * length ls - from))) in
  yields (g_next P) (mk_ranged r len from) some /\ yields (g_next_filtered P) (mk_ranged r len from) kept /\
  (Forall no_holes ls -> (forall w, ~ In (Panic w) some) /\ Forall (harmless data) kept).
Proof.
  intros U P data ls next r B T O len from some kept. destruct (opened_slots data ls next r B T O) as (E1 & E2 & E3).
  assert (L : length (d_slots r) = length ls) by (rewrite E1, <- (map_length fst), anchored_fst; apply map_length).
  assert (M : moved r r) by (unfold moved; auto).
  split; [exact (range_any P r len from r M)|]. split.
  - unfold kept. rewrite Nat.mul_comm, <- L. exact (range_filtered_any P r _ len from r M (le_n _)).
  - intros F. split.
    + intros w H. assert (G : forall ns, In (Panic w) (until_none (map (fun n => fst (d_nth P n r)) ns)) -> False); [|exact (G _ H)].
      induction ns as [|n ns IH]; cbn [map until_none]; [easy|]. pose proof (proj1 (proj2 (proj2 (C76_nth_partial U P data ls next r B T O n)) F) w) as Q.
      destruct (fst (d_nth P n r)) as [[p|]|e|w']; cbn [In]; [intros [X|X]; [discriminate|auto]|easy|intros [X|X]; [discriminate|auto]|].
      intros [X|X]; [injection X as ->; now apply Q|auto].
    + unfold kept. generalize (seq from (500 * length ls - from)). intros ns. generalize len. induction ns as [|n ns IH]; intros k; cbn [map picks]; [now destruct k|].
      pose proof (proj2 (proj2 (proj2 (C76_nth_partial U P data ls next r B T O n)) F)) as Q.
      destruct k as [|k]; [constructor|]. destruct (fst (d_nth_filtered P n r)) as [[[m p|m]|]|e|w']; [constructor; [now intros w|apply IH]|apply IH|constructor|constructor; [now intros w|apply IH]|].
      constructor; [|apply IH]. intros w E. injection E as <-. now apply Q.
Qed.
Print Assumptions C81_ranges.
(** The first entry is an error, the second is one too, the third does not exist; the packet has the number 500. *)
Example C81_example :
  let fix calls n g := match n with
                       | O => []
                       | S n => let (o, g) := g_next P0 g in option_map (rmap obs) o :: calls n g
                       end in
  calls 4%nat (mk_ranged odd_reader 3 0) = [Some (Err ESignatureDismatch); Some (Err ESignatureDismatch); Some (Err (EOutOfBounds 2 2)); None] /\
  calls 3%nat (mk_ranged odd_reader 9 500) = [Some (Ok (obs p_num)); None; Some (Err (EOutOfBounds 2 2))].
Proof. vm_compute. auto. Qed.

(** ** C82: inserting.  Full claim: what can be read from a storage that was opened can still be read after an insert. *)

(** The first of two tables has room: the packet goes over the second table.  A table with a hole: the entry after it, which
    was left out of account, now counts. *)
Theorem C82_insert_refuted : forall data, In data [table [105; 0] ++ wire p_num ++ table [105; 0] ++ wire p_num; table [105; 0; 300; 0] ++ wire p_num] ->
  exists w w', w_open (healthy data) = Ok w /\ un (d_open (U := N) data) = Ok tt /\
    w_insert p_one w = (Ok tt, w') /\ un (d_open (U := N) (fl_data (w_file w'))) <> Ok tt.
Proof. intros data [<-|[<-|[]]]; (eexists; eexists; split; [vm_compute; reflexivity|]; split; [vm_compute; reflexivity|]; split; [vm_compute; reflexivity|]; vm_compute; discriminate). Qed.
Print Assumptions C82_insert_refuted.

(** What the first insert does to any file that can be opened: the first table with a free entry at its end gets the entry (the
    first that is free) and the packet goes behind what the table announced before; when there is no such table, a new one is
    added, and the packet ends the file. *)
Theorem C82_insert_partial : forall U (P : proto U) data ls next w (p : packet U) e, blen data < two63 -> all_tables data ls next ->
  w_open (healthy data) = Ok w -> packet_enc P p e ->
  (forall before lens after, ls = before ++ lens :: after -> Forall (fun l => ~ room l) before -> room lens ->
     let place := table_place ls (length before) in
     exists w', w_insert p w = (Ok tt, w') /\ map sl_lengths (w_slots w') = before ++ add_entry (blen e) lens :: after /\
       fl_data (w_file w') = put (place + table_len lens + announced lens) e (put place (table (add_entry (blen e) lens)) data)) /\
  (Forall (fun l => ~ room l) ls ->
     exists w', w_insert p w = (Ok tt, w') /\ map sl_lengths (w_slots w') = ls ++ [blen e :: repeat 0 499] /\
       fl_data (w_file w') = firstn (N.to_nat next) data ++ table (blen e :: repeat 0 499) ++ e).
Proof.
  intros U P data ls next w p e B T O HE. split.
  - intros before lens after -> F R place. destruct (insert_free P before lens after data next w p e B T O F R HE) as (c & loc & E & D).
    eexists. split; [exact E|]. cbn [w_slots w_file fl_data fl_cur]. split; [rewrite map_map; apply map_id|].
    assert (PP : place = table_place before (length before)) by (unfold place, table_place; now rewrite firstn_app_exact, firstn_all). rewrite PP. exact D.
  - intros F. destruct (insert_new P ls data next w p e B T O F HE) as (c & loc & E & D).
    eexists. split; [exact E|]. cbn [w_slots w_file fl_data fl_cur]. split; [rewrite map_map; apply map_id|exact D].
Qed.
Print Assumptions C82_insert_partial.

(** The claim holds for tables of any capacity without holes of which only the last has room: the file can be opened again, what
    the iterators read ([contents]) stays, and the packet is added at the end of the last region or as a region of its own. *)
Theorem C82_kept_partial : forall U (P : proto U) data ls next w (p : packet U) e o w', blen data < two63 -> all_tables data ls next ->
  w_open (healthy data) = Ok w -> packet_enc P p e -> w_insert p w = (o, w') -> let data' := fl_data (w_file w') in blen data' < two63 ->
  forall fulls, Forall (fun l => ~ room l /\ no_holes l /\ l <> []) fulls ->
  (ls = fulls \/ exists lens, ls = fulls ++ [lens] /\ room lens /\ no_holes lens) ->
  o = Ok tt /\ exists (r : sreader U) ls' region, d_open data' = Ok r /\ all_tables data' ls' (blen data') /\ all_in_use ls' = S (all_in_use ls) /\
    contents data 0 ls = contents data 0 fulls ++ match region with [] => [] | _ => [region] end /\
    contents data' 0 ls' = contents data 0 fulls ++ [region ++ e].
Proof.
  intros U P data ls next w p e o w' B T O HE E data' B' fulls F LS.
  pose proof (enc_pos P p e HE) as PE.
  destruct LS as [->|(lens & -> & R & NH)].
  - destruct (insert_added P fulls data next w p e B T O F HE) as (w1 & E1 & H). rewrite E in E1. apply pair_equal_spec in E1 as (-> & <-). fold data' in H. cbv zeta in H.
    destruct H as (T' & CT). assert (BE : blen e < two64).
    { assert (blen e <= blen data') as Q; [|unfold two63, two64 in *; lia]. apply (contents_within _ _ (fulls ++ [blen e :: repeat 0 499]) 0). rewrite CT. apply in_elt. }
    specialize (T' BE). destruct (end_opens (U := U) _ _ B' T') as (r & EO). split; [reflexivity|]. exists r, (fulls ++ [blen e :: repeat 0 499]), [].
    split; [exact EO|]. split; [exact T'|]. split; [|split; [now rewrite app_nil_r|exact CT]].
    unfold all_in_use. rewrite map_app, list_sum_app. cbn [map list_sum fold_right]. unfold in_use at 2. cbn [filter]. replace (0 <? blen e) with true by lia. cbn [length]. fold (in_use (repeat 0 499)). rewrite in_use_zeros. lia.
  - destruct (insert_last P fulls lens data next w p e B T O F R NH HE) as (w1 & E1 & H). rewrite E in E1. apply pair_equal_spec in E1 as (-> & <-). fold data' in H. cbv zeta in H.
    destruct H as (T' & region & C1 & C2 & CT). assert (BE : blen e < two64).
    { assert (blen (region ++ e) <= blen data') as Q; [|rewrite blen_app in Q; unfold two63, two64 in *; lia].
      apply (contents_within _ _ (fulls ++ [add_entry (blen e) lens]) 0). rewrite CT. apply in_elt. }
    specialize (T' BE). destruct (end_opens (U := U) _ _ B' T') as (r & EO). split; [reflexivity|]. exists r, (fulls ++ [add_entry (blen e) lens]), region.
    split; [exact EO|]. split; [exact T'|]. split; [|split; [|exact CT]].
    + unfold all_in_use. rewrite !map_app, !list_sum_app. cbn [map list_sum fold_right]. rewrite (proj2 (proj2 (holes_room lens (blen e) NH R PE))). lia.
    + rewrite C1. f_equal. destruct region as [|b region]; [rewrite <- C2; reflexivity|]. rewrite blen_cons in C2. replace (announced lens =? 0) with false by lia. reflexivity.
Qed.
Print Assumptions C82_kept_partial.

(** Tables of three and two entries and an announced region that is no packet; then the same with the last table full. *)
Example C82_example :
  let data := table [33; 37; 7] ++ repeat (n2b 7) 77 ++ table [105; 0] ++ wire p_num ++ str "end" in
  let full := table [33; 37; 7] ++ repeat (n2b 7) 77 ++ table [105] ++ wire p_num ++ str "end" in
  blen (wire p_one) = 47 /\
  rmap (fun w => let (o, w') := w_insert p_one w in (o, fl_data (w_file w'))) (w_open (healthy data)) =
    Ok (Ok tt, table [33; 37; 7] ++ repeat (n2b 7) 77 ++ table [105; 47] ++ wire p_num ++ wire p_one) /\
  rmap (fun w => let (o, w') := w_insert p_one w in (o, fl_data (w_file w'))) (w_open (healthy full)) =
    Ok (Ok tt, table [33; 37; 7] ++ repeat (n2b 7) 77 ++ table [105] ++ wire p_num ++ table (47 :: repeat 0 499) ++ wire p_one).
Proof. repeat split; vm_compute; reflexivity. Qed.
