(** * Storage files that are changed in any way while a reader has them open (C83, C84). *)
From Coq Require Import ZifyBool ZifyNat ZifyN.
From Verif Require Import Base Crc32 Io File Block Payload Packet Rules Slot Storage Spec SpecStorage BaseProofs SlotProofs HostileProofs ForeignProofs ChangedProofs PropsHostile Samples.
Ltac Zify.zify_post_hook ::= Z.div_mod_to_equations.
Open Scope list_scope.

(** ** C83: reading.  Full claim: nothing read from a storage that was opened panics, whatever becomes of the file. *)

(** The file is cut after it was opened: within the packet of the second table, within the second table. *)
Theorem C83_changed_refuted : exists (r : sreader N) data, d_open odd_file = Ok r /\ data = firstn 100 odd_file /\ let r' := d_refresh data r in
  fst (d_nth P0 500 r') = Panic POverflow /\ fst (t_next P0 (d_iter r')) = Some (Panic PUnwrap) /\ d_seek 0 r' = Panic PUnwrap.
Proof. exists odd_reader, (firstn 100 odd_file). split; [vm_compute; reflexivity|]. split; [reflexivity|]. split; [vm_compute; reflexivity|]. split; vm_compute; reflexivity. Qed.
Print Assumptions C83_changed_refuted.

(** A reader that was opened on a file knows its tables, and counts the packets up to the first table with room. *)
Theorem C83_known_partial : forall U data ls next (r : sreader U), blen data < two63 -> all_tables data ls next -> opened data r ->
  known ls r /\ located ls r /\ forall data', known ls (d_refresh data' r) /\ located ls (d_refresh data' r).
Proof.
  intros U data ls next r B T O. pose proof (opened_slots data ls next r B T O) as (E1 & _). apply known_anchored in E1 as K.
  assert (located ls r) as L; [|now auto]. destruct O as (r0 & rs & pos & E & ->). eapply located_setup. cbn [d_with_rules d_with_file d_loc d_slots] in *.
  unfold d_open in E. destruct (load (mk_cursor data 0)) as [[slots|e|w] c]; try discriminate. apply (f_equal (fun o => match o with Ok r => (d_slots r, d_loc r) | _ => ([], new_locator) end)) in E.
  apply pair_equal_spec in E as (E2 & E3). cbn [d_slots d_loc] in E2, E3. rewrite <- E3, E2, E1, anchored_fst. reflexivity.
Qed.
Print Assumptions C83_known_partial.

(** What it reads from a file with any content, given the tables it knows.  Single packets: as in C76, from the new bytes.
    Iterators read the regions that are still there and then panic, if the next one is not.  Seeking panics when the region of
    the table found is not there as a whole. *)
Theorem C83_changed_partial : forall U (P : proto U) data ls (r : sreader U), blen data < two63 -> known ls r -> c_data (d_file r) = data ->
  (forall n,
     fst (d_nth P n r) =
       (let! o := nth_place ls n in
        match o with
        | None => Ok None
        | Some x => if blen data <? x then Panic POverflow
                    else let! o := fst (pkt_try_read P (mk_cursor data x)) in
                         match o with Success p => Ok (Some p) | NotEnough n => Err (ENotEnoughData n) end
        end) /\
     fst (d_nth_filtered P n r) =
       (let! o := nth_place ls n in
        match o with
        | None => Ok None
        | Some x => if two64 <=? x then Panic POverflow
                    else let! o := fst (filtered cursor_reader P (d_rules r) (mk_cursor data x)) in Ok (Some o)
        end)) /\
  (Forall (fun l => announced l < two63) ls -> forall ls1 cut, within (blen data) 0 ls = (ls1, cut) ->
     (exists lss, Forall2 (fun region l => yields (by_packet (pkt_read cursor_reader P)) (mk_cursor region 0) l) (contents data 0 ls1) lss /\
        Forall (harmless data) (concat lss) /\ until cut (t_next P) (d_iter r) (concat lss)) /\
     (exists lss, Forall2 (fun region l => yields (by_packet (filtered cursor_reader P (d_rules r))) (mk_cursor region 0) l) (contents data 0 ls1) lss /\
        Forall (harmless data) (concat lss) /\ until cut (t_next_filtered P (d_rules r)) (d_iter r) (flat_map shown (concat lss)))) /\
  (forall i lens j n, nth_error ls i = Some lens -> (j < in_use lens)%nat -> nth_error lens j = Some n -> 0 < n -> total (firstn j lens) < announced lens ->
     table_place ls i + table_len lens + announced lens < two63 ->
     un (d_seek (all_in_use (firstn i ls) + j) r) = if table_place ls i + table_len lens + announced lens <=? blen data then Ok tt else Panic PUnwrap).
Proof.
  intros U P data ls r B K D. apply known_anchored in K. split; [|split].
  - intros n. split; [exact (nth_all P data ls r n B K D)|exact (nth_filtered_all P data ls r n B K D)].
  - intros F ls1 cut W. exact (iterate_cut P data ls r ls1 cut B F K D W).
  - intros i lens j n EN J EJ NZ LT TP. apply (seek_changed data ls r i lens j); try assumption. unfold entry. rewrite EJ. lia.
Qed.
Print Assumptions C83_changed_partial.

(** The claim holds for tables without holes as long as the file does not become shorter than what they announce. *)
Theorem C83_longer_partial : forall U (P : proto U) data ls (r : sreader U), blen data < two63 -> known ls r -> c_data (d_file r) = data ->
  Forall no_holes ls -> table_place ls (length ls) <= blen data ->
  (forall n, (forall w, fst (d_nth P n r) <> Panic w) /\ harmless data (fst (d_nth_filtered P n r))) /\
  (exists l, yields (t_next P) (d_iter r) l /\ Forall (harmless data) l) /\
  (exists l, yields (t_next_filtered P (d_rules r)) (d_iter r) l /\ Forall (harmless data) l) /\
  (forall n, (n < all_in_use ls)%nat -> un (d_seek n r) = Ok tt).
Proof.
  intros U P data ls r B K D F L. pose proof K as K1. apply known_anchored in K. split; [|split; [|split]].
  - intros n. rewrite (nth_all P data ls r n B K D), (nth_filtered_all P data ls r n B K D). exact (nth_harmless P data ls (d_rules r) n B L F).
  - destruct (longer_iterate P data ls r B K D L) as ((l & H1 & H2) & _). eauto.
  - destruct (longer_iterate P data ls r B K D L) as (_ & (l & H1 & H2)). eauto.
  - intros n LT. exact (longer_seek data ls r n B K D F L LT).
Qed.
Print Assumptions C83_longer_partial.

(** The file is cut within the packet of the second table: what is left of the first is still read (nine errors), then there is a panic. *)
Example C83_example : known odd_tables odd_reader /\ within 200 0 odd_tables = ([[33; 37]], true) /\ within 246 0 odd_tables = ([[33; 37]], true) /\ within 247 0 odd_tables = (odd_tables, false) /\
  let r := d_refresh (firstn 200 odd_file) odd_reader in
  let fix calls n t := match n with
                       | O => []
                       | S n => let (o, t) := t_next P0 t in option_map (rmap obs) o :: calls n t
                       end in
  calls 10%nat (d_iter r) = repeat (Some (Err ESignatureDismatch)) 8 ++ [Some (Err (EIo UnexpectedEof)); Some (Panic PUnwrap)] /\
  rmap (option_map obs) (fst (d_nth P0 500 r)) = Err (ENotEnoughData 18) /\
  map (fun n => un (d_seek n r)) [0; 1; 2; 3]%nat = [Ok tt; Ok tt; Panic PUnwrap; Err (EOutOfBounds 1000 3)].
Proof. split; [vm_compute; reflexivity|]. split; [vm_compute; reflexivity|]. split; [vm_compute; reflexivity|]. split; [vm_compute; reflexivity|]. vm_compute. auto. Qed.

(** ** C84: reloading.  Full claim: after a reload that worked, the reader knows what a new reader of the file would know. *)

(** The first table has changed: this goes unnoticed.  The last table has been filled and another one has been added: that one takes
    the place of the last (C39).  Another file that can be opened, but is shorter: a panic. *)
Theorem C84_reload_refuted : exists before data1 data2 data3 : bytes,
  let tables_of (r : sreader N) := map (fun s => sl_lengths (fst s)) (d_slots r) in
  let new data := rmap tables_of (d_open data) in
  let again data := let! r := d_open before in let (o, r) := d_reload (d_refresh data r) in let! n := o in Ok (n, tables_of r) in
  new before = Ok [[33; 37]; [105; 0]] /\
  new data1 = Ok [[37; 33]; [105; 0]] /\ again data1 = Ok (0%nat, [[33; 37]; [105; 0]]) /\
  new data2 = Ok [[33; 37]; [105; 47]; [47; 0]] /\ again data2 = Ok (0%nat, [[33; 37]; [47; 0]]) /\
  new data3 = Ok [[1; 0]] /\ again data3 = Panic POverflow.
Proof.
  exists odd_file, (table [37; 33] ++ skipn 36 odd_file), (firstn 106 odd_file ++ table [105; 47] ++ wire p_num ++ wire p_one ++ table [47; 0] ++ wire p_one), (table [1; 0] ++ str "x").
  cbv zeta. split; [vm_compute; reflexivity|]. split; [vm_compute; reflexivity|]. split; [vm_compute; reflexivity|]. split; [vm_compute; reflexivity|]. split; [vm_compute; reflexivity|]. split; vm_compute; reflexivity.
Qed.
Print Assumptions C84_reload_refuted.

(** What a reload does with any content of the file.  A reader whose last table had no room goes on behind it, and adds the tables
    found there. *)
Theorem C84_reload_partial : forall U data ls (r : sreader U) ls2 next, known ls r -> located ls r -> blen data < two63 ->
  (forall keep lens, ls = keep ++ [lens] -> ~ room lens) ->
  tables data (table_place ls (length ls)) ls2 next -> no_table data next ->
  let (o, r') := d_reload (d_refresh data r) in
  d_rules r' = d_rules r /\ c_data (d_file r') = data /\ stops data next (un o) /\ ((forall w, o <> Panic w) -> known (ls ++ ls2) r') /\
  forall n, o = Ok n -> located (ls ++ ls2) r' /\
    match rev ls2 with
    | [] => n = 0%nat
    | l :: _ => (room l -> n = length (before_zero l) + 500 * (length ls2 - 1))%nat /\ (~ room l -> n = 500 * (length ls2 - 1))%nat
    end.
Proof. intros U. exact reload_full. Qed.
Print Assumptions C84_reload_partial.

(** A reader whose last table had room reads it again, and then the tables behind it, until one has the checksum the last table
    had, or has room; the last table is replaced by every table on the way ([passed]): all but one are lost. *)
Theorem C84_replaced_partial : forall U data keep lens (r : sreader U) passed rest next, known (keep ++ [lens]) r -> located (keep ++ [lens]) r ->
  blen data < two63 -> room lens ->
  tables data (table_place (keep ++ [lens]) (length keep)) (passed ++ rest) next -> no_table data next ->
  let sum l := sl_crc (slot_with l) in
  Forall (fun l => ~ room l /\ sum l <> sum lens) passed ->
  let (o, r') := d_reload (d_refresh data r) in
  d_rules r' = d_rules r /\ c_data (d_file r') = data /\
  match rest with
  | l :: _ =>
      (sum l = sum lens -> o = Ok 0%nat /\ known (keep ++ [last passed lens]) r' /\ located (keep ++ [last passed lens]) r') /\
      (sum l <> sum lens -> room l ->
         (two64 <= table_len l + announced l -> o = Panic POverflow) /\
         (table_len l + announced l < two64 -> o = Ok (length (before_zero l) - length (before_zero lens))%nat /\ known (keep ++ [l]) r' /\ located (keep ++ [l]) r'))
  | [] => stops_room data next (un o) /\ ((forall w, o <> Panic w) -> known (keep ++ [last passed lens]) r') /\
      forall n, o = Ok n -> located (keep ++ [last passed lens]) r' /\ n = match passed with [] => 0%nat | _ => (500 - length (before_zero lens))%nat end
  end.
Proof. intros U. exact reload_with_room. Qed.
Print Assumptions C84_replaced_partial.

(** The number of packets it then gives. *)
Theorem C84_count_partial : forall U ls (r : sreader U), known ls r -> located ls r ->
  (forall before lens after, ls = before ++ lens :: after -> Forall (fun l => ~ room l) before -> room lens ->
     d_count r = (500 * length before + length (before_zero lens))%nat) /\
  (Forall (fun l => ~ room l) ls -> d_count r = (500 * length ls)%nat).
Proof. intros U. exact count_known. Qed.
Print Assumptions C84_count_partial.

(** Both kinds of readers: [odd_reader], whose last table has room, finds a packet more in it; a reader of full tables finds two more tables,
    and with a cut table behind them there is an error or a panic. *)
Definition full_file : bytes := table [33; 37] ++ repeat (n2b 7) 70 ++ table [47] ++ wire p_one.
Example C84_example :
  let reload before after := let! r := d_open (U := N) before in
    let (o, r) := d_reload (d_refresh after r) in Ok (o, map (fun s => (sl_lengths (fst s), snd s)) (d_slots r), d_count r) in
  let more := full_file ++ table [47] ++ wire p_one ++ table [105; 47; 0] ++ wire p_num ++ wire p_one in
  let cut := slot_sig ++ le 8 2 ++ str "nineteen bytes here" in
  tables more 181 [[47]; [105; 47; 0]] 452 /\ no_table more 452 /\
  reload odd_file (firstn 106 odd_file ++ table [105; 47] ++ wire p_num ++ wire p_one) = Ok (Ok 499%nat, [([33; 37], 0); ([105; 47], 106)], 1000%nat) /\
  reload full_file more = Ok (Ok 502%nat, [([33; 37], 0); ([47], 106); ([47], 181); ([105; 47; 0], 256)], 1502%nat) /\
  reload full_file (more ++ cut) = Ok (Panic POverflow, [([33; 37], 0); ([47], 106); ([47], 181); ([105; 47; 0], 256)], 2000%nat) /\
  reload full_file (more ++ str "sixteen bytes!!!") = Ok (Err (EDamagedSlot ESignatureDismatch), [([33; 37], 0); ([47], 106); ([47], 181); ([105; 47; 0], 256)], 2000%nat).
Proof.
  split; [|split].
  - apply (tables_more _ 181 [47] [[105; 47; 0]] 452 (skipn 209 (full_file ++ table [47] ++ wire p_one ++ table [105; 47; 0] ++ wire p_num ++ wire p_one))); [repeat constructor|vm_compute; reflexivity|].
    apply (tables_more _ _ [105; 47; 0] [] 452 (wire p_num ++ wire p_one)); [repeat constructor|vm_compute; reflexivity|apply tables_end].
  - intros lens rest _ E. assert (length (table lens ++ rest) = 0%nat) as Z by (rewrite <- E; vm_compute; reflexivity).
    rewrite app_length in Z. pose proof (table_length lens) as L. unfold blen, table_len in L. lia.
  - vm_compute. auto.
Qed.
