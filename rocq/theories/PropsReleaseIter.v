(** * Iterating over storages in a release build (C95). *)
From Coq Require Import ZifyBool ZifyNat ZifyN.
From Verif Require Import Base Crc32 Io File Block Payload Packet Rules Slot Storage Release ReleaseRead ReleaseIter Spec SpecStorage SpecRelease BaseProofs PacketProofs PacketSafeProofs SlotProofs StorageProofs
  StorageReadProofs ReadingProofs HostileProofs ForeignProofs ChangedProofs ReleaseProofs ReleaseReadProofs ReleaseIterProofs PropsHostile PropsChanged PropsReleaseRead Samples.
Ltac Zify.zify_post_hook ::= Z.div_mod_to_equations.
Open Scope list_scope.

(** ** C95: full claim: iterating over a storage that was opened in a release build does not panic, and gives everything that
    [nth] gives. *)

(** The same as in a build with overflow checks, call by call, as long as the tables announce less than 2^64 bytes: from the
    beginning and after seeking, all packets and filtered, whatever became of the file. *)
Theorem C95_same : forall U (P : proto U) ls (r : sreader U), map fst (d_slots r) = map slot_with ls -> table_place ls (length ls) < two64 ->
  forall t, t = d_iter r \/ (exists n, d_seek n r = Ok t) ->
  (forall l t', gives (t_next P) t l t' -> gives (rel_t_next P) t l t' /\ rel_t_next P t' = t_next P t') /\
  (forall rs l t', gives (t_next_filtered P rs) t l t' -> gives (rel_t_next_filtered P rs) t l t' /\ rel_t_next_filtered P rs t' = t_next_filtered P rs t').
Proof.
  intros U P ls r E L t T. assert (S : it_small t) by (destruct T as [->|(n & T)]; [exact (iter_small ls r E L)|exact (seek_small ls r n t E L T)]). split.
  - intros l t' G. exact (gives_rel _ _ (next_rel P) t l t' G S).
  - intros rs l t' G. refine (gives_rel _ _ _ t l t' G S). intros t0 S0. exact (next_filtered_rel P rs _ t0 S0).
Qed.
Print Assumptions C95_same.

(** Everything that iterating over an opened file gives, as in C77.  Missing: tables that announce 2^64 bytes and more
    together with what is before them. *)
Theorem C95_iterate_partial : forall U (P : proto U) data ls next n (r : sreader U), blen data < two63 -> all_tables data ls next -> next < two64 -> (length data < n)%nat ->
  rel_d_open n data = Ok r ->
  (exists lss, Forall2 (fun region l => yields (by_packet (pkt_read cursor_reader P)) (mk_cursor region 0) l) (contents data 0 ls) lss /\
     yields (rel_t_next P) (d_iter r) (concat lss) /\
     N.of_nat (length (concat lss)) <= blen data /\ Forall (harmless data) (concat lss)) /\
  (forall rs, exists lss, Forall2 (fun region l => yields (by_packet (filtered cursor_reader P rs)) (mk_cursor region 0) l) (contents data 0 ls) lss /\
     yields (rel_t_next_filtered P rs) (d_iter r) (flat_map shown (concat lss)) /\
     N.of_nat (length (concat lss)) <= blen data /\ Forall (harmless data) (concat lss)).
Proof.
  intros U P data ls next n r B T NX LN O. destruct (rel_open_all (U := U) data ls next n B T NX LN) as (ST & SL & _). destruct (SL r O) as (E1 & E2 & _).
  rewrite O in ST. cbn [un rmap] in ST. destruct ST as (E3 & _).
  assert (E : map fst (d_slots r) = map slot_with ls) by (rewrite E1, anchored_fst; reflexivity).
  assert (TP : table_place ls (length ls) < two64) by (pose proof (tables_place _ _ _ _ (proj1 T)); lia).
  pose proof (iter_small ls r E TP) as S. split.
  - destruct (iterate_all P data ls next r B (proj1 T) E3 E1 E2) as ((lss & I1 & I2 & I3) & _). exists lss. split; [exact I1|]. split; [|exact I3].
    exact (yields_rel _ _ (next_rel P) _ _ I2 S).
  - intros rs. destruct (iterate_all P data ls next (d_with_rules rs r) B (proj1 T) E3 E1 E2) as (_ & lss & I1 & I2 & I3). exists lss. split; [exact I1|]. split; [|exact I3].
    cbn [d_with_rules d_rules] in I2. refine (yields_rel _ _ _ _ _ I2 S). intros t0 S0. exact (next_filtered_rel P rs _ t0 S0).
Qed.
Print Assumptions C95_iterate_partial.

(** Ranges give what [nth] gives (C94), for a reader that knows any tables and a file with any content; no panics but those
    of huge headers. *)
Theorem C95_ranges : forall U (P : proto U) data ls (r : sreader U), blen data < two63 -> map fst (d_slots r) = map slot_with ls -> c_data (d_file r) = data ->
  forall len from,
  let some := until_none (map (fun n => fst (rel_d_nth P n r)) (seq from len)) in
  let kept := picks len (map (fun n => fst (rel_d_nth_filtered P n r)) (seq from (500 * length ls - from))) in
  yields (rel_g_next P) (mk_ranged r len from) some /\ yields (rel_g_next_filtered P) (mk_ranged r len from) kept /\
  (forall w, ~ In (Panic w) some) /\ Forall (harmless data) kept.
Proof.
  intros U P data ls r B E1 E2 len from some kept.
  assert (L : length (d_slots r) = length ls) by (rewrite <- (map_length fst), E1; apply map_length).
  assert (M : moved r r) by (unfold moved; auto).
  split; [apply (rel_range_any P r); [unfold c_len; rewrite E2; unfold two63, two64 in *; lia|exact M]|]. split; [|split].
  - unfold kept. rewrite Nat.mul_comm, <- L. exact (rel_range_filtered_any P r _ len from r M (le_n _)).
  - intros w H. assert (G : forall ns, In (Panic w) (until_none (map (fun n => fst (rel_d_nth P n r)) ns)) -> False); [|exact (G _ H)].
    induction ns as [|n ns IH]; cbn [map until_none]; [easy|]. pose proof (proj2 (C94_nth U P data ls r n B E1 E2) w) as Q.
    destruct (fst (rel_d_nth P n r)) as [[p|]|e|w']; cbn [In]; [intros [X|X]; [discriminate|auto]|easy|intros [X|X]; [discriminate|auto]|].
    intros [X|X]; [injection X as ->; now apply Q|auto].
  - unfold kept. generalize (seq from (500 * length ls - from)). intros ns. generalize len. induction ns as [|n ns IH]; intros k; cbn [map picks]; [now destruct k|].
    pose proof (proj2 (proj2 (C94_nth_filtered U P data ls r n E1 E2))) as Q.
    destruct k as [|k]; [constructor|]. destruct (fst (rel_d_nth_filtered P n r)) as [[[m p|m]|]|e|w']; [constructor; [now intros w|apply IH]|apply IH|constructor|constructor; [now intros w|apply IH]|].
    constructor; [|apply IH]. intros w X. injection X as <-. now apply Q.
Qed.
Print Assumptions C95_ranges.

(** A table whose lengths add up to 2^64 is taken for an empty one, at which iterating ends; the packet behind it is found by
    [nth]. *)
Definition zero_file : bytes := table [two63; two63] ++ table [105] ++ wire p_num.
Theorem C95_missed_refuted : exists data (r : sreader N), rel_d_open 200 data = Ok r /\
  fst (rel_t_next P0 (d_iter r)) = None /\ rmap (option_map obs) (fst (rel_d_nth P0 500 r)) = Ok (Some (obs p_num)).
Proof.
  set (o := rel_d_open (U := N) 200 zero_file). set (r := match o with Ok r => r | _ => mk_sreader [] (mk_cursor [] 0) new_locator [] end).
  exists zero_file, r. split; [vm_compute; reflexivity|]. split; vm_compute; reflexivity.
Qed.
Print Assumptions C95_missed_refuted.

(** Tables that lead back: the second table (at 56) announces so much that the third (at 28) comes before it.  Opening gives
    no error; iterating then asks for a buffer of nearly 2^64 bytes. *)
Definition back_file : bytes := table [28] ++ table [28] ++ table [two64 - 56].
Theorem C95_panic_refuted : exists data (r : sreader N), rel_d_open 200 data = Ok r /\ length (d_slots r) = 3%nat /\ exists t,
  gives (fun t => let (o, t) := rel_t_next P0 t in (option_map (rmap obs) o, t)) (d_iter r) [Err ESignatureDismatch; Err ESignatureDismatch; Err ESignatureDismatch; Err (EIo UnexpectedEof)] t /\
  fst (rel_t_next P0 t) = Some (Panic PCapacity).
Proof.
  set (o := rel_d_open (U := N) 200 back_file). set (r := match o with Ok r => r | _ => mk_sreader [] (mk_cursor [] 0) new_locator [] end).
  set (go := fun n => Nat.iter n (fun t => snd (rel_t_next P0 t)) (d_iter r)).
  exists back_file, r. split; [vm_compute; reflexivity|]. split; [vm_compute; reflexivity|]. exists (go 4%nat).
  split; [|vm_compute; reflexivity].
  apply (gives_next _ _ _ (go 1%nat)); [vm_compute; reflexivity|]. apply (gives_next _ _ _ (go 2%nat)); [vm_compute; reflexivity|].
  apply (gives_next _ _ _ (go 3%nat)); [vm_compute; reflexivity|]. apply (gives_next _ _ _ (go 4%nat)); [vm_compute; reflexivity|]. constructor.
Qed.
Print Assumptions C95_panic_refuted.

(** The file with two tables, as opened in a release build: errors for the bytes that are no packet, then the packet of the
    second table.  Cut after 100 bytes, a range gives an error for that packet and ends. *)
Example C95_example :
  let r := match rel_d_open (U := N) 300 odd_file with Ok r => r | _ => mk_sreader [] (mk_cursor [] 0) new_locator [] end in
  let cut := d_refresh (firstn 100 odd_file) r in
  let fix calls n t := match n with
                       | O => []
                       | S n => let (o, t) := rel_t_next P0 t in option_map (rmap obs) o :: calls n t
                       end in
  let fix ranges n g := match n with
                        | O => []
                        | S n => let (o, g) := rel_g_next P0 g in option_map (rmap obs) o :: ranges n g
                        end in
  (blen odd_file < two63 /\ all_tables odd_file odd_tables 247 /\ 247 < two64 /\ un (rel_d_open (U := N) 300 odd_file) = Ok tt /\ (length odd_file < 300)%nat) /\
  map fst (d_slots r) = map slot_with odd_tables /\ map fst (d_slots cut) = map slot_with odd_tables /\
  calls 12%nat (d_iter r) = repeat (Some (Err ESignatureDismatch)) 8 ++ [Some (Err (EIo UnexpectedEof)); Some (Ok (obs p_num)); None; None] /\
  ranges 3%nat (mk_ranged r 2 500) = [Some (Ok (obs p_num)); None; None] /\
  ranges 3%nat (mk_ranged cut 2 500) = [Some (Err (EIo UnexpectedEof)); None; None].
Proof.
  cbv zeta. split; [split; [vm_compute; reflexivity|]; split; [exact odd_file_tables|]; split; [reflexivity|]; split; [vm_compute; reflexivity|apply Nat.ltb_lt; vm_compute; reflexivity]|].
  repeat (split; [vm_compute; reflexivity|]). vm_compute; reflexivity.
Qed.

(** All packets of any tables, also those that announce 2^64 bytes and more, whatever became of the file: the results are those of
    the regions where the wrapped sums lead, and the only other panics are those of a region too large for a buffer or not
    within the file. *)
Theorem C95_any : forall U (P : proto U) data ls (r : sreader U), blen data < two63 -> map fst (d_slots r) = map slot_with ls -> c_data (d_file r) = data ->
  exists lss, Forall2 (fun region l => yields (by_packet (pkt_read cursor_reader P)) (mk_cursor region 0) l) (fst (rel_contents data 0 ls)) lss /\
    ends_with (snd (rel_contents data 0 ls)) (rel_t_next P) (d_iter r) (concat lss) /\ Forall (harmless data) (concat lss).
Proof. intros U P data ls r B E D. apply (rel_slots_end P data B ls 0 (d_iter r)); [symmetry; exact E|exact D|reflexivity|reflexivity]. Qed.
Print Assumptions C95_any.

(** The same with rules; the tables themselves are below 2^63 bytes, as they are in a file that was opened. *)
Theorem C95_any_filtered : forall U (P : proto U) rs data ls (r : sreader U), blen data < two63 -> map fst (d_slots r) = map slot_with ls -> c_data (d_file r) = data ->
  Forall (fun lens => table_len lens < two63) ls ->
  exists lss, Forall2 (fun region l => yields (by_packet (filtered cursor_reader P rs)) (mk_cursor region 0) l) (fst (rel_contents data 0 ls)) lss /\
    ends_with (snd (rel_contents data 0 ls)) (rel_t_next_filtered P rs) (d_iter r) (flat_map shown (concat lss)) /\ Forall (harmless data) (concat lss).
Proof.
  intros U P rs data ls r B E D F. destruct (filt_regions P rs data B ls 0) as (lss & I1 & I2). exists lss. split; [exact I1|]. split; [|exact I2].
  apply (filt_slots_end P rs data B ls 0 lss I1 (d_iter r)); [|reflexivity|reflexivity].
  split; [exact E|]. split; [exact F|]. split; [exact D|]. split; [unfold c_ok, c_len; cbn; lia|cbn [d_iter t_off]; lia].
Qed.
Print Assumptions C95_any_filtered.

(** Tables that lead back and then ask for too much, lengths that add up to 2^64 + 105 (all is well), and a file that was cut. *)
Example C95_any_example :
  let open d := match rel_d_open (U := N) 300 d with Ok r => r | _ => mk_sreader [] (mk_cursor [] 0) new_locator [] end in
  let more := table [two63; two63; 105] ++ wire p_num in
  (blen back_file < two63 /\ map fst (d_slots (open back_file)) = map slot_with [[28]; [two64 - 56]; [28]] /\
     rel_contents back_file 0 [[28]; [two64 - 56]; [28]] = ([table [28]], Some PCapacity)) /\
  (map fst (d_slots (open more)) = map slot_with [[two63; two63; 105]] /\ rel_contents more 0 [[two63; two63; 105]] = ([wire p_num], None) /\
     option_map (rmap obs) (fst (rel_t_next P0 (d_iter (open more)))) = Some (Ok (obs p_num)) /\
     Forall (fun lens => table_len lens < two63) [[two63; two63; 105]] /\
     option_map (rmap obs) (fst (rel_t_next_filtered P0 [] (d_iter (open more)))) = Some (Ok (obs p_num))) /\
  rel_contents zero_file 0 [[two63; two63]; [105]] = ([], None) /\
  rel_contents (firstn 100 more) 0 [[two63; two63; 105]] = ([], Some PUnwrap).
Proof.
  cbv zeta. split; [split; [vm_compute; reflexivity|split; vm_compute; reflexivity]|].
  split; [|split; vm_compute; reflexivity]. split; [vm_compute; reflexivity|]. split; [vm_compute; reflexivity|]. split; [vm_compute; reflexivity|].
  split; [constructor; [vm_compute; reflexivity|constructor]|vm_compute; reflexivity].
Qed.
