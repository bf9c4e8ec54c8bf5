(** * Single packets of a storage, and seeking, in a release build (C94). *)
From Coq Require Import ZifyBool ZifyNat ZifyN.
From Verif Require Import Base Crc32 Io File Block Payload Packet Rules Slot Storage Release ReleaseRead Spec SpecStorage BaseProofs PacketProofs PacketSafeProofs SlotProofs StorageProofs
  StorageReadProofs ReadingProofs HostileProofs ForeignProofs ChangedProofs ReleaseReadProofs PropsHostile PropsChanged Samples.
Ltac Zify.zify_post_hook ::= Z.div_mod_to_equations.
Open Scope list_scope.

(** ** C94: full claim: reading single packets and seeking do not panic in a release build, and never return a packet from a
    place other than the one the tables give. *)

(** Every outcome of [nth], for a reader that knows any tables and a file with any content: the place is the one the tables
    give, modulo 2^64; behind the end of the file there is an error, and there are no panics. *)
Theorem C94_nth : forall U (P : proto U) data ls (r : sreader U) n, blen data < two63 -> map fst (d_slots r) = map slot_with ls -> c_data (d_file r) = data ->
  fst (rel_d_nth P n r) =
    (let! o := nth_place ls n in
     match o with
     | None => Ok None
     | Some x => let x := x mod two64 in
                 if x <=? blen data then
                   let! o := fst (pkt_try_read P (mk_cursor data x)) in
                   match o with Success p => Ok (Some p) | NotEnough n => Err (ENotEnoughData n) end
                 else let a := two64 - x + blen data in
                      if a <? 29 then Err (ENotEnoughData (29 - a)) else Err (EIo UnexpectedEof)
     end) /\
  forall w, fst (rel_d_nth P n r) <> Panic w.
Proof.
  intros U P data ls r n B E D. pose proof (rel_nth_all P data ls r n B E D) as H. split; [exact H|]. intros w. rewrite H.
  destruct (nth_place ls n) as [[x|]|e|w'] eqn:EP; cbn [rbind]; try discriminate.
  - cbv zeta. destruct (x mod two64 <=? blen data) eqn:L; [|destruct (_ <? 29); discriminate].
    pose proof (pkt_try_read_pres P (mk_cursor data (x mod two64)) ltac:(unfold c_ok, c_len; cbn; lia)) as Q.
    destruct (pkt_try_read P _) as [[[p|k]|e|w'] c']; cbn [fst rbind]; try discriminate. exfalso. exact Q.
  - exfalso. unfold nth_place in EP. destruct (nth_error ls (n / 500)) as [lens|]; [|discriminate]. destruct (nth_error lens (n mod 500)) as [[|y]|]; discriminate.
Qed.
Print Assumptions C94_nth.

(** The same for [nth_filtered], whose only panic is that of a header with a huge size (C22). *)
Theorem C94_nth_filtered : forall U (P : proto U) data ls (r : sreader U) n, map fst (d_slots r) = map slot_with ls -> c_data (d_file r) = data ->
  fst (rel_d_nth_filtered P n r) =
    (let! o := nth_place ls n in
     match o with
     | None => Ok None
     | Some x => let! o := fst (filtered cursor_reader P (d_rules r) (mk_cursor data (x mod two64))) in Ok (Some o)
     end) /\
  (forall x, nth_place ls n = Ok (Some x) -> blen data <= x mod two64 -> fst (rel_d_nth_filtered P n r) = Err (EIo UnexpectedEof)) /\
  harmless data (fst (rel_d_nth_filtered P n r)).
Proof.
  intros U P data ls r n E D. pose proof (rel_nth_filtered_all P data ls r n E D) as H. split; [exact H|]. rewrite H.
  assert (BY : forall x, nth_place ls n = Ok (Some x) -> blen data <= x mod two64 ->
    (let! o := nth_place ls n in
     match o with
     | None => Ok None
     | Some x => let! o := fst (filtered cursor_reader P (d_rules r) (mk_cursor data (x mod two64))) in Ok (Some o)
     end) = Err (EIo UnexpectedEof)).
  { intros x EX L. rewrite EX. cbn [rbind]. assert (R : c_rest (mk_cursor data (x mod two64)) = []).
    { unfold c_rest. cbn [c_pos c_data]. destruct (_ <=? _) eqn:Q; [|reflexivity]. apply skipn_all2. unfold blen in *. lia. }
    unfold filtered, hdr_read, cursor_reader, cursor_read_exact. cbn [rd_exact]. rewrite R. reflexivity. }
  split; [exact BY|]. intros w. destruct (nth_place ls n) as [[x|]|e|w'] eqn:EP; cbn [rbind]; try discriminate.
  - destruct (N.le_gt_cases (blen data) (x mod two64)) as [L|L].
    + specialize (BY x eq_refl L). cbn [rbind] in BY. rewrite BY. discriminate.
    + intros Q. assert (O : c_ok (mk_cursor data (x mod two64))) by (unfold c_ok, c_len; cbn; lia).
      destruct (filtered cursor_reader P (d_rules r) (mk_cursor data (x mod two64))) as [o c'] eqn:EF. destruct o as [o|e|w']; cbn [fst rbind] in Q; try discriminate.
      destruct (filtered_panic cursor_reader c_rest c_ok cursor_lawful P (d_rules r) _ w' c' O EF) as (h & c1 & E1 & B1 & ->).
      destruct (hdr_there _ _ _ E1) as (post & V & L2). split; [congruence|].
      exists (firstn (N.to_nat (x mod two64)) data), (h_size h), post. split; [|auto]. rewrite rest_skipn in V. cbn [c_pos c_data] in V. now rewrite <- V, firstn_skipn.
  - exfalso. unfold nth_place in EP. destruct (nth_error ls (n / 500)) as [lens|]; [|discriminate]. destruct (nth_error lens (n mod 500)) as [[|y]|]; discriminate.
Qed.
Print Assumptions C94_nth_filtered.

(** The same as in a build with overflow checks wherever that one does not panic because of them. *)
Theorem C94_same : forall U (P : proto U) data ls (r : sreader U) n, blen data < two63 -> known ls r -> c_data (d_file r) = data ->
  (fst (d_nth P n r) <> Panic POverflow -> fst (rel_d_nth P n r) = fst (d_nth P n r)) /\
  (fst (d_nth_filtered P n r) <> Panic POverflow -> fst (rel_d_nth_filtered P n r) = fst (d_nth_filtered P n r)) /\
  (table_place ls (length ls) < two64 -> d_seek n r <> Panic POverflow -> rel_d_seek n r = d_seek n r).
Proof.
  intros U P data ls r n B K D. apply known_anchored in K. assert (E : map fst (d_slots r) = map slot_with ls) by (rewrite K, anchored_fst; reflexivity).
  rewrite (nth_all P data ls r n B K D), (nth_filtered_all P data ls r n B K D), (rel_nth_all P data ls r n B E D), (rel_nth_filtered_all P data ls r n E D).
  split; [|split; [|exact (rel_seek_same ls r n E)]].
  - destruct (nth_place ls n) as [[x|]|e|w]; cbn [rbind]; try reflexivity. destruct (blen data <? x) eqn:Q; [easy|]. intros _. cbv zeta.
    rewrite (N.mod_small x) by (unfold two63, two64 in *; lia). replace (x <=? blen data) with true by lia. reflexivity.
  - destruct (nth_place ls n) as [[x|]|e|w]; cbn [rbind]; try reflexivity. destruct (two64 <=? x) eqn:Q; [easy|]. intros _.
    rewrite (N.mod_small x) by lia. reflexivity.
Qed.
Print Assumptions C94_same.

(** A table whose lengths add up to more than 2^64 is accepted: two different entries then give the same packet, and the
    second of them lies beyond the end of the file. *)
Definition round_file : bytes := table [two63; two63; 105] ++ wire p_num.
Theorem C94_beyond_refuted : exists data (r : sreader N) x, rel_d_open 200 data = Ok r /\ d_open (U := N) data = Panic POverflow /\
  map fst (d_slots r) = map slot_with [[two63; two63; 105]] /\ nth_place [[two63; two63; 105]] 2 = Ok (Some x) /\ blen data < x /\
  rmap (option_map obs) (fst (rel_d_nth P0 2 r)) = Ok (Some (obs p_num)) /\
  rmap (option_map obs) (fst (rel_d_nth P0 0 r)) = Ok (Some (obs p_num)).
Proof.
  set (o := rel_d_open (U := N) 200 round_file). set (r := match o with Ok r => r | _ => mk_sreader [] (mk_cursor [] 0) new_locator [] end).
  exists round_file, r, (two64 + 44). split; [vm_compute; reflexivity|]. split; [vm_compute; reflexivity|]. split; [vm_compute; reflexivity|].
  split; [vm_compute; reflexivity|]. split; [vm_compute; reflexivity|]. split; vm_compute; reflexivity.
Qed.
Print Assumptions C94_beyond_refuted.

(** Seeking to a packet behind a hole (C78) panics also in a release build: the wrapped difference is taken for a length, and
    a buffer of that length cannot be had.  So does seeking in a file that was cut. *)
Theorem C94_seek_refuted : exists data (r : sreader N), d_open data = Ok r /\ rel_d_open 100 data = Ok r /\
  d_seek 3 r = Panic POverflow /\ rel_d_seek 3 r = Panic PCapacity /\
  rel_d_seek 0 (d_refresh (firstn 100 odd_file) odd_reader) = Panic PUnwrap.
Proof.
  exists (table [3; 0; 500; 600; 700; 0] ++ str "abc"). eexists. split; [vm_compute; reflexivity|]. split; [vm_compute; reflexivity|].
  split; [vm_compute; reflexivity|]. split; vm_compute; reflexivity.
Qed.
Print Assumptions C94_seek_refuted.

(** The same files: a packet that lies in the part that was cut off, an entry behind a hole, and the middle entry of the file
    above (all of them panics in a build with overflow checks), a packet that is there, and an entry that lies so close to
    2^64 that the file seems to have 15 bytes left. *)
Example C94_example :
  let show o := rmap (option_map obs) o in
  let cut := d_refresh (firstn 100 odd_file) odd_reader in
  let open data := match rel_d_open (U := N) 200 data with Ok r => r | _ => odd_reader end in
  known odd_tables cut /\
  show (fst (d_nth P0 500 cut)) = Panic POverflow /\ show (fst (rel_d_nth P0 500 cut)) = Err (EIo UnexpectedEof) /\
  show (fst (rel_d_nth P0 500 odd_reader)) = Ok (Some (obs p_num)) /\
  show (fst (rel_d_nth P0 1 (open round_file))) = Err (EIo UnexpectedEof) /\
  show (fst (rel_d_nth P0 1 (mk_sreader [(slot_with [two64 - 43; 1], 0)] (mk_cursor (str "12345678") 0) new_locator []))) = Err (ENotEnoughData 14) /\
  table_place odd_tables (length odd_tables) < two64 /\ un (rel_d_seek 0 odd_reader) = Ok tt /\ un (rel_d_seek 3 odd_reader) = Err (EOutOfBounds 1000 3).
Proof.
  cbv zeta. split; [apply (C83_known_partial N odd_file odd_tables 247 odd_reader); [vm_compute; reflexivity|exact odd_file_tables|exact odd_opened]|].
  repeat (split; [vm_compute; reflexivity|]). vm_compute; reflexivity.
Qed.
