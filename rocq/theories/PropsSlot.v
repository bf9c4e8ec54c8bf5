(** * Properties of storage slots (C40, C41, C70). *)
From Coq Require Import ZifyBool ZifyNat ZifyN.
From Verif Require Import Base Crc32 Io File Block Payload Packet Rules Slot Storage Spec SpecStorage BaseProofs CrcProofs BlockProofs SinkProofs SlotProofs.
Open Scope list_scope.

(** ** C40: codec *)

Theorem C40_slot_round_trip : forall sl, slot_ok sl ->
  let e := map n2b [166; 177; 188; 199; 199; 188; 177; 166] ++ le 8 (sl_capacity sl) ++ slot_content sl in
  written (slot_write_all sl) e /\
  (forall S (R : reader S) view okst, lawful R view okst -> forall s rest, okst s -> view s = e ++ rest ->
     exists s', slot_read R s = (Ok sl, s') /\ view s' = rest) /\
  (forall c rest, c_pos c <= c_len c -> c_rest c = e ++ rest ->
     exists c', slot_try_read c = (Ok (Success sl), c') /\ c_rest c' = rest).
Proof.
  intros sl K e. split; [|split].
  - unfold written, slot_write_all. rewrite slot_bytes_ok by exact K. cbn [sbind]. reflexivity.
  - intros S R view okst L s rest O V. unfold e in V. rewrite <- !app_assoc in V.
    destruct (slot_read_ok R view okst L s sl rest O K V) as (s' & E & V' & _). eauto.
  - intros c rest O V. unfold e in V. rewrite <- !app_assoc in V.
    destruct (slot_try_ok c sl rest O K V) as (c' & E & V' & _). eauto.
Qed.
Print Assumptions C40_slot_round_trip.

(** Through any sink: [write] hands over the bytes once and reports how many were taken, [write_all] reports success only when
    all were taken. *)
Theorem C40_slot_writes : forall sl, slot_ok sl ->
  let e := map n2b [166; 177; 188; 199; 199; 188; 177; 166] ++ le 8 (sl_capacity sl) ++ slot_content sl in
  (forall got, slot_write sl (mk_sink got []) = (Ok (blen e), mk_sink (got ++ e) [])) /\
  (forall got m q, slot_write sl (mk_sink got (Accept m :: q)) =
     (Ok (N.min m (blen e)), mk_sink (got ++ firstn (N.to_nat (N.min m (blen e))) e) q)) /\
  (forall got k q, slot_write sl (mk_sink got (WFail k :: q)) = (Err (EIo k), mk_sink got q)) /\
  (forall o r o', slot_write_all sl o = (r, o') ->
     exists sent rest, e = sent ++ rest /\ k_got o' = k_got o ++ sent /\
       match r with Ok _ => rest = [] | Err _ => rest <> [] | Panic _ => False end).
Proof.
  intros sl K e. unfold slot_write, slot_write_all. rewrite slot_bytes_ok by exact K. cbn [sbind].
  change (slot_sig ++ le 8 (sl_capacity sl) ++ slot_content sl) with e. split; [reflexivity|]. split; [reflexivity|]. split; [reflexivity|].
  intros o r o' E. exact (sink_all_outcome e o r o' E).
Qed.
Print Assumptions C40_slot_writes.
Example C40_writes_example : let sl := with_crc (mk_slot [5; 0] 2 []) in
  slot_ok sl /\ fst (slot_write sl (mk_sink [] [Accept 20])) = Ok 20 /\ fst (slot_write sl (mk_sink [] [Accept 99])) = Ok 36 /\
  fst (slot_write_all sl (mk_sink [] [Accept 20; Accept 0])) = Err (EIo WriteZero).
Proof. cbv zeta. split; [|vm_compute; auto]. split; [reflexivity|]. split; [reflexivity|]. split; [repeat constructor|]. reflexivity. Qed.

(** Missing: corruption of the capacity, which decides how many bytes are read (refuted below). *)
Theorem C40_table_corruption_partial : forall sl x', slot_ok sl -> burst 4 (slot_content sl) x' ->
  let e' := slot_sig ++ le 8 (sl_capacity sl) ++ x' in
  (forall S (R : reader S) view okst, lawful R view okst -> forall s rest, okst s -> view s = e' ++ rest ->
     fst (slot_read R s) = Err ECrcDismatch \/ fst (slot_read R s) = Ok sl) /\
  (forall c rest, c_pos c <= c_len c -> c_rest c = e' ++ rest ->
     fst (slot_try_read c) = Err ECrcDismatch \/ fst (slot_try_read c) = Ok (Success sl)).
Proof.
  intros sl x' K HB e'. pose proof K as (K1 & K2 & K3 & K4).
  assert (length x' = (8 * length (sl_lengths sl) + 4)%nat) as LX.
  { destruct HB as (pre & w & w' & post & E1 & E2 & E3 & E4). rewrite E2, !app_length, <- E3, <- !app_length, <- E1.
    unfold slot_content. rewrite app_length, le8_length, K4, crc32_le_length. reflexivity. }
  assert (x' = firstn (8 * length (sl_lengths sl)) x' ++ skipn (8 * length (sl_lengths sl)) x') as EX by (symmetry; apply firstn_skipn).
  destruct (split_le8 (length (sl_lengths sl)) (firstn (8 * length (sl_lengths sl)) x')) as (lens & E1 & E2 & E3); [rewrite firstn_length; lia|].
  set (crc := skipn (8 * length (sl_lengths sl)) x') in *. assert (length crc = 4%nat) as LC by (unfold crc; rewrite skipn_length; lia).
  assert (x' = concat (map (le 8) lens) ++ crc) as EX' by (rewrite E1; exact EX). clear EX. clearbody crc. clear E1. subst x'.
  assert (N.of_nat (length lens) = sl_capacity sl) as CL by lia.
  assert (forall A (f : slot -> A), bytes_eqb crc (slot_crc (mk_slot lens (sl_capacity sl) crc)) = true -> f (mk_slot lens (sl_capacity sl) crc) = f sl) as SB.
  { intros A f E. apply bytes_eqb_eq in E. f_equal. apply slot_burst; auto. }
  split.
  - intros S R view okst L s rest O V. unfold e' in V. rewrite <- !app_assoc in V. unfold slot_read.
    destruct (slot_hdr_read_ok R view okst L (sl_capacity sl) s _ O ltac:(unfold two63, two64 in *; lia) V) as (s1 & R1 & V1 & O1). rewrite R1. cbn [sbind].
    destruct (slot_body_ok R view okst L lens (sl_capacity sl) crc s1 rest O1 CL ltac:(unfold two63 in *; lia) E3 LC V1) as (s2 & R2 & _). rewrite R2.
    destruct (bytes_eqb _ _) eqn:E; [right|now left]. cbn [fst]. apply SB. reflexivity.
  - intros c rest O V. unfold e' in V. rewrite <- !app_assoc in V.
    destruct (slot_try_table c lens (sl_capacity sl) crc rest O CL K2 E3 LC V) as (c' & E & _). rewrite E.
    destruct (bytes_eqb _ _) eqn:B; [right|now left]. cbn [fst]. apply (SB _ (fun s => Ok (Success s))). reflexivity.
Qed.
Print Assumptions C40_table_corruption_partial.

Theorem C40_signature_change : forall sg x, length sg = 8%nat -> (8 <= length x)%nat -> sg <> slot_sig ->
  (forall S (R : reader S) view okst, lawful R view okst -> forall s rest, okst s -> view s = sg ++ x ++ rest ->
     fst (slot_read R s) = Err ESignatureDismatch) /\
  (forall c rest, c_pos c <= c_len c -> c_rest c = sg ++ x ++ rest ->
     fst (slot_try_read c) = Err ESignatureDismatch).
Proof.
  intros sg x LS LX NE. assert (bytes_eqb sg slot_sig = false) as NB.
  { destruct (bytes_eqb sg slot_sig) eqn:E; [|reflexivity]. apply bytes_eqb_eq in E. contradiction. }
  split.
  - intros S R view okst L s rest O V. unfold slot_read, slot_hdr_read.
    destruct (lw_ok _ _ _ L 8 s _ _ O V) as (s1 & R1 & _); [unfold blen; now rewrite LS|]. rewrite R1. cbn [sbind].
    rewrite NB. reflexivity.
  - intros c rest O V. unfold slot_try_read, slot_hdr_try_read. rewrite c_available_ok by exact O. cbn [sbind].
    rewrite c_available_ok by exact O. cbn [sbind]. rewrite V, !blen_app.
    unfold slot_hdr_size. replace (_ <? 16) with false by (unfold blen; lia).
    destruct (lw_ok _ _ _ cursor_lawful 8 c _ _ O V) as (s1 & R1 & _); [unfold blen; now rewrite LS|]. rewrite R1. cbn [sbind].
    rewrite NB. reflexivity.
Qed.
Print Assumptions C40_signature_change.

(** The second length holds the checksum of the slot of capacity 1 with the same first length. *)
Definition forged_slot : slot := with_crc (mk_slot [5; unle (crc32_le (le 8 1 ++ le 8 5))] 2 []).
Definition forged_slot_bytes (cap : N) : bytes := slot_sig ++ le 8 cap ++ slot_content forged_slot.

(** The capacity decides where the checksum is looked for: one changed byte of it can make a different slot. *)
Theorem C40_capacity_refuted : exists sl e e' sl',
  slot_ok sl /\ written (slot_write_all sl) e /\ burst 1 e e' /\
  fst (slot_read stream_reader e') = Ok sl' /\ fst (slot_try_read (mk_cursor e' 0)) = Ok (Success sl') /\
  sl_lengths sl <> sl_lengths sl'.
Proof.
  exists forged_slot, (forged_slot_bytes 2), (forged_slot_bytes 1), (with_crc (mk_slot [5] 1 [])). split; [|split; [|split; [|split; [|split]]]].
  - split; [reflexivity|]. split; [reflexivity|]. split; [repeat constructor|]. reflexivity.
  - vm_compute. reflexivity.
  - exists slot_sig, [n2b 2], [n2b 1], (repeat (n2b 0) 7 ++ slot_content forged_slot).
    split; [reflexivity|]. split; [reflexivity|]. split; [reflexivity|]. apply le_n.
  - vm_compute. reflexivity.
  - vm_compute. reflexivity.
  - vm_compute. discriminate.
Qed.
Print Assumptions C40_capacity_refuted.

(** A slot of three entries: written, one byte of a length changed, and the change found. *)
Definition sample_slot : slot := with_crc (mk_slot [37; 1200; 0] 3 []).
Example C40_example :
  slot_ok sample_slot /\ slot_bytes sample_slot = Ok (slot_sig ++ le 8 3 ++ le 8 37 ++ le 8 1200 ++ le 8 0 ++ sl_crc sample_slot) /\
  (exists x', burst 4 (slot_content sample_slot) x' /\ x' <> slot_content sample_slot /\
     fst (slot_read stream_reader (slot_sig ++ le 8 3 ++ x')) = Err ECrcDismatch).
Proof.
  split; [split; [reflexivity|split; [reflexivity|split; [repeat constructor|reflexivity]]]|]. split; [vm_compute; reflexivity|].
  exists (le 8 37 ++ le 8 1201 ++ le 8 0 ++ sl_crc sample_slot). split; [|split].
  - exists (le 8 37), [n2b 176], [n2b 177], ([n2b 4] ++ repeat (n2b 0) 6 ++ le 8 0 ++ sl_crc sample_slot).
    split; [vm_compute; reflexivity|]. split; [vm_compute; reflexivity|]. split; [reflexivity|]. repeat constructor.
  - vm_compute. discriminate.
  - vm_compute. reflexivity.
Qed.

(** ** C41: bookkeeping *)

(** Any capacity; [lens] are the lengths inserted into a new slot. *)
Theorem C41_slot_bookkeeping : forall cap lens sl,
  slot_inserts (empty_slot cap) lens sl -> Forall (fun n => 0 < n) lens ->
  let used := length lens in
  let room := (used <? cap)%nat in
  let size := 16 + 8 * N.of_nat cap + 4 in
  (used <= cap)%nat /\
  sl_lengths sl = lens ++ repeat 0 (cap - used) /\ sl_capacity sl = N.of_nat cap /\ sl_crc sl = slot_crc sl /\
  slot_count sl = used /\ slot_width sl = total lens /\ slot_size sl = size /\
  slot_is_full sl = negb room && negb (cap =? 0)%nat /\
  free_slot_index sl = (if room then Some used else None) /\
  free_slot_offset sl = (if room then Some (size + total lens) else None) /\
  (forall i, slot_is_used i sl = (i <? used)%nat) /\
  (forall i, (i < used)%nat -> slot_offset i sl = Some (size + total (firstn i lens)) /\ slot_offset_of i sl = Some (total (firstn i lens))) /\
  (forall i, (used <= i)%nat -> slot_offset i sl = (if (i <? cap)%nat then Some (size + total lens) else None) /\
     slot_offset_of i sl = (if (i =? 0)%nat then Some 0 else None)) /\
  (forall i, slot_is_empty i sl = if (i <? cap)%nat then Ok (used <=? i)%nat else Err (EOutOfBounds (N.of_nat cap) (N.of_nat i))) /\
  (forall n, 0 < n -> exists r, slot_insert n sl = (if room then Ok tt else Err ECannotInsertIntoSlot, r) /\
     sl_lengths r = (if room then lens ++ n :: repeat 0 (cap - used - 1) else sl_lengths sl) /\ sl_crc r = slot_crc r) /\
  length (slot_ranges sl) = used /\
  (forall i, (i < used)%nat ->
     nth_error (slot_ranges sl) i = Some (size + total (firstn i lens), size + total (firstn (S i) lens))).
Proof.
  intros cap lens sl I P used room size. rewrite tab_empty in I.
  apply (inserts_only cap lens [] sl ltac:(constructor) P (Nat.le_0_l _)) in I as (-> & L). cbn [app length] in *.
  change (length lens <= cap)%nat in L. fold used in L.
  assert (N.of_nat (20 + 8 * cap) = size) as SZ by (unfold size; lia).
  assert ((length lens =? cap)%nat = negb room) as RM by (unfold room, used in *; lia).
  split; [exact L|]. split; [apply tab_lengths|]. split; [apply tab_capacity|]. split; [reflexivity|].
  split; [now apply tab_count|]. split; [now apply tab_width|]. split; [now rewrite tab_size|].
  split; [rewrite tab_is_full by assumption; now rewrite RM|].
  split; [now apply tab_free_index|]. split; [rewrite tab_free_offset, SZ by assumption; unfold room; rewrite (N.add_comm size); reflexivity|].
  split; [intros i; now apply tab_is_used|].
  split; [intros i LI; rewrite tab_offset, tab_offset_of, SZ by assumption; rewrite (N.add_comm size); split; reflexivity|].
  split; [intros i LI; rewrite tab_offset_free, tab_offset_of_free, SZ by assumption; rewrite (N.add_comm size); split; reflexivity|].
  split; [intros i; rewrite tab_is_empty_all by assumption; reflexivity|].
  split.
  { intros n Hn. rewrite tab_insert by assumption. fold used. fold room. destruct room eqn:RE; eexists; split; try reflexivity; split; try reflexivity.
    rewrite tab_lengths, <- app_assoc, app_length. fold used. cbn [length app]. do 3 f_equal. lia. }
  rewrite tab_ranges, SZ by assumption. split; [apply ranges_spec_length|]. intros i LI. now apply ranges_spec_nth.
Qed.
Print Assumptions C41_slot_bookkeeping.

(** A slot of capacity 3 filled one by one until the insert is refused. *)
Example C41_example : exists s1 s2 s3,
  slot_inserts (empty_slot 3) [40] s1 /\ slot_inserts (empty_slot 3) [40; 7] s2 /\ slot_inserts (empty_slot 3) [40; 7; 300] s3 /\
  free_slot_offset s2 = Some 91 /\ slot_ranges s3 = [(44, 84); (84, 91); (91, 391)] /\
  fst (slot_insert 9 s2) = Ok tt /\ slot_insert 9 s3 = (Err ECannotInsertIntoSlot, s3).
Proof.
  eexists _, _, _. split; [eapply ins_next; [vm_compute; reflexivity|constructor]|].
  split; [do 2 (eapply ins_next; [vm_compute; reflexivity|]); constructor|].
  split; [do 3 (eapply ins_next; [vm_compute; reflexivity|]); constructor|]. vm_compute. auto.
Qed.

(** ** C70: every outcome of [try_read] *)

(** A complete, valid slot and only that is read; otherwise the position stays, except behind a wrong checksum.  Missing: an
    incomplete slot with room for two packets or more (refuted below). *)
Theorem C70_outcomes_partial : forall c, c_pos c <= c_len c -> c_len c < two63 ->
  let sig := map n2b [166; 177; 188; 199; 199; 188; 177; 166] in
  (forall sl rest, slot_ok sl -> c_rest c = sig ++ le 8 (sl_capacity sl) ++ slot_content sl ++ rest ->
     exists c', slot_try_read c = (Ok (Success sl), c') /\ c_rest c' = rest) /\
  match slot_try_read c with
  | (Ok (Success sl), c') => slot_ok sl /\ c_rest c = sig ++ le 8 (sl_capacity sl) ++ slot_content sl ++ c_rest c'
  | (Ok (NotEnough n), c') => c' = c /\
      (blen (c_rest c) < 16 /\ n = 16 \/
       exists cap rest, c_rest c = sig ++ le 8 cap ++ rest /\ cap <= 1 /\ blen rest < 8 * cap + 4 /\ n = 9 - 8 * cap)
  | (Err e, c') => e = ESignatureDismatch /\ c' = c /\ firstn 8 (c_rest c) <> sig \/
      e = ECrcDismatch /\ exists lens crc, let cap := N.of_nat (length lens) in
        c_rest c = sig ++ le 8 cap ++ concat (map (le 8) lens) ++ crc ++ c_rest c' /\ length crc = 4%nat /\ Forall (fun x => x < two64) lens /\
        crc <> slot_crc (mk_slot lens cap crc)
  | (Panic w, c') => w = POverflow /\ exists cap rest, c_rest c = sig ++ le 8 cap ++ rest /\ 2 <= cap < two64 /\ blen rest < 8 * cap + 4
  end.
Proof.
  intros c O B sig. split.
  - intros sl rest K V. destruct (slot_try_ok c sl rest O K V) as (c' & E & V' & _). eauto.
  - pose proof (slot_try_total c O B) as Q. destruct (slot_try_read c) as [[[sl|n]|e|w] c']; try exact Q. destruct Q as (Q1 & Q2 & _). auto.
Qed.
Print Assumptions C70_outcomes_partial.

(** The whole slot but for its last byte: a panic in place of [NotEnoughData]. *)
Theorem C70_incomplete_refuted : exists sl e n, slot_ok sl /\ written (slot_write_all sl) e /\ (16 <= n < length e)%nat /\
  fst (slot_try_read (mk_cursor (firstn n e) 0)) = Panic POverflow.
Proof.
  exists sample_slot, (slot_sig ++ le 8 3 ++ slot_content sample_slot), 43%nat.
  split; [split; [reflexivity|split; [reflexivity|split; [repeat constructor|reflexivity]]]|].
  split; [vm_compute; reflexivity|]. split; [split; apply Nat.leb_le; vm_compute; reflexivity|]. vm_compute. reflexivity.
Qed.
Print Assumptions C70_incomplete_refuted.

(** [Slot::read] from any source.  A capacity whose table cannot be allocated makes it panic; everything else that is not a slot
    is told apart, incomplete slots of every capacity included. *)
Theorem C70_read_outcomes : forall S (R : reader S) view okst, lawful R view okst -> forall s, okst s -> blen (view s) < two63 ->
  let sig := map n2b [166; 177; 188; 199; 199; 188; 177; 166] in
  (forall sl rest, slot_ok sl -> view s = sig ++ le 8 (sl_capacity sl) ++ slot_content sl ++ rest ->
     exists s', slot_read R s = (Ok sl, s') /\ view s' = rest) /\
  match slot_read R s with
  | (Ok sl, s') => slot_ok sl /\ view s = sig ++ le 8 (sl_capacity sl) ++ slot_content sl ++ view s'
  | (Err e, s') =>
      e = EIo UnexpectedEof /\ (blen (view s) < 8 \/
        (exists rest, view s = sig ++ rest /\ blen rest < 8) \/
        exists cap rest, view s = sig ++ le 8 cap ++ rest /\ 8 * cap < two63 /\ blen rest < 8 * cap + 4) \/
      e = ESignatureDismatch /\ 8 <= blen (view s) /\ firstn 8 (view s) <> sig \/
      e = ECrcDismatch /\ exists lens crc, let cap := N.of_nat (length lens) in
        view s = sig ++ le 8 cap ++ concat (map (le 8) lens) ++ crc ++ view s' /\ length crc = 4%nat /\ Forall (fun x => x < two64) lens /\
        crc <> slot_crc (mk_slot lens cap crc)
  | (Panic w, s') => w = PCapacity /\ exists cap rest, view s = sig ++ le 8 cap ++ rest /\ two63 <= 8 * cap /\ cap < two64
  end.
Proof.
  intros S R view okst L s O B sig. split.
  - intros sl rest K V. destruct (slot_read_ok R view okst L s sl rest O K V) as (s' & E & V' & _). eauto.
  - pose proof (slot_read_total R view okst L s O B) as Q. destruct (slot_read R s) as [[sl|e|w] s']; try exact Q. destruct Q as (Q1 & Q2 & _). auto.
Qed.
Print Assumptions C70_read_outcomes.
(** The same cases as below, and a capacity of 2^60. *)
Example C70_read_example :
  let one := slot_sig ++ le 8 1 ++ slot_content (with_crc (mk_slot [77] 1 [])) in
  slot_read stream_reader (one ++ str "after") = (Ok (with_crc (mk_slot [77] 1 [])), str "after") /\
  fst (slot_read stream_reader (firstn 26 one)) = Err (EIo UnexpectedEof) /\
  fst (slot_read stream_reader (str "some sixteen bytes")) = Err ESignatureDismatch /\
  fst (slot_read stream_reader (firstn 27 one ++ str "x")) = Err ECrcDismatch /\
  fst (slot_read stream_reader (slot_sig ++ le 8 (2 ^ 60) ++ repeat (n2b 0) 99)) = Panic PCapacity.
Proof. repeat split; vm_compute; reflexivity. Qed.

(** Four bytes of something else, a slot of capacity one without its last two bytes, a foreign signature, a wrong checksum. *)
Definition slot_one : bytes := slot_sig ++ le 8 1 ++ slot_content (with_crc (mk_slot [77] 1 [])).
Example C70_example :
  let at_ data := slot_try_read (mk_cursor (str "lead" ++ data) 4) in
  let here data := mk_cursor (str "lead" ++ data) 4 in
  at_ (str "more") = (Ok (NotEnough 16), here (str "more")) /\
  at_ (firstn 26 slot_one) = (Ok (NotEnough 1), here (firstn 26 slot_one)) /\
  at_ (str "some sixteen bytes") = (Err ESignatureDismatch, here (str "some sixteen bytes")) /\
  fst (at_ (firstn 27 slot_one ++ str "x")) = Err ECrcDismatch /\
  fst (at_ (slot_one ++ str "after")) = Ok (Success (with_crc (mk_slot [77] 1 []))).
Proof. repeat split; vm_compute; reflexivity. Qed.
