(** * Wire properties that do not hold as stated: a refutation by a concrete witness and
      the part that does hold (C13, C15, C16, C19-C22, C53, C55, C57, C58, C66-C68, C74), and C80, C86. *)
From Coq Require Import ZifyBool ZifyNat ZifyN.
From Verif Require Import Base Crc32 Io Block Payload Packet Rules Spec BaseProofs CrcProofs BlockProofs
  DispatchProofs PayloadProofs PayloadEnumProofs PacketProofs PacketSafeProofs RulesProofs WireProofs SinkProofs LayoutProofs NameProofs NegProofs BufferedProofs CanonProofs IoProofs StuckProofs Utf8Proofs
  Samples PropsWire.
Ltac Zify.zify_post_hook ::= Z.div_mod_to_equations.
Open Scope list_scope.

(** ** C13: full claim: whenever [blk_try_read] does not return [Success], the position
    is the one before the call. *)
Theorem C13_position_refuted : exists sc vs c n,
  schema_ok sc /\ vals_ok sc vs /\ c_pos c <= c_len c /\ strict_prefix (c_rest c) (blk_encode sc vs) /\
  fst (blk_try_read sc c) = Ok (NotEnough n) /\ c_pos (snd (blk_try_read sc c)) <> c_pos c.
Proof.
  exists sc_a, (bk_vals b_a), (mk_cursor (firstn 10 (bk_encode b_a)) 0), 5.
  split; [exact sc_a_ok|split; [exact (proj2 (proj2 b_a_ok))|split; [vm_compute; discriminate|split]]].
  - exists (skipn 10 (bk_encode b_a)). split; [vm_compute; discriminate|].
    vm_compute. reflexivity.
  - vm_compute. split; [reflexivity|discriminate].
Qed.
Print Assumptions C13_position_refuted.

(** What holds: fewer than four bytes or another signature leave the position; a
    matching signature with a truncated body leaves it after the signature. *)
Theorem C13_position_partial : forall sc c, c_pos c <= c_len c ->
  (blen (c_rest c) < 4 -> blk_try_read sc c = (Ok (NotEnough (4 - blen (c_rest c))), c)) /\
  (4 <= blen (c_rest c) -> firstn 4 (c_rest c) <> blk_sig sc ->
     blk_try_read sc c = (Err ESignatureDismatch, c)) /\
  (4 <= blen (c_rest c) -> firstn 4 (c_rest c) = blk_sig sc -> blen (c_rest c) < N.of_nat (ssize sc) ->
     blk_try_read sc c = (Ok (NotEnough (N.of_nat (ssize sc) - blen (c_rest c))), mk_cursor (c_data c) (c_pos c + 4))).
Proof.
  intros sc c O. destruct (blk_try_read_spec sc c O) as (Q1 & Q2). split; [exact Q1|].
  assert (SP : c_rest c = firstn 4 (c_rest c) ++ skipn 4 (c_rest c)) by now rewrite firstn_skipn.
  split; intros L4; (destruct (Q2 _ _ SP) as (Q3 & Q4 & _); [unfold blen in L4; rewrite firstn_length; lia|]).
  - exact Q3.
  - intros E L. now rewrite Q4.
Qed.
Print Assumptions C13_position_partial.
Example C13_example : let c := mk_cursor (str "xx" ++ bk_encode b_e ++ str "yy") 2 in
  c_pos c <= c_len c /\ 4 <= blen (c_rest c) /\ firstn 4 (c_rest c) <> blk_sig sc_a /\ blk_try_read sc_a c = (Err ESignatureDismatch, c).
Proof. vm_compute. repeat split; discriminate. Qed.

(** ** C15: full claim: [bk_read stream_reader scs false (bk_encode b ++ rest)] returns [b]
    for every declared type. *)
Theorem C15_stream_dispatch_refuted : exists scs b,
  NoDup (map blk_sig scs) /\ block_ok scs b /\
  fst (bk_read stream_reader scs false (bk_encode b)) = Err (EIo UnexpectedEof).
Proof.
  exists (pr_blocks P0), b_e. split; [exact (proj1 P0_ok)|split; [exact b_e_ok|]]. vm_compute. reflexivity.
Qed.
Print Assumptions C15_stream_dispatch_refuted.

(** What holds: the type asked first. *)
Theorem C15_stream_dispatch_partial : forall sc scs vs, schema_ok sc -> vals_ok sc vs ->
  forall S (R : reader S) view okst, lawful R view okst ->
  forall s rest, okst s -> view s = blk_encode sc vs ++ rest ->
  exists s', bk_read R (sc :: scs) false s = (Ok (mk_block sc vs), s') /\ view s' = rest.
Proof.
  intros sc scs vs HS HV S R view okst L s rest O V.
  destruct (block_round_trip sc vs HS HV) as (_ & _ & Q & _).
  destruct (Q S R view okst L s rest O V) as (s' & E & W & _). exists s'. cbn [bk_read]. now rewrite E.
Qed.
Print Assumptions C15_stream_dispatch_partial.
Example C15_example :
  rmap obs_block (fst (bk_read stream_reader [sc_e; sc_a; sc_b] false (bk_encode b_e))) = Ok (obs_block b_e).
Proof. vm_compute. reflexivity. Qed.

(** What happens otherwise: every type asked in vain has consumed four bytes ([signature_text]: Spec.v), so that the types
    behind it see the source without them; with less than four bytes the answer is an error of the source, and without types
    left the answer is a mismatch. *)
Theorem C15_types_in_turn : forall S (R : reader S) view okst, lawful R view okst -> forall s, okst s ->
  (forall sc scs w rest, view s = w ++ rest -> length w = 4%nat -> w <> crc32_le (signature_text sc) ->
     exists s', view s' = rest /\ okst s' /\ bk_read R (sc :: scs) false s = bk_read R scs false s') /\
  (forall sc scs, blen (view s) < 4 -> fst (bk_read R (sc :: scs) false s) = Err (EIo UnexpectedEof)) /\
  bk_read R [] false s = (Err ESignatureDismatch, s).
Proof.
  intros S R view okst L s O. split; [|split; [|reflexivity]].
  - intros sc scs w rest V LW NE. apply (dispatch_step R view okst L sc scs s w rest O V LW). unfold blk_sig. now rewrite snapshot_text.
  - intros sc scs H. now apply (dispatch_short R view okst L).
Qed.
Print Assumptions C15_types_in_turn.
(** Hence a block of a later type is found behind four foreign bytes for every type before it, and only there. *)
Theorem C15_later_type : forall pre sc scs vs ws, schema_ok sc -> vals_ok sc vs ->
  Forall2 (fun sc' w => length w = 4%nat /\ w <> crc32_le (signature_text sc')) pre ws ->
  forall S (R : reader S) view okst, lawful R view okst ->
  forall s rest, okst s -> view s = concat ws ++ blk_encode sc vs ++ rest ->
  exists s', bk_read R (pre ++ sc :: scs) false s = (Ok (mk_block sc vs), s') /\ view s' = rest.
Proof.
  intros pre sc scs vs ws HS HV F S R view okst L s rest O V.
  destruct (dispatch_skips R view okst L (sc :: scs) (blk_encode sc vs ++ rest) pre ws) with (s := s) as (s1 & V1 & O1 & ->); auto.
  - clear -F. induction F as [|sc' w pre ws (LW & NE) F IH]; constructor; auto. split; [exact LW|]. unfold blk_sig. now rewrite snapshot_text.
  - exact (C15_stream_dispatch_partial sc scs vs HS HV S R view okst L s1 rest O1 V1).
Qed.
Print Assumptions C15_later_type.
Example C15_later_example :
  Forall2 (fun sc' w => length w = 4%nat /\ w <> crc32_le (signature_text sc')) [sc_a; sc_b] [str "junk"; str "more"] /\
  rmap obs_block (fst (bk_read stream_reader [sc_a; sc_b; sc_e] false (str "junkmore" ++ bk_encode b_e))) = Ok (obs_block b_e).
Proof.
  split; [|vm_compute; reflexivity]. repeat constructor; vm_compute; discriminate.
Qed.

(** ** C16: full claim: [blk_read_from_slice sc (bytes after the signature) true = Ok vs]. *)
Theorem C16_skip_signature_refuted : exists sc vs,
  schema_ok sc /\ vals_ok sc vs /\ blk_read_from_slice sc (skipn 4 (blk_encode sc vs)) true = Panic PIndex.
Proof.
  exists sc_a, (bk_vals b_a). split; [exact sc_a_ok|split; [exact (proj2 (proj2 b_a_ok))|]]. vm_compute. reflexivity.
Qed.
Print Assumptions C16_skip_signature_refuted.

(** It fails for every block. *)
Theorem C16_never_accepted : forall sc vs, vals_ok sc vs ->
  forall vs', blk_read_from_slice sc (skipn 4 (blk_encode sc vs)) true <> Ok vs'.
Proof.
  intros sc vs HV vs'. apply skip_exact_never. rewrite skipn_length, blk_encode_length by easy. rewrite ssize_eq. lia.
Qed.
Print Assumptions C16_never_accepted.

(** What holds: with any four bytes in place of the signature. *)
Theorem C16_skip_signature_partial : forall sc vs pad rest, schema_ok sc -> vals_ok sc vs -> length pad = 4%nat ->
  blk_read_from_slice sc (pad ++ skipn 4 (blk_encode sc vs) ++ rest) true = Ok vs.
Proof.
  intros sc vs pad rest HS HV LP. unfold blk_encode. rewrite skipn_app_exact by (now rewrite blk_sig_length).
  rewrite <- app_assoc. now apply skip_padded.
Qed.
Print Assumptions C16_skip_signature_partial.
Example C16_example :
  blk_read_from_slice sc_b (str "????" ++ skipn 4 (bk_encode b_b) ++ str "..") true = Ok (bk_vals b_b).
Proof. vm_compute. reflexivity. Qed.

(** ** C19: full claim: what [pkt_write_all] accepts, all readers accept. *)
Definition p_many (n : nat) : packet N := mk_packet (repeat b_e n) None.

Theorem C19_block_limit_refuted : exists p : packet N, exists e,
  written (pkt_write_all p) e /\ packet_enc P0 p e /\
  fst (pkt_read stream_reader P0 e) = Err EMaxBlocksCount /\
  fst (pkt_try_read P0 (mk_cursor e 0)) = Err EMaxBlocksCount /\
  rmap (fun l => match l with Accepted n q => blen (concat (map bk_encode (p_blocks q))) | Denied _ => 0 end)
       (fst (filtered stream_reader P0 [] e)) = Ok (257 * 8).
Proof.
  exists (p_many 257), (wire (p_many 257)). split; [vm_compute; reflexivity|]. split.
  - exists []. split; [apply Forall_forall; intros b H; apply repeat_spec in H; subst; exact b_e_ok|].
    split; [reflexivity|split; vm_compute; reflexivity].
  - vm_compute. auto.
Qed.
Print Assumptions C19_block_limit_refuted.

(** What holds: up to 256 blocks every reader of whole packets takes the packet; from 257 on each of them refuses it, the
    first having taken the packet out of the source, the second having moved nothing and the third having consumed the
    header and 256 blocks; [filtered] takes any number. *)
Theorem C19_block_limit_partial : forall U (P : proto U) (p : packet U) e rest,
  proto_ok P -> packet_enc P p e ->
  written (pkt_write_all p) e /\
  let many := (256 <? length (p_blocks p))%nat in
  pkt_read stream_reader P (e ++ rest) = (if many then Err EMaxBlocksCount else Ok p, rest) /\
  (forall c, c_pos c <= c_len c -> c_rest c = e ++ rest ->
     pkt_try_read P c = if many then (Err EMaxBlocksCount, c) else (Ok (Success p), c_seek (c_pos c + blen e) c)) /\
  (forall evs, exists tail, payload_part (pr_kinds P) (p_payload p) tail /\
     pkt_try_read_buf P (mk_bufsrc (e ++ rest) evs) =
     if many then (Err EMaxBlocksCount, mk_bufsrc (concat (map bk_encode (skipn 256 (p_blocks p))) ++ tail ++ rest) evs)
     else (Ok (Success p), mk_bufsrc rest evs)) /\
  filtered stream_reader P [] (e ++ rest) = (Ok (Accepted (blen e - 29) p), rest).
Proof.
  intros U P p e rest HP HE. cbv zeta. split; [exact (pkt_write_all_ok P p e [] HE)|]. split; [|split; [|split]].
  - destruct (256 <? length (p_blocks p))%nat eqn:EL.
    + destruct (pkt_read_over P HP stream_reader (fun s => s) (fun _ => True) (lawful_okl _ _ _ stream_lawful) p e (e ++ rest) rest HE ltac:(lia) I eq_refl)
        as (s' & -> & V & _). cbv beta in V. now subst.
    + destruct (pkt_read_rt stream_reader (fun s => s) (fun _ => True) (lawful_okl _ _ _ stream_lawful) P p e (e ++ rest) rest HP HE ltac:(lia) I eq_refl)
        as (s' & -> & V & _). cbv beta in V. now subst.
  - intros c O V. destruct (256 <? length (p_blocks p))%nat eqn:EL.
    + exact (pkt_try_read_over P HP p e c rest HE ltac:(lia) O V).
    + destruct (pkt_try_read_rt P p e c rest HP HE ltac:(lia) O V) as (-> & _). reflexivity.
  - intros evs. destruct (256 <? length (p_blocks p))%nat eqn:EL.
    + exact (pkt_try_read_buf_over P HP p e rest evs HE ltac:(lia)).
    + destruct HE as (tail & HE). exists tail. split; [apply HE|]. apply (pkt_try_read_buf_rt P p e rest evs HP); [now exists tail|lia].
  - assert (exists body, raw_body (pr_kinds P) (p_payload p) body) as (body & RB).
    { destruct HE as (tail & _ & HT & _). unfold raw_body. destruct (p_payload p) as [pl|]; [|now exists []].
      destruct HT as (body & crc & HPL & _). now exists body, crc. }
    destruct (filtered_rt stream_reader (fun s => s) (fun _ => True) (lawful_okl _ _ _ stream_lawful) P [] p e (e ++ rest) rest body HP HE RB I eq_refl)
      as (s' & E & V & _). cbv beta in V. subst s'. rewrite E.
    destruct (p_payload p); reflexivity.
Qed.
Print Assumptions C19_block_limit_partial.

(** 255, 256 and 257 blocks. *)
Example C19_example : Forall (fun n => packet_enc P0 (p_many n) (wire (p_many n))) [255%nat; 256%nat; 257%nat] /\
  let e := wire (p_many 257) ++ wire p_num in
  rmap obs (fst (pkt_read stream_reader P0 (wire (p_many 256)))) = Ok (obs (p_many 256)) /\
  fst (pkt_read stream_reader P0 e) = Err EMaxBlocksCount /\
  b_cur (snd (pkt_try_read_buf P0 (mk_bufsrc e []))) = bk_encode b_e ++ wire p_num.
Proof.
  split.
  - repeat (apply Forall_cons; [exists []; split; [apply Forall_forall; intros b H; apply repeat_spec in H; subst; exact b_e_ok|];
      split; [reflexivity|split; vm_compute; reflexivity]|]). apply Forall_nil.
  - vm_compute. auto.
Qed.

(** ** C20: full claim: a strict prefix gives [NotEnough n] with [n] not above what is
    missing, and the position is restored. *)
Theorem C20_try_read_refuted : exists e c n,
  packet_enc P0 p_num e /\ c_pos c <= c_len c /\ strict_prefix (c_rest c) e /\
  fst (pkt_try_read P0 c) = Ok (NotEnough n) /\ c_pos (snd (pkt_try_read P0 c)) <> c_pos c.
Proof.
  exists (wire p_num), (mk_cursor (firstn 40 (wire p_num)) 0), 36.
  split; [exact p_num_enc|split; [vm_compute; discriminate|split]].
  - exists (skipn 40 (wire p_num)). split; [vm_compute; discriminate|]. vm_compute. reflexivity.
  - vm_compute. split; [reflexivity|discriminate].
Qed.
Print Assumptions C20_try_read_refuted.

(** The truncated payload header is reported as an error instead of [NotEnough]. *)
Theorem C20_error_refuted : exists e c n,
  packet_enc P0 p_num e /\ c_pos c <= c_len c /\ strict_prefix (c_rest c) e /\
  fst (pkt_try_read P0 c) = Err (ENotEnoughData n).
Proof.
  exists (wire p_num), (mk_cursor (firstn 90 (wire p_num)) 0), 2.
  split; [exact p_num_enc|split; [vm_compute; discriminate|split]].
  - exists (skipn 90 (wire p_num)). split; [vm_compute; discriminate|]. vm_compute. reflexivity.
  - vm_compute. reflexivity.
Qed.
Print Assumptions C20_error_refuted.

(** What holds: never success, never another error, the count is positive and never
    more than what is missing; the position is kept except in the middle range, where
    it is left after the header. *)
Theorem C20_try_read_partial : forall U (P : proto U) (p : packet U) e c,
  proto_ok P -> packet_enc P p e -> (length (p_blocks p) <= 256)%nat ->
  c_pos c <= c_len c -> strict_prefix (c_rest c) e ->
  exists n, 0 < n /\ n <= blen e - blen (c_rest c) /\
    (blen (c_rest c) < 29 -> pkt_try_read P c = (Ok (NotEnough n), c)) /\
    (29 <= blen (c_rest c) -> blen (c_rest c) < blen e - 29 ->
       pkt_try_read P c = (Ok (NotEnough n), mk_cursor (c_data c) (c_pos c + 29))) /\
    (29 <= blen (c_rest c) -> blen e - 29 <= blen (c_rest c) ->
       pkt_try_read P c = (Ok (NotEnough n), c) \/ pkt_try_read P c = (Err (ENotEnoughData n), c)).
Proof. intros U P p e c. exact (try_read_truncated P p e c). Qed.
Print Assumptions C20_try_read_partial.
Example C20_example :
  let c n := mk_cursor (str "ab" ++ firstn n (wire p_num)) 2 in
  strict_prefix (c_rest (c 80%nat)) (wire p_num) /\
  on_fst (rmap (smap obs)) (pkt_try_read P0 (c 20%nat)) = (Ok (NotEnough 9), c 20%nat) /\
  on_fst (rmap (smap obs)) (pkt_try_read P0 (c 80%nat)) = (Ok (NotEnough 7), c 80%nat).
Proof.
  cbv zeta. split; [|vm_compute; auto].
  exists (skipn 80 (wire p_num)). split; [vm_compute; discriminate|]. vm_compute. reflexivity.
Qed.

(** ** C21: full claim: the packet round trip for every documented checksum length. *)
Definition P_wide : proto N := mk_proto [sc_a] [k_wide].
Definition p_wide : packet N := mk_packet [b_a] (Some (PUser k_wide 5)).

Theorem C21_checksum_length_refuted : exists e body crc,
  proto_ok P_wide /\ payload_ok (pr_kinds P_wide) (PUser k_wide 5) body crc /\
  written (pkt_write_all p_wide) e /\ fst (pkt_read stream_reader P_wide e) = Err (EIo UnexpectedEof).
Proof.
  exists (wire p_wide), (le 4 5), (le 8 (5 * 2654435761)).
  split; [split; apply nodup_bytes; vm_compute; reflexivity|].
  split; [|split; vm_compute; reflexivity].
  split; [now left|]. unfold encodes. cbn [k_wide pk_body pk_size pk_decode pk_crc pk_sig].
  repeat split; try (vm_compute; (reflexivity || discriminate)); vm_compute; auto.
Qed.
Print Assumptions C21_checksum_length_refuted.

(** The reason, for every payload: the size field of the packet header counts four
    bytes of checksum whatever its length is. *)
Theorem C21_size_field : forall U (P : proto U) (bs : list block) pl body crc h,
  Forall (block_ok (pr_blocks P)) bs -> payload_ok (pr_kinds P) pl body crc ->
  hdr_new (mk_packet bs (Some pl)) = Ok h ->
  h_size h + blen crc =
  blen (concat (map bk_encode bs)) + blen (ph_bytes (mk_pheader (pl_sig pl) crc (blen body)) ++ body) + 4.
Proof.
  intros U P bs pl body crc h HB HP E. unfold hdr_new, payload_size in E. cbn [p_blocks p_payload] in E.
  rewrite (pl_size_ok _ _ _ _ HP) in E. cbn [rbind] in E. apply ok_inj in E. subst h. cbn [h_size].
  rewrite (blocks_len_sum _ _ HB). unfold pl_header_ssize, pl_crc_size.
  rewrite !blen_app. unfold ph_bytes. rewrite !blen_app, blen_le4, !blen1. cbn [ph_sig ph_crc ph_len]. lia.
Qed.
Print Assumptions C21_size_field.

(** What holds: checksums of four bytes (the default). *)
Theorem C21_checksum_length_partial : forall U (P : proto U) (bs : list block) pl body crc,
  proto_ok P -> Forall (block_ok (pr_blocks P)) bs -> payload_ok (pr_kinds P) pl body crc -> blen crc = 4 ->
  (length bs <= 256)%nat ->
  let tail := ph_bytes (mk_pheader (pl_sig pl) crc (blen body)) ++ body in
  blen (concat (map bk_encode bs)) + blen tail < two63 ->
  exists e, written (pkt_write_all (mk_packet bs (Some pl))) e /\
    fst (pkt_read stream_reader P e) = Ok (mk_packet bs (Some pl)).
Proof.
  intros U P bs pl body crc HP HB HPL L4 H256 tail HL.
  set (p := mk_packet bs (Some pl)).
  set (e := layout_header (blen (concat (map bk_encode bs)) + blen tail) (blen (concat (map bk_encode bs))) true
            ++ concat (map bk_encode bs) ++ tail).
  assert (HE : packet_enc P p e).
  { exists tail. split; [exact HB|split; [exists body, crc; auto|split; [exact HL|reflexivity]]]. }
  exists e. destruct (C01_read_round_trip U P p e HP HE H256) as (W & Q). split; [exact W|].
  destruct (Q _ _ _ _ stream_lawful e [] I) as (s' & -> & _); [now rewrite app_nil_r|reflexivity].
Qed.
Print Assumptions C21_checksum_length_partial.
Example C21_example : exists body crc, payload_ok (pr_kinds P0) (PUser k_num 77) body crc /\ blen crc = 4.
Proof. exists (le 4 77), (crc32_le (le 4 77)). split; [|reflexivity]. split; [now left|]. apply num_encodes. reflexivity. Qed.

(** And what happens with all longer ones: [read] always fails, and the last bytes of the packet stay in the source; the two
    [try_read]s do not look at the size and return the packet. *)
Theorem C21_long_checksum : forall U (P : proto U) (bs : list block) pl body crc,
  proto_ok P -> Forall (block_ok (pr_blocks P)) bs -> payload_ok (pr_kinds P) pl body crc -> 4 < blen crc ->
  (length bs <= 256)%nat ->
  let tail := ph_bytes (mk_pheader (pl_sig pl) crc (blen body)) ++ body in
  blen (concat (map bk_encode bs)) + blen tail < two63 ->
  exists e left, written (pkt_write_all (mk_packet bs (Some pl))) (e ++ left) /\ blen left = blen crc - 4 /\
    (forall S (R : reader S) view okst, lawful R view okst -> forall s rest, okst s -> view s = (e ++ left) ++ rest ->
       exists s', pkt_read R P s = (Err (EIo UnexpectedEof), s') /\ okst s' /\ view s' = left ++ rest) /\
    (forall c rest, c_pos c <= c_len c -> c_rest c = (e ++ left) ++ rest ->
       pkt_try_read P c = (Ok (Success (mk_packet bs (Some pl))), c_seek (c_pos c + blen (e ++ left)) c)) /\
    (forall cur evs, pkt_try_read_buf P (mk_bufsrc ((e ++ left) ++ cur) evs) = (Ok (Success (mk_packet bs (Some pl))), mk_bufsrc cur evs)).
Proof.
  intros U P bs pl body crc HP HB HPL L4 H256 tail HL.
  destruct (long_written P bs pl body crc HB HPL HL) as (size & SZ & W & A). fold tail in SZ, W, A.
  set (blocks := concat (map bk_encode bs)) in *. set (k := N.to_nat (size - blen blocks)).
  assert (LT : size < blen blocks + blen tail) by lia. specialize (A ltac:(lia)).
  assert (GE : blen blocks <= size).
  { unfold tail in SZ. unfold ph_bytes in SZ. rewrite !blen_app in SZ. cbn [ph_crc] in SZ. lia. }
  assert (LK : (k < length tail)%nat) by (unfold k, blen in *; lia).
  exists (layout_header size (blen blocks) true ++ blocks ++ firstn k tail), (skipn k tail).
  assert (EE : (layout_header size (blen blocks) true ++ blocks ++ firstn k tail) ++ skipn k tail = layout_header size (blen blocks) true ++ blocks ++ tail)
    by now rewrite <- !app_assoc, firstn_skipn.
  rewrite EE. split; [exact W|]. split.
  { unfold blen at 1. rewrite skipn_length. unfold k, blen in *. lia. }
  split; [|split].
  - intros S R view okst L s rest O V. exact (long_read R view okst L P bs pl body crc size s rest HP HB HPL H256 HL LT GE O V).
  - intros c rest O V. now destruct (pkt_try_read_any P _ size _ c rest HP A H256 O V) as (Q & _).
  - intros cur evs. exact (pkt_try_read_buf_any P _ size _ cur evs HP A H256).
Qed.
Print Assumptions C21_long_checksum.
Example C21_long_example : exists body crc, proto_ok P_wide /\ payload_ok (pr_kinds P_wide) (PUser k_wide 5) body crc /\ blen crc = 8 /\
  block_ok (pr_blocks P_wide) b_a /\
  on_fst (rmap obs) (pkt_read stream_reader P_wide (wire p_wide ++ str "next")) = (Err (EIo UnexpectedEof), skipn (length (wire p_wide) - 4) (wire p_wide) ++ str "next") /\
  rmap (smap obs) (fst (pkt_try_read P_wide (mk_cursor (wire p_wide) 0))) = Ok (Success (obs p_wide)).
Proof.
  exists (le 4 5), (le 8 (5 * 2654435761)).
  split; [split; apply nodup_bytes; vm_compute; reflexivity|].
  split; [split; [now left|]; unfold encodes; cbn [k_wide pk_body pk_size pk_decode pk_crc pk_sig];
    repeat split; try (vm_compute; (reflexivity || discriminate)); vm_compute; auto|].
  split; [reflexivity|]. split; [split; [now left|exact (proj2 b_a_ok)]|]. vm_compute. auto.
Qed.

(** ** C22: full claim: no reader panics on any bytes. *)
Definition forged (size bl : N) : bytes :=
  hdr_bytes (mk_header size bl false (unle (crc32_le (le 8 size ++ le 8 bl ++ [n2b 0])))).

Theorem C22_no_panic_refuted : exists bs,
  length bs = 29%nat /\
  fst (pkt_read stream_reader P0 bs) = Panic PCapacity /\ fst (filtered stream_reader P0 [] bs) = Panic PCapacity.
Proof. exists (forged two63 0). vm_compute. auto. Qed.
Print Assumptions C22_no_panic_refuted.

(** What holds: [try_read] never panics; [read] and [filtered] only when a header with a
    valid checksum announces 2^63 bytes or more. *)
Theorem C22_no_panic_partial : forall U (P : proto U),
  (forall c w, c_pos c <= c_len c -> fst (pkt_try_read P c) <> Panic w) /\
  (forall s w, fst (pkt_try_read_buf P s) <> Panic w) /\
  (forall S (R : reader S) view okst, lawful R view okst -> forall s w, okst s ->
     fst (pkt_read R P s) = Panic w ->
     w = PCapacity /\ exists h s1, hdr_read R s = (Ok h, s1) /\ two63 <= h_size h) /\
  (forall S (R : reader S) view okst, lawful R view okst -> forall rs s w, okst s ->
     fst (filtered R P rs s) = Panic w ->
     w = PCapacity /\ exists h s1, hdr_read R s = (Ok h, s1) /\ two63 <= h_size h).
Proof.
  intros U P. split; [|split; [|split]].
  - intros c w O E. destruct (pkt_try_read P c) as [r c'] eqn:ER. cbn [fst] in E. subst r.
    exact (pres_nopanic _ _ _ _ (pkt_try_read_pres P c O) ER).
  - intros s w E. destruct (pkt_try_read_buf P s) as [r s'] eqn:ER. cbn [fst] in E. subst r.
    exact (pres_nopanic _ _ _ _ (pkt_try_read_buf_pres P s) ER).
  - intros S R view okst L s w O E. destruct (pkt_read R P s) as [r s'] eqn:ER. cbn [fst] in E. subst r.
    destruct (pkt_read_panic R view okst L P s w s' O ER) as (h & s1 & E1 & E2 & E3). eauto.
  - intros S R view okst L rs s w O E. destruct (filtered R P rs s) as [r s'] eqn:ER. cbn [fst] in E. subst r.
    destruct (filtered_panic R view okst L P rs s w s' O ER) as (h & s1 & E1 & E2 & E3). eauto.
Qed.
Print Assumptions C22_no_panic_partial.
Example C22_example :
  fst (pkt_read stream_reader P0 (forged 10 5000 ++ str "0123456789")) = Err ESignatureDismatch /\
  fst (pkt_try_read P0 (mk_cursor (forged (two63 + 7) 5000 ++ str "0123456789") 0)) = Ok (NotEnough (two63 + 7 - 39)).
Proof. vm_compute. auto. Qed.

(** ** C53: full claim: different full paths give different signatures. *)
Theorem C53_signatures_refuted : exists sc sc',
  s_path sc <> s_path sc' /\ schema_ok sc /\ schema_ok sc' /\ blk_sig sc = blk_sig sc'.
Proof.
  exists sc_a, (mk_schema (str "crate::other") (s_name sc_a) (s_fields sc_a) false).
  split; [vm_compute; discriminate|]. split; [exact sc_a_ok|]. split; [exact sc_a_ok|]. reflexivity.
Qed.
Print Assumptions C53_signatures_refuted.

(** For every definition and every other path, and with the same bytes on the wire: the
    first declared type gets the other type's blocks. *)
Theorem C53_path_has_no_effect : forall sc path vs,
  let sc' := mk_schema path (s_name sc) (s_fields sc) (s_no_crc sc) in
  blk_sig sc' = blk_sig sc /\ blk_encode sc' vs = blk_encode sc vs /\
  (schema_ok sc -> vals_ok sc vs -> forall scs rest,
     bk_read_from_slice (sc' :: sc :: scs) (blk_encode sc vs ++ rest) false = Ok (mk_block sc' vs)).
Proof.
  intros sc path vs sc'. split; [reflexivity|split; [reflexivity|]]. intros HS HV scs rest.
  destruct (block_round_trip sc' vs HS HV) as (_ & _ & _ & Q & _).
  cbn [bk_read_from_slice]. change (blk_encode sc vs) with (blk_encode sc' vs). now rewrite Q.
Qed.
Print Assumptions C53_path_has_no_effect.
Example C53_example : rmap obs_block (bk_read_from_slice
   [mk_schema (str "other") (str "BlockA") (s_fields sc_a) false; sc_a] (bk_encode b_a) false)
  = Ok (str "BlockA", bk_encode b_a).
Proof. vm_compute. reflexivity. Qed.

(** Different names can share a signature too; the blocks of one type are then read as the other type. *)
Definition sc_plumless : schema := mk_schema (str "crate") (str "Plumless") [(str "id", TU W32)] false.
Definition sc_buckeroo : schema := mk_schema (str "crate") (str "Buckeroo") [(str "id", TU W32)] false.
Theorem C53_names_refuted : exists sc sc' vs,
  names_ok sc /\ names_ok sc' /\ schema_ok sc /\ schema_ok sc' /\ vals_ok sc vs /\ s_name sc <> s_name sc' /\ blk_sig sc = blk_sig sc' /\
  bk_read_from_slice [sc'; sc] (blk_encode sc vs) false = Ok (mk_block sc' vs).
Proof.
  assert (N : forall n, forallb (fun b => negb (existsb (N.eqb (b2n b)) [58; 59; 91; 93])) n = true -> ident n).
  { intros n H b I J. rewrite forallb_forall in H. apply H in I. apply negb_true_iff in I.
    assert (T : existsb (N.eqb (b2n b)) [58; 59; 91; 93] = true) by (apply existsb_exists; exists (b2n b); split; [exact J|apply N.eqb_refl]). congruence. }
  assert (NS : forall n, ident n -> names_ok (mk_schema (str "crate") n [(str "id", TU W32)] false)).
  { intros n H. split; [exact H|]. constructor; [|constructor]. split; [|exact I]. now apply N. }
  assert (OK : forall n, schema_ok (mk_schema (str "crate") n [(str "id", TU W32)] false)).
  { intros n. constructor; [|constructor]. split; [discriminate|exact I]. }
  exists sc_plumless, sc_buckeroo, [VN 7].
  split; [apply NS, N; reflexivity|]. split; [apply NS, N; reflexivity|]. split; [apply OK|]. split; [apply OK|].
  split; [repeat constructor|]. split; [discriminate|]. split; [vm_compute; reflexivity|]. vm_compute. reflexivity.
Qed.
Print Assumptions C53_names_refuted.

(** What holds: the signature is the checksum of a text that determines the name and the names and types of the fields, so types
    that differ in one of these have different signatures unless two texts happen to have the same checksum; this cannot happen
    when the texts have the same length and differ in at most four consecutive bytes. *)
Theorem C53_signature_partial : forall sc,
  blk_sig sc = crc32_le (signature_text sc) /\
  forall sc', names_ok sc -> names_ok sc' ->
    (s_name sc <> s_name sc' \/
     map (fun f => (fst f, rust_type (snd f))) (s_fields sc) <> map (fun f => (fst f, rust_type (snd f))) (s_fields sc')) ->
    signature_text sc <> signature_text sc' /\
    (burst 4 (signature_text sc) (signature_text sc') -> blk_sig sc <> blk_sig sc').
Proof.
  intros sc. assert (Q : forall sc, blk_sig sc = crc32_le (signature_text sc)) by (intros x; unfold blk_sig; now rewrite snapshot_text).
  split; [apply Q|]. intros sc' N N' D.
  assert (T : signature_text sc <> signature_text sc') by (intros E; apply text_determines in E; auto; tauto).
  split; [exact T|]. intros (pre & w & w' & post & E & E' & L & L4). rewrite !Q, E, E'. intros C. apply T. rewrite E, E'. do 2 f_equal.
  apply (crc32_burst pre w w' post L L4). apply (f_equal unle) in C. unfold crc32_le in C. now rewrite !unle_le in C by apply crc32_bound.
Qed.
Print Assumptions C53_signature_partial.
Example C53_partial_example :
  let a := mk_schema (str "crate") (str "Frame1") [(str "id", TU W32); (str "raw", TBlob 12)] false in
  let b := mk_schema (str "crate") (str "Frame2") [(str "id", TU W32); (str "raw", TBlob 12)] false in
  burst 4 (signature_text a) (signature_text b) /\ blk_sig a <> blk_sig b.
Proof.
  cbv zeta. split; [|vm_compute; discriminate]. exists (str "Frame"), (str "1"), (str "2"), (str ";__sig:[u8;4];id:u32;raw:[u8;12];__crc:[u8;4]").
  vm_compute. repeat split; auto.
Qed.

(** ** C55: full claim: [pkt_read] accepts only what [pkt_write_all] produces. *)
Definition flag2 (e : bytes) : bytes := firstn 24 e ++ [n2b 2] ++ skipn 25 e.

Theorem C55_canonical_refuted : exists e1 e2,
  e1 <> e2 /\ fst (pkt_read stream_reader P0 e1) = Ok p_void /\ fst (pkt_read stream_reader P0 e2) = Ok p_void.
Proof. exists (wire p_void), (flag2 (wire p_void)). vm_compute. repeat split; discriminate. Qed.
Print Assumptions C55_canonical_refuted.

(** Blocks: a bool byte other than 1 means false, and the checksum does not see it. *)
Theorem C55_block_refuted : exists sc e1 e2 vs,
  e1 <> e2 /\ schema_ok sc /\ blk_read_from_slice sc e1 false = Ok vs /\ blk_read_from_slice sc e2 false = Ok vs.
Proof.
  exists sc_a, (blk_encode sc_a [VN 7; VBool false; VZ 3]),
    (firstn 8 (blk_encode sc_a [VN 7; VBool false; VZ 3]) ++ [n2b 9] ++ skipn 9 (blk_encode sc_a [VN 7; VBool false; VZ 3])),
    [VN 7; VBool false; VZ 3].
  split; [vm_compute; discriminate|split; [exact sc_a_ok|]]. vm_compute. auto.
Qed.
Print Assumptions C55_block_refuted.

(** What holds: blocks without bool fields whose linked enums have one byte per variant,
    and the packet header up to the flag byte. *)
Theorem C55_canonical_partial :
  (forall sc, schema_ok sc -> Forall canon_ty (s_tys sc) ->
     (forall src vs, blk_read_from_slice sc src false = Ok vs -> exists rest, src = blk_encode sc vs ++ rest) /\
     (forall S (R : reader S) view okst, lawful R view okst -> forall s vs s', okst s ->
        blk_read R sc false s = (Ok vs, s') -> view s = blk_encode sc vs ++ view s')) /\
  (forall buf h, hdr_read_from_slice buf = Ok h ->
     exists fl rest, buf = firstn 24 (hdr_bytes h) ++ [fl] ++ skipn 25 (hdr_bytes h) ++ rest
       /\ h_payload h = (b2n fl =? 1)).
Proof.
  split.
  - intros sc HS HC. split; [intros src vs; now apply block_canonical_slice|].
    intros S R view okst L s vs s' O E. exact (block_canonical_stream R view okst L sc s vs s' HS HC O E).
  - exact header_canonical.
Qed.
Print Assumptions C55_canonical_partial.
Example C55_example : schema_ok sc_b /\ Forall canon_ty (s_tys sc_b).
Proof.
  split; [exact sc_b_ok|]. constructor; [exact I|constructor; [|constructor; [exact I|constructor]]].
  intros b v. cbn [colour l_of l_to]. destruct ((1 <=? b2n b) && (b2n b <=? 3)) eqn:E; [|discriminate].
  intros H. inversion H; subst. replace (b2n b - 1 + 1) with (b2n b) by lia. apply n2b_b2n.
Qed.

(** Bytes behind the contents are ignored when the header counts them. *)
Theorem C55_slack_refuted : exists e1 e2,
  length e1 <> length e2 /\ pkt_read stream_reader P0 e1 = (Ok p_void, []) /\ pkt_read stream_reader P0 e2 = (Ok p_void, []).
Proof. exists (wire p_void), (forged 5 0 ++ str "slack"). split; [vm_compute; discriminate|]. vm_compute. auto. Qed.
Print Assumptions C55_slack_refuted.

(** Exactly what a stream may hold for a block to be read from it: [block_taken] (Spec.v). *)
Theorem C55_block_exact : forall S (R : reader S) view okst, lawful R view okst ->
  forall sc s, schema_ok sc -> okst s ->
  (forall vs s', blk_read R sc false s = (Ok vs, s') -> exists e, block_taken (mk_block sc vs) e /\ view s = e ++ view s') /\
  (forall vs e rest, block_taken (mk_block sc vs) e -> view s = e ++ rest ->
     exists s', blk_read R sc false s = (Ok vs, s') /\ view s' = rest).
Proof.
  intros S R view okst L sc s HS O. destruct (block_exact R view okst L sc s HS O) as (A & B). split.
  - intros vs s' E. now apply A in E as (_ & E).
  - intros vs e rest H V. destruct (B vs e rest H V) as (s' & E & V' & _). eauto.
Qed.
Print Assumptions C55_block_exact.
Example C55_block_example : exists e, e <> blk_encode sc_a [VN 7; VBool true; VZ 3] /\
  block_taken (mk_block sc_a [VN 7; VBool true; VZ 3]) e /\ blk_read stream_reader sc_a false e = (Ok [VN 7; VBool true; VZ 3], []).
Proof.
  set (e0 := blk_encode sc_a [VN 7; VBool true; VZ 3]). set (e := firstn 8 e0 ++ [n2b 9] ++ skipn 9 e0).
  assert (E : blk_read stream_reader sc_a false e = (Ok [VN 7; VBool true; VZ 3], [])) by (vm_compute; reflexivity).
  exists e. split; [vm_compute; discriminate|]. split; [|exact E].
  destruct (proj1 (C55_block_exact _ _ _ _ stream_lawful sc_a e sc_a_ok I) _ _ E) as (e' & T & V). rewrite app_nil_r in V. now rewrite V.
Qed.

(** Exactly what a stream may hold for a packet to be read from it: [packet_taken] (Spec.v). *)
Theorem C55_packet_exact : forall U (P : proto U) S (R : reader S) view okst, lawful R view okst ->
  Forall schema_ok (pr_blocks P) -> forall s, okst s ->
  (forall p s', pkt_read R P s = (Ok p, s') -> exists e, packet_taken P p e /\ view s = e ++ view s') /\
  (proto_ok P -> forall p e rest, packet_taken P p e -> view s = e ++ rest ->
     exists s', pkt_read R P s = (Ok p, s') /\ view s' = rest).
Proof.
  intros U P S R view okst L HS s O. split.
  - intros p s' E. now destruct (packet_taken_inv R view okst L P s p s' HS O E) as (_ & Q).
  - intros HP p e rest H V. destruct (packet_taken_rt R view okst L P s p e rest HP HS O H V) as (s' & E & V' & _). eauto.
Qed.
Print Assumptions C55_packet_exact.
Example C55_packet_example : Forall schema_ok (pr_blocks P0) /\ proto_ok P0 /\
  packet_taken P0 p_void (flag2 (forged 5 0) ++ str "slack") /\
  pkt_read stream_reader P0 (flag2 (forged 5 0) ++ str "slack" ++ str "next") = (Ok p_void, str "next").
Proof.
  split; [constructor; [exact sc_a_ok|constructor; [exact sc_b_ok|constructor; [exact sc_e_ok|constructor]]]|]. split; [exact P0_ok|]. split; [|vm_compute; reflexivity].
  exists [], (n2b 2), [], (str "slack"). split; [constructor|]. split; [constructor|]. split; [cbn; lia|].
  split; [split; [vm_compute; discriminate|reflexivity]|]. vm_compute. auto.
Qed.

(** ** C57: full claim: the names of the fields have no influence on what is read. *)
Definition sc_named (no_crc : bool) : schema :=
  mk_schema (str "crate") (str "Named") [(str "n", TU W16); (str "crc", TBlob 4)] no_crc.

Theorem C57_crc_name_refuted : exists sc vs vs',
  Forall (fun f => ty_ok (snd f)) (s_fields sc) /\ vals_ok sc vs /\
  blk_read_from_slice sc (blk_encode sc vs) false = Ok vs' /\ vs' <> vs.
Proof.
  exists (sc_named true), [VN 7; VBlob (str "abcd")], [VN 7; VBlob (repeat (n2b 0) 4)].
  split; [repeat constructor|]. split; [repeat constructor|]. split; [vm_compute; reflexivity|vm_compute; discriminate].
Qed.
Print Assumptions C57_crc_name_refuted.

(** For all types with a field [crc: [u8; 4]]: without checksum the field is read as zeros, with checksum the block is
    refused unless the field happens to hold the checksum. *)
Theorem C57_crc_name : forall sc fs1 fs2 v1 b v2,
  s_fields sc = fs1 ++ (str "crc", TBlob 4) :: fs2 -> Forall plain_field fs1 -> Forall plain_field fs2 ->
  length v1 = length fs1 -> vals_ok sc (v1 ++ VBlob b :: v2) ->
  let e := blk_encode sc (v1 ++ VBlob b :: v2) in let o := crc_field_outcome sc v1 b v2 in
  (forall S (R : reader S) view okst, lawful R view okst -> forall s rest, okst s -> view s = e ++ rest ->
     fst (blk_read R sc false s) = o) /\
  (forall rest, blk_read_from_slice sc (e ++ rest) false = o) /\
  (forall c rest, c_pos c <= c_len c -> c_rest c = e ++ rest -> fst (blk_try_read sc c) = lift_status o) /\
  (forall s rest, b_ok s -> (4 <= length (b_cur s))%nat -> b_view s = e ++ rest ->
     fst (blk_try_read_buf sc s) = lift_status o).
Proof. exact crc_field_readers. Qed.
Print Assumptions C57_crc_name.
Example C57_example :
  s_fields (sc_named false) = [(str "n", TU W16)] ++ (str "crc", TBlob 4) :: [] /\
  Forall plain_field [(str "n", TU W16)] /\ vals_ok (sc_named false) ([VN 7] ++ VBlob (str "abcd") :: []) /\
  blk_read_from_slice (sc_named false) (blk_encode (sc_named false) [VN 7; VBlob (str "abcd")]) false = Err ECrcDismatch.
Proof.
  split; [reflexivity|]. split; [repeat constructor; discriminate|]. split; [repeat constructor|]. vm_compute. reflexivity.
Qed.

(** What holds: all other names are irrelevant (missing: the name [crc]). *)
Theorem C57_names_partial : forall sc sc', schema_ok sc -> schema_ok sc' -> s_tys sc = s_tys sc' -> s_no_crc sc = s_no_crc sc' ->
  (forall S (R : reader S) s, blk_read R sc true s = blk_read R sc' true s) /\
  (forall src, blk_read_from_slice sc src true = blk_read_from_slice sc' src true) /\
  (forall vs, fields_bytes (s_tys sc) vs ++ blk_crc sc vs = fields_bytes (s_tys sc') vs ++ blk_crc sc' vs).
Proof. exact names_irrelevant. Qed.
Print Assumptions C57_names_partial.
Example C57_names_example : let sc' := mk_schema (str "crate::x") (str "Other") (map (fun f => (str "x" ++ fst f, snd f)) (s_fields sc_b)) (s_no_crc sc_b) in
  schema_ok sc' /\ s_tys sc_b = s_tys sc' /\ map fst (s_fields sc') <> map fst (s_fields sc_b).
Proof.
  cbv zeta. split; [|split; [reflexivity|vm_compute; discriminate]].
  pose proof sc_b_ok as H. unfold schema_ok in *. cbn [s_fields]. apply Forall_map. eapply Forall_impl; [|exact H].
  intros f [_ T]. split; [|exact T]. cbn [fst]. vm_compute. discriminate.
Qed.

(** ** C58: full claim: a change of up to four consecutive bytes in a payload is noticed, whatever the type of the payload.
    One changed byte, and the packet is read with a different text and no error: the checksum of the text is compared after
    invalid bytes were replaced by U+FFFD. *)
Definition p_code (text : bytes) : packet N := mk_packet [b_e] (Some (PString text)).
Theorem C58_string_refuted : exists t t' e e',
  packet_enc P0 (p_code t) e /\ burst 1 e e' /\ t' <> t /\ pkt_read stream_reader P0 e' = (Ok (p_code t'), []).
Proof.
  exists (str "jkaicode"), (str "jkaicod" ++ map n2b [239; 191; 189]).
  exists (wire (p_code (str "jkaicode"))), (firstn (length (wire (p_code (str "jkaicode"))) - 1) (wire (p_code (str "jkaicode"))) ++ [n2b 255]).
  split.
  { set (body := str "jkaicode"). exists (ph_bytes (mk_pheader (pk_sig string_kind) (crc32_le body) 8) ++ body).
    split; [constructor; [exact b_e_ok|constructor]|]. split; [|split; [vm_compute; reflexivity|vm_compute; reflexivity]].
    exists body, (crc32_le body). split; [|split; reflexivity].
    assert (U8 : utf8 body).
    { exists (map b2n body). split; [|vm_compute; reflexivity]. repeat (constructor; [left; vm_compute; reflexivity|]). constructor. }
    split; [reflexivity|split; [exact U8|]]. apply encodes_string; [exact U8|]. vm_compute. easy. }
  split.
  { exists (firstn (length (wire (p_code (str "jkaicode"))) - 1) (wire (p_code (str "jkaicode")))), [n2b 101], [n2b 255], [].
    repeat split; try (vm_compute; reflexivity). }
  split; [vm_compute; discriminate|]. vm_compute. reflexivity.
Qed.
Print Assumptions C58_string_refuted.

(** What holds for every payload type with the default checksum: what is accepted has an encoding with the checksum of the
    original payload ... *)
Theorem C58_accepted_partial : forall V (k : pkind V), auto_crc k ->
  forall S (R : reader S) view okst, lawful R view okst ->
  forall v body body' s rest, pk_body k v = IOk body -> blen body' = blen body -> okst s -> view s = body' ++ rest ->
  exists o s', pk_read R k (mk_pheader (pk_sig k) (crc32_le body) (blen body)) s = (o, s') /\ view s' = rest /\
  match o with
  | Ok v' => pk_decode k body' = IOk v' /\ exists b, pk_body k v' = IOk b /\ crc32_le b = crc32_le body
  | Err _ => True
  | Panic _ => False
  end.
Proof. intros V k A S R view okst L v body body' s rest. exact (damaged_payload k R view okst L v body body' s rest A). Qed.
Print Assumptions C58_accepted_partial.

(** ... so the damage is noticed whenever the damaged bytes are not a second spelling of some value (missing: types whose
    decoder accepts several spellings, such as String) ... *)
Theorem C58_corruption_partial : forall V (k : pkind V), auto_crc k ->
  forall S (R : reader S) view okst, lawful R view okst ->
  forall v body body' s rest, pk_body k v = IOk body -> burst 4 body body' -> body' <> body ->
  (forall v', pk_decode k body' = IOk v' -> pk_body k v' = IOk body') ->
  okst s -> view s = body' ++ rest ->
  exists e s', pk_read R k (mk_pheader (pk_sig k) (crc32_le body) (blen body)) s = (Err e, s') /\ view s' = rest.
Proof. intros V k A S R view okst L v body body' s rest. exact (damaged_payload_refused k R view okst L v body body' s rest A). Qed.
Print Assumptions C58_corruption_partial.
Example C58_corruption_example :
  auto_crc k_num /\ pk_body k_num 77 = IOk (le 4 77) /\ burst 4 (le 4 77) (le 4 1000000) /\
  (forall v', pk_decode k_num (le 4 1000000) = IOk v' -> pk_body k_num v' = IOk (le 4 1000000)).
Proof.
  split; [intros v; reflexivity|]. split; [reflexivity|]. split; [exists [], (le 4 77), (le 4 1000000), []; vm_compute; auto|].
  intros v' H. vm_compute in H. injection H as <-. vm_compute. reflexivity.
Qed.

(** ... and for texts whenever the damaged bytes are still UTF-8. *)
Theorem C58_text_partial : forall S (R : reader S) view okst, lawful R view okst ->
  forall t t' s rest, burst 4 t t' -> t' <> t -> utf8 t' -> okst s -> view s = t' ++ rest ->
  exists s', pk_read R string_kind (mk_pheader (pk_sig string_kind) (crc32_le t) (blen t)) s = (Err ECrcDismatch, s') /\ view s' = rest.
Proof. exact @damaged_text. Qed.
Print Assumptions C58_text_partial.
Example C58_text_example :
  let t := map n2b [104; 195; 169] in let t' := map n2b [104; 195; 170] in burst 4 t t' /\ t' <> t /\ utf8 t' /\
  pk_read stream_reader string_kind (mk_pheader (pk_sig string_kind) (crc32_le t) 3) (t' ++ str "rest") = (Err ECrcDismatch, str "rest").
Proof.
  cbv zeta. split; [exists (map n2b [104; 195]), [n2b 169], [n2b 170], []; repeat split; cbn; lia|]. split; [vm_compute; discriminate|].
  split; [|vm_compute; reflexivity]. exists [104; 234]. split; [|reflexivity]. constructor; [now left|constructor; [now left|constructor]].
Qed.

(** ** C80: what the bytes of a String payload become.  Every maximal beginning of a character that is not completed, and every
    byte that begins no character, is replaced by U+FFFD; the checksum is compared with that of the repaired text. *)
Theorem C80_text_reading : forall S (R : reader S) view okst, lawful R view okst -> forall body s rest, okst s -> view s = body ++ rest ->
  exists text, repaired body text /\ (forall text', repaired body text' -> text' = text) /\ utf8 text /\ (text = body <-> utf8 body) /\
  forall crc, exists s', view s' = rest /\
    let r := pk_read R string_kind (mk_pheader (pk_sig string_kind) crc (blen body)) s in
    (crc = crc32_le text -> r = (Ok text, s')) /\ (crc <> crc32_le text -> r = (Err ECrcDismatch, s')).
Proof.
  intros S R view okst L body s rest O W. exists (lossy body). split; [apply lossy_repaired|]. split; [apply repaired_lossy|].
  split; [exact (repaired_utf8 _ _ (lossy_repaired body))|]. split; [apply lossy_same|].
  intros crc. destruct (text_read R view okst L body crc s rest O W) as (s' & E & W' & _). exists s'. split; [exact W'|]. cbv zeta. rewrite E. split.
  - intros ->. now rewrite bytes_eqb_refl.
  - intros N. apply bytes_eqb_neq in N. now rewrite N.
Qed.
Print Assumptions C80_text_reading.
(** An e with an accent, the beginning of a euro sign, a lone continuation byte, a surrogate (three bytes, none of which go
    together), and the beginning of an emoji at the end. *)
Example C80_example :
  let body := map n2b [195; 169; 226; 130; 65; 128; 237; 160; 128; 240; 159; 146] in let u := map n2b [239; 191; 189] in
  let text := map n2b [195; 169] ++ u ++ [n2b 65] ++ u ++ u ++ u ++ u ++ u in
  lawful stream_reader (fun s => s) (fun _ => True) /\
  pk_read stream_reader string_kind (mk_pheader (pk_sig string_kind) (crc32_le text) 12) (body ++ str "rest") = (Ok text, str "rest") /\
  pk_read stream_reader string_kind (mk_pheader (pk_sig string_kind) (crc32_le body) 12) (body ++ str "rest") = (Err ECrcDismatch, str "rest").
Proof. cbv zeta. split; [exact stream_lawful|]. split; vm_compute; reflexivity. Qed.

(** ** C66: full claim: a packet that cannot be encoded is refused and leaves nothing in the sink. *)

(** The header and the blocks are in the sink before the payload is looked at; they swallow the packet written next. *)
Definition p_huge : packet N := mk_packet [b_a] (Some (PUser k_num two32)).
Theorem C66_trace_refuted : exists (p q : packet N) o1 o2,
  pkt_write_all p (mk_sink [] []) = (Err (EIo OtherIo), o1) /\ k_got o1 <> [] /\
  packet_enc P0 q (wire q) /\ pkt_write_all q o1 = (Ok tt, o2) /\
  exists e rest, pkt_read stream_reader P0 (k_got o2) = (Err e, rest) /\ (length rest < length (wire q))%nat.
Proof.
  exists p_huge, p_one. eexists. eexists. split; [vm_compute; reflexivity|]. split; [vm_compute; discriminate|]. split; [exact p_one_enc|].
  split; [vm_compute; reflexivity|]. eexists. eexists. split; [vm_compute; reflexivity|]. vm_compute. lia.
Qed.
Print Assumptions C66_trace_refuted.

(** A payload that does not fit the 32 bit length field is refused before a byte of it is written ... *)
Theorem C66_too_large : forall U (pl : payload U) n, pl_size pl = Ok n -> u32_max < n -> forall o,
  pl_write pl o = (Err (EIo OtherIo), o) /\ pl_write_all pl o = (Err (EIo OtherIo), o) /\ pl_slices pl = Err (EIo OtherIo).
Proof. exact @pl_too_large. Qed.
Print Assumptions C66_too_large.
(** ... and the length in the header of a payload that is written is its size, not truncated. *)
Theorem C66_length_field : forall U (pl : payload U) o, pl_write_all pl (mk_sink [] []) = (Ok tt, o) ->
  exists n crc body, pl_size pl = Ok n /\ n <= 4294967295 /\
    k_got o = ([n2b (blen (pl_sig pl))] ++ pl_sig pl ++ [n2b (blen crc)] ++ crc ++ le 4 n) ++ body.
Proof. exact @pl_delivered. Qed.
Print Assumptions C66_length_field.

(** A payload kind that says it has [n] bytes. *)
Definition k_size (n : N) : pkind N := mk_pkind N (crc32_le (str "Size")) (fun _ => IOk n) (fun _ => IOk (str "abc")) (fun _ => IOk (le 4 7)) (fun _ => IOk 0).
Example C66_limit_example :
  pl_size (PUser (k_size 4294967296) 0) = Ok 4294967296 /\ u32_max < 4294967296 /\
  fst (pl_write_all (PUser (k_size 4294967295) 0) (mk_sink [] [])) = Ok tt /\ fst (pl_write_all (PUser (k_size 4294967296) 0) (mk_sink [] [])) = Err (EIo OtherIo).
Proof. vm_compute. auto. Qed.

(** What is left of the full claim: [slices] gives nothing, [write_all] an error and exactly the packet's header, its blocks and
    possibly the payload's header (missing: none of it). *)
Theorem C66_unencodable_partial : forall U (P : proto U) (p : packet U) pl n e,
  p_payload p = Some pl -> Forall (block_ok (pr_blocks P)) (p_blocks p) -> pl_size pl = Ok n -> pl_slices pl = Err e ->
  let blocks := concat (map bk_encode (p_blocks p)) in let h := layout_header (blen blocks + (n + pl_header_ssize pl)) (blen blocks) true in
  pkt_slices p = Err e /\
  exists d, pkt_write_all p (mk_sink [] []) = (Err e, mk_sink (h ++ blocks ++ d) []) /\
  (d = [] \/ exists crc, d = ph_bytes (mk_pheader (pl_sig pl) crc n)).
Proof. exact @packet_cannot. Qed.
Print Assumptions C66_unencodable_partial.
Example C66_unencodable_example :
  Forall (block_ok (pr_blocks P0)) (p_blocks p_huge) /\ pl_size (PUser k_num two32) = Ok 4 /\ pl_slices (PUser k_num two32) = Err (EIo OtherIo).
Proof. split; [constructor; [exact b_a_ok|constructor]|]. vm_compute. auto. Qed.

(** ** C67: full claim: [PacketHeader::try_read] on a buffered source leaves it directly behind the header. *)
Theorem C67_position_refuted : exists s h s' rest,
  b_ok s /\ b_view s = layout_header 7 3 true ++ rest /\ hdr_try_read_buf s = (Ok (Success h), s') /\ b_view s' <> rest.
Proof.
  exists (of_slice (layout_header 7 3 true ++ str "rest")). eexists. eexists. exists (str "rest"). split; [constructor|]. split; [vm_compute; reflexivity|].
  split; [vm_compute; reflexivity|]. vm_compute. discriminate.
Qed.
Print Assumptions C67_position_refuted.

(** What holds: without enough buffered bytes nothing is consumed and the number of missing bytes is exact; a header is read as
    from a slice; twice its size is consumed (missing: once its size). *)
Theorem C67_buffered_partial : forall s buf s0, b_ok s -> fill_buf s = (Ok buf, s0) ->
  b_view s0 = b_view s /\ b_cur s0 = buf /\
  ((length buf < 29)%nat -> hdr_try_read_buf s = (Ok (NotEnough (29 - blen buf)), s0)) /\
  ((29 <= length buf)%nat ->
     fst (hdr_try_read_buf s) = rmap Success (hdr_read_from_slice buf) /\
     forall h s', hdr_try_read_buf s = (Ok (Success h), s') -> s' = mk_bufsrc (skipn 58 buf) (b_evs s0)).
Proof. exact header_buffered_full. Qed.
Print Assumptions C67_buffered_partial.
Example C67_example :
  let s := mk_bufsrc [] [Chunk (layout_header 7 3 true ++ repeat (n2b 9) 40); Chunk (str "x")] in
  b_ok s /\ exists h, hdr_try_read_buf s = (Ok (Success h), mk_bufsrc (repeat (n2b 9) 11) [Chunk (str "x")]).
Proof. cbv zeta. split; [repeat constructor|]. eexists. vm_compute. reflexivity. Qed.

(** ** C68: full claim: [get_pos] gives the first place of the packet signature, if there is one. *)
Definition sig_at (buf : bytes) (i : nat) : Prop := exists a b, buf = a ++ map n2b [236; 37; 94; 136; 236; 37; 94; 136] ++ b /\ length a = i.
Theorem C68_first_refuted : exists buf, sig_at buf 0 /\ get_pos buf = None.
Proof. exists packet_sig. split; [|vm_compute; reflexivity]. exists [], []. split; reflexivity. Qed.
Print Assumptions C68_first_refuted.

(** What holds: it is the first place, unless that is at the very end of the buffer (missing: there). *)
Theorem C68_first_partial : forall buf i, get_pos buf = Some i <->
  sig_at buf i /\ (i + 8 < length buf)%nat /\ forall j, (j < i)%nat -> ~ sig_at buf j.
Proof.
  assert (G : forall buf i, starts_with packet_sig (skipn i buf) = true <-> (length buf < i)%nat /\ False \/ sig_at buf i).
  { intros buf i. rewrite starts_with_app. split.
    - intros (r & E). right. exists (firstn i buf), r. change (map n2b _) with packet_sig. rewrite <- E, firstn_skipn. split; [reflexivity|].
      rewrite firstn_length. assert (length (skipn i buf) = length (packet_sig ++ r)) as Q by now rewrite E. rewrite skipn_length, app_length in Q. cbn in Q. lia.
    - intros [(_ & [])|(a & b & -> & <-)]. exists b. now rewrite skipn_app, skipn_all, Nat.sub_diag. }
  intros buf i. unfold get_pos. rewrite get_pos_go_spec. split.
  - intros (k & -> & L & S & F). cbn [Nat.add]. split; [apply G in S as [(_ & [])|S]; exact S|]. split; [exact L|].
    intros j J A. specialize (F j J). assert (starts_with packet_sig (skipn j buf) = true) by (apply G; auto). congruence.
  - intros (S & L & F). exists i. split; [reflexivity|]. split; [exact L|]. split; [apply G; auto|]. intros j J.
    destruct (starts_with packet_sig (skipn j buf)) eqn:E; [|reflexivity]. apply G in E as [(_ & [])|E]. now elim (F j J).
Qed.
Print Assumptions C68_first_partial.
Example C68_example : let buf := str "ab" ++ packet_sig ++ str "c" in
  sig_at buf 2 /\ (2 + 8 < length buf)%nat /\ get_pos buf = Some 2%nat.
Proof. cbv zeta. split; [exists (str "ab"), (str "c"); split; reflexivity|]. vm_compute. split; [lia|reflexivity]. Qed.

(** ** C74: full claim: a buffer with a strict prefix of a packet gives [NotEnough] and nothing is consumed, or the packet is read
    by fetching more. *)

(** The check forgets the 29 bytes of the header: when less than that is missing, header and blocks are consumed before the payload
    header is found incomplete, and the packet is lost although the rest arrives. *)
Theorem C74_consumed_refuted : exists a b, wire p_num = a ++ b /\ b <> [] /\ packet_enc P0 p_num (wire p_num) /\
  let s := mk_bufsrc [] [Chunk a; Chunk b] in let r := pkt_try_read_buf P0 s in
  (exists n, fst r = Err (ENotEnoughData n)) /\ b_view (snd r) = skipn 87 (wire p_num) /\
  exists n, fst (pkt_try_read_buf P0 (snd r)) = Ok (NotEnough n).
Proof.
  exists (firstn 90 (wire p_num)), (skipn 90 (wire p_num)).
  split; [symmetry; apply firstn_skipn|]. split; [vm_compute; discriminate|]. split; [exact p_num_enc|]. cbv zeta.
  assert (Q : forall (x : res (status (packet N))) n, rmap (smap (fun _ => tt)) x = Err (ENotEnoughData n) -> x = Err (ENotEnoughData n)) by (intros [[]|e|w] k E; now inversion E).
  assert (Q2 : forall (x : res (status (packet N))) n, rmap (smap (fun _ => tt)) x = Ok (NotEnough n) -> x = Ok (NotEnough n)) by (intros [[]|e|w] k E; now inversion E).
  split; [exists 2; apply Q; vm_compute; reflexivity|]. split; [vm_compute; reflexivity|]. exists 26. apply Q2. vm_compute. reflexivity.
Qed.
Print Assumptions C74_consumed_refuted.

(** What holds for any source, faulty ones included: as long as more than the last 29 bytes are missing, nothing is consumed (missing:
    the last 29 bytes; C74_pieces describes them for sources without faults). *)
Theorem C74_incomplete_partial : forall U (P : proto U) (p : packet U) e s buf s',
  packet_enc P p e -> fill_buf s = (Ok buf, s') -> strict_prefix buf e -> blen buf < 29 \/ blen buf < blen e - 29 ->
  exists n, 0 < n /\ n <= blen e - blen buf /\ pkt_try_read_buf P s = (Ok (NotEnough n), s') /\ b_view s' = b_view s.
Proof.
  intros U P p e s buf s' HE F SP L. destruct (try_read_buf_truncated P p e s buf s' HE F SP L) as (n & N0 & N1 & E).
  exists n. split; [exact N0|]. split; [exact N1|]. split; [exact E|]. exact (proj1 (fill_inner _ _ _ F)).
Qed.
Print Assumptions C74_incomplete_partial.

(** 60 of 105 bytes. *)
Example C74_example : let s := mk_bufsrc [] [Chunk (firstn 60 (wire p_num)); Chunk (skipn 60 (wire p_num))] in
  strict_prefix (firstn 60 (wire p_num)) (wire p_num) /\
  on_fst (rmap (smap obs)) (pkt_try_read_buf P0 s) = (Ok (NotEnough 16), mk_bufsrc (firstn 60 (wire p_num)) [Chunk (skipn 60 (wire p_num))]).
Proof. split; [exists (skipn 60 (wire p_num)); split; [vm_compute; discriminate|vm_compute; reflexivity]|vm_compute; reflexivity]. Qed.

(** The complete description for a packet that arrives in any pieces: [shown s n] is what the source shows at once when [n] bytes were
    taken.  Header and size are compared first.  Then each block must show its signature and the payload header must be shown whole
    when its turn comes: else header and the blocks before are gone. *)
Theorem C74_pieces : forall U (P : proto U) (p : packet U) e s rest,
  proto_ok P -> packet_enc P p e -> (length (p_blocks p) <= 256)%nat -> b_ok s -> b_view s = e ++ rest ->
  let size := blen e - 29 in
  let before bs := 29 + blen (concat (map bk_encode bs)) in
  let gives r n := exists s', pkt_try_read_buf P s = (r, s') /\ b_view s' = skipn (N.to_nat n) (b_view s) /\ b_ok s' in
  (shown s 0 < 29 -> gives (Ok (NotEnough (29 - shown s 0))) 0) /\
  (29 <= shown s 0 -> shown s 0 < size -> gives (Ok (NotEnough (size - shown s 0))) 0) /\
  (29 <= shown s 0 -> size <= shown s 0 ->
     (forall bs b bs', p_blocks p = bs ++ b :: bs' -> (forall pre x post, bs = pre ++ x :: post -> 4 <= shown s (before pre)) ->
        shown s (before bs) < 4 -> gives (Ok (NotEnough (4 - shown s (before bs)))) (before bs)) /\
     ((forall pre x post, p_blocks p = pre ++ x :: post -> 4 <= shown s (before pre)) ->
        (p_payload p = None -> gives (Ok (Success p)) (blen e)) /\
        (p_payload p <> None -> exists h body, ph_ok h /\ skipn (N.to_nat (before (p_blocks p))) e = ph_bytes h ++ body /\
           (shown s (before (p_blocks p)) < blen (ph_bytes h) ->
              gives (Err (ENotEnoughData (to_end (pheader_ends h) (shown s (before (p_blocks p)))))) (before (p_blocks p))) /\
           (blen (ph_bytes h) <= shown s (before (p_blocks p)) -> gives (Ok (Success p)) (blen e))))).
Proof. intros U P p e s rest. exact (pieces P p e s rest). Qed.
Print Assumptions C74_pieces.

(** 105 bytes, the payload header begins at 87: cut at 80 the packet is read, cut at 88 it is lost, cut at 87 it is read. *)
Example C74_pieces_example :
  let cut n := mk_bufsrc [] [Chunk (firstn n (wire p_num)); Chunk (skipn n (wire p_num))] in
  29 + blen (concat (map bk_encode (p_blocks p_num))) = 87 /\
  map (fun n => shown (cut n) 0) [80; 87; 88]%nat = [80; 87; 88] /\ map (fun n => shown (cut n) 87) [80; 87; 88]%nat = [18; 18; 1] /\
  rmap (smap obs) (fst (pkt_try_read_buf P0 (cut 80%nat))) = Ok (Success (obs p_num)) /\
  rmap (smap obs) (fst (pkt_try_read_buf P0 (cut 87%nat))) = Ok (Success (obs p_num)) /\
  rmap (smap obs) (fst (pkt_try_read_buf P0 (cut 88%nat))) = Err (ENotEnoughData 4).
Proof. cbv zeta. repeat split; vm_compute; reflexivity. Qed.

(** ** C86 *)
Theorem C86_header_round_trip : forall size bl flag, size < 2 ^ 64 -> bl < 2 ^ 64 ->
  exists h, h_size h = size /\ h_blocks_len h = bl /\ h_payload h = flag /\
  let e := hdr_bytes h in e = layout_header size bl flag /\ length e = 29%nat /\
  (forall S (R : reader S) view okst, lawful R view okst -> forall s rest, okst s -> view s = e ++ rest ->
     exists s', hdr_read R s = (Ok h, s') /\ view s' = rest /\ okst s') /\
  (forall rest, hdr_read_from_slice (e ++ rest) = Ok h) /\
  (forall c rest, c_pos c <= c_len c -> c_rest c = e ++ rest -> hdr_try_read c = (Ok (Success h), c_seek (c_pos c + 29) c)).
Proof.
  intros size bl flag HS HB. exists (mkh size bl flag). split; [reflexivity|]. split; [reflexivity|]. split; [reflexivity|].
  cbv zeta. rewrite mkh_bytes. split; [reflexivity|]. split; [apply layout_length|]. split; [|split].
  - intros S R view okst L s rest O V. exact (hdr_read_rt R view okst (lawful_okl _ _ _ L) s _ _ _ _ O V HS HB).
  - intros rest. now apply hdr_slice_rt.
  - intros c rest O V. exact (proj1 (hdr_try_rt c _ _ _ _ O HS HB V)).
Qed.
Print Assumptions C86_header_round_trip.

(** Fewer than the 29 bytes are never taken for a header; the seekable and the buffered reader say how many are missing and leave the
    source where it is. *)
Theorem C86_header_truncated : forall size bl flag q, strict_prefix q (layout_header size bl flag) ->
  (forall S (R : reader S) view okst, lawful R view okst -> forall s, okst s -> view s = q ->
     exists s', hdr_read R s = (Err (EIo UnexpectedEof), s')) /\
  hdr_read_from_slice q = Err (ENotEnoughData 29) /\
  (forall c, c_pos c <= c_len c -> c_rest c = q -> hdr_try_read c = (Ok (NotEnough (29 - blen q)), c)) /\
  (forall evs, q <> [] \/ evs = [] -> hdr_try_read_buf (mk_bufsrc q evs) = (Ok (NotEnough (29 - blen q)), mk_bufsrc q evs)).
Proof.
  intros size bl flag q SP. assert (LQ : (length q < 29)%nat).
  { destruct SP as (r & NE & E). apply (f_equal (@length byte)) in E. rewrite layout_length, app_length in E. destruct r; [easy|]. cbn [length] in E. lia. }
  split; [|split; [|split]].
  - intros S R view okst L s O V. rewrite <- V in SP. exact (hdr_read_cut R view okst L s _ _ _ O SP).
  - unfold hdr_read_from_slice, hdr_size. now replace (length q <? 29)%nat with true by lia.
  - intros c O V. unfold hdr_try_read. rewrite c_available_ok by exact O. cbn [sbind]. rewrite V. unfold hdr_size.
    now replace (blen q <? N.of_nat 29) with true by (unfold blen; lia).
  - intros evs NE. assert (F : fill_buf (mk_bufsrc q evs) = (Ok q, mk_bufsrc q evs)) by (destruct q; [destruct NE as [NE| ->]; [easy|reflexivity]|reflexivity]).
    exact (proj1 (proj2 (proj2 (header_buffered _ _ _ F))) LQ).
Qed.
Print Assumptions C86_header_truncated.

Example C86_example : let e := firstn 29 (wire p_num) in
  e = layout_header 76 (N.of_nat (length (concat (map bk_encode (p_blocks p_num))))) true /\ strict_prefix (firstn 12 e) e /\
  hdr_read stream_reader (firstn 12 e) = (Err (EIo UnexpectedEof), []) /\
  hdr_try_read (mk_cursor (str "ab" ++ firstn 12 e) 2) = (Ok (NotEnough 17), mk_cursor (str "ab" ++ firstn 12 e) 2).
Proof.
  cbv zeta. split; [vm_compute; reflexivity|]. split; [exists (skipn 12 (firstn 29 (wire p_num))); split; [vm_compute; discriminate|now rewrite firstn_skipn]|].
  vm_compute. split; reflexivity.
Qed.
