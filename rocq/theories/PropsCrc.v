(** * Every checksum is the CRC-32 of the standards (C73). *)
From Coq Require Import ZifyBool ZifyNat ZifyN.
From Verif Require Import Base Crc32 Io Block Payload Packet Slot Spec SpecStorage SpecCrc BaseProofs CrcProofs CrcPolyProofs BlockProofs PayloadProofs PayloadEnumProofs PacketProofs LayoutProofs SlotProofs Samples.
Ltac Zify.zify_post_hook ::= Z.div_mod_to_equations.
Open Scope list_scope.

(** ** C73 *)
(** There is exactly one CRC-32, and it is what the model of crc32fast computes. *)
Theorem C73_checksum : forall bs v, is_crc32 bs v <-> v = crc32 bs.
Proof. intros bs v. split; [apply crc32_unique|intros ->; apply crc32_is]. Qed.
Print Assumptions C73_checksum.

(** The check value of CRC-32/ISO-HDLC, the empty message, one byte. *)
Example C73_check : is_crc32 (str "123456789") 3421780262 /\ is_crc32 [] 0 /\ ~ is_crc32 (str "123456789") 0 /\ is_crc32 [n2b 0] 3523407757.
Proof.
  assert (H : forall bs v, crc32 bs = v -> is_crc32 bs v) by (intros bs v <-; apply crc32_is).
  split; [apply H; vm_compute; reflexivity|]. split; [apply H; vm_compute; reflexivity|].
  split; [|apply H; vm_compute; reflexivity]. intros Q. apply crc32_unique in Q. vm_compute in Q. discriminate Q.
Qed.

(** The last four bytes of a packet header are the CRC-32 of the seventeen before them. *)
Theorem C73_header : forall U (P : proto U) (p : packet U) e, packet_enc P p e ->
  exists f v rest, e = map n2b [236; 37; 94; 136; 236; 37; 94; 136] ++ f ++ low_first 4 v ++ rest /\ length f = 17%nat /\ is_crc32 f v.
Proof.
  intros U P p e (tail & _ & _ & _ & ->). cbv zeta. set (size := _ + blen tail). set (bl := blen (concat _)). set (flag := match p_payload p with Some _ => true | None => false end).
  set (f := le 8 size ++ le 8 bl ++ [if flag then n2b 1 else n2b 0]).
  exists f, (crc32 f), (concat (map bk_encode (p_blocks p)) ++ tail). split; [|split; [|apply crc32_is]].
  - unfold layout_header. cbv zeta. fold f. rewrite (low_first_le 4), <- !app_assoc. reflexivity.
  - unfold f. rewrite !app_length, !le_length. reflexivity.
Qed.
Print Assumptions C73_header.

(** A block: the CRC-32 of the declaration, the fields, the CRC-32 of the fields. *)
Theorem C73_block : forall scs b, block_ok scs b ->
  exists sv fields sum, written (bk_write_all b) (low_first 4 sv ++ fields ++ sum) /\ is_crc32 (signature_text (bk_ty b)) sv /\
    (if s_no_crc (bk_ty b) then sum = repeat (n2b 0) 4 else exists v, is_crc32 fields v /\ sum = low_first 4 v).
Proof.
  intros scs b H. eexists (crc32 _), _, _. split; [|split; [apply crc32_is|]].
  - unfold written, bk_write_all, blk_write_all. rewrite sink_write_all_nil. fold (bk_encode b). rewrite (block_bytes scs b H). unfold block_layout. cbv zeta.
    rewrite (low_first_le 4). reflexivity.
  - destruct (s_no_crc (bk_ty b)); [reflexivity|]. eexists. split; [apply crc32_is|]. now rewrite (low_first_le 4).
Qed.
Print Assumptions C73_block.

(** A payload with the checksum of the library: the CRC-32 of the encoded value. *)
Theorem C73_payload : forall U (ks : list (pkind U)) pl body crc, payload_ok ks pl body crc ->
  (forall k u, pl = PUser k u -> auto_crc k) ->
  exists v, is_crc32 body v /\ written (pl_write_all pl) (payload_header_layout (pl_sig pl) (low_first 4 v) (blen body) ++ body).
Proof.
  intros U ks pl body crc H A. exists (crc32 body). split; [apply crc32_is|]. rewrite (low_first_le 4).
  assert (crc = le 4 (crc32 body)) as EC.
  { destruct pl as [k u|v|v]; cbn [payload_ok] in H.
    - destruct H as (_ & E1 & _ & _ & E2 & _). rewrite (A k u eq_refl), E1 in E2. injection E2 as <-. reflexivity.
    - destruct H as (-> & _ & _ & _ & E2 & _). injection E2 as <-. reflexivity.
    - destruct H as (-> & _ & _ & _ & _ & E2 & _). injection E2 as <-. reflexivity. }
  rewrite <- EC. change (payload_header_layout (pl_sig pl) crc (blen body)) with (payload_header_layout (ph_sig (mk_pheader (pl_sig pl) crc (blen body))) (ph_crc (mk_pheader (pl_sig pl) crc (blen body))) (ph_len (mk_pheader (pl_sig pl) crc (blen body)))).
  rewrite <- ph_bytes_layout. unfold written. rewrite (pl_write_all_ok ks pl body crc H). reflexivity.
Qed.
Print Assumptions C73_payload.

(** A slot: the CRC-32 of capacity and lengths. *)
Theorem C73_slot : forall sl, slot_ok sl ->
  exists f v, written (slot_write_all sl) (map n2b [166; 177; 188; 199; 199; 188; 177; 166] ++ f ++ low_first 4 v) /\ is_crc32 f v /\
    f = low_first 8 (sl_capacity sl) ++ concat (map (low_first 8) (sl_lengths sl)).
Proof.
  intros sl K. exists (le 8 (sl_capacity sl) ++ concat (map (le 8) (sl_lengths sl))), (crc32 (le 8 (sl_capacity sl) ++ concat (map (le 8) (sl_lengths sl)))).
  split; [|split; [apply crc32_is|]].
  - unfold written, slot_write_all. rewrite slot_bytes_ok by exact K. cbn [sbind]. rewrite (low_first_le 4). destruct K as (_ & _ & _ & K). unfold slot_content. rewrite K.
    unfold slot_crc, crc32_le. rewrite <- !app_assoc. reflexivity.
  - rewrite (low_first_le 8). f_equal. f_equal. apply map_ext. intros x. symmetry. apply (low_first_le 8).
Qed.
Print Assumptions C73_slot.

Example C73_example :
  (exists rest, wire p_num = map n2b [236; 37; 94; 136; 236; 37; 94; 136] ++ firstn 17 (skipn 8 (wire p_num)) ++ low_first 4 (crc32 (firstn 17 (skipn 8 (wire p_num)))) ++ rest) /\
  block_ok [sc_a] b_a /\ payload_ok [k_num] (@PBytes N (str "body")) (str "body") (crc32_le (str "body")) /\
  slot_ok (with_crc (mk_slot [7; 9; 0] 3 [])).
Proof.
  split; [eexists; vm_compute; reflexivity|].
  split; [split; [now left|split; [apply sc_a_ok|apply b_a_ok]]|].
  split; [|repeat split; repeat constructor].
  split; [reflexivity|]. repeat split; vm_compute; auto; discriminate.
Qed.
