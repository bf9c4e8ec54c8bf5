(** * Payloads with long checksums in the filtering and the streaming reader (C21). *)
From Coq Require Import ZifyBool ZifyNat ZifyN.
From Verif Require Import Base Crc32 Io Block Payload Packet Rules StreamReader Spec SpecJudge BaseProofs CrcProofs IoProofs BlockProofs
  DispatchProofs PayloadProofs PayloadEnumProofs PacketProofs PacketSafeProofs LayoutProofs NegProofs RulesProofs WireProofs CanonProofs
  StreamProofs StreamItemProofs StreamSoundProofs StuckProofs JudgeProofs LongProofs Samples PropsWire PropsWireNeg PropsStream.
Open Scope list_scope.

(** A checksum of more than four bytes, rules that let the blocks and what there is of the body pass. [filtered] fails and
    leaves the end of the packet in the source. The streaming reader reports an error; when the body is too short for the
    missing bytes it goes on with the end of the packet, otherwise it gives this error for ever. *)
Theorem C21_long_streaming : forall U (P : proto U) (ops : list (rule_op U)) (bs : list block) pl body crc,
  proto_ok P -> Forall (block_ok (pr_blocks P)) bs -> payload_ok (pr_kinds P) pl body crc -> 4 < blen crc ->
  (length bs <= 255)%nat ->
  let tail := ph_bytes (mk_pheader (pl_sig pl) crc (blen body)) ++ body in
  blen (concat (map bk_encode bs)) + blen tail < two63 ->
  let rs := rule_history ops in
  lets_blocks rs bs -> lets_payload rs (firstn (length body + 4 - length crc) body) ->
  exists e left er, written (pkt_write_all (mk_packet bs (Some pl))) (e ++ left) /\ blen left = blen crc - 4 /\
    (forall S (R : reader S) view okst, lawful R view okst -> forall s rest, okst s -> view s = (e ++ left) ++ rest ->
       exists k s', filtered R P rs s = (Err k, s') /\ okst s' /\ view s' = left ++ rest) /\
    (forall more evs, blen (e ++ left ++ more) < two63 ->
       let whole := mk_preader (mk_bufsrc (e ++ left ++ more) evs) rs HEmpty [] [] in
       (blen body + 4 < blen crc -> pr_read P whole = (Err er, mk_preader (mk_bufsrc (left ++ more) evs) rs HEmpty [] [])) /\
       (blen crc <= blen body + 4 -> forall n, pr_reads P n whole = (repeat (Err er) n, whole))).
Proof.
  intros U P ops bs pl body crc HP HB HPL L4 H255 tail HL rs LB LP. pose proof (history_nodup ops) as ND. fold rs in ND.
  apply (lets_blocks_iff rs bs ND) in LB. apply (lets_payload_iff rs _ ND) in LP.
  destruct (long_written P bs pl body crc HB HPL HL) as (size & SZ & W & _). fold tail in SZ, W.
  set (blocks := concat (map bk_encode bs)) in *. set (q := kept_of crc body tail). set (k := (length tail - (length crc - 4))%nat).
  assert (length crc - 4 <= length tail)%nat as LT.
  { unfold tail, ph_bytes. rewrite !app_length. cbn [ph_crc]. lia. }
  assert (length q = k) as LQ by (unfold q, kept_of, k; rewrite firstn_length; lia).
  assert (size = blen blocks + blen q) as ES by (unfold blen at 2; rewrite LQ; unfold k, blen in *; lia).
  assert (blen q <= blen tail) as LQT by (unfold blen; rewrite LQ; unfold k; lia).
  destruct (long_parse P HP rs bs pl body crc HPL L4 H255 HB LB LP) as (er & EP). fold tail blocks q in EP.
  exists (layout_header size (blen blocks) true ++ blocks ++ q), (skipn k tail), er.
  assert (q ++ skipn k tail = tail) as EQ by (unfold q, kept_of; apply firstn_skipn).
  split; [rewrite <- !app_assoc, EQ; exact W|]. split; [unfold blen; rewrite skipn_length; unfold k; unfold blen in *; lia|]. split.
  - intros S R view okst LW s rest O V. rewrite <- !app_assoc in V. rewrite ES in V.
    destruct (long_filtered P HP R view okst (lawful_okl _ _ _ LW) rs bs pl body crc s (skipn k tail ++ rest) HPL L4 HB LB LP ltac:(fold tail blocks q; lia) O V) as (er2 & s' & E & V' & O'). eauto.
  - intros more evs B whole.
    assert (pr_read P whole = (Err er, mk_preader (mk_bufsrc (if blen body + 4 <? blen crc then skipn k tail ++ more else (layout_header size (blen blocks) true ++ blocks ++ q) ++ skipn k tail ++ more) evs) rs HEmpty [] [])) as ST.
    { assert (blen blocks < two64) as B64 by (apply two63_64; lia). unfold whole. rewrite <- !app_assoc in *. rewrite ES in *.
      pose proof (whole_step P rs [] (blen blocks + blen q) (blen blocks) true (blocks ++ q) (skipn k tail ++ more) evs _ _ [] [] EP (blen_app _ _) B64 (clean_nil _)) as Q.
      cbn [app] in Q. rewrite <- app_assoc in Q. rewrite Q; [|exact B].
      destruct (blen body + 4 <? blen crc); reflexivity. }
    split.
    + intros S. rewrite ST. now replace (blen body + 4 <? blen crc) with true by lia.
    + intros S n. apply stuck_forever. rewrite ST. now replace (blen body + 4 <? blen crc) with false by lia.
Qed.
Print Assumptions C21_long_streaming.

(** A body of four bytes with a checksum of eight bytes: the same error for ever; with one of sixteen bytes: one error, and
    twelve bytes that belong to nothing. *)
Definition k_wider : pkind N :=
  mk_pkind N (crc32_le (str "Wider")) (fun _ => IOk 4) (fun v => IOk (le 4 v)) (fun v => IOk (le 16 v))
    (fun b => if blen b =? 4 then IOk (unle b) else IErr OtherIo).
Definition P_wider : proto N := mk_proto [sc_a] [k_wide; k_wider].
Definition p_wider : packet N := mk_packet [b_a] (Some (PUser k_wider 5)).
Example C21_long_streaming_example : let whole e := mk_preader (mk_bufsrc (e ++ str "next") []) [] HEmpty [] [] in
  payload_ok (pr_kinds P_wider) (PUser k_wide 5) (le 4 5) (le 8 (5 * 2654435761)) /\ blen (le 8 (5 * 2654435761)) = 8 /\
  payload_ok (pr_kinds P_wider) (PUser k_wider 5) (le 4 5) (le 16 5) /\ blen (le 16 5) = 16 /\ block_ok (pr_blocks P_wider) b_a /\
  fst (pr_reads P_wider 3 (whole (wire p_wide))) = repeat (Err (EIo UnexpectedEof)) 3 /\
  pr_read P_wider (whole (wire p_wider)) = (Err (ENotEnoughData 4), mk_preader (mk_bufsrc (skipn (length (wire p_wider) - 12) (wire p_wider) ++ str "next") []) [] HEmpty [] []) /\
  fst (filtered stream_reader P_wider [] (wire p_wider)) = Err (ENotEnoughData 4).
Proof.
  cbv zeta. split; [split; [now left|]; unfold encodes; cbn [k_wide pk_body pk_size pk_decode pk_crc pk_sig];
    repeat split; try (vm_compute; (reflexivity || discriminate)); vm_compute; auto|].
  split; [reflexivity|].
  split; [split; [right; now left|]; unfold encodes; cbn [k_wider pk_body pk_size pk_decode pk_crc pk_sig];
    repeat split; try (vm_compute; (reflexivity || discriminate)); vm_compute; auto|].
  split; [reflexivity|]. split; [split; [now left|exact (proj2 b_a_ok)]|]. vm_compute. auto.
Qed.
