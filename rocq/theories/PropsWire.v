(** * Theorems about blocks, payloads, packets and rules (C01-C12, C14, C17, C18,
      C23-C25, C52), each followed by a concrete case. *)
From Coq Require Import ZifyBool ZifyNat ZifyN Permutation.
From Verif Require Import Base Crc32 Io Block Payload Packet Rules Spec BaseProofs CrcProofs BlockProofs
  DispatchProofs PayloadProofs PayloadEnumProofs PacketProofs PacketSafeProofs RulesProofs WireProofs SinkProofs LayoutProofs Samples.
Ltac Zify.zify_post_hook ::= Z.div_mod_to_equations.
Open Scope list_scope.

(** ** C01 *)
Theorem C01_read_round_trip : forall U (P : proto U) (p : packet U) e,
  proto_ok P -> packet_enc P p e -> (length (p_blocks p) <= 256)%nat ->
  written (pkt_write_all p) e /\
  forall S (R : reader S) view okst, lawful R view okst ->
  forall s rest, okst s -> view s = e ++ rest ->
  exists s', pkt_read R P s = (Ok p, s') /\ view s' = rest /\ okst s'.
Proof.
  intros U P p e HP HE H256. split; [exact (pkt_write_all_ok P p e [] HE)|].
  intros S R view okst L s rest O V. exact (pkt_read_rt R view okst (lawful_okl _ _ _ L) P p e s rest HP HE H256 O V).
Qed.
Print Assumptions C01_read_round_trip.

(** The three kinds of sources of the model are lawful. *)
Theorem C01_sources_lawful :
  lawful stream_reader (fun s => s) (fun _ => True) /\
  lawful cursor_reader c_rest c_ok /\
  lawful buf_reader b_view b_ok.
Proof. exact (conj stream_lawful (conj cursor_lawful buf_lawful)). Qed.
Print Assumptions C01_sources_lawful.

(** Every text (UTF-8, any characters) and every sequence of bytes up to 4 GiB is a payload that survives. *)
Theorem C01_texts_and_bytes : forall U (P : proto U) v (pl : payload U), proto_ok P -> blen v <= u32_max ->
  (pl = PString v /\ utf8 v \/ pl = PBytes v) ->
  exists e, written (pkt_write_all (mk_packet [] (Some pl))) e /\
    forall S (R : reader S) view okst, lawful R view okst -> forall s rest, okst s -> view s = e ++ rest ->
    exists s', pkt_read R P s = (Ok (mk_packet [] (Some pl)), s') /\ view s' = rest /\ okst s'.
Proof.
  intros U P v pl HP L H.
  assert (K : payload_ok (pr_kinds P) pl v (crc32_le v)).
  { destruct H as [(-> & HU)| ->]; cbn [payload_ok]; [split; [reflexivity|split; [exact HU|now apply encodes_string]]|split; [reflexivity|now apply encodes_bytes]]. }
  assert (SL : blen (ph_bytes (mk_pheader (pl_sig pl) (crc32_le v) (blen v))) = 14).
  { unfold blen. rewrite ph_bytes_length. unfold ph_size. cbn [ph_sig ph_crc]. rewrite crc32_le_length.
    destruct H as [(-> & _)| ->]; cbn [pl_sig string_kind bytes_kind pk_sig]; rewrite crc32_le_length; reflexivity. }
  eexists. apply (C01_read_round_trip U P (mk_packet [] (Some pl))); [exact HP| |cbn [p_blocks length]; lia].
  eexists. split; [constructor|]. split; [exists v, (crc32_le v); split; [exact K|]; split; [unfold blen; now rewrite crc32_le_length|reflexivity]|].
  cbv zeta. split; [|reflexivity]. cbn [p_blocks map concat]. rewrite blen_app, SL. unfold u32_max in L. change (blen []) with 0. unfold two63. lia.
Qed.
Print Assumptions C01_texts_and_bytes.
(** A, a-umlaut, the euro sign, a clef: one to four bytes. *)
Example C01_text_example : let v := map n2b [65; 195; 164; 226; 130; 172; 240; 157; 132; 158] in utf8 v /\ blen v <= u32_max.
Proof.
  split; [|vm_compute; discriminate]. exists [65; 228; 8364; 119070]. split; [repeat constructor; unfold scalar; lia|vm_compute; reflexivity].
Qed.

Example C01_example : exists rest, rest = str "tail" /\
  on_fst (rmap obs) (pkt_read stream_reader P0 (wire p_num ++ rest)) = (Ok (obs p_num), rest) /\
  on_fst (rmap obs) (pkt_read stream_reader P0 (wire p_txt ++ rest)) = (Ok (obs p_txt), rest) /\
  on_fst (rmap obs) (pkt_read stream_reader P0 (wire p_void ++ rest)) = (Ok (obs p_void), rest).
Proof. exists (str "tail"). vm_compute. auto. Qed.
Example C01_hypotheses : proto_ok P0 /\ packet_enc P0 p_num (wire p_num) /\ (length (p_blocks p_num) <= 256)%nat.
Proof. split; [exact P0_ok|split; [exact p_num_enc|cbn; lia]]. Qed.

(** ** C02 *)
Theorem C02_try_read_round_trip : forall U (P : proto U) (p : packet U) e c rest,
  proto_ok P -> packet_enc P p e -> (length (p_blocks p) <= 256)%nat ->
  c_pos c <= c_len c -> c_rest c = e ++ rest ->
  pkt_try_read P c = (Ok (Success p), c_seek (c_pos c + blen e) c).
Proof. intros. now apply (pkt_try_read_rt P p e c rest). Qed.
Print Assumptions C02_try_read_round_trip.

Example C02_example : let d := str "litter" ++ wire p_txt ++ str "more" in
  on_fst (rmap (smap obs)) (pkt_try_read P0 (mk_cursor d 6)) = (Ok (Success (obs p_txt)), mk_cursor d (6 + blen (wire p_txt))).
Proof. vm_compute. reflexivity. Qed.

(** ** C03 *)
Theorem C03_buffered_round_trip : forall U (P : proto U) (p : packet U) e s s1 cur,
  proto_ok P -> packet_enc P p e -> (length (p_blocks p) <= 256)%nat ->
  fill_buf s = (Ok (e ++ cur), s1) ->
  pkt_try_read_buf P s = (Ok (Success p), mk_bufsrc cur (b_evs s1)).
Proof.
  intros U P p e s s1 cur HP HE H F.
  assert (NE : e <> []).
  { destruct HE as (tail & _ & _ & _ & ->). intros Q. apply (f_equal (@length byte)) in Q.
    rewrite app_length, layout_length in Q. cbn [length] in Q. lia. }
  assert (B1 : b_cur s1 = e ++ cur).
  { unfold fill_buf in F. destruct (b_cur s) eqn:EC.
    - destruct (b_evs s) as [|[bs|k] evs]; inversion F; subst; try easy; now destruct e.
    - inversion F; subst. exact EC. }
  assert (F1 : fill_buf s1 = (Ok (e ++ cur), s1)).
  { unfold fill_buf. rewrite B1. destruct e; [easy|reflexivity]. }
  assert (Q : pkt_try_read_buf P s = pkt_try_read_buf P s1) by (unfold pkt_try_read_buf; now rewrite F, F1).
  rewrite Q. destruct s1 as [c1 evs1]. cbn [b_cur b_evs] in *. subst c1.
  now apply pkt_try_read_buf_rt.
Qed.
Print Assumptions C03_buffered_round_trip.

Example C03_example :
  on_fst (rmap (smap obs)) (pkt_try_read_buf P0 (mk_bufsrc [] [Chunk (wire p_raw ++ str "xy"); Fail Interrupted]))
  = (Ok (Success (obs p_raw)), mk_bufsrc (str "xy") [Fail Interrupted]).
Proof. vm_compute. reflexivity. Qed.

(** ** C04 *)
Theorem C04_length_law : forall U (P : proto U) (p : packet U) e,
  packet_enc P p e ->
  exists h tail, hdr_new p = Ok h /\
    e = hdr_bytes h ++ concat (map bk_encode (p_blocks p)) ++ tail /\
    blen e = 29 + h_size h /\
    h_blocks_len h = blen (concat (map bk_encode (p_blocks p))) /\
    h_size h = h_blocks_len h + blen tail /\
    match p_payload p with
    | None => tail = [] /\ h_payload h = false
    | Some pl => h_payload h = true /\
        exists body crc, pl_size pl = Ok (blen body) /\ payload_ok (pr_kinds P) pl body crc /\
        tail = ph_bytes (mk_pheader (pl_sig pl) crc (blen body)) ++ body /\
        blen tail = 10 + blen (pl_sig pl) + blen body
    end.
Proof.
  intros U P p e (tail & HB & HT & HL & EE).
  exists (mkh (blen (concat (map bk_encode (p_blocks p))) + blen tail) (blen (concat (map bk_encode (p_blocks p)))) (flag_of p)), tail.
  split; [exact (hdr_new_ok P p tail HB HT)|]. rewrite mkh_bytes. split; [exact EE|].
  cbn [mkh h_size h_blocks_len h_payload]. repeat split.
  - rewrite EE, !blen_app. unfold blen at 1. rewrite layout_length. lia.
  - unfold flag_of. destruct (p_payload p) as [pl|]; cbn [payload_part] in HT; [|auto].
    destruct HT as (body & crc & HP & L4 & ET). split; [reflexivity|]. exists body, crc.
    split; [exact (pl_size_ok _ _ _ _ HP)|]. split; [exact HP|]. split; [exact ET|].
    rewrite ET, blen_app.
    assert (Q : forall h, blen (ph_bytes h) = N.of_nat (ph_size h)) by (intros h; unfold blen; now rewrite ph_bytes_length).
    rewrite Q. unfold ph_size. cbn [ph_sig ph_crc]. unfold blen in *. lia.
Qed.
Print Assumptions C04_length_law.

Example C04_example : blen (wire p_num) = 29 + N.of_nat (ssize sc_a + ssize sc_b + ssize sc_e + ssize sc_a + 14 + 4)
  /\ blen (wire p_void) = 29.
Proof. vm_compute. auto. Qed.

(** The same bytes, written down from the format description alone. *)
Theorem C04_layout : forall U (P : proto U) (p : packet U) e,
  packet_enc P p e ->
  let blocks := concat (map block_layout (p_blocks p)) in
  written (pkt_write_all p) e /\
  match p_payload p with
  | None => e = layout_header (blen blocks) (blen blocks) false ++ blocks
  | Some pl => exists body crc, payload_ok (pr_kinds P) pl body crc /\
      let tail := payload_header_layout (pl_sig pl) crc (blen body) ++ body in
      e = layout_header (blen blocks + blen tail) (blen blocks) true ++ blocks ++ tail
  end.
Proof.
  intros U P p e H. split; [exact (pkt_write_all_ok P p e [] H)|]. destruct H as (tail & HB & HT & HL & EE).
  assert (Q : map bk_encode (p_blocks p) = map block_layout (p_blocks p)).
  { clear - HB. induction HB; cbn [map]; [reflexivity|]. f_equal; [now apply (block_bytes (pr_blocks P))|assumption]. }
  rewrite Q in EE. destruct (p_payload p) as [pl|]; cbn [payload_part] in HT.
  - destruct HT as (body & crc & HP & _ & ET). exists body, crc. split; [exact HP|]. cbv zeta. rewrite ph_bytes_layout in ET. cbn [ph_sig ph_crc ph_len] in ET. now rewrite <- ET.
  - subst tail. now rewrite N.add_0_r, app_nil_r in EE.
Qed.
Print Assumptions C04_layout.

(** Bytes written by hand. *)
Example C04_layout_example :
  wire p_void = map n2b [236; 37; 94; 136; 236; 37; 94; 136] ++ repeat (n2b 0) 17 ++ crc32_le (repeat (n2b 0) 17) /\
  payload_header_layout (str "abcd") (str "wxyz") 513 = n2b 4 :: str "abcd" ++ n2b 4 :: str "wxyz" ++ map n2b [1; 2; 0; 0] /\
  field_layout (TI W16) (VZ (-2)) = map n2b [254; 255] /\
  signature_text (mk_schema [] (str "A") [(str "x", TU W16); (str "b", TBlob 120)] false) = str "A;__sig:[u8;4];x:u16;b:[u8;120];__crc:[u8;4]" /\
  (** the published check value of CRC-32/ISO-HDLC *)
  crc32 (str "123456789") = 3421780262.
Proof. vm_compute. repeat split. Qed.

(** ** C05 *)
Theorem C05_packet_write_paths : forall U (P : proto U) (p : packet U) e,
  packet_enc P p e ->
  written (pkt_write_all p) e /\
  pkt_write p (mk_sink [] []) = (Ok (blen e), mk_sink e []) /\
  exists l, pkt_slices p = Ok l /\ concat l = e.
Proof.
  intros U P p e H. split; [exact (pkt_write_all_ok P p e [] H)|]. split; [|exact (pkt_slices_ok P p e H)].
  exact (pkt_write_full P p e H).
Qed.
Print Assumptions C05_packet_write_paths.

Theorem C05_block_write_paths : forall b,
  written (bk_write_all b) (bk_encode b) /\
  bk_write b (mk_sink [] []) = (Ok (blen (bk_encode b)), mk_sink (bk_encode b) []) /\
  concat (bk_slices b) = bk_encode b.
Proof.
  intros b. split; [|split; [|apply blk_slices_concat]].
  - unfold written, bk_write_all, blk_write_all. now rewrite sink_write_all_nil.
  - unfold bk_write, blk_write. now rewrite sink_write_nil.
Qed.
Print Assumptions C05_block_write_paths.

Theorem C05_payload_write_paths : forall U (ks : list (pkind U)) pl body crc,
  payload_ok ks pl body crc ->
  exists e, e = ph_bytes (mk_pheader (pl_sig pl) crc (blen body)) ++ body /\
  written (pl_write_all pl) e /\
  pl_write pl (mk_sink [] []) = (Ok (blen e), mk_sink e []) /\
  exists l, pl_slices pl = Ok l /\ concat l = e.
Proof.
  intros U ks pl body crc H. eexists. split; [reflexivity|]. split; [|split].
  - pose proof (pl_write_all_ok _ _ _ _ H []) as Q. exact Q.
  - exact (pl_write_full _ _ _ _ H []).
  - rewrite (pl_slices_ok _ _ _ _ H). eexists; split; [reflexivity|]. cbn [concat]. now rewrite app_nil_r.
Qed.
Print Assumptions C05_payload_write_paths.

Example C05_example :
  snd (pkt_write p_num (mk_sink [] [])) = mk_sink (wire p_num) [] /\
  match pkt_slices p_num with Ok l => (length l, concat l) = (15%nat, wire p_num) | _ => False end.
Proof. vm_compute. auto. Qed.

(** ** C07: also for [write_all], whatever the sink does. *)
Theorem C07_write_prefix : forall U (P : proto U) (p : packet U) e o r o',
  packet_enc P p e -> pkt_write p o = (r, o') ->
  exists d t, e = d ++ t /\ k_got o' = k_got o ++ d /\ (forall n, r = Ok n -> blen d = n).
Proof. intros U P p e o r o'. exact (pkt_write_any P p e o r o'). Qed.
Print Assumptions C07_write_prefix.

Theorem C07_write_all_prefix : forall U (P : proto U) (p : packet U) e o r o',
  packet_enc P p e -> pkt_write_all p o = (r, o') ->
  exists d t, e = d ++ t /\ k_got o' = k_got o ++ d /\ (r = Ok tt -> t = []).
Proof. intros U P p e o r o'. exact (pkt_write_all_any P p e o r o'). Qed.
Print Assumptions C07_write_all_prefix.

Example C07_example :
  let o := mk_sink [] [Accept 29; Accept 15; Accept 7] in
  fst (pkt_write p_num o) = Ok 51 /\ k_got (snd (pkt_write p_num o)) = firstn 51 (wire p_num).
Proof. vm_compute. auto. Qed.

(** Errors of the sink come out of both calls, and the sink's limits are kept, for every packet (legal or not) and every sink. *)
Theorem C07_faults_reported : forall U (p : packet U) o,
  heeds o (fst (pkt_write p o)) (snd (pkt_write p o)) /\ heeds o (fst (pkt_write_all p o)) (snd (pkt_write_all p o)).
Proof. intros U p o. split; [apply heeds_pkt_write|apply heeds_pkt_write_all]. Qed.
Print Assumptions C07_faults_reported.
Example C07_faults_example :
  let o := mk_sink [] [Accept 1000; Accept 1000; Accept 1000; Accept 1000; Accept 1000; WFail Interrupted; Accept 3; WFail OtherIo; Accept 7] in
  fst (pkt_write p_num o) = Err (EIo OtherIo) /\ k_sched (snd (pkt_write p_num o)) = [Accept 7] /\ fst (pkt_write_all p_num o) = Err (EIo OtherIo).
Proof. vm_compute. auto. Qed.

(** ** C08 *)
Theorem C08_block_round_trip : forall sc vs, schema_ok sc -> vals_ok sc vs ->
  let e := blk_encode sc vs in
  written (blk_write_all sc vs) e /\ length e = ssize sc /\
  (forall S (R : reader S) view okst, lawful R view okst -> forall s rest, okst s -> view s = e ++ rest ->
     exists s', blk_read R sc false s = (Ok vs, s') /\ view s' = rest /\ okst s') /\
  (forall rest, blk_read_from_slice sc (e ++ rest) false = Ok vs) /\
  (forall c rest, c_pos c <= c_len c -> c_rest c = e ++ rest ->
     blk_try_read sc c = (Ok (Success vs), c_seek (c_pos c + N.of_nat (ssize sc)) c)) /\
  (forall s rest, b_ok s -> (4 <= length (b_cur s))%nat -> b_view s = e ++ rest ->
     exists s', blk_try_read_buf sc s = (Ok (Success vs), s') /\ b_view s' = rest).
Proof. exact block_round_trip. Qed.
Print Assumptions C08_block_round_trip.

Example C08_example : schema_ok sc_b /\ vals_ok sc_b (bk_vals b_b) /\
  blk_read_from_slice sc_b (bk_encode b_b ++ str "z") false = Ok (bk_vals b_b) /\
  blk_try_read_buf sc_b (mk_bufsrc (firstn 5 (bk_encode b_b)) [Chunk (skipn 5 (bk_encode b_b) ++ str "z")])
   = (Ok (Success (bk_vals b_b)), mk_bufsrc (str "z") []).
Proof. split; [exact sc_b_ok|]. split; [exact (proj2 (proj2 b_b_ok))|]. vm_compute. auto. Qed.

(** ** C09 *)
Theorem C09_block_corruption : forall sc vs body',
  schema_ok sc -> vals_ok sc vs -> s_no_crc sc = false ->
  burst 4 (fields_bytes (s_tys sc) vs ++ blk_crc sc vs) body' ->
  let e' := blk_sig sc ++ body' in
  (forall S (R : reader S) view okst, lawful R view okst -> forall s rest, okst s -> view s = e' ++ rest ->
     match fst (blk_read R sc false s) with Ok vs' => vs' = vs | Err _ => True | Panic _ => False end) /\
  (forall rest, match blk_read_from_slice sc (e' ++ rest) false with Ok vs' => vs' = vs | Err _ => True | Panic _ => False end) /\
  (forall c rest, c_pos c <= c_len c -> c_rest c = e' ++ rest ->
     match fst (blk_try_read sc c) with Ok (Success vs') => vs' = vs | Ok (NotEnough _) => False | Err _ => True | Panic _ => False end).
Proof. exact block_corruption. Qed.
Print Assumptions C09_block_corruption.

(** The corruption really changes the bytes and is reported. *)
Example C09_example :
  let x := fields_bytes (s_tys sc_a) (bk_vals b_a) ++ blk_crc sc_a (bk_vals b_a) in
  let x' := firstn 4 x ++ map n2b [2; 3; 4; 5] ++ skipn 8 x in
  burst 4 x x' /\ blk_read_from_slice sc_a (blk_sig sc_a ++ x') false = Err ECrcDismatch.
Proof.
  cbv zeta. split; [|vm_compute; reflexivity].
  exists (firstn 4 (fields_bytes (s_tys sc_a) (bk_vals b_a) ++ blk_crc sc_a (bk_vals b_a))), (firstn 4 (skipn 4 (fields_bytes (s_tys sc_a) (bk_vals b_a) ++ blk_crc sc_a (bk_vals b_a)))),
    (map n2b [2; 3; 4; 5]), (skipn 8 (fields_bytes (s_tys sc_a) (bk_vals b_a) ++ blk_crc sc_a (bk_vals b_a))).
  vm_compute. repeat split; auto.
Qed.

(** ** C10 *)
Theorem C10_header_corruption : forall h x',
  h_size h < two64 -> h_blocks_len h < two64 -> le 4 (h_crc h) = hdr_crc h -> h_crc h < two32 ->
  burst 4 (le 8 (h_size h) ++ le 8 (h_blocks_len h) ++ [flag_byte (h_payload h)] ++ le 4 (h_crc h)) x' ->
  let e' := packet_sig ++ x' in
  (forall S (R : reader S) view okst, lawful R view okst -> forall s rest, okst s -> view s = e' ++ rest ->
     fst (hdr_read R s) = Err ECrcDismatch \/ fst (hdr_read R s) = Ok h) /\
  (forall rest, hdr_read_from_slice (e' ++ rest) = Err ECrcDismatch \/ hdr_read_from_slice (e' ++ rest) = Ok h) /\
  (forall c rest, c_pos c <= c_len c -> c_rest c = e' ++ rest ->
     fst (hdr_try_read c) = Err ECrcDismatch \/ fst (hdr_try_read c) = Ok (Success h)).
Proof. exact header_corruption. Qed.
Print Assumptions C10_header_corruption.

Theorem C10_signature_change : forall sg x,
  length sg = 8%nat -> length x = 21%nat -> sg <> packet_sig ->
  (forall S (R : reader S) view okst, lawful R view okst -> forall s rest, okst s -> view s = sg ++ x ++ rest ->
     fst (hdr_read R s) = Err ESignatureDismatch) /\
  (forall rest, hdr_read_from_slice (sg ++ x ++ rest) = Err ESignatureDismatch) /\
  (forall c rest, c_pos c <= c_len c -> c_rest c = sg ++ x ++ rest ->
     fst (hdr_try_read c) = Err ESignatureDismatch).
Proof. exact signature_change. Qed.
Print Assumptions C10_signature_change.

Example C10_example :
  let e := firstn 29 (wire p_num) in
  (exists h, hdr_read_from_slice e = Ok h /\ h_size h = 76 /\ le 4 (h_crc h) = hdr_crc h /\ h_crc h < two32) /\
  hdr_read_from_slice (firstn 8 e ++ [n2b 200] ++ skipn 9 e) = Err ECrcDismatch /\
  hdr_read_from_slice (firstn 3 e ++ [n2b 200] ++ skipn 4 e) = Err ESignatureDismatch.
Proof.
  cbv zeta. split; [|vm_compute; auto].
  exists (match hdr_read_from_slice (firstn 29 (wire p_num)) with Ok h => h | _ => mk_header 0 0 false 0 end).
  vm_compute. auto.
Qed.

(** ** C11 *)
Theorem C11_raw_payload_corruption : forall S (R : reader S) view okst, lawful R view okst ->
  forall body body' s rest,
  burst 4 body body' -> body' <> body -> okst s -> view s = body' ++ rest ->
  exists s', pk_read R bytes_kind (mk_pheader (pk_sig bytes_kind) (crc32_le body) (blen body)) s = (Err ECrcDismatch, s')
             /\ view s' = rest.
Proof.
  intros S R view okst L body body' s rest HB NE O V.
  destruct (raw_corruption R view okst (lawful_okl _ _ _ L) body body' s rest HB NE O V) as (s' & E & W & _). eauto.
Qed.
Print Assumptions C11_raw_payload_corruption.

Example C11_example :
  let body := map n2b [10; 20; 30; 40; 50; 60] in let body' := map n2b [10; 21; 30; 99; 0; 60] in
  burst 4 body body' /\ body' <> body /\
  pk_read stream_reader bytes_kind (mk_pheader (pk_sig bytes_kind) (crc32_le body) 6) (body' ++ str "rest")
  = (Err ECrcDismatch, str "rest").
Proof.
  cbv zeta. split; [|split; [vm_compute; discriminate|vm_compute; reflexivity]].
  exists [n2b 10], (map n2b [20; 30; 40; 50]), (map n2b [21; 30; 99; 0]), [n2b 60]. vm_compute. repeat split; auto.
Qed.

(** ** C12 *)
Theorem C12_truncated_block : forall sc vs q,
  schema_ok sc -> vals_ok sc vs -> strict_prefix q (blk_encode sc vs) ->
  (exists e, blk_read_from_slice sc q false = Err e) /\
  (forall S (R : reader S) view okst, lawful R view okst -> forall s, okst s -> view s = q ->
     exists e s', blk_read R sc false s = (Err e, s')) /\
  (forall c, c_pos c <= c_len c -> c_rest c = q ->
     fst (blk_try_read sc c) =
     Ok (NotEnough (if blen q <? 4 then 4 - blen q else N.of_nat (ssize sc) - blen q))).
Proof. exact truncated_block. Qed.
Print Assumptions C12_truncated_block.

Example C12_example :
  let q := firstn 10 (bk_encode b_a) in
  strict_prefix q (bk_encode b_a) /\ blk_read_from_slice sc_a q false = Err (ENotEnoughData 15) /\
  fst (blk_try_read sc_a (mk_cursor (str "ab" ++ q) 2)) = Ok (NotEnough 5).
Proof.
  cbv zeta. split; [|vm_compute; auto]. exists (skipn 10 (bk_encode b_a)).
  split; [vm_compute; discriminate|now rewrite firstn_skipn].
Qed.

(** ** C14 *)
Theorem C14_block_dispatch_order : forall scs scs',
  Permutation scs scs' -> NoDup (map blk_sig scs) ->
  (forall src, bk_read_from_slice scs src false = bk_read_from_slice scs' src false) /\
  (forall c, bk_try_read scs c = bk_try_read scs' c) /\
  (forall s, bk_try_read_buf scs s = bk_try_read_buf scs' s).
Proof.
  intros scs scs' HP ND. repeat split; intros; [now apply bk_slice_perm|now apply bk_try_perm|now apply bk_buf_perm].
Qed.
Print Assumptions C14_block_dispatch_order.

(** ... and the type found is the one with the matching signature. *)
Theorem C14_block_dispatch_finds : forall scs b, NoDup (map blk_sig scs) -> block_ok scs b ->
  (forall rest, bk_read_from_slice scs (bk_encode b ++ rest) false = Ok b) /\
  (forall c rest, c_pos c <= c_len c -> c_rest c = bk_encode b ++ rest ->
     bk_try_read scs c = (Ok (Success b), c_seek (c_pos c + bk_size b) c)) /\
  (forall cur evs, bk_try_read_buf scs (mk_bufsrc (bk_encode b ++ cur) evs) = (Ok (Success b), mk_bufsrc cur evs)).
Proof.
  intros scs b ND HB. repeat split; intros.
  - now apply bk_slice_rt.
  - exact (proj1 (bk_try_rt scs ND b c rest HB H H0)).
  - now apply bk_buf_rt.
Qed.
Print Assumptions C14_block_dispatch_finds.

Example C14_example :
  Permutation [sc_a; sc_b; sc_e] [sc_e; sc_a; sc_b] /\ NoDup (map blk_sig [sc_a; sc_b; sc_e]) /\
  rmap obs_block (bk_read_from_slice [sc_e; sc_a; sc_b] (bk_encode b_b) false) = Ok (obs_block b_b) /\
  rmap obs_block (bk_read_from_slice [sc_a; sc_b; sc_e] (bk_encode b_b) false) = Ok (obs_block b_b).
Proof.
  split; [|split; [apply (proj1 P0_ok)|vm_compute; auto]].
  apply (Permutation_trans (l' := [sc_a; sc_e; sc_b])); [apply perm_skip, perm_swap|apply perm_swap].
Qed.

(** ** C17 *)
Theorem C17_payload_header_round_trip : forall h, ph_ok h ->
  (forall S (R : reader S) view okst, lawful R view okst -> forall s rest, okst s -> view s = ph_bytes h ++ rest ->
     exists s', ph_read R s = (Ok h, s') /\ view s' = rest /\ okst s') /\
  (forall c rest, c_pos c <= c_len c -> c_rest c = ph_bytes h ++ rest ->
     ph_try_read c = (Ok (Success h), c_seek (c_pos c + blen (ph_bytes h)) c)) /\
  (forall rest evs, ph_try_read_buf (mk_bufsrc (ph_bytes h ++ rest) evs)
     = (Ok (Success h), mk_bufsrc (ph_bytes h ++ rest) evs)).
Proof.
  intros h H. split; [|split].
  - intros S R view okst L s rest O V. exact (ph_read_rt R view okst (lawful_okl _ _ _ L) h s rest H O V).
  - intros c rest O V. destruct (ph_try_read_rt h c rest H O V) as (E & _ & _). rewrite E.
    unfold blen. now rewrite ph_bytes_length.
  - intros rest evs. unfold ph_try_read_buf.
    assert (F : fill_buf (mk_bufsrc (ph_bytes h ++ rest) evs) = (Ok (ph_bytes h ++ rest), mk_bufsrc (ph_bytes h ++ rest) evs)) by reflexivity.
    rewrite F. cbn [sbind]. now rewrite ph_peek_rt.
Qed.
Print Assumptions C17_payload_header_round_trip.

Theorem C17_bad_lengths_rejected : forall S (R : reader S) view okst, lawful R view okst -> forall s b rest,
  ~ In (b2n b) capacities -> okst s ->
  (view s = b :: rest -> exists s', ph_read R s = (Err (EInvalidCapacity (b2n b)), s')) /\
  (forall sg, In (blen sg) capacities -> view s = n2b (blen sg) :: sg ++ b :: rest ->
     exists s', ph_read R s = (Err (EInvalidCapacity (b2n b)), s')).
Proof.
  intros S R view okst L s b rest NI O. pose proof (lawful_okl _ _ _ L) as OK. split.
  - intros V. exact (ph_read_bad_sig R view okst OK s b rest O V NI).
  - intros sg HS V. exact (ph_read_bad_crc R view okst OK s sg b rest O HS V NI).
Qed.
Print Assumptions C17_bad_lengths_rejected.

Example C17_example :
  let h := mk_pheader (le 8 1) (le 16 2) 70000 in
  ph_ok h /\ ph_read stream_reader (ph_bytes h ++ str "x") = (Ok h, str "x") /\
  fst (ph_read stream_reader (n2b 5 :: str "whatever follows")) = Err (EInvalidCapacity 5).
Proof.
  cbv zeta. split; [|vm_compute; auto]. unfold ph_ok, capacities. vm_compute. repeat split; try easy; auto.
Qed.

(** ** C18 *)
Theorem C18_payload_header_all_or_nothing : forall h q, ph_ok h -> strict_prefix q (ph_bytes h) ->
  exists n, 0 < n /\ n <= blen (ph_bytes h) - blen q /\
  (** up to the end of the length, signature or checksum in which the data stop *)
  n = to_end (pheader_ends h) (blen q) /\
  (forall c, c_pos c <= c_len c -> c_rest c = q -> ph_try_read c = (Ok (NotEnough n), c)) /\
  (forall evs, q <> [] \/ evs = [] -> ph_try_read_buf (mk_bufsrc q evs) = (Ok (NotEnough n), mk_bufsrc q evs)).
Proof.
  intros h q H HQ. destruct (ph_peek_truncated h q H HQ) as (n & E & H1 & H2 & H3). exists n.
  split; [exact H1|]. split; [lia|]. split; [exact H3|]. split.
  - intros c O V. rewrite <- V in HQ. destruct (ph_try_read_truncated h c H O HQ) as (m & E' & _ & _ & M).
    rewrite E'. do 3 f_equal. rewrite M, V, H3. reflexivity.
  - intros evs NE. unfold ph_try_read_buf.
    assert (F : fill_buf (mk_bufsrc q evs) = (Ok q, mk_bufsrc q evs)) by (destruct q; [destruct NE as [NE| ->]; [easy|reflexivity]|reflexivity]).
    rewrite F. cbn [sbind]. rewrite E. reflexivity.
Qed.
Print Assumptions C18_payload_header_all_or_nothing.

Example C18_example :
  let h := mk_pheader (le 4 1) (le 4 2) 7 in
  map (to_end (pheader_ends h)) [0; 1; 3; 5; 6; 7; 10; 11] = [1; 4; 2; 1; 4; 3; 4; 3] /\
  ph_try_read (mk_cursor (firstn 7 (ph_bytes h)) 0) = (Ok (NotEnough 3), mk_cursor (firstn 7 (ph_bytes h)) 0) /\
  ph_try_read (mk_cursor (firstn 3 (ph_bytes h)) 0) = (Ok (NotEnough 2), mk_cursor (firstn 3 (ph_bytes h)) 0).
Proof. vm_compute. repeat split. Qed.

(** ** C23 *)
Theorem C23_one_rule_per_kind : forall U (ops : list (rule_op U)),
  let rs := rule_history ops in
  (forall i j a b, nth_error rs i = Some a -> nth_error rs j = Some b -> id_of a = id_of b -> i = j) /\
  (forall r, (exists x, In x rs /\ id_of x = id_of r) -> add_rule r rs = (Err ERuleDuplicate, rs)) /\
  (forall r, ~ (exists x, In x rs /\ id_of x = id_of r) -> add_rule r rs = (Ok tt, rs ++ [r])) /\
  (forall i r, In r (remove_rule i rs) <-> In r rs /\ id_of r <> i).
Proof. exact one_rule_per_kind. Qed.
Print Assumptions C23_one_rule_per_kind.

Example C23_example :
  let f1 := RFilterByBlocks (U := N) (fun _ => true) in let f2 := RFilterByBlocks (U := N) (fun _ => false) in
  rule_history [OpAdd f1; OpAdd (RIgnored 1); OpAdd f2; OpRemove IdFilterByBlocks; OpAdd f2; OpAdd (RIgnored 2)]
  = [RIgnored 1; f2].
Proof. reflexivity. Qed.

(** ** C24 *)
Theorem C24_filter_verdicts : forall U (ops : list (rule_op U)),
  let rs := rule_history ops in
  (forall f bs, In (RFilterByBlocks f) rs -> filter_by_blocks rs bs = f bs) /\
  (forall bs, (forall f, ~ In (RFilterByBlocks f) rs) -> filter_by_blocks rs bs = true) /\
  (forall f body, In (RFilterByPayload f) rs -> filter_by_payload rs body = f body) /\
  (forall body, (forall f, ~ In (RFilterByPayload f) rs) -> filter_by_payload rs body = true) /\
  (forall f p, In (RFilter f) rs -> filter_packet rs p = f p) /\
  (forall p, (forall f, ~ In (RFilter f) rs) -> filter_packet rs p = true) /\
  (forall t buf l, In (RIgnored t) rs -> ignore rs buf l = l ++ [(t, buf)]) /\
  (forall buf l, (forall t, ~ In (RIgnored t) rs) -> ignore rs buf l = l).
Proof. exact filter_verdicts. Qed.
Print Assumptions C24_filter_verdicts.

Example C24_example :
  let rs := rule_history (U := N) [OpAdd (RIgnored 7); OpAdd (RFilterByPayload (fun b => blen b <? 3)); OpAdd (RFilter (fun p => false))] in
  filter_by_payload rs (str "ab") = true /\ filter_by_payload rs (str "abc") = false /\
  filter_by_blocks rs [] = true /\ filter_packet rs p_void = false /\ ignore rs (str "x") [] = [(7, str "x")].
Proof. vm_compute. auto. Qed.

(** ** C25 *)
Theorem C25_filtered_read : forall U (P : proto U) rs (p : packet U) e body,
  proto_ok P -> packet_enc P p e ->
  (forall pl, p_payload p = Some pl -> exists crc, payload_ok (pr_kinds P) pl body crc) ->
  forall S (R : reader S) view okst, lawful R view okst ->
  forall s rest, okst s -> view s = e ++ rest ->
  let accepted := filter_by_blocks rs (p_blocks p) = true /\
                  (p_payload p = None \/ filter_by_payload rs body = true) /\
                  filter_packet rs p = true in
  exists s', view s' = rest /\
    ((accepted /\ filtered R P rs s = (Ok (Accepted (blen e - 29) p), s')) \/
     (~ accepted /\ filtered R P rs s = (Ok (Denied (blen e - 29)), s'))).
Proof. exact filtered_read. Qed.
Print Assumptions C25_filtered_read.

Theorem C25_denied_without_payload : forall U (P : proto U) rs bs tail flag,
  proto_ok P -> Forall (block_ok (pr_blocks P)) bs -> filter_by_blocks rs bs = false ->
  let blocks := concat (map bk_encode bs) in
  blen blocks + blen tail < two63 ->
  forall S (R : reader S) view okst, lawful R view okst ->
  forall s rest, okst s -> view s = layout_header (blen blocks + blen tail) (blen blocks) flag ++ blocks ++ tail ++ rest ->
  exists s', filtered R P rs s = (Ok (Denied (blen blocks + blen tail)), s') /\ view s' = rest.
Proof.
  intros U P rs bs tail flag HP HB HF blocks HL S R view okst L s rest O V.
  destruct (filtered_denied R view okst (lawful_okl _ _ _ L) P rs bs tail flag s rest HP HB HL HF O V) as (s' & E & W & _). eauto.
Qed.
Print Assumptions C25_denied_without_payload.

Example C25_example :
  let deny := [RFilterByPayload (U := N) (fun b => negb (blen b =? 6))] in
  on_fst (rmap (fun l => match l with Accepted _ _ => None | Denied n => Some n end))
    (filtered stream_reader P0 deny (wire p_raw ++ str "zz")) = (Ok (Some (blen (wire p_raw) - 29)), str "zz") /\
  on_fst (rmap (fun l => match l with Accepted n p => Some (n, obs p) | Denied _ => None end))
    (filtered stream_reader P0 deny (wire p_num ++ str "zz")) = (Ok (Some (blen (wire p_num) - 29, obs p_num)), str "zz").
Proof. vm_compute. auto. Qed.

(** ** C52 *)
Theorem C52_payload_dispatch_order : forall U (ks ks' : list (pkind U)) h,
  Permutation ks ks' -> NoDup (pl_sigs ks) ->
  forall S (R : reader S) view okst, lawful R view okst -> io_only R ->
  forall s, pl_read R ks h s = pl_read R ks' h s.
Proof. intros U ks ks' h HP ND S R view okst L HR s. exact (pl_read_perm R HR ks ks' h s HP ND). Qed.
Print Assumptions C52_payload_dispatch_order.

Theorem C52_payload_dispatch_finds : forall U (ks : list (pkind U)) pl body crc,
  NoDup (pl_sigs ks) -> payload_ok ks pl body crc ->
  forall S (R : reader S) view okst, lawful R view okst -> io_only R ->
  forall s rest, okst s -> view s = body ++ rest ->
  exists s', pl_read R ks (mk_pheader (pl_sig pl) crc (blen body)) s = (Ok pl, s') /\ view s' = rest.
Proof.
  intros U ks pl body crc ND HP S R view okst L HR s rest O V.
  destruct (pl_read_rt R view okst (lawful_okl _ _ _ L) HR ks pl body crc s rest ND HP O V) as (s' & E & W & _).
  exists s'. auto.
Qed.
Print Assumptions C52_payload_dispatch_finds.

Theorem C52_no_match_consumes_nothing : forall U (ks : list (pkind U)) h,
  ~ In (ph_sig h) (pl_sigs ks) -> forall S (R : reader S) s, pl_read R ks h s = (Err ESignatureDismatch, s).
Proof. exact no_match_consumes_nothing. Qed.
Print Assumptions C52_no_match_consumes_nothing.

Example C52_example :
  NoDup (pl_sigs [k_num; k_wide]) /\
  on_fst (rmap obs_payload) (pl_read stream_reader [k_wide; k_num] (mk_pheader (pk_sig k_num) (crc32_le (le 4 77)) 4) (le 4 77 ++ str "r")) = (Ok (obs_payload (PUser k_num 77)), str "r") /\
  on_fst (rmap obs_payload) (pl_read stream_reader [k_num; k_wide] (mk_pheader (pk_sig k_num) (crc32_le (le 4 77)) 4) (le 4 77 ++ str "r")) = (Ok (obs_payload (PUser k_num 77)), str "r") /\
  on_fst (rmap obs_payload) (pl_read stream_reader [k_wide] (mk_pheader (pk_sig k_num) (crc32_le (le 4 77)) 4) (le 4 77 ++ str "r")) = (Err ESignatureDismatch, le 4 77 ++ str "r").
Proof. split; [apply nodup_bytes; vm_compute; reflexivity|]. vm_compute. auto. Qed.
