(** * Vocabulary of the specifications.

    Independent of how the model computes things: which inputs are legal, what a
    corruption is, what a chunking is. *)
From Verif Require Import Base Crc32 Io Block Payload Packet Rules StreamReader Slices BufReader.

(** ** Legal block definitions and values *)

(** The user's two conversions of a linked enum fit together: what [try_from] returns
    converts back to a byte that means the same variant. *)
Definition linked_ok (l : linked) : Prop :=
  forall b v, l_of l b = Some v -> l_of l (l_to l v) = Some v.

Definition ty_ok (t : fty) : Prop := match t with TLinked l => linked_ok l | _ => True end.

(** A block definition whose generated code compiles and does not run into the
    capture of the local variable [crc] (see [Block.capture]). *)
Definition schema_ok (sc : schema) : Prop :=
  Forall (fun f => fst f <> str "crc" /\ ty_ok (snd f)) (s_fields sc).

(** Bits of Rust's number types. *)
Definition int_bits (w : iw) : N := match w with W8 => 8 | W16 => 16 | W32 => 32 | W64 => 64 | W128 => 128 end.
Definition float_bits (w : fw) : N := match w with F32 => 32 | F64 => 64 end.

(** A value of a field's Rust type. *)
Definition fval_ok (t : fty) (v : fval) : Prop :=
  match t, v with
  | TU w, VN n => n < 2 ^ int_bits w
  | TI w, VZ z => (- 2 ^ (Z.of_N (int_bits w) - 1) <= z < 2 ^ (Z.of_N (int_bits w) - 1))%Z
  | TF w, VN n => n < 2 ^ float_bits w
  | TBool, VBool _ => True
  | TBlob n, VBlob bs => length bs = n
  | TLinked l, VEnum v => l_of l (l_to l v) = Some v
  | _, _ => False
  end.

Definition vals_ok (sc : schema) (vs : list fval) : Prop := Forall2 fval_ok (s_tys sc) vs.

(** ** The documented format of a block *)

(** [k] bytes of a number, lowest first. *)
Definition low_first (k : N) (n : N) : bytes := map (fun i => n2b (n / 256 ^ N.of_nat i mod 256)) (seq 0 (N.to_nat k)).

(** Decimal digits. *)
Fixpoint digits_go (fuel : nat) (n : N) (acc : bytes) : bytes :=
  match fuel with
  | O => acc
  | S f => let acc := n2b (48 + n mod 10) :: acc in if n <? 10 then acc else digits_go f (n / 10) acc
  end.
Definition digits (n : nat) : bytes := digits_go (n + 1) (N.of_nat n) [].

(** Rust's names of the types. *)
Definition rust_type (t : fty) : bytes :=
  match t with
  | TU W8 => str "u8" | TU W16 => str "u16" | TU W32 => str "u32" | TU W64 => str "u64" | TU W128 => str "u128"
  | TI W8 => str "i8" | TI W16 => str "i16" | TI W32 => str "i32" | TI W64 => str "i64" | TI W128 => str "i128"
  | TF F32 => str "f32" | TF F64 => str "f64" | TBool => str "bool"
  | TBlob n => str "[u8;" ++ digits n ++ str "]"
  | TLinked l => l_name l
  end.

(** A block's signature is the checksum of its name and its fields. *)
Definition signature_text (sc : schema) : bytes :=
  s_name sc ++ str ";__sig:[u8;4]"
  ++ concat (map (fun f => str ";" ++ fst f ++ str ":" ++ rust_type (snd f)) (s_fields sc)) ++ str ";__crc:[u8;4]".

(** Rust identifiers have none of ":", ";", "[", "]". *)
Definition ident (n : bytes) : Prop := forall b, In b n -> ~ In (b2n b) [58; 59; 91; 93].
Definition names_ok (sc : schema) : Prop :=
  ident (s_name sc) /\ Forall (fun f => ident (fst f) /\ match snd f with TLinked l => ident (l_name l) | _ => True end) (s_fields sc).

Definition field_layout (t : fty) (v : fval) : bytes :=
  match t, v with
  | TU w, VN n => low_first (int_bits w / 8) n
  | TI w, VZ z => low_first (int_bits w / 8) (Z.to_N (if (z <? 0)%Z then z + 2 ^ Z.of_N (int_bits w) else z)%Z)
  | TF w, VN n => low_first (float_bits w / 8) n
  | TBool, VBool b => [if b then n2b 1 else n2b 0]
  | TBlob _, VBlob bs => bs
  | TLinked l, VEnum v => [l_to l v]
  | _, _ => []
  end.

(** Signature, fields in order, checksum of the fields (zeros for [no_crc]). *)
Definition block_layout (b : block) : bytes :=
  let fields := concat (map (fun tv => field_layout (fst tv) (snd tv)) (combine (map snd (s_fields (bk_ty b))) (bk_vals b))) in
  crc32_le (signature_text (bk_ty b)) ++ fields
  ++ (if s_no_crc (bk_ty b) then [n2b 0; n2b 0; n2b 0; n2b 0] else crc32_le fields).

(** ** The bytes that a stream reader takes for a value *)

(** A bool is false only as a zero byte; a linked enum may have several bytes for a variant. *)
Definition value_bytes (t : fty) (v : fval) (raw : bytes) : Prop :=
  fval_ok t v /\
  match t, v with
  | TBool, VBool b => exists x, raw = [x] /\ (b = true <-> x <> n2b 0)
  | TLinked l, VEnum e => exists x, raw = [x] /\ l_of l x = Some e
  | _, _ => raw = field_layout t v
  end.
Inductive values_bytes : list fty -> list fval -> bytes -> Prop :=
| vb_nil : values_bytes [] [] []
| vb_cons t v raw ts vs rest : value_bytes t v raw -> values_bytes ts vs rest ->
    values_bytes (t :: ts) (v :: vs) (raw ++ rest).
(** The checksum is the one of the block's layout, whatever bytes stand for its bools and enums. *)
Definition block_taken (b : block) (e : bytes) : Prop :=
  let fields := concat (map (fun tv => field_layout (fst tv) (snd tv)) (combine (map snd (s_fields (bk_ty b))) (bk_vals b))) in
  exists raw, values_bytes (map snd (s_fields (bk_ty b))) (bk_vals b) raw /\
    e = crc32_le (signature_text (bk_ty b)) ++ raw
        ++ (if s_no_crc (bk_ty b) then [n2b 0; n2b 0; n2b 0; n2b 0] else crc32_le fields).

(** Length and bytes of the signature, length and bytes of the checksum, length of the body. *)
Definition payload_header_layout (sig crc : bytes) (len : N) : bytes :=
  [n2b (blen sig)] ++ sig ++ [n2b (blen crc)] ++ crc ++ low_first 4 len.

(** ** Corruption: [e'] is [e] with at most [k] consecutive bytes replaced. *)
Definition burst (k : nat) (e e' : bytes) : Prop :=
  exists pre w w' post,
    e = pre ++ w ++ post /\ e' = pre ++ w' ++ post /\ length w = length w' /\ (length w <= k)%nat.

(** [q] is a strict prefix of [e]. *)
Definition strict_prefix (q e : bytes) : Prop := exists r, r <> [] /\ e = q ++ r.
(** How far the end of the part is in which something of [n] bytes stops; [ends] are the ends of the parts. *)
Fixpoint to_end (ends : list N) (n : N) : N :=
  match ends with [] => 0 | e :: r => if n <? e then e - n else to_end r n end.
(** The parts of a payload header. *)
Definition pheader_ends (h : pheader) : list N :=
  let s := blen (ph_sig h) in let c := blen (ph_crc h) in [1; 1 + s; 2 + s; 2 + s + c; 6 + s + c].

(** What a function writing to a sink delivers to a sink that takes everything. *)
Definition written (f : sink -> res unit * sink) (e : bytes) : Prop :=
  f (mk_sink [] []) = (Ok tt, mk_sink e []).

(** ** Legal payloads *)

(** Documented lengths of payload signatures and checksums. *)
Definition capacities : list N := [4; 8; 16; 32; 64; 128].

Definition ph_ok (h : pheader) : Prop :=
  In (blen (ph_sig h)) capacities /\ In (blen (ph_crc h)) capacities /\ ph_len h <= u32_max.

(** The codec of a payload type works on the value [v]: [body] is its encoding, [crc]
    its checksum, the announced size is the length of the body and decoding gives [v]
    back. *)
Definition encodes {V} (k : pkind V) (v : V) (body crc : bytes) : Prop :=
  pk_body k v = IOk body /\ pk_size k v = IOk (blen body) /\ pk_decode k body = IOk v /\
  pk_crc k v = IOk crc /\
  In (blen (pk_sig k)) capacities /\ In (blen crc) capacities /\ blen body <= u32_max.

(** A payload type with the default checksum: the CRC32 of the encoded value. *)
Definition auto_crc {V} (k : pkind V) : Prop :=
  forall v, pk_crc k v = match pk_body k v with IOk b => IOk (crc32_le b) | IErr i => IErr i end.

(** UTF-8 by its definition: scalar values and their encodings. *)
Definition scalar (c : N) : Prop := c < 55296 \/ (57344 <= c < 1114112).
Definition utf8_of (c : N) : bytes :=
  if c <? 128 then [n2b c]
  else if c <? 2048 then [n2b (192 + c / 64); n2b (128 + c mod 64)]
  else if c <? 65536 then [n2b (224 + c / 4096); n2b (128 + (c / 64) mod 64); n2b (128 + c mod 64)]
  else [n2b (240 + c / 262144); n2b (128 + (c / 4096) mod 64); n2b (128 + (c / 64) mod 64); n2b (128 + c mod 64)].
Definition utf8 (bs : bytes) : Prop :=
  exists cs, Forall scalar cs /\ bs = concat (map utf8_of cs).
(** The start of some encoding. *)
Definition begins (m : bytes) : Prop := exists c r, scalar c /\ utf8_of c = m ++ r.
(** A text with every maximal piece that cannot be completed replaced by U+FFFD (Unicode, "substitution of maximal subparts"). *)
Inductive repaired : bytes -> bytes -> Prop :=
| rep_end : repaired [] []
| rep_char c bs out : scalar c -> repaired bs out -> repaired (utf8_of c ++ bs) (utf8_of c ++ out)
| rep_bad m bs out :
    m <> [] -> begins m \/ length m = 1%nat -> (forall c, scalar c -> utf8_of c <> m) ->
    (forall b r, bs = b :: r -> ~ begins (m ++ [b])) ->
    repaired bs out -> repaired (m ++ bs) (map n2b [239; 191; 189] ++ out).

(** A payload value of a protocol with user kinds [ks], with its body and checksum. *)
Definition payload_ok {U} (ks : list (pkind U)) (p : payload U) (body crc : bytes) : Prop :=
  match p with
  | PUser k u => In k ks /\ encodes k u body crc
  | PBytes v => body = v /\ encodes bytes_kind v body crc
  | PString v => body = v /\ utf8 v /\ encodes string_kind v body crc
  end.

(** Signatures of all payload types of a protocol. *)
Definition pl_sigs {U} (ks : list (pkind U)) : list bytes :=
  map pk_sig ks ++ [crc32_le (str "Vec<u8>"); crc32_le (str "String")].

(** ** Sources: what a lawful [Read] is.
    [view s] is the data still ahead of a source; a reader over [S] is lawful when
    [read_exact] takes exactly the next bytes, or fails without success. *)
Record lawful {S} (R : reader S) (view : S -> bytes) (okst : S -> Prop) : Prop := {
  lw_ok : forall n s a b, okst s -> view s = a ++ b -> blen a = n ->
      exists s', rd_exact R n s = (Ok a, s') /\ view s' = b /\ okst s';
  lw_short : forall n s, okst s -> blen (view s) < n ->
      exists s', rd_exact R n s = (Err (EIo UnexpectedEof), s')
}.

(** A seekable source whose position is not past its end. *)
Definition c_ok (c : cursor) : Prop := c_pos c <= c_len c.

(** Data ahead of a BufRead source; a source is fault free when no event is an error
    or an early end of file. *)
Definition ev_bytes (e : event) : bytes := match e with Chunk bs => bs | Fail _ => [] end.
Definition b_view (s : bufsrc) : bytes := b_cur s ++ concat (map ev_bytes (b_evs s)).
Definition ev_ok (e : event) : Prop := match e with Chunk (_ :: _) => True | _ => False end.
Definition b_ok (s : bufsrc) : Prop := Forall ev_ok (b_evs s).

(** Where the pieces end in which a BufRead source hands out its bytes (the buffered ones, then one per event), counted from the
    next byte; and how many bytes it shows at once when [n] were taken. *)
Fixpoint ends_of (at_ : N) (pieces : list bytes) : list N :=
  match pieces with [] => [] | x :: r => (at_ + blen x) :: ends_of (at_ + blen x) r end.
Definition shown (s : bufsrc) (n : N) : N := to_end (ends_of 0 (b_cur s :: map ev_bytes (b_evs s))) n.

(** ** Legal protocols and packets *)

(** A block value of a protocol with block types [scs]. *)
Definition block_ok (scs : list schema) (b : block) : Prop :=
  In (bk_ty b) scs /\ schema_ok (bk_ty b) /\ vals_ok (bk_ty b) (bk_vals b).

(** Signatures of the declared types are distinct (they are checksums: a collision is
    possible, but would make the protocol unusable). *)
Definition proto_ok {U} (P : proto U) : Prop :=
  NoDup (map blk_sig (pr_blocks P)) /\ NoDup (pl_sigs (pr_kinds P)).

(** Wire layout, brec's format description: header, blocks, payload header, payload. *)
Definition layout_header (size blocks_len : N) (flag : bool) : bytes :=
  let f := le 8 size ++ le 8 blocks_len ++ [if flag then n2b 1 else n2b 0] in
  map n2b [236; 37; 94; 136; 236; 37; 94; 136] ++ f ++ crc32_le f.

Definition payload_part {U} (ks : list (pkind U)) (o : option (payload U)) (tail : bytes) : Prop :=
  match o with
  | None => tail = []
  | Some p => exists body crc, payload_ok ks p body crc /\ blen crc = 4 /\
      tail = ph_bytes (mk_pheader (pl_sig p) crc (blen body)) ++ body
  end.

(** [e] is the encoding of the packet [p], which is legal for the protocol [P]:
    its payload codec works, its checksum has four bytes (the only length the packet
    header accounts for), and it fits in memory. *)
Definition packet_enc {U} (P : proto U) (p : packet U) (e : bytes) : Prop :=
  exists tail,
    Forall (block_ok (pr_blocks P)) (p_blocks p) /\
    payload_part (pr_kinds P) (p_payload p) tail /\
    let blocks := concat (map bk_encode (p_blocks p)) in
    blen blocks + blen tail < two63 /\
    e = layout_header (blen blocks + blen tail) (blen blocks)
          (match p_payload p with Some _ => true | None => false end) ++ blocks ++ tail.

(** The bytes that the stream reader takes for a packet: the flag is any byte but 1 without a payload, the body of a payload
    is any that decodes to it, and bytes may follow inside of the packet. *)
Definition payload_taken {U} (ks : list (pkind U)) (pl : payload U) (part : bytes) : Prop :=
  exists crc body,
    In (blen (pl_sig pl)) capacities /\ In (blen crc) capacities /\ blen body <= u32_max /\
    part = payload_header_layout (pl_sig pl) crc (blen body) ++ body /\
    match pl with
    | PUser k u => In k ks /\ pk_decode k body = IOk u /\ pk_crc k u = IOk crc
    | PBytes v => v = body /\ crc = crc32_le v
    | PString v => v = lossy body /\ crc = crc32_le v
    end.
Definition packet_taken {U} (P : proto U) (p : packet U) (e : bytes) : Prop :=
  exists raws flag part slack,
    Forall2 block_taken (p_blocks p) raws /\ Forall (fun b => In (bk_ty b) (pr_blocks P)) (p_blocks p) /\
    (length (p_blocks p) <= 256)%nat /\
    match p_payload p with
    | Some pl => flag = n2b 1 /\ payload_taken (pr_kinds P) pl part
    | None => flag <> n2b 1 /\ part = []
    end /\
    let blocks := concat raws in
    let size := blen blocks + blen part + blen slack in
    size < two63 /\
    e = map n2b [236; 37; 94; 136; 236; 37; 94; 136] ++ low_first 8 size ++ low_first 8 (blen blocks) ++ [flag]
        ++ crc32_le (low_first 8 size ++ low_first 8 (blen blocks)
                     ++ [match p_payload p with Some _ => n2b 1 | None => n2b 0 end])
        ++ blocks ++ part ++ slack.

(** Results changed inside. *)
Definition rmap {A B} (f : A -> B) (r : res A) : res B :=
  match r with Ok a => Ok (f a) | Err e => Err e | Panic w => Panic w end.

(** ** Sinks: what a call made of the answers of a sink.  It took them in order, every error among them other than
    [Interrupted] is its own result, and it did not deliver more than was accepted (as long as the sink still limits it). *)
Definition accepted (l : list answer) : N := fold_right (fun a n => match a with Accept m => m + n | WFail _ => n end) 0 l.
Definition heeds {A} (o : sink) (r : res A) (o' : sink) : Prop :=
  exists used, k_sched o = used ++ k_sched o' /\
    (forall k, In (WFail k) used -> k = Interrupted \/ r = Err (EIo k)) /\
    (k_sched o' <> [] -> blen (k_got o') <= blen (k_got o) + accepted used).

(** ** Histories of a rule set: any sequence of [add_rule] and [remove_rule] calls. *)
Inductive rule_op {U} := OpAdd (r : rule U) | OpRemove (i : rule_id).
Arguments rule_op : clear implicits.
Definition rule_step {U} (rs : rules U) (o : rule_op U) : rules U :=
  match o with OpAdd r => snd (add_rule r rs) | OpRemove i => remove_rule i rs end.
Definition rule_history {U} (ops : list (rule_op U)) : rules U := fold_left rule_step ops [].


(** ** Streams *)

(** The rules accept the packet: every installed filter says yes (the payload filter is
    asked about the encoded payload). *)
Definition accepts {U} (P : proto U) (rs : rules U) (p : packet U) : Prop :=
  (forall f, In (RFilterByBlocks f) rs -> f (p_blocks p) = true) /\
  (forall f pl body crc, In (RFilterByPayload f) rs -> p_payload p = Some pl ->
     payload_ok (pr_kinds P) pl body crc -> f body = true) /\
  (forall f, In (RFilter f) rs -> f p = true).

(** What a reader has to report for a packet. *)
Inductive verdict {U} (P : proto U) (rs : rules U) (p : packet U) : res (next U) -> Prop :=
| verdict_found : accepts P rs p -> verdict P rs p (Ok (NFound p))
| verdict_skipped : ~ accepts P rs p -> verdict P rs p (Ok NSkipped).

(** Results after which the documented loop simply calls [read] again; the others
    report something. *)
Definition quiet {U} (o : res (next U)) : bool :=
  match o with Ok (NNotEnough _) | Ok NNotFound => true | _ => false end.
Definition reports {U} (os : list (res (next U))) : list (res (next U)) :=
  filter (fun o => negb (quiet o)) os.

(** A stream cut into chunks as the operating system delivers them; a Rust buffer is
    smaller than 2^63 bytes. *)
Definition cut_into (cs : list bytes) (stream : bytes) : Prop :=
  concat cs = stream /\ Forall (fun c => c <> [] /\ blen c < two63) cs.

(** The packet signature (brec's format description) does not begin inside [g] when [next] follows. *)
Definition no_signature (g next : bytes) : Prop :=
  forall i, (i < length g)%nat -> firstn 8 (skipn i (g ++ next)) <> map n2b [236; 37; 94; 136; 236; 37; 94; 136].

(** 29 bytes that begin with the signature and whose checksum is not that of the fields before it. *)
Definition wrong_header (e : bytes) : Prop :=
  exists sz bl fl crc, e = map n2b [236; 37; 94; 136; 236; 37; 94; 136] ++ sz ++ bl ++ [fl] ++ crc /\
    length sz = 8%nat /\ length bl = 8%nat /\ length crc = 4%nat /\
    crc <> crc32_le (sz ++ bl ++ [n2b (if b2n fl =? 1 then 1 else 0)]).

(** A packet with a valid header, valid blocks [bs] and a readable payload header, in which no reader finds a payload;
    [body] are the bytes after the payload header. *)
Definition payload_refused {U} (P : proto U) (bs : list block) (body e : bytes) : Prop :=
  exists sig crc len,
    (length bs <= 255)%nat /\ Forall (block_ok (pr_blocks P)) bs /\
    In (blen sig) capacities /\ In (blen crc) capacities /\ len <= u32_max /\
    let part := payload_header_layout sig crc len ++ body in
    (forall pl taken rest, part = taken ++ rest -> ~ payload_taken (pr_kinds P) pl taken) /\
    let blocks := concat (map bk_encode bs) in
    blen blocks + blen part < two63 /\
    e = layout_header (blen blocks + blen part) (blen blocks) true ++ blocks ++ part.

(** A reader with the rules [rs] that has read nothing yet. *)
Definition fresh {U} (rs : rules U) (evs : list event) : preader U :=
  mk_preader (mk_bufsrc [] evs) rs HEmpty [] [].

(** The streaming reader takes at most this many blocks. *)
Definition few_blocks {U} (p : packet U) : Prop := (length (p_blocks p) <= 255)%nat.

(** Using a reader: calls of [read] and changes of its rules, in any order. *)
Inductive move {U} := MRead | MRule (o : rule_op U).
Arguments move : clear implicits.
Definition change_rule {U} (o : rule_op U) (r : preader U) : preader U :=
  match o with OpAdd x => snd (pr_add_rule x r) | OpRemove i => pr_remove_rule i r end.
(** The results of the reads, each with the rules in force at that call; [ops] are the rule changes so far. *)
Fixpoint session {U} (P : proto U) (ms : list (move U)) (ops : list (rule_op U)) (r : preader U) : list (rules U * res (next U)) * preader U :=
  match ms with
  | [] => ([], r)
  | MRead :: ms => let (o, r1) := pr_read P r in let (os, r2) := session P ms ops r1 in ((rule_history ops, o) :: os, r2)
  | MRule o :: ms => session P ms (ops ++ [o]) (change_rule o r)
  end.
(** [served ps outs rest]: the results give the verdicts on the packets [ps] but for the last ones, [rest], in order, each by
    the rules in force; [NoData] comes only after all packets, anything else only asks for another call. *)
Inductive served {U} (P : proto U) : list (packet U) -> list (rules U * res (next U)) -> list (packet U) -> Prop :=
| served_none ps : served P ps [] ps
| served_quiet ps rs o os rest : quiet o = true -> served P ps os rest -> served P ps ((rs, o) :: os) rest
| served_packet p ps rs o os rest : verdict P rs p o -> served P ps os rest -> served P (p :: ps) ((rs, o) :: os) rest
| served_no_data rs os rest : served P [] os rest -> served P [] ((rs, Ok NNoData) :: os) rest.

(** [p] read from consecutive sections of [D], in order and without overlap: each section
    is a valid packet header and the body it announces, and decoding it gives the packet
    ([filtered] without rules is the library's decoder for one complete packet). *)
Inductive sections {U} (P : proto U) : bytes -> list (packet U) -> Prop :=
| sec_none D : sections P D []
| sec_next skip hdr body rest h p ps :
    hdr_read_from_slice hdr = Ok h -> length hdr = 29%nat -> blen body = h_size h ->
    filtered stream_reader P [] (hdr ++ body) = (Ok (Accepted (h_size h) p), []) ->
    sections P rest ps ->
    sections P (skip ++ hdr ++ body ++ rest) (p :: ps).

(** The packets among the results of [read]. *)
Definition found_packets {U} (os : list (res (next U))) : list (packet U) :=
  concat (map (fun o => match o with Ok (NFound p) => [p] | _ => [] end) os).

Definition no_panic {A} (o : res A) : Prop := match o with Panic _ => False | _ => True end.

(** [e] is the encoding of [p] in which one checksummed block was damaged: at most four consecutive
    bytes after its signature were changed. *)
Definition block_damaged {U} (P : proto U) (p : packet U) (e : bytes) : Prop :=
  exists bs1 b bs2 body tail,
    p_blocks p = bs1 ++ b :: bs2 /\ s_no_crc (bk_ty b) = false /\
    burst 4 (fields_bytes (s_tys (bk_ty b)) (bk_vals b) ++ blk_crc (bk_ty b) (bk_vals b)) body /\
    Forall (block_ok (pr_blocks P)) (p_blocks p) /\ payload_part (pr_kinds P) (p_payload p) tail /\
    let blocks := concat (map bk_encode (p_blocks p)) in
    blen blocks + blen tail < two63 /\
    e = layout_header (blen blocks + blen tail) (blen blocks)
          (match p_payload p with Some _ => true | None => false end)
        ++ concat (map bk_encode bs1) ++ (blk_sig (bk_ty b) ++ body) ++ concat (map bk_encode bs2) ++ tail.

(** An intact or a damaged packet, and what may be reported for it. *)
Definition sound_or_damaged {U} (P : proto U) (p : packet U) (e : bytes) : Prop := packet_enc P p e \/ block_damaged P p e.
Definition report_ok {U} (P : proto U) (rs : rules U) (pe : packet U * bytes) (o : res (next U)) : Prop :=
  verdict P rs (fst pe) o \/ block_damaged P (fst pe) (snd pe) /\ exists e, o = Err e.

(** Every valid packet header at any position of [D] announces blocks that fit in the packet,
    and the packet could exist in memory. *)
Definition honest_headers (D : bytes) : Prop :=
  forall i h, hdr_read_from_slice (firstn 29 (skipn i D)) = Ok h -> h_blocks_len h <= h_size h /\ h_size h < two63.

(** A source whose system reads fail, find nothing or fill at least the size of a packet header. *)
Definition roomy (evs : list event) : Prop :=
  Forall (fun e => match e with Chunk c => c = [] \/ (29 <= length c)%nat | Fail _ => True end) evs.

(** ** Clients of a [BufferedReader] (C51) *)
Inductive br_op := BRead (n : nat) | BFill | BConsume (n : nat) | BRefill | BLen | BBufferLen.
(** The reader, what the last [fill_buf] still allows to consume, and the bytes delivered so far. *)
Record br_client := mk_client { bc_reader : bufrd; bc_allowed : bytes; bc_got : bytes }.
(** A client of a new reader over a source with the given answers to system reads. *)
Definition br_start (evs : list event) : br_client := mk_client (br_new (mk_bufsrc [] evs)) [] [].
(** One legal call.  A [fill_buf] gives what may be consumed; [refill], [read] and errors end that. *)
Inductive br_call : br_client -> br_op -> br_client -> Prop :=
| call_read r a g n b r' : br_read n r = (Ok b, r') -> br_call (mk_client r a g) (BRead n) (mk_client r' [] (g ++ b))
| call_read_err r a g n e r' : br_read n r = (Err e, r') -> br_call (mk_client r a g) (BRead n) (mk_client r' [] g)
| call_fill r a g b r' : br_fill_buf r = (Ok b, r') -> br_call (mk_client r a g) BFill (mk_client r' b g)
| call_fill_err r a g e r' : br_fill_buf r = (Err e, r') -> br_call (mk_client r a g) BFill (mk_client r' [] g)
| call_consume r a g n : (n <= length a)%nat ->
    br_call (mk_client r a g) (BConsume n) (mk_client (br_consume n r) (skipn n a) (g ++ firstn n a))
| call_refill r a g r' : br_refill r = (Ok tt, r') -> br_call (mk_client r a g) BRefill (mk_client r' [] g)
| call_refill_err r a g e r' : br_refill r = (Err e, r') -> br_call (mk_client r a g) BRefill (mk_client r' [] g)
| call_len r a g n r' : br_len r = (Ok n, r') -> br_call (mk_client r a g) BLen (mk_client r' a g)
| call_len_err r a g e r' : br_len r = (Err e, r') -> br_call (mk_client r a g) BLen (mk_client r' [] g)
| call_buffer_len r a g n r' : br_buffer_len r = (Ok n, r') -> br_call (mk_client r a g) BBufferLen (mk_client r' a g)
| call_buffer_len_err r a g e r' :
    br_buffer_len r = (Err e, r') -> br_call (mk_client r a g) BBufferLen (mk_client r' [] g).
(** Sequences of legal calls in which every call meets [ok]. *)
Inductive br_calls (ok : br_client -> br_op -> Prop) : br_client -> list br_op -> br_client -> Prop :=
| calls_nil c : br_calls ok c [] c
| calls_cons c o c1 os c2 : ok c o -> br_call c o c1 -> br_calls ok c1 os c2 -> br_calls ok c (o :: os) c2.
Definition br_any (c : br_client) (o : br_op) : Prop := True.
(** The documented use (brec/src/traits/read/reader.rs:34-36): [refill] when [buffer_len] is less than 4. *)
Definition br_documented (c : br_client) (o : br_op) : Prop :=
  o = BRefill -> exists n r, br_buffer_len (bc_reader c) = (Ok n, r) /\ (n < 4)%nat.
(** What avoids losses: [refill] only with nothing preloaded, and no [read] failing with something
    preloaded.  With [strict], [consume] calls do not cross the end of the preloaded bytes either. *)
Definition br_polite (strict : bool) (c : br_client) (o : br_op) : Prop :=
  match o with
  | BRefill => f_buffer (bc_reader c) = []
  | BRead n => f_buffer (bc_reader c) = [] \/ exists b r, br_read n (bc_reader c) = (Ok b, r)
  | BConsume n => strict = true -> f_buffer (bc_reader c) = [] \/ (n <= length (f_buffer (bc_reader c)))%nat
  | _ => True
  end.

(** The preloaded bytes that a call throws away, and those that a [consume] delivers without [consumed] counting them. *)
Definition br_lost (c : br_client) (o : br_op) : bytes :=
  let r := bc_reader c in
  match o with
  | BRefill => match fst (br_refill r) with Ok _ => f_buffer r | _ => [] end
  | BRead n => match fst (br_read n r) with Ok _ => [] | _ => f_buffer r end
  | _ => []
  end.
Definition br_uncounted (c : br_client) (o : br_op) : nat :=
  match o with
  | BConsume n => if (length (f_buffer (bc_reader c)) <? n)%nat then length (f_buffer (bc_reader c)) else O
  | _ => O
  end.

(** ** Names of fields *)

(** A field that is not called [crc]. *)
Definition plain_field (f : bytes * fty) : Prop := fst f <> str "crc" /\ ty_ok (snd f).

(** What reading a block gives whose field [crc] had the value [b] when it was written. *)
Definition crc_field_outcome (sc : schema) (v1 : list fval) (b : bytes) (v2 : list fval) : res (list fval) :=
  let vs := v1 ++ VBlob b :: v2 in
  if s_no_crc sc then Ok (v1 ++ VBlob (repeat (n2b 0) 4) :: v2)
  else if bytes_eqb b (crc32_le (fields_bytes (s_tys sc) vs)) then Ok vs else Err ECrcDismatch.

(** The same outcome as a [try_read] reports it. *)
Definition lift_status {A} (r : res A) : res (status A) :=
  match r with Ok x => Ok (Success x) | Err e => Err e | Panic w => Panic w end.
