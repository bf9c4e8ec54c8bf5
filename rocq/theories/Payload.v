(** * Payloads: ByteBlock, PayloadHeader, payload kinds and the generated Payload enum. *)
From Verif Require Import Base Crc32 Io.

(** ** ByteBlock *)

(** [ByteBlock::is_valid_capacity], brec/src/traits/props/byte_block.rs:54-63. *)
Definition valid_capacity (n : N) : bool :=
  existsb (N.eqb n) [4; 8; 16; 32; 64; 128].
Definition check_capacity (n : N) : res unit :=
  if valid_capacity n then Ok tt else Err (EInvalidCapacity n).

(** [TryFrom<Vec<u8>> for ByteBlock], brec/src/traits/props/byte_block.rs:78-94.
    A ByteBlock is represented by its bytes (the enum variant is determined by
    the length; [FailExtractByteBlock] cannot occur once the length matched). *)
Definition to_byte_block (v : bytes) : res bytes :=
  if valid_capacity (blen v) then Ok v else Err (EInvalidCapacity (blen v)).

(** ** PayloadHeader *)

(** brec/src/payload/header/mod.rs:27-36. *)
Record pheader := mk_pheader { ph_sig : bytes; ph_crc : bytes; ph_len : N }.

(** [PayloadHeader::size], brec/src/payload/header/mod.rs:74-76. *)
Definition ph_size (h : pheader) : nat := (1 + length (ph_sig h) + 1 + length (ph_crc h) + 4)%nat.

(** [PayloadHeader::as_vec], brec/src/payload/header/mod.rs:94-109. *)
Definition ph_bytes (h : pheader) : bytes :=
  ([n2b (blen (ph_sig h))] ++ ph_sig h ++ [n2b (blen (ph_crc h))] ++ ph_crc h ++ le 4 (ph_len h))%list.

(** [ReadFrom for PayloadHeader], brec/src/payload/header/read.rs:21-44. *)
Definition ph_read {S} (R : reader S) (s : S) : res pheader * S :=
  do (sl, s) <- rd_exact R 1 s;
  let sig_len := unle sl in
  do (_, s) <- (check_capacity sig_len, s);
  do (sig, s) <- rd_exact R sig_len s;
  do (cl, s) <- rd_exact R 1 s;
  let crc_len := unle cl in
  do (_, s) <- (check_capacity crc_len, s);
  do (crc, s) <- rd_exact R crc_len s;
  do (len, s) <- rd_exact R 4 s;
  do (crc, s) <- (to_byte_block crc, s);
  do (sig, s) <- (to_byte_block sig, s);
  (Ok (mk_pheader sig crc (unle len)), s).

(** [SafeHeaderReader], brec/src/payload/header/sreader.rs:39-112: start position,
    bytes read so far, bytes available at the start. *)
Record safe := mk_safe { sf_spos : N; sf_read : N; sf_len : N }.

(** [SafeHeaderReader::new], sreader.rs:54-64. *)
Definition safe_new (c : cursor) : res safe :=
  let! len := c_available c in Ok (mk_safe (c_pos c) 0 len).

(** [next_u8]/[next_u32]/[next_bytes], sreader.rs:70-111: the three differ only in
    the number of bytes; the raw bytes are returned here. *)
Definition safe_next (n : N) (f : safe) (c : cursor) : res (status (bytes * safe)) * cursor :=
  if sf_len f <? sf_read f + n
  then (Ok (NotEnough (sf_read f + n - sf_len f)), c_seek (sf_spos f) c)
  else
    do (bs, c) <- cursor_read_exact n c;
    (Ok (Success (bs, mk_safe (sf_spos f) (sf_read f + n) (sf_len f))), c).

(** Sequencing used by [try_read]: return early on [NotEnoughData]. *)
Definition stbind {S A B} (m : res (status A) * S) (k : A -> S -> res (status B) * S)
  : res (status B) * S :=
  match m with
  | (Ok (Success a), s) => k a s
  | (Ok (NotEnough n), s) => (Ok (NotEnough n), s)
  | (Err e, s) => (Err e, s)
  | (Panic w, s) => (Panic w, s)
  end.
Notation "'st' ( x , s ) <- m ; k" := (stbind m (fun x s => k))
  (at level 200, x pattern, s pattern, m at level 100, k at level 200).

(** [TryReadFrom for PayloadHeader], brec/src/payload/header/read.rs:57-94. *)
Definition ph_try_read (c : cursor) : res (status pheader) * cursor :=
  do (f, c) <- (safe_new c, c);
  st ((sl, f), c) <- safe_next 1 f c;
  let sig_len := unle sl in
  do (_, c) <- (check_capacity sig_len, c);
  st ((sig, f), c) <- safe_next sig_len f c;
  st ((cl, f), c) <- safe_next 1 f c;
  let crc_len := unle cl in
  do (_, c) <- (check_capacity crc_len, c);
  st ((crc, f), c) <- safe_next crc_len f c;
  st ((len, f), c) <- safe_next 4 f c;
  do (crc, c) <- (to_byte_block crc, c);
  do (sig, c) <- (to_byte_block sig, c);
  (Ok (Success (mk_pheader sig crc (unle len))), c).

(** [TryReadFromBuffered for PayloadHeader], brec/src/payload/header/read.rs:110-157:
    works on the buffered bytes only and does not consume them. *)
Definition ph_peek (buf : bytes) : res (status pheader) :=
  let n := blen buf in
  if n <? 1 then Ok (NotEnough (1 - n)) else
  let sig_len := b2n (nth 0 buf (n2b 0)) in
  let! _ := check_capacity sig_len in
  let required := 1 + sig_len in
  if n <? required then Ok (NotEnough (required - n)) else
  let required := required + 1 in
  if n <? required then Ok (NotEnough (required - n)) else
  let crc_len := b2n (nth (N.to_nat (required - 1)) buf (n2b 0)) in
  let! _ := check_capacity crc_len in
  let required := required + crc_len in
  if n <? required then Ok (NotEnough (required - n)) else
  let required := required + 4 in
  if n <? required then Ok (NotEnough (required - n)) else
  let! h := fst (ph_read stream_reader buf) in
  Ok (Success h).
Definition ph_try_read_buf (s : bufsrc) : res (status pheader) * bufsrc :=
  do (buf, s) <- fill_buf s; (ph_peek buf, s).

(** ** Payload kinds

    A payload type as the library sees it: its static signature, its size, its
    encoder, its decoder, its checksum.  [pk_body] stands for the pair
    [PayloadEncodeReferred::encode]/[PayloadEncode::encode]: every use in the
    library takes the first if present and the second otherwise
    (brec/src/traits/props/mod.rs:41-47, brec/src/traits/write/mod.rs:92-96, 104-108, 130-134).
    These are the user's functions; all four return [std::io::Result]
    (brec/src/payload/mod.rs:43, 58, 75, brec/src/traits/props/mod.rs:41, 91). *)
Inductive iores (A : Type) := IOk (a : A) | IErr (k : iokind).
Arguments IOk {A}. Arguments IErr {A}.
(** [From<io::Error> for Error], brec/src/error.rs (the [?] on an [io::Result]). *)
Definition io {A} (m : iores A) : res A := match m with IOk a => Ok a | IErr k => Err (EIo k) end.

(** Such a type: signature, size, encoded bytes, checksum, decoder. *)
Record pkind (V : Type) := mk_pkind {
  pk_sig : bytes;
  pk_size : V -> iores N;
  pk_body : V -> iores bytes;
  pk_crc : V -> iores bytes;
  pk_decode : bytes -> iores V
}.
Arguments pk_sig {V}. Arguments pk_size {V}. Arguments pk_body {V}.
Arguments pk_crc {V}. Arguments pk_decode {V}.

(** [PayloadCrc::crc] default method, brec/src/traits/props/mod.rs:41-49. *)
Definition default_crc {V} (body : V -> iores bytes) (v : V) : iores bytes :=
  match body v with IOk b => IOk (crc32_le b) | IErr k => IErr k end.

(** [Vec<u8>] as payload, brec/src/payload/defaults/vec_u8.rs:9-46. *)
Definition bytes_kind : pkind bytes := {|
  pk_sig := crc32_le (str "Vec<u8>");
  pk_size := fun v => IOk (blen v);
  pk_body := fun v => IOk v;
  pk_crc := default_crc (fun v => IOk v);
  pk_decode := fun b => IOk b
|}.

(** *** [String::from_utf8_lossy], as in core::str::lossy: one step consumes either a
    valid code point or a maximal invalid prefix. *)
Definition in_range (lo hi : N) (b : byte) : bool := (lo <=? b2n b) && (b2n b <=? hi).
Definition cont (b : option byte) : bool :=
  match b with Some b => in_range 128 191 b | None => false end.

(** Width of the code point announced by a first byte, core::str::validations::utf8_char_width. *)
Definition utf8_width (b : byte) : nat :=
  if in_range 0 127 b then 1
  else if in_range 194 223 b then 2
  else if in_range 224 239 b then 3
  else if in_range 240 244 b then 4
  else 0%nat.

(** Which second bytes are allowed after a given first byte of width 3 or 4. *)
Definition second_ok (b : byte) (c : option byte) : bool :=
  match c with
  | None => false
  | Some c =>
      if N.eqb (b2n b) 224 then in_range 160 191 c
      else if N.eqb (b2n b) 237 then in_range 128 159 c
      else if N.eqb (b2n b) 240 then in_range 144 191 c
      else if N.eqb (b2n b) 244 then in_range 128 143 c
      else in_range 128 191 c
  end.

(** One chunk: (is it valid, how many bytes). [bs] is non-empty: [b :: r]. *)
Definition utf8_step (b : byte) (r : bytes) : bool * nat :=
  match utf8_width b with
  | 1 => (true, 1)
  | 2 => if cont (nth_error r 0) then (true, 2) else (false, 1)
  | 3 => if second_ok b (nth_error r 0)
         then if cont (nth_error r 1) then (true, 3) else (false, 2)
         else (false, 1)
  | 4 => if second_ok b (nth_error r 0)
         then if cont (nth_error r 1)
              then if cont (nth_error r 2) then (true, 4) else (false, 3)
              else (false, 2)
         else (false, 1)
  | _ => (false, 1)
  end%nat.

(** U+FFFD in UTF-8. *)
Definition replacement : bytes := [n2b 239; n2b 191; n2b 189].

(** The chunks of [String::from_utf8_lossy], brec/src/payload/defaults/string.rs:45; the fuel is the number of bytes. *)
Fixpoint lossy_go (fuel : nat) (bs : bytes) : bytes :=
  match fuel, bs with
  | S f, b :: r =>
      let (ok, n) := utf8_step b r in
      ((if ok then firstn n bs else replacement) ++ lossy_go f (skipn n bs))%list
  | _, _ => []
  end.
(** Each step consumes at least one byte, so the length is enough fuel. *)
Definition lossy (bs : bytes) : bytes := lossy_go (length bs) bs.

(** [String] as payload, brec/src/payload/defaults/string.rs:9-47; a string is its
    UTF-8 bytes. *)
Definition string_kind : pkind bytes := {|
  pk_sig := crc32_le (str "String");
  pk_size := fun v => IOk (blen v);
  pk_body := fun v => IOk v;
  pk_crc := default_crc (fun v => IOk v);
  pk_decode := fun b => IOk (lossy b)
|}.

(** [PayloadHeader::new], brec/src/payload/header/mod.rs:46-59. *)
Definition ph_new {V} (k : pkind V) (v : V) : res pheader :=
  let! len := io (pk_size k v) in
  if u32_max <? len then Err (EIo OtherIo)
  else let! crc := io (pk_crc k v) in Ok (mk_pheader (pk_sig k) crc len).

(** [WritePayloadWithHeaderTo::write], brec/src/traits/write/mod.rs:89-98. *)
Definition pk_write {V} (k : pkind V) (v : V) (o : sink) : res N * sink :=
  do (h, o) <- (ph_new k v, o);
  do (_, o) <- sink_write_all (ph_bytes h) o;
  do (body, o) <- (io (pk_body k v), o);
  do (n, o) <- sink_write body o;
  (Ok (n + blen (ph_bytes h)), o).

(** [WritePayloadWithHeaderTo::write_all], brec/src/traits/write/mod.rs:101-109. *)
Definition pk_write_all {V} (k : pkind V) (v : V) (o : sink) : res unit * sink :=
  do (h, o) <- (ph_new k v, o);
  do (_, o) <- sink_write_all (ph_bytes h) o;
  do (body, o) <- (io (pk_body k v), o);
  sink_write_all body o.

(** [WriteVectoredPayloadWithHeaderTo::slices], brec/src/traits/write/mod.rs:126-136. *)
Definition pk_slices {V} (k : pkind V) (v : V) : res (list bytes) :=
  let! h := ph_new k v in
  let! body := io (pk_body k v) in
  Ok [ph_bytes h; body].

(** [ReadPayloadFrom::read], brec/src/traits/read/mod.rs:68-83. *)
Definition pk_read {V S} (R : reader S) (k : pkind V) (h : pheader) (s : S) : res V * S :=
  if negb (bytes_eqb (ph_sig h) (pk_sig k)) then (Err ESignatureDismatch, s)
  else
    do (body, s) <- rd_exact R (ph_len h) s;
    do (v, s) <- (io (pk_decode k body), s);
    do (crc, s) <- (io (pk_crc k v), s);
    if bytes_eqb (ph_crc h) crc then (Ok v, s) else (Err ECrcDismatch, s).

(** [TryReadPayloadFrom::try_read], brec/src/traits/read/mod.rs:111-122. *)
Definition pk_try_read {V} (k : pkind V) (h : pheader) (c : cursor) : res (status V) * cursor :=
  do (len, c) <- (c_available c, c);
  if len <? ph_len h then (Ok (NotEnough (ph_len h - len)), c)
  else do (v, c) <- pk_read cursor_reader k h c; (Ok (Success v), c).

(** [TryReadPayloadFromBuffered::try_read], brec/src/traits/read/mod.rs:153-158. *)
Definition pk_try_read_buf {V} (k : pkind V) (h : pheader) (s : bufsrc) : res (status V) * bufsrc :=
  do (v, s) <- pk_read buf_reader k h s; (Ok (Success v), s).

(** ** The generated [Payload] enum: user kinds, then Bytes, then String. *)
Section Enum.
Context {U : Type}.

(** The enum, brec_macros/src/collector/payloads/enums.rs:34. *)
Inductive payload :=
| PUser (k : pkind U) (u : U)
| PBytes (v : bytes)
| PString (v : bytes).

(** brec_macros/src/collector/payloads/props.rs: sig 43-60, crc 62-79, size 81-98. *)
Definition pl_sig (p : payload) : bytes :=
  match p with PUser k _ => pk_sig k | PBytes _ => pk_sig bytes_kind | PString _ => pk_sig string_kind end.
Definition pl_size (p : payload) : res N :=
  io (match p with PUser k u => pk_size k u | PBytes v => pk_size bytes_kind v | PString v => pk_size string_kind v end).

(** [PayloadHeader::ssize::<Payload>], brec/src/payload/header/mod.rs:84-88: the
    generated [impl PayloadCrc for Payload] does not override [crc_size], so it is
    the default 4 (brec/src/traits/props/mod.rs:50-52). *)
Definition pl_crc_size : N := 4.
Definition pl_header_ssize (p : payload) : N := 1 + blen (pl_sig p) + 1 + pl_crc_size + 4.

(** brec_macros/src/collector/payloads/write.rs:6-61. *)
Definition pl_write (p : payload) (o : sink) : res N * sink :=
  match p with PUser k u => pk_write k u o | PBytes v => pk_write bytes_kind v o | PString v => pk_write string_kind v o end.
Definition pl_write_all (p : payload) (o : sink) : res unit * sink :=
  match p with PUser k u => pk_write_all k u o | PBytes v => pk_write_all bytes_kind v o | PString v => pk_write_all string_kind v o end.
Definition pl_slices (p : payload) : res (list bytes) :=
  match p with PUser k u => pk_slices k u | PBytes v => pk_slices bytes_kind v | PString v => pk_slices string_kind v end.

(** [matches!(err, SignatureDismatch)], brec_macros/src/collector/payloads/read.rs:6-52. *)
Definition sig_dismatch (e : err) : bool := match e with ESignatureDismatch => true | _ => false end.

(** One candidate of the dispatch: on [SignatureDismatch] go on with [next]. *)
Definition or_next {A B S} (m : res A * S) (inj : A -> B) (next : S -> res B * S) : res B * S :=
  match m with
  | (Ok a, s) => (Ok (inj a), s)
  | (Err e, s) => if sig_dismatch e then next s else (Err e, s)
  | (Panic w, s) => (Panic w, s)
  end.

(** [.map(ReadStatus::Success)] and the rewrapping of a status, brec_macros/src/collector/payloads/read.rs, brec/src/traits/read/mod.rs:121. *)
Definition st_map {A B} (f : A -> B) (x : status A) : status B :=
  match x with Success a => Success (f a) | NotEnough n => NotEnough n end.

(** [ExtractPayloadFrom<Payload>], brec_macros/src/collector/payloads/read.rs:6-52. *)
Fixpoint pl_read {S} (R : reader S) (ks : list (pkind U)) (h : pheader) (s : S) : res payload * S :=
  match ks with
  | k :: r => or_next (pk_read R k h s) (PUser k) (pl_read R r h)
  | [] =>
      or_next (pk_read R bytes_kind h s) PBytes (fun s =>
      or_next (pk_read R string_kind h s) PString (fun s => (Err ESignatureDismatch, s)))
  end.

(** [TryExtractPayloadFrom<Payload>], brec_macros/src/collector/payloads/read.rs:54-112. *)
Fixpoint pl_try_read (ks : list (pkind U)) (h : pheader) (c : cursor) : res (status payload) * cursor :=
  match ks with
  | k :: r => or_next (pk_try_read k h c) (st_map (PUser k)) (pl_try_read r h)
  | [] =>
      or_next (pk_try_read bytes_kind h c) (st_map PBytes) (fun c =>
      or_next (pk_try_read string_kind h c) (st_map PString) (fun c => (Err ESignatureDismatch, c)))
  end.

(** [TryExtractPayloadFromBuffered<Payload>], brec_macros/src/collector/payloads/read.rs:114-172. *)
Fixpoint pl_try_read_buf (ks : list (pkind U)) (h : pheader) (s : bufsrc) : res (status payload) * bufsrc :=
  match ks with
  | k :: r => or_next (pk_try_read_buf k h s) (st_map (PUser k)) (pl_try_read_buf r h)
  | [] =>
      or_next (pk_try_read_buf bytes_kind h s) (st_map PBytes) (fun s =>
      or_next (pk_try_read_buf string_kind h s) (st_map PString) (fun s => (Err ESignatureDismatch, s)))
  end.
End Enum.
Arguments payload : clear implicits.
