(** * Packets: PacketHeader and PacketDef. *)
From Verif Require Import Base Crc32 Io Block Payload.

(** ** PacketHeader *)

(** [PACKET_SIG], brec/src/packet/header/mod.rs:10. *)
Definition packet_sig : bytes :=
  map n2b [236; 37; 94; 136; 236; 37; 94; 136].

(** [PacketHeader::SIZE], brec/src/packet/header/mod.rs:42-53: 8+8+8+1+4. *)
Definition hdr_size : nat := 29.

(** brec/src/packet/header/mod.rs:19-31. *)
Record header := mk_header { h_size : N; h_blocks_len : N; h_payload : bool; h_crc : N }.

(** The payload flag, brec/src/packet/header/mod.rs:79,162. *)
Definition flag_byte (b : bool) : byte := if b then n2b 1 else n2b 0.

(** [CrcU32 for PacketHeader], brec/src/packet/header/mod.rs:158-164. *)
Definition hdr_crc (h : header) : bytes :=
  crc32_le (le 8 (h_size h) ++ le 8 (h_blocks_len h) ++ [flag_byte (h_payload h)]).

(** [fill_buf], brec/src/packet/header/write.rs:16-27. *)
Definition hdr_bytes (h : header) : bytes :=
  packet_sig ++ le 8 (h_size h) ++ le 8 (h_blocks_len h) ++ [flag_byte (h_payload h)] ++ le 4 (h_crc h).

(** [ReadFrom for PacketHeader], brec/src/packet/header/read.rs:18-55. *)
Definition hdr_read {S} (R : reader S) (s : S) : res header * S :=
  do (sig, s) <- rd_exact R 8 s;
  if negb (bytes_eqb sig packet_sig) then (Err ESignatureDismatch, s) else
  do (size, s) <- rd_exact R 8 s;
  do (bl, s) <- rd_exact R 8 s;
  do (fl, s) <- rd_exact R 1 s;
  do (crc, s) <- rd_exact R 4 s;
  let h := mk_header (unle size) (unle bl) (b2n (first_byte fl) =? 1) (unle crc) in
  if bytes_eqb (le 4 (h_crc h)) (hdr_crc h) then (Ok h, s) else (Err ECrcDismatch, s).

(** [ReadBlockFromSlice for PacketHeader], brec/src/packet/header/read.rs:68-100
    ([_skip_sig] is ignored by the code). *)
Definition hdr_read_from_slice (buf : bytes) : res header :=
  if (length buf <? hdr_size)%nat then Err (ENotEnoughData (N.of_nat hdr_size))
  else if negb (starts_with packet_sig buf) then Err ESignatureDismatch
  else
    let h := mk_header (unle (slice buf 8 8)) (unle (slice buf 16 8))
                       (b2n (first_byte (slice buf 24 1)) =? 1) (unle (slice buf 25 4)) in
    if bytes_eqb (le 4 (h_crc h)) (hdr_crc h) then Ok h else Err ECrcDismatch.

(** [TryReadFrom for PacketHeader], brec/src/packet/header/read.rs:111-124. *)
Definition hdr_try_read (c : cursor) : res (status header) * cursor :=
  do (len, c) <- (c_available c, c);
  if len <? N.of_nat hdr_size then (Ok (NotEnough (N.of_nat hdr_size - len)), c)
  else do (h, c) <- hdr_read cursor_reader c; (Ok (Success h), c).

(** [TryReadFromBuffered for PacketHeader], brec/src/packet/header/read.rs:137-151:
    [read] already takes the 29 bytes and [consume] takes 29 more. *)
Definition hdr_try_read_buf (s : bufsrc) : res (status header) * bufsrc :=
  do (buf, s) <- fill_buf s;
  if (length buf <? hdr_size)%nat then (Ok (NotEnough (N.of_nat hdr_size - blen buf)), s)
  else do (h, s) <- hdr_read buf_reader s; (Ok (Success h), consume hdr_size s).

(** [PacketHeader::get_pos], brec/src/packet/header/mod.rs:109-120. The loop runs
    while the buffer is strictly longer than offset + 8. *)
Fixpoint get_pos_go (buf : bytes) (off : nat) : option nat :=
  match buf with
  | [] => None
  | _ :: r =>
      if (8 <? length buf)%nat
      then if starts_with packet_sig buf then Some off else get_pos_go r (off + 1)%nat
      else None
  end.
Definition get_pos (buf : bytes) : option nat := get_pos_go buf 0.

(** ** Packets *)

(** What [brec::generate!()] is given: the block types and the payload types, in the
    (arbitrary) order in which the collector iterates over them. *)
Record proto (U : Type) := mk_proto { pr_blocks : list schema; pr_kinds : list (pkind U) }.
Arguments mk_proto {U}. Arguments pr_blocks {U}. Arguments pr_kinds {U}.

(** [PacketDef], brec/src/packet/mod.rs:77-95. *)
Record packet (U : Type) := mk_packet { p_blocks : list block; p_payload : option (payload U) }.
Arguments mk_packet {U}. Arguments p_blocks {U}. Arguments p_payload {U}.

(** [MAX_BLOCKS_COUNT], brec/src/lib.rs. *)
Definition max_blocks_count : N := 255.

(** [vec![0u8; n]]: capacity overflow above isize::MAX; a failing allocator is not modelled. *)
Definition alloc (n : N) : res unit := if n <? two63 then Ok tt else Panic PCapacity.

Section Packet.
Context {U : Type}.
Implicit Types (p : packet U) (P : proto U).

(** [PacketHeader::payload_size], brec/src/packet/header/mod.rs:96-100. *)
Definition payload_size (pl : payload U) : res N :=
  let! body := pl_size pl in Ok (body + pl_header_ssize pl).

(** [PacketHeader::new], brec/src/packet/header/mod.rs:66-87.  The sums are u64 in
    Rust; a packet that large cannot be in memory (theorems assume sizes < 2^63). *)
Definition hdr_new p : res header :=
  let blocks_len := fold_right (fun b a => bk_size b + a) 0 (p_blocks p) in
  let! payload_len := (match p_payload p with Some pl => payload_size pl | None => Ok 0 end) in
  let size := blocks_len + payload_len in
  let flag := (match p_payload p with Some _ => true | None => false end) in
  Ok (mk_header size blocks_len flag
        (crc32 (le 8 size ++ le 8 blocks_len ++ [if flag then n2b 1 else n2b 0]))).

(** [WriteMutTo::write_all for PacketDef], brec/src/packet/write.rs:56-66. *)
Fixpoint write_all_blocks (bs : list block) (o : sink) : res unit * sink :=
  match bs with
  | [] => (Ok tt, o)
  | b :: r => do (_, o) <- bk_write_all b o; write_all_blocks r o
  end.
Definition pkt_write_all p (o : sink) : res unit * sink :=
  do (h, o) <- (hdr_new p, o);
  do (_, o) <- sink_write_all (hdr_bytes h) o;
  do (_, o) <- write_all_blocks (p_blocks p) o;
  match p_payload p with
  | Some pl => pl_write_all pl o
  | None => (Ok tt, o)
  end.

(** [WriteMutTo::write for PacketDef], brec/src/packet/write.rs:25-48; the boolean says
    whether the loop over the blocks ran to its end. *)
Fixpoint write_blocks (bs : list block) (total : N) (o : sink) : res (bool * N) * sink :=
  match bs with
  | [] => (Ok (true, total), o)
  | b :: r =>
      do (written, o) <- bk_write b o;
      if written <? bk_size b then (Ok (false, total + written), o)
      else write_blocks r (total + written) o
  end.
Definition pkt_write p (o : sink) : res N * sink :=
  do (h, o) <- (hdr_new p, o);
  do (total, o) <- sink_write (hdr_bytes h) o;
  if total <? N.of_nat hdr_size then (Ok total, o) else
  do ((complete, total), o) <- write_blocks (p_blocks p) total o;
  if negb complete then (Ok total, o) else
  match p_payload p with
  | None => (Ok total, o)
  | Some pl =>
      do (written, o) <- pl_write pl o;
      do (sz, o) <- (pl_size pl, o);
      if written <? sz + pl_header_ssize pl then (Ok (total + written), o)
      else (Ok (total + written), o)
  end.

(** [WriteVectoredMutTo::slices for PacketDef], brec/src/packet/write.rs:93-106. *)
Definition pkt_slices p : res (list bytes) :=
  let! h := hdr_new p in
  let! tail := (match p_payload p with Some pl => pl_slices pl | None => Ok [] end) in
  Ok ([hdr_bytes h] ++ concat (map bk_slices (p_blocks p)) ++ tail).

(** The block loop of [ReadFrom] and [TryReadFromBuffered] for PacketDef,
    brec/src/packet/read.rs:30-50 and 186-206; [fuel] counts down the iterations
    allowed by [iterations > MAX_BLOCKS_COUNT]. *)
Fixpoint blocks_loop_buf (fuel : nat) (scs : list schema) (blocks_len read : N)
         (acc : list block) (s : bufsrc) : res (status (list block)) * bufsrc :=
  match fuel with
  | O => (Err EMaxBlocksCount, s)
  | S f =>
      st (blk, s) <- bk_try_read_buf scs s;
      let read := read + bk_size blk in
      let acc := acc ++ [blk] in
      if read =? blocks_len then (Ok (Success acc), s)
      else blocks_loop_buf f scs blocks_len read acc s
  end.

(** The loops stop after [MAX_BLOCKS_COUNT] rounds, brec/src/packet/read.rs:46,117,202; this is one round more. *)
Definition block_fuel : nat := N.to_nat (max_blocks_count + 1).

(** [ReadFrom for PacketDef], brec/src/packet/read.rs:20-57. *)
Definition pkt_read {S} (R : reader S) P (s : S) : res (packet U) * S :=
  do (h, s) <- hdr_read R s;
  do (_, s) <- (alloc (h_size h), s);
  do (inner, s) <- rd_exact R (h_size h) s;
  let r := of_slice inner in
  match (if 0 <? h_blocks_len h
         then blocks_loop_buf block_fuel (pr_blocks P) (h_blocks_len h) 0 [] r
         else (Ok (Success []), r)) with
  | (Panic w, _) => (Panic w, s)
  | (Err e, _) => (Err e, s)
  | (Ok (NotEnough n), _) => (Err (ENotEnoughData n), s)
  | (Ok (Success blocks), r) =>
      if h_payload h then
        let m := do (ph, r) <- ph_read buf_reader r; pl_read buf_reader (pr_kinds P) ph r in
        match fst m with
        | Ok pl => (Ok (mk_packet blocks (Some pl)), s)
        | Err e => (Err e, s)
        | Panic w => (Panic w, s)
        end
      else (Ok (mk_packet blocks None), s)
  end.

(** The block loop of [TryReadFrom for PacketDef], brec/src/packet/read.rs:96-122
    (the seeks back are done by the caller below). *)
Fixpoint blocks_loop_try (fuel : nat) (scs : list schema) (blocks_len read : N)
         (acc : list block) (c : cursor) : res (status (list block)) * cursor :=
  match fuel with
  | O => (Err EMaxBlocksCount, c)
  | S f =>
      st (blk, c) <- bk_try_read scs c;
      let read := read + bk_size blk in
      let acc := acc ++ [blk] in
      if read =? blocks_len then (Ok (Success acc), c)
      else blocks_loop_try f scs blocks_len read acc c
  end.

(** [TryReadFrom for PacketDef], brec/src/packet/read.rs:80-147. *)
Definition pkt_try_read P (c : cursor) : res (status (packet U)) * cursor :=
  let start := c_pos c in
  do (available, c) <- (c_available c, c);
  st (h, c) <- hdr_try_read c;
  if available <? h_size h then (Ok (NotEnough (h_size h - available)), c) else
  match (if 0 <? h_blocks_len h
         then blocks_loop_try block_fuel (pr_blocks P) (h_blocks_len h) 0 [] c
         else (Ok (Success []), c)) with
  | (Panic w, c) => (Panic w, c)
  | (Err e, c) => (Err e, c_seek start c)
  | (Ok (NotEnough n), c) => (Ok (NotEnough n), c_seek start c)
  | (Ok (Success blocks), c) =>
      if h_payload h then
        do (r, c) <- ph_try_read c;
        match r with
        | NotEnough n => (Err (ENotEnoughData n), c_seek start c)
        | Success ph =>
            match pl_try_read (pr_kinds P) ph c with
            | (Ok (Success pl), c) => (Ok (Success (mk_packet blocks (Some pl))), c)
            | (Ok (NotEnough n), c) => (Ok (NotEnough n), c_seek start c)
            | (Err e, c) => (Err e, c_seek start c)
            | (Panic w, c) => (Panic w, c)
            end
        end
      else (Ok (Success (mk_packet blocks None)), c)
  end.

(** [TryReadFromBuffered for PacketDef], brec/src/packet/read.rs:170-226. *)
Definition pkt_try_read_buf P (s : bufsrc) : res (status (packet U)) * bufsrc :=
  do (buf, s) <- fill_buf s;
  let available := blen buf in
  if available <? N.of_nat hdr_size then (Ok (NotEnough (N.of_nat hdr_size - available)), s) else
  do (h, s) <- (hdr_read_from_slice buf, s);
  if available <? h_size h then (Ok (NotEnough (h_size h - available)), s) else
  let s := consume hdr_size s in
  st (blocks, s) <- (if 0 <? h_blocks_len h
         then blocks_loop_buf block_fuel (pr_blocks P) (h_blocks_len h) 0 [] s
         else (Ok (Success []), s));
  if h_payload h then
    do (r, s) <- ph_try_read_buf s;
    match r with
    | NotEnough n => (Err (ENotEnoughData n), s)
    | Success ph =>
        let s := consume (ph_size ph) s in
        st (pl, s) <- pl_try_read_buf (pr_kinds P) ph s;
        (Ok (Success (mk_packet blocks (Some pl))), s)
    end
  else (Ok (Success (mk_packet blocks None)), s).
End Packet.
