(** * The streaming reader [PacketBufReaderDef]. *)
From Verif Require Import Base Crc32 Io Block Payload Packet Rules.

Section StreamReader.
Context {U : Type}.

(** [NextPacket], brec/src/packet/reader.rs:6-32. *)
Inductive next :=
| NNotEnough (n : N)
| NNoData
| NNotFound
| NSkipped
| NFound (p : packet U).

(** [PacketHeaderState], brec/src/packet/reader.rs:34-45; of the range only the two ends
    are used. *)
Inductive found := FNotFound | FNotEnough (from needed : nat) | FFound (h : header) (from to : nat).

(** [HeaderReadState], brec/src/packet/reader.rs:49-60.  The [Option]s inside are always
    [Some] when the value is built, so the [_error] arm of [read] (lines 356-360) is
    unreachable and left out. *)
Inductive hstate := HReady (h : header) | HRefill (buf : bytes) (needed : nat) | HEmpty.

(** [PacketBufReaderDef], brec/src/packet/reader.rs:85-101.  [r_log] records what the
    [Ignored] callbacks received. *)
Record preader := mk_preader {
  r_src : bufsrc;
  r_rules : rules U;
  r_state : hstate;
  r_buffered : bytes;
  r_log : log
}.

(** [PacketBufReaderDef::new], brec/src/packet/reader.rs:255-262 (the 4 GiB reservation is
    not modelled). *)
Definition pr_new (s : bufsrc) : preader := mk_preader s [] HEmpty [] [].

(** [add_rule]/[remove_rule], brec/src/packet/reader.rs:265-272. *)
Definition pr_add_rule (x : rule U) (r : preader) : res unit * preader :=
  let (o, rs) := add_rule x (r_rules r) in
  (o, mk_preader (r_src r) rs (r_state r) (r_buffered r) (r_log r)).
Definition pr_remove_rule (i : rule_id) (r : preader) : preader :=
  mk_preader (r_src r) (remove_rule i (r_rules r)) (r_state r) (r_buffered r) (r_log r).

(** [read_header], brec/src/packet/reader.rs:118-131, with [PacketHeader::is_not_enought],
    brec/src/packet/header/mod.rs:130-136. *)
Definition read_header (buf : bytes) : res found :=
  match get_pos buf with
  | None => Ok FNotFound
  | Some off =>
      let rest := skipn off buf in
      if (length rest <? hdr_size)%nat then Ok (FNotEnough off (hdr_size - length rest))
      else let! h := hdr_read_from_slice rest in Ok (FFound h off (off + hdr_size))
  end.

(** What happens to the reader when [read] leaves: [drop_and_consume]
    (brec/src/packet/reader.rs:137-147), only [buffered.clear()] (lines 369-372), or
    nothing (the [?] of lines 404-407, and panics). *)
Inductive fate := Drop | ClearOnly | Leave.

(** The block loop, brec/src/packet/reader.rs:364-389; [left] counts down from
    [MAX_BLOCKS_COUNT].  A block was read from the slice, so [processed] never exceeds
    its length and [&blocks_buffer[processed..]] cannot panic. *)
Fixpoint reader_blocks (left : nat) (scs : list schema) (buf : bytes) (processed : nat)
         (acc : list block) : res (list block) * fate :=
  match left with
  | O => (Err EMaxBlocksCount, ClearOnly)
  | S f =>
      match bk_read_from_slice scs (skipn processed buf) false with
      | Ok blk =>
          if bk_size blk =? 0 then (Err EZeroLengthBlock, Drop)
          else
            let processed := (processed + N.to_nat (bk_size blk))%nat in
            let acc := acc ++ [blk] in
            if (processed =? length buf)%nat then (Ok acc, Drop)
            else reader_blocks f scs buf processed acc
      | Err e => (Err e, Drop)
      | Panic w => (Panic w, Leave)
      end
  end.

(** The second half of [read], brec/src/packet/reader.rs:362-445, on the bytes of one
    packet after its header. *)
Definition parse_body (P : proto U) (rs : rules U) (h : header) (buf : bytes) : res next * fate :=
  if blen buf <? h_blocks_len h then (Panic PIndex, Leave)
  else
    let bl := N.to_nat (h_blocks_len h) in
    let blocks_buffer := firstn bl buf in
    match (match blocks_buffer with
           | [] => (Ok [], Drop)
           | _ => reader_blocks (N.to_nat max_blocks_count) (pr_blocks P) blocks_buffer 0 []
           end) with
    | (Err e, f) => (Err e, f)
    | (Panic w, f) => (Panic w, f)
    | (Ok blocks, _) =>
        if negb (filter_by_blocks rs blocks) then (Ok NSkipped, Drop)
        else
          let fin p := if negb (filter_packet rs p) then (Ok NSkipped, Drop) else (Ok (NFound p), Drop) in
          if h_payload h then
            match fst (ph_try_read_buf (of_slice (skipn bl buf))) with
            | Ok (Success ph) =>
                (* the header was read from these bytes: the index is in range *)
                let body := skipn (bl + ph_size ph) buf in
                if negb (filter_by_payload rs body) then (Ok NSkipped, Drop)
                else
                  match fst (pl_try_read_buf (pr_kinds P) ph (of_slice body)) with
                  | Ok (Success pl) => fin (mk_packet blocks (Some pl))
                  | Ok (NotEnough n) => (Err (ENotEnoughData n), Drop)
                  | Err e => (Err e, Leave)
                  | Panic w => (Panic w, Leave)
                  end
            | Ok (NotEnough n) => (Err (ENotEnoughData n), Drop)
            | Err e => (Err e, Drop)
            | Panic w => (Panic w, Leave)
            end
          else fin (mk_packet blocks None)
    end.

(** Runs [parse_body] and applies its fate; [n] is the [consume] of the code. *)
Definition finish (P : proto U) (h : header) (buf : bytes) (n : option nat) (r : preader) : res next * preader :=
  let (o, f) := parse_body P (r_rules r) h buf in
  (o, match f with
      | Drop => mk_preader (match n with Some n => consume n (r_src r) | None => r_src r end)
                  (r_rules r) (r_state r) [] (r_log r)
      | ClearOnly => mk_preader (r_src r) (r_rules r) (r_state r) [] (r_log r)
      | Leave => r
      end).

(** [self.rules.ignore(buf)], when the condition of the code holds. *)
Definition note (c : bool) (buf : bytes) (r : preader) : preader :=
  if c then mk_preader (r_src r) (r_rules r) (r_state r) (r_buffered r) (ignore (r_rules r) buf (r_log r)) else r.
Definition set_src (s : bufsrc) (r : preader) : preader :=
  mk_preader s (r_rules r) (r_state r) (r_buffered r) (r_log r).
Definition set_state (x : hstate) (r : preader) : preader :=
  mk_preader (r_src r) (r_rules r) x (r_buffered r) (r_log r).
Definition set_buffered (b : bytes) (r : preader) : preader :=
  mk_preader (r_src r) (r_rules r) (r_state r) b (r_log r).
Definition eat (n : nat) (r : preader) : preader := set_src (consume n (r_src r)) r.

(** [self.inner.fill_buf()?] *)
Definition pr_fill (r : preader) : res bytes * preader :=
  let (o, s) := fill_buf (r_src r) in (o, set_src s r).

(** [resolve_header_ready], brec/src/packet/reader.rs:154-180, and what [read] does with its
    result (lines 284-287). *)
Definition resolve_ready (P : proto U) (h : header) (r : preader) : res next * preader :=
  do (buf, r) <- pr_fill r;
  let available := blen (r_buffered r) + blen buf in
  if available <? h_size h then
    let r := set_buffered (r_buffered r ++ buf) r in
    (Ok (NNotEnough (h_size h - available)), set_state (HReady h) (eat (length buf) r))
  else if h_size h <? blen (r_buffered r) then (Err EInvalidPacketReaderLogic, r)
  else
    let rest := (N.to_nat (h_size h) - length (r_buffered r))%nat in
    let r := eat rest (set_buffered (r_buffered r ++ firstn rest buf) r) in
    finish P h (r_buffered r) None r.

(** [sgmt.end() - buffered]: usize subtraction. *)
Definition usub (a b : nat) : res nat := if (b <=? a)%nat then Ok (a - b)%nat else Panic POverflow.

(** The two [Found] arms of [resolve_header_refill], lines 207-214 and 223-230. *)
Definition refill_found (h : header) (from to : nat) (buf : bytes) (buffered : nat) (r : preader) : res next * preader :=
  let r := note (0 <? from)%nat (firstn from buf) r in
  do (n, r) <- (usub to buffered, r);
  (Ok (NNotEnough 0), set_state (HReady h) (eat n r)).

(** [resolve_header_refill], brec/src/packet/reader.rs:186-252. *)
Definition resolve_refill (buf : bytes) (needed : nat) (r : preader) : res next * preader :=
  do (extracted, r) <- pr_fill r;
  match extracted with
  | [] => (Ok NNoData, note true buf r)
  | _ :: _ =>
      let len := length extracted in
      if (len <? needed)%nat then
        (Ok (NNotEnough (N.of_nat (needed - len))), set_state (HRefill (buf ++ extracted) (needed - len)) (eat len r))
      else
        let buffered := length buf in
        do (f, r) <- (read_header (buf ++ firstn needed extracted), r);
        match f with
        | FFound h from to => refill_found h from to (buf ++ firstn needed extracted) buffered r
        | _ =>
            let buf := buf ++ extracted in
            do (f, r) <- (read_header buf, r);
            match f with
            | FFound h from to => refill_found h from to buf buffered r
            | FNotEnough from needed =>
                let r := note (0 <? from)%nat (firstn from buf) r in
                (Ok (NNotEnough (N.of_nat needed)), set_state (HRefill (skipn from buf) needed) (eat len r))
            | FNotFound =>
                let cut := (length buf - hdr_size)%nat in
                let r := note (hdr_size <? length buf)%nat (firstn cut buf) r in
                (Ok NNotFound, set_state (HRefill (skipn cut buf) hdr_size) (eat len r))
            end
        end
  end.

(** The [Empty] arm, brec/src/packet/reader.rs:291-355, and what follows it. *)
Definition resolve_empty (P : proto U) (r : preader) : res next * preader :=
  let r := set_buffered [] r in
  do (buf, r) <- pr_fill r;
  match buf with
  | [] => (Ok NNoData, r)
  | _ :: _ =>
      let available := length buf in
      if (available <? hdr_size)%nat then
        (Ok (NNotEnough (N.of_nat (hdr_size - available))),
         eat available (set_state (HRefill buf (hdr_size - available)) r))
      else
        do (f, r) <- (read_header buf, r);
        match f with
        | FNotFound =>
            let cut := (available - hdr_size)%nat in
            let r := note (hdr_size <? available)%nat (firstn cut buf) r in
            (Ok NNotFound, eat available (set_state (HRefill (skipn cut buf) hdr_size) r))
        | FNotEnough from needed =>
            let r := note (0 <? from)%nat (firstn from buf) r in
            (Ok (NNotEnough (N.of_nat needed)), eat available (set_state (HRefill (skipn from buf) needed) r))
        | FFound h from to =>
            let r := note (0 <? from)%nat (firstn from buf) r in
            let needs := h_size h + N.of_nat to in
            if two64 <=? needs then (Panic POverflow, r)
            else if blen buf <? needs then
              (Ok (NNotEnough (needs - blen buf)),
               set_state (HReady h) (eat available (set_buffered (skipn to buf) r)))
            else
              let size := N.to_nat (h_size h) in
              finish P h (firstn size (skipn to buf)) (Some (to + size)%nat) r
        end
  end.

(** [PacketBufReaderDef::read], brec/src/packet/reader.rs:281-446. *)
Definition pr_read (P : proto U) (r : preader) : res next * preader :=
  let recent := r_state r in
  let r := set_state HEmpty r in
  match recent with
  | HReady h => resolve_ready P h r
  | HRefill buf needed => resolve_refill buf needed r
  | HEmpty => resolve_empty P r
  end.

(** Successive calls of [read]. *)
Fixpoint pr_reads (P : proto U) (n : nat) (r : preader) : list (res next) * preader :=
  match n with
  | O => ([], r)
  | S k => let (o, r) := pr_read P r in let (os, r) := pr_reads P k r in (o :: os, r)
  end.
End StreamReader.
Arguments next : clear implicits.
Arguments preader : clear implicits.
