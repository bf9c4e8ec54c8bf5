(** * Reading single packets of a storage in a release build, where arithmetic wraps around instead of panicking.
    Storage.v describes builds with overflow checks. *)
From Verif Require Import Base Io Block Payload Packet Rules Slot Storage Release.

(** [TryReadFrom for PacketHeader], brec/src/packet/header/read.rs:111-124. *)
Definition rel_pkt_hdr_try_read (c : cursor) : res (status header) * cursor :=
  let len := rel_available c in
  if len <? N.of_nat hdr_size then (Ok (NotEnough (N.of_nat hdr_size - len)), c)
  else do (h, c) <- hdr_read cursor_reader c; (Ok (Success h), c).

Section ReleaseRead.
Context {U : Type}.

(** [TryReadFrom for PacketDef], brec/src/packet/read.rs:80-147: the subtraction in line 85 wraps.  (Behind a header that could be read the
    position is not past the end, so that the subtractions in the readers of blocks and payloads do not.) *)
Definition rel_pkt_try_read (P : proto U) (c : cursor) : res (status (packet U)) * cursor :=
  let start := c_pos c in
  let available := rel_available c in
  st (h, c) <- rel_pkt_hdr_try_read c;
  if available <? h_size h then (Ok (NotEnough (h_size h - available)), c) else
  match (if 0 <? h_blocks_len h
         then blocks_loop_try block_fuel (pr_blocks P) (h_blocks_len h) 0 [] c
         else (Ok (Success []), c)) with
  | (Panic w, c) => (Panic w, c)
  | (Err e, c) => (Err e, c_seek start c)
  | (Ok (NotEnough n), c) => (Ok (NotEnough n), c_seek start c)
  | (Ok (Success blocks), c) =>
      if h_payload h then
        do (r, c) <- ph_try_read c;
        match r with
        | NotEnough n => (Err (ENotEnoughData n), c_seek start c)
        | Success ph =>
            match pl_try_read (pr_kinds P) ph c with
            | (Ok (Success pl), c) => (Ok (Success (mk_packet blocks (Some pl))), c)
            | (Ok (NotEnough n), c) => (Ok (NotEnough n), c_seek start c)
            | (Err e, c) => (Err e, c_seek start c)
            | (Panic w, c) => (Panic w, c)
            end
        end
      else (Ok (Success (mk_packet blocks None)), c)
  end.

(** Where the [n]th packet is, brec/src/storage/reader/mod.rs:266-280 and 337-351; all sums wrap (line 279 and
    brec/src/storage/slot/mod.rs:61-84). *)
Definition rel_d_place (n : nat) (r : sreader U) : res (option N) :=
  let i := (n / default_capacity)%nat in
  let j := (n mod default_capacity)%nat in
  match nth_error (d_slots r) i with
  | None => Ok None
  | Some (s, _) =>
      let! e := slot_is_empty j s in
      if e then Ok None else
      match slot_offset j s with
      | None => Ok None
      | Some o => Ok (Some (wadd (o mod two64) (sum (map (fun s => rel_total (fst s)) (firstn i (d_slots r))) mod two64)))
      end
  end.

(** [nth], brec/src/storage/reader/mod.rs:265-286. *)
Definition rel_d_nth (P : proto U) (n : nat) (r : sreader U) : res (option (packet U)) * sreader U :=
  do (o, r) <- (rel_d_place n r, r);
  match o with
  | None => (Ok None, r)
  | Some offset =>
      let (o, c) := rel_pkt_try_read P (c_seek offset (d_file r)) in
      (let! o := o in
       match o with Success p => Ok (Some p) | NotEnough n => Err (ENotEnoughData n) end, d_with_file c r)
  end.

(** [nth_filtered], brec/src/storage/reader/mod.rs:333-358. *)
Definition rel_d_nth_filtered (P : proto U) (n : nat) (r : sreader U) : res (option (look U)) * sreader U :=
  do (o, r) <- (rel_d_place n r, r);
  match o with
  | None => (Ok None, r)
  | Some offset =>
      let (o, c) := filtered cursor_reader P (d_rules r) (c_seek offset (d_file r)) in
      (let! o := o in Ok (Some o), d_with_file c r)
  end.

(** [location.end() - location.start()] wraps, brec/src/storage/reader/iters.rs:136 and 168; as [t_fetch]. *)
Definition rel_t_fetch (range : N * N) (t : siter) : res unit * siter :=
  let (start, end_) := range in
  let c := c_seek start (t_src t) in
  let size := wsub end_ start in
  do (_, t) <- (alloc size, t);
  match cursor_read_exact size c with
  | (Ok inner, c) => (Ok tt, mk_siter (t_off t) (t_slots t) c (mk_cursor inner 0))
  | (_, c) => (Panic PUnwrap, mk_siter (t_off t) (t_slots t) c (t_buf t))
  end.

(** [PacketsLocatorIterator::from], brec/src/storage/reader/iters.rs:28-60. *)
Fixpoint rel_t_from_go (slots : list slot) (off : N) (idx target : nat) (packet : nat) : res (N * N) * (N * list slot) :=
  match slots with
  | [] =>
      (Err (if (idx =? 0)%nat then EEmptySource
            else EOutOfBounds (N.of_nat (idx * default_capacity)) (N.of_nat packet)), (off, []))
  | s :: r =>
      if (slot_count s <=? target)%nat
      then rel_t_from_go r (wadd off (rel_total s)) (S idx) (target - slot_count s) packet
      else
        let out := EOutOfBounds (N.of_nat (slot_count s + idx * default_capacity)) (N.of_nat packet) in
        if negb (slot_is_used target s) then (Err out, (off, r))
        else match slot_offset_of target s with
             | None => (Err out, (off, r))
             | Some o => (Ok (wadd (wadd off (slot_size s mod two64)) (o mod two64),
                              wadd (wadd off (slot_size s mod two64)) (slot_width s mod two64)), (off, r))
             end
  end.

(** [ReaderIterator::seek], brec/src/storage/reader/iters.rs:132-141; [seek], brec/src/storage/reader/mod.rs:231-240. *)
Definition rel_d_seek (packet : nat) (r : sreader U) : res siter :=
  let '(o, (off, slots)) := rel_t_from_go (map fst (d_slots r)) 0 0 packet packet in
  let! range := o in
  let (o, t) := rel_t_fetch range (mk_siter off slots (d_file r) (mk_cursor [] 0)) in
  let! _ := o in Ok t.
End ReleaseRead.
