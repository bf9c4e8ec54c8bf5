(** * Storage: writer, reader and their iterators. *)
From Verif Require Import Base Crc32 Io File Block Payload Packet Rules Slot.

(** ** [FreeSlotLocator], brec/src/storage/locator.rs:14-17 *)
Record locator := mk_locator { lc_next : nat; lc_off : N }.
Definition new_locator : locator := mk_locator 0 0.

(** [next], brec/src/storage/locator.rs:29-41. *)
Definition lc_find (slots : list slot) (l : locator) : option N * locator :=
  match nth_error slots (lc_next l) with
  | None => (None, l)
  | Some s =>
      match free_slot_offset s with
      | Some o => (Some (lc_off l + o), l)
      | None =>
          let l := mk_locator (S (lc_next l)) (lc_off l + (slot_size s + slot_width s)) in
          match nth_error slots (lc_next l) with
          | None => (None, l)
          | Some s => (option_map (fun o => lc_off l + o) (free_slot_offset s), l)
          end
      end
  end.

(** Replacing one element of a list ([slice::get_mut]). *)
Fixpoint set_nth {A} (i : nat) (x : A) (l : list A) : list A :=
  match l, i with
  | [], _ => []
  | _ :: r, O => x :: r
  | y :: r, S i => y :: set_nth i x r
  end.

(** [insert], brec/src/storage/locator.rs:51-56. *)
Definition lc_insert (slots : list slot) (l : locator) (len : N) : res unit * list slot :=
  match nth_error slots (lc_next l) with
  | None => (Err ECannotInsertIntoSlot, slots)
  | Some s => let (o, s) := slot_insert len s in (o, set_nth (lc_next l) s slots)
  end.

(** [setup], brec/src/storage/locator.rs:63-72: [next] is reset, the offset is not. *)
Fixpoint lc_setup_go (slots : list slot) (l : locator) : locator :=
  match slots with
  | [] => l
  | s :: r =>
      match free_slot_offset s with
      | Some _ => l
      | None => lc_setup_go r (mk_locator (S (lc_next l)) (lc_off l + (slot_size s + slot_width s)))
      end
  end.
Definition lc_setup (slots : list slot) (l : locator) : locator := lc_setup_go slots (mk_locator 0 (lc_off l)).

(** ** Loading *)

(** The errors of [try_read] as the loops report them, e.g. brec/src/storage/writer/mod.rs:62-68. *)
Definition load_error (e : err) : err :=
  match e with
  | ECrcDismatch => EDamagedSlot ECrcDismatch
  | ESignatureDismatch => EDamagedSlot ESignatureDismatch
  | e => e
  end.

(** The loop of [load], brec/src/storage/writer/mod.rs:51-70 and brec/src/storage/reader/mod.rs:53-73: slots
    with their offsets.  Every slot takes at least 20 bytes, so the length of the file is enough fuel.
    The sums overflow when a table announces more than 2^64 bytes. *)
Fixpoint load_go (fuel : nat) (offset : N) (acc : list (slot * N)) (c : cursor) : res (list (slot * N)) * cursor :=
  match fuel with
  | O => (Panic PFuel, c)
  | S f =>
      match slot_try_read (c_seek offset c) with
      | (Ok (Success s), c) =>
          let next := offset + (slot_size s + slot_width s) in
          if two64 <=? next then (Panic POverflow, c) else load_go f next (acc ++ [(s, offset)]) c
      | (Ok (NotEnough _), c) => (Ok acc, c)
      | (Err e, c) => (Err (load_error e), c)
      | (Panic w, c) => (Panic w, c)
      end
  end.
Definition load (c : cursor) : res (list (slot * N)) * cursor := load_go (length (c_data c) + 1) 0 [] c.

(** ** [WriterDef], brec/src/storage/writer/mod.rs:8-18 *)
Record writer := mk_writer { w_slots : list slot; w_file : file; w_loc : locator }.

(** [new] and [load], brec/src/storage/writer/mod.rs:35-73. *)
Definition w_open (f : file) : res writer :=
  match load (fl_cur f) with
  | (Ok slots, c) =>
      let slots := map fst slots in
      Ok (mk_writer slots (mk_file c (fl_sched f) (fl_flushes f)) (lc_setup slots new_locator))
  | (Err e, _) => Err e
  | (Panic w, _) => Panic w
  end.

Section Storage.
Context {U : Type}.
Implicit Types (P : proto U) (p : packet U).

(** The writes of [insert], brec/src/storage/writer/mod.rs:98-112. *)
Definition w_store (s : slot) (slot_offset offset : N) (buffer : bytes) (f : file) : res unit * file :=
  do (_, f) <- file_flush f;
  let f := file_seek slot_offset f in
  do (b, f) <- (slot_bytes s, f);
  do (_, f) <- file_write_all b f;
  let f := file_seek offset f in
  do (_, f) <- file_flush f;
  let f := file_seek offset f in
  do (_, f) <- file_write_all buffer f;
  do (_, f) <- file_flush f;
  (Ok tt, f).

(** Where the packet goes; a new slot is added when there is no free one,
    brec/src/storage/writer/mod.rs:84-92. *)
Definition w_find (w : writer) : option N * writer :=
  match lc_find (w_slots w) (w_loc w) with
  | (Some o, l) => (Some o, mk_writer (w_slots w) (w_file w) l)
  | (None, l) =>
      let slots := w_slots w ++ [default_slot] in
      let (o, l) := lc_find slots l in (o, mk_writer slots (w_file w) l)
  end.

(** [insert], brec/src/storage/writer/mod.rs:83-114.  Simplification: the sums of u64 are unbounded here.  They can reach 2^64 (a
    panic with overflow checks) only in files of other origin, by inserts behind the first into tables with holes; C96 bounds them. *)
Definition w_insert p (w : writer) : res unit * writer :=
  match w_find w with
  | (None, w) => (Err ECannotFindFreeSlot, w)
  | (Some offset, w) =>
      let (o, k) := pkt_write_all p (mk_sink [] []) in
      do (_, w) <- (o, w);
      let buffer := k_got k in
      let (o, slots) := lc_insert (w_slots w) (w_loc w) (blen buffer) in
      let w := mk_writer slots (w_file w) (w_loc w) in
      do (_, w) <- (o, w);
      match nth_error slots (lc_next (w_loc w)) with
      | None => (Err ECannotFindFreeSlot, w)
      | Some s =>
          let (o, f) := w_store s (lc_off (w_loc w)) offset buffer (w_file w) in
          (o, mk_writer slots f (w_loc w))
      end
  end.

(** ** [ReaderDef], brec/src/storage/reader/mod.rs:8-19 *)
Record sreader := mk_sreader { d_slots : list (slot * N); d_file : cursor; d_loc : locator; d_rules : rules U }.

(** [new] and [load], brec/src/storage/reader/mod.rs:37-77; the rules are added later. *)
Definition d_open (data : bytes) : res sreader :=
  match load (mk_cursor data 0) with
  | (Ok slots, c) => Ok (mk_sreader slots c (lc_setup (map fst slots) new_locator) [])
  | (Err e, _) => Err e
  | (Panic w, _) => Panic w
  end.

(** The file as the operating system shows it later. *)
Definition d_refresh (data : bytes) (r : sreader) : sreader :=
  mk_sreader (d_slots r) (mk_cursor data (c_pos (d_file r))) (d_loc r) (d_rules r).
Definition d_with_rules (rs : rules U) (r : sreader) : sreader := mk_sreader (d_slots r) (d_file r) (d_loc r) rs.
Definition d_with_file (c : cursor) (r : sreader) : sreader := mk_sreader (d_slots r) c (d_loc r) (d_rules r).

(** [count], brec/src/storage/reader/mod.rs:205-216. *)
Definition d_count (r : sreader) : nat :=
  let i := lc_next (d_loc r) in
  match nth_error (d_slots r) i with
  | None => length (d_slots r) * default_capacity
  | Some (s, _) =>
      match free_slot_index s with
      | None => length (d_slots r) * default_capacity
      | Some index => i * default_capacity + index
      end
  end.

(** Where the [n]th packet is, brec/src/storage/reader/mod.rs:266-280 and 337-351; the sums are u64. *)
Definition d_place (n : nat) (r : sreader) : res (option N) :=
  let i := (n / default_capacity)%nat in
  let j := (n mod default_capacity)%nat in
  match nth_error (d_slots r) i with
  | None => Ok None
  | Some (s, _) =>
      let! e := slot_is_empty j s in
      if e then Ok None else
      match slot_offset j s with
      | None => Ok None
      | Some o =>
          let offset := o + sum (map (fun s => slot_width (fst s) + slot_size (fst s)) (firstn i (d_slots r))) in
          if two64 <=? offset then Panic POverflow else Ok (Some offset)
      end
  end.

(** [nth], brec/src/storage/reader/mod.rs:265-286. *)
Definition d_nth P (n : nat) (r : sreader) : res (option (packet U)) * sreader :=
  do (o, r) <- (d_place n r, r);
  match o with
  | None => (Ok None, r)
  | Some offset =>
      let (o, c) := pkt_try_read P (c_seek offset (d_file r)) in
      (let! o := o in
       match o with Success p => Ok (Some p) | NotEnough n => Err (ENotEnoughData n) end, d_with_file c r)
  end.

(** [nth_filtered], brec/src/storage/reader/mod.rs:333-358. *)
Definition d_nth_filtered P (n : nat) (r : sreader) : res (option (look U)) * sreader :=
  do (o, r) <- (d_place n r, r);
  match o with
  | None => (Ok None, r)
  | Some offset =>
      let (o, c) := filtered cursor_reader P (d_rules r) (c_seek offset (d_file r)) in
      (let! o := o in Ok (Some o), d_with_file c r)
  end.

(** *** Iterators.  [next] gives [None], a result of the iterator or a panic. *)

(** [PacketsLocatorIterator], brec/src/storage/reader/iters.rs:16-19, together with the buffer and the source of
    [ReaderIterator], 89-102, and [ReaderFilteredIterator], 199-213. *)
Record siter := mk_siter { t_off : N; t_slots : list slot; t_src : cursor; t_buf : cursor }.

(** [iter], brec/src/storage/reader/mod.rs:222-229; [filtered], 246-254. *)
Definition d_iter (r : sreader) : siter := mk_siter 0 (map fst (d_slots r)) (d_file r) (mk_cursor [] 0).

(** [PacketsLocatorIterator::next], brec/src/storage/reader/iters.rs:67-79. *)
Definition t_locate (t : siter) : option (N * N) * siter :=
  match t_slots t with
  | [] => (None, t)
  | s :: r =>
      if slot_width s =? 0 then (None, mk_siter (t_off t) r (t_src t) (t_buf t))
      else (Some (t_off t + slot_size s, t_off t + slot_width s + slot_size s),
            mk_siter (t_off t + (slot_width s + slot_size s)) r (t_src t) (t_buf t))
  end.

(** Reading the bytes of a slot into the buffer, brec/src/storage/reader/iters.rs:163-173 (also 133-140, 255-265);
    the length is a u64 subtraction. *)
Definition t_fetch (range : N * N) (t : siter) : res unit * siter :=
  let (start, end_) := range in
  let c := c_seek start (t_src t) in
  if end_ <? start then (Panic POverflow, mk_siter (t_off t) (t_slots t) c (t_buf t)) else
  do (_, t) <- (alloc (end_ - start), t);
  match cursor_read_exact (end_ - start) c with
  | (Ok inner, c) => (Ok tt, mk_siter (t_off t) (t_slots t) c (mk_cursor inner 0))
  | (_, c) => (Panic PUnwrap, mk_siter (t_off t) (t_slots t) c (t_buf t))
  end.

(** The buffer for the next packet, brec/src/storage/reader/iters.rs:161-174 and 254-266: [None] when all slots are
    exhausted. *)
Definition t_ready (t : siter) : option (res unit) * siter :=
  match c_rest (t_buf t) with
  | _ :: _ => (Some (Ok tt), t)
  | [] =>
      match t_locate t with
      | (None, t) => (None, t)
      | (Some range, t) => let (o, t) := t_fetch range t in (Some o, t)
      end
  end.

(** [ReaderIterator::next], brec/src/storage/reader/iters.rs:159-178. *)
Definition t_next P (t : siter) : option (res (packet U)) * siter :=
  match t_ready t with
  | (None, t) => (None, t)
  | (Some (Err e), t) => (Some (Err e), t)
  | (Some (Panic w), t) => (Some (Panic w), t)
  | (Some (Ok _), t) =>
      let (o, b) := pkt_read cursor_reader P (t_buf t) in (Some o, mk_siter (t_off t) (t_slots t) (t_src t) b)
  end.

(** [ReaderFilteredIterator::next], brec/src/storage/reader/iters.rs:252-278. Every round takes at least a packet header
    or a slot. *)
Fixpoint t_next_filtered_go (fuel : nat) P (rs : rules U) (t : siter) : option (res (packet U)) * siter :=
  match fuel with
  | O => (Some (Panic PFuel), t)
  | S f =>
      match t_ready t with
      | (None, t) => (None, t)
      | (Some (Err e), t) => (Some (Err e), t)
      | (Some (Panic w), t) => (Some (Panic w), t)
      | (Some (Ok _), t) =>
          let (o, b) := filtered cursor_reader P rs (t_buf t) in
          let t := mk_siter (t_off t) (t_slots t) (t_src t) b in
          match o with
          | Ok (Accepted _ p) => (Some (Ok p), t)
          | Ok (Denied _) => t_next_filtered_go f P rs t
          | Err e => (Some (Err e), t)
          | Panic w => (Some (Panic w), t)
          end
      end
  end.
Definition t_next_filtered P (rs : rules U) (t : siter) : option (res (packet U)) * siter :=
  t_next_filtered_go (length (c_data (t_src t)) + length (c_data (t_buf t)) + length (t_slots t) + 1) P rs t.

(** [PacketsLocatorIterator::from], brec/src/storage/reader/iters.rs:28-60: the slot iterator has moved past the slot
    found, the offset has not. *)
Fixpoint t_from_go (slots : list slot) (off : N) (idx target : nat) (packet : nat) : res (N * N) * (N * list slot) :=
  match slots with
  | [] =>
      (Err (if (idx =? 0)%nat then EEmptySource
            else EOutOfBounds (N.of_nat (idx * default_capacity)) (N.of_nat packet)), (off, []))
  | s :: r =>
      if (slot_count s <=? target)%nat
      then t_from_go r (off + (slot_size s + slot_width s)) (S idx) (target - slot_count s) packet
      else
        let out := EOutOfBounds (N.of_nat (slot_count s + idx * default_capacity)) (N.of_nat packet) in
        if negb (slot_is_used target s) then (Err out, (off, r))
        else match slot_offset_of target s with
             | None => (Err out, (off, r))
             | Some o => (if two64 <=? off + slot_size s + o then Panic POverflow
                          else Ok (off + slot_size s + o, off + slot_size s + slot_width s), (off, r))
             end
  end.

(** [ReaderIterator::seek], brec/src/storage/reader/iters.rs:132-141; [seek], brec/src/storage/reader/mod.rs:231-240. *)
Definition d_seek (packet : nat) (r : sreader) : res siter :=
  let '(o, (off, slots)) := t_from_go (map fst (d_slots r)) 0 0 packet packet in
  let! range := o in
  let (o, t) := t_fetch range (mk_siter off slots (d_file r) (mk_cursor [] 0)) in
  let! _ := o in Ok t.

(** [ReaderRangeIterator], brec/src/storage/reader/iters.rs:293-306. *)
Record ranged := mk_ranged { g_reader : sreader; g_len : nat; g_from : nat }.

(** Its [next], brec/src/storage/reader/iters.rs:343-355. *)
Definition g_next P (g : ranged) : option (res (packet U)) * ranged :=
  match g_len g with
  | O => (None, g)
  | S len =>
      let (o, r) := d_nth P (g_from g) (g_reader g) in
      (match o with
       | Ok None => None
       | Ok (Some p) => Some (Ok p)
       | Err e => Some (Err e)
       | Panic w => Some (Panic w)
       end, mk_ranged r len (S (g_from g)))
  end.

(** [ReaderRangeFilteredIterator::next], brec/src/storage/reader/iters.rs:412-434. There are at most as many packets as
    entries in the slots. *)
Fixpoint g_next_filtered_go (fuel : nat) P (g : ranged) : option (res (packet U)) * ranged :=
  match fuel with
  | O => (Some (Panic PFuel), g)
  | S f =>
      match g_len g with
      | O => (None, g)
      | S len =>
          let (o, r) := d_nth_filtered P (g_from g) (g_reader g) in
          match o with
          | Ok None => (None, mk_ranged r (S len) (S (g_from g)))
          | Ok (Some (Accepted _ p)) => (Some (Ok p), mk_ranged r len (S (g_from g)))
          | Ok (Some (Denied _)) => g_next_filtered_go f P (mk_ranged r (S len) (S (g_from g)))
          | Err e => (Some (Err e), mk_ranged r (S len) (S (g_from g)))
          | Panic w => (Some (Panic w), mk_ranged r (S len) (S (g_from g)))
          end
      end
  end.
Definition g_next_filtered P (g : ranged) : option (res (packet U)) * ranged :=
  g_next_filtered_go (length (d_slots (g_reader g)) * default_capacity + 1) P g.

(** ** [reload], brec/src/storage/reader/mod.rs:79-182 *)

(** What is remembered of the last slot, 82-97: its free index and checksum, unless it is full; and where reading
    starts. *)
Definition last_slot (slots : list (slot * N)) : option (nat * bytes) * N :=
  match rev slots with
  | [] => (None, 0)
  | (s, off) :: _ =>
      match free_slot_offset s, free_slot_index s with
      | Some _, Some index => (Some (index, sl_crc s), off)
      | None, None => (None, off + slot_width s + slot_size s)
      | _, _ => (None, 0)
      end
  end.

(** The loop, 99-152; [inl n] is an early [return Ok(n)]. The sums overflow as in [load_go]; that of a table with room is
    made after the loop, by [setup] in 179-180 (brec/src/storage/slot/mod.rs:131). *)
Fixpoint reload_go (fuel : nat) (last : option (nat * bytes)) (count : nat) (source_pos : N) (slots : list (slot * N)) (c : cursor)
  : res (nat + unit) * (list (slot * N) * cursor) :=
  match fuel with
  | O => (Panic PFuel, (slots, c))
  | S f =>
      match slot_try_read (c_seek source_pos c) with
      | (Ok (Success s), c) =>
          match last, (length slots =? count)%nat with
          | Some (_, crc), true =>
              if bytes_eqb crc (sl_crc s) then (Ok (inl O), (slots, c)) else
              match nth_error slots (count - 1) with
              | None => (Err (EAccessSlot (N.of_nat (count - 1))), (slots, c))
              | Some (_, off) =>
                  let slots := set_nth (count - 1) (s, off) slots in
                  match free_slot_index s with
                  | None =>
                      let next := source_pos + (slot_size s + slot_width s) in
                      if two64 <=? next then (Panic POverflow, (slots, c)) else reload_go f last count next slots c
                  | Some _ => (if two64 <=? slot_size s + slot_width s then Panic POverflow else Ok (inr tt), (slots, c))
                  end
              end
          | _, _ =>
              let next := source_pos + (slot_size s + slot_width s) in
              if two64 <=? next then (Panic POverflow, (slots, c)) else reload_go f last count next (slots ++ [(s, source_pos)]) c
          end
      | (Ok (NotEnough needed), c) =>
          match last, (length slots =? count)%nat with
          | None, true => (Ok (inl O), (slots, c))
          | Some _, true =>
              if needed =? slot_hdr_size then (Ok (inr tt), (slots, c))
              else (Err (EDamagedSlot (ENotEnoughData needed)), (slots, c))
          | _, false => (Ok (inr tt), (slots, c))
          end
      | (Err e, c) => (Err (load_error e), (slots, c))
      | (Panic w, c) => (Panic w, (slots, c))
      end
  end.

(** The number reported, 154-177. *)
Definition reload_count (lst : option (nat * bytes)) (count : nat) (slots : list (slot * N)) : nat :=
  match rev slots with
  | [] => O
  | (s, _) :: _ =>
      match lst, (length slots =? count)%nat with
      | Some (index, _), true =>
          match free_slot_index s with Some i => (i - index)%nat | None => (default_capacity - index)%nat end
      | Some (index, _), false =>
          ((default_capacity - index) + match free_slot_index s with Some i => i | None => O end
           + (length slots - count) * default_capacity)%nat
      | None, false =>
          (match free_slot_index s with Some i => i | None => O end + (length slots - (count + 1)) * default_capacity)%nat
      | None, true => O
      end
  end.

(** [reload], 79-182. *)
Definition d_reload (r : sreader) : res nat * sreader :=
  let (lst, pos) := last_slot (d_slots r) in
  let count := length (d_slots r) in
  let '(o, (slots, c)) := reload_go (length (c_data (d_file r)) + 1) lst count pos (d_slots r) (d_file r) in
  match o with
  | Ok (inl n) => (Ok n, mk_sreader slots c (d_loc r) (d_rules r))
  | Ok (inr _) =>
      (Ok (reload_count lst count slots), mk_sreader slots c (lc_setup (map fst slots) (d_loc r)) (d_rules r))
  | Err e => (Err e, mk_sreader slots c (d_loc r) (d_rules r))
  | Panic w => (Panic w, mk_sreader slots c (d_loc r) (d_rules r))
  end.
End Storage.
Arguments sreader : clear implicits.
Arguments ranged : clear implicits.
