(** * Storage slots: tables of packet lengths. *)
From Verif Require Import Base Crc32 Io Block Payload.

(** [DEFAULT_SLOT_CAPACITY], brec/src/storage/slot/mod.rs:13. *)
Definition default_capacity : nat := 500.

(** [STORAGE_SLOT_SIG], brec/src/storage/slot/mod.rs:15. *)
Definition slot_sig : bytes := map n2b [166; 177; 188; 199; 199; 188; 177; 166].

(** [Slot], brec/src/storage/slot/mod.rs:30-39. *)
Record slot := mk_slot { sl_lengths : list N; sl_capacity : N; sl_crc : bytes }.

(** [CrcU32 for Slot], brec/src/storage/slot/mod.rs:190-204. *)
Definition slot_crc (s : slot) : bytes := crc32_le (le 8 (sl_capacity s) ++ concat (map (le 8) (sl_lengths s))).

(** [SlotHeader::ssize], brec/src/storage/slot/header.rs:18-20. *)
Definition slot_hdr_size : N := 16.

(** [Size for Slot], brec/src/storage/slot/mod.rs:183-187. *)
Definition slot_size (s : slot) : N := slot_hdr_size + sl_capacity s * 8 + 4.

(** [iter().sum()]; u64 sums.  Overflow is looked at where untrusted lengths come in ([Storage.load_go]). *)
Definition sum (l : list N) : N := fold_right N.add 0 l.

(** [iter().position(|ln| ln == &0)]. *)
Fixpoint free_position (l : list N) : option nat :=
  match l with
  | [] => None
  | n :: r => if n =? 0 then Some O else option_map S (free_position r)
  end.

(** [is_full], brec/src/storage/slot/mod.rs:115-123: looks at the last entry only. *)
Definition slot_is_full (s : slot) : bool := 0 <? last (sl_lengths s) 0.

(** [width], brec/src/storage/slot/mod.rs:61-69. *)
Definition slot_width (s : slot) : N :=
  if slot_is_full s then sum (sl_lengths s)
  else match free_position (sl_lengths s) with
       | None => sum (sl_lengths s)
       | Some i => sum (firstn i (sl_lengths s))
       end.

(** [get_slot_offset], brec/src/storage/slot/mod.rs:79-84. *)
Definition slot_offset (nth : nat) (s : slot) : option N :=
  if (length (sl_lengths s) <=? nth)%nat then None else Some (sum (firstn nth (sl_lengths s)) + slot_size s).

(** [is_empty], brec/src/storage/slot/mod.rs:90-95. *)
Definition slot_is_empty (nth : nat) (s : slot) : res bool :=
  match nth_error (sl_lengths s) nth with
  | Some n => Ok (n =? 0)
  | None => Err (EOutOfBounds (N.of_nat (length (sl_lengths s))) (N.of_nat nth))
  end.

(** [count], brec/src/storage/slot/mod.rs:97-99. *)
Definition slot_count (s : slot) : nat := length (filter (fun n => 0 <? n) (sl_lengths s)).

(** [is_used], brec/src/storage/slot/mod.rs:101-103. *)
Definition slot_is_used (i : nat) (s : slot) : bool :=
  match nth_error (sl_lengths s) i with Some n => 0 <? n | None => false end.

(** [offset_of], brec/src/storage/slot/mod.rs:105-113. *)
Definition slot_offset_of (i : nat) (s : slot) : option N :=
  match i with
  | O => Some 0
  | _ => if (length (sl_lengths s) <=? i)%nat || negb (slot_is_used i s) then None
         else Some (sum (firstn i (sl_lengths s)))
  end.

(** [get_free_slot_offset], brec/src/storage/slot/mod.rs:126-132. *)
Definition free_slot_offset (s : slot) : option N :=
  if slot_is_full s then None
  else option_map (fun i => sum (firstn i (sl_lengths s)) + slot_size s) (free_position (sl_lengths s)).

(** [get_free_slot_index], brec/src/storage/slot/mod.rs:135-140. *)
Definition free_slot_index (s : slot) : option nat :=
  if slot_is_full s then None else free_position (sl_lengths s).

(** [overwrite_crc], brec/src/storage/slot/mod.rs:143-145. *)
Definition with_crc (s : slot) : slot := mk_slot (sl_lengths s) (sl_capacity s) (slot_crc s).

(** [insert], brec/src/storage/slot/mod.rs:153-162. *)
Definition slot_insert (len : N) (s : slot) : res unit * slot :=
  match free_position (sl_lengths s) with
  | None => (Err ECannotInsertIntoSlot, s)
  | Some i =>
      (Ok tt, with_crc (mk_slot (firstn i (sl_lengths s) ++ len :: skipn (S i) (sl_lengths s)) (sl_capacity s) (sl_crc s)))
  end.

(** An empty slot of any capacity; [Default for Slot], brec/src/storage/slot/mod.rs:166-176, is the one below. *)
Definition empty_slot (cap : nat) : slot := with_crc (mk_slot (repeat 0 cap) (N.of_nat cap) (repeat (n2b 0) 4)).
Definition default_slot : slot := empty_slot default_capacity.

(** [SlotIterator], brec/src/storage/slot/mod.rs:206-239: start and end of the ranges. *)
Fixpoint slot_ranges_go (lens : list N) (offset size : N) : list (N * N) :=
  match lens with
  | [] => []
  | ln :: r => if ln =? 0 then [] else (offset + size, offset + ln + size) :: slot_ranges_go r (offset + ln) size
  end.
Definition slot_ranges (s : slot) : list (N * N) := slot_ranges_go (sl_lengths s) 0 (slot_size s).

(** [get_buffer], brec/src/storage/slot/write.rs:10-23: a buffer of [size()] zeros filled from the start. *)
Definition slot_bytes (s : slot) : res bytes :=
  let b := slot_sig ++ le 8 (sl_capacity s) ++ concat (map (le 8) (sl_lengths s)) ++ sl_crc s in
  if blen b <=? slot_size s then Ok (b ++ repeat (n2b 0) (N.to_nat (slot_size s - blen b))) else Panic PIndex.

(** [WriteTo for Slot], brec/src/storage/slot/write.rs:25-35. *)
Definition slot_write_all (s : slot) (o : sink) : res unit * sink :=
  do (b, o) <- (slot_bytes s, o); sink_write_all b o.
Definition slot_write (s : slot) (o : sink) : res N * sink :=
  do (b, o) <- (slot_bytes s, o); sink_write b o.

(** [ReadFrom for SlotHeader], brec/src/storage/slot/header.rs:32-47. *)
Definition slot_hdr_read {S} (R : reader S) (s : S) : res N * S :=
  do (sig, s) <- rd_exact R 8 s;
  if negb (bytes_eqb sig slot_sig) then (Err ESignatureDismatch, s) else
  do (cap, s) <- rd_exact R 8 s;
  (Ok (unle cap), s).

(** The loop reading the lengths, brec/src/storage/slot/read.rs:25-29 and 79-83. *)
Fixpoint read_lengths {S} (R : reader S) (n : nat) (acc : list N) (s : S) : res (list N) * S :=
  match n with
  | O => (Ok acc, s)
  | S n => do (b, s) <- rd_exact R 8 s; read_lengths R n (acc ++ [unle b]) s
  end.

(** The common end of the two readers, brec/src/storage/slot/read.rs:24-40 and 78-95.
    [Vec::with_capacity] panics above isize::MAX bytes. *)
Definition slot_body {S} (R : reader S) (cap : N) (s : S) : res slot * S :=
  if two63 <=? cap * 8 then (Panic PCapacity, s) else
  do (lens, s) <- read_lengths R (N.to_nat cap) [] s;
  do (crc, s) <- rd_exact R 4 s;
  let sl := mk_slot lens cap crc in
  if bytes_eqb (sl_crc sl) (slot_crc sl) then (Ok sl, s) else (Err ECrcDismatch, s).

(** [ReadFrom for Slot], brec/src/storage/slot/read.rs:18-41. *)
Definition slot_read {S} (R : reader S) (s : S) : res slot * S :=
  do (cap, s) <- slot_hdr_read R s; slot_body R cap s.

(** [TryReadFrom for SlotHeader], brec/src/storage/slot/header.rs:59-82. *)
Definition slot_hdr_try_read (c : cursor) : res (status N) * cursor :=
  let start := c_pos c in
  do (len, c) <- (c_available c, c);
  if len <? slot_hdr_size then (Ok (NotEnough slot_hdr_size), c) else
  do (sig, c) <- rd_exact cursor_reader 8 c;
  if negb (bytes_eqb sig slot_sig) then (Err ESignatureDismatch, c_seek start c) else
  do (cap, c) <- rd_exact cursor_reader 8 c;
  (Ok (Success (unle cap)), c).

(** [TryReadFrom for Slot], brec/src/storage/slot/read.rs:58-96.  The number of missing bytes is computed
    as [PacketHeader::ssize() - needed]. *)
Definition slot_try_read (c : cursor) : res (status slot) * cursor :=
  let start := c_pos c in
  do (len, c) <- (c_available c, c);
  st (cap, c) <- slot_hdr_try_read c;
  let needed := slot_hdr_size + cap * 8 + 4 in
  if two64 <=? needed then (Panic POverflow, c) else
  if len <? needed then
    (if 29 <? needed then Panic POverflow else Ok (NotEnough (29 - needed)), c_seek start c)
  else do (sl, c) <- slot_body cursor_reader cap c; (Ok (Success sl), c).
