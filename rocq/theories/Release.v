(** * Storages in a release build, where arithmetic wraps around instead of panicking.
    The other files describe builds with overflow checks.  Here the functions that open and reload storages are given again
    as they run without the checks; what they share with the others is taken from there. *)
From Verif Require Import Base Io File Block Payload Slot Storage.

(** Addition and subtraction of u64 in a release build. *)
Definition wadd (a b : N) : N := (a + b) mod two64.
Definition wsub (a b : N) : N := (a + two64 - b) mod two64.

(** [buf.seek(End(0))? - start_pos], brec/src/storage/slot/read.rs:63 and brec/src/storage/slot/header.rs:64. *)
Definition rel_available (c : cursor) : N := wsub (c_len c) (c_pos c).

(** [TryReadFrom for SlotHeader], brec/src/storage/slot/header.rs:59-82. *)
Definition rel_hdr_try_read (c : cursor) : res (status N) * cursor :=
  let start := c_pos c in
  if rel_available c <? slot_hdr_size then (Ok (NotEnough slot_hdr_size), c) else
  do (sig, c) <- rd_exact cursor_reader 8 c;
  if negb (bytes_eqb sig slot_sig) then (Err ESignatureDismatch, c_seek start c) else
  do (cap, c) <- rd_exact cursor_reader 8 c;
  (Ok (Success (unle cap)), c).

(** [TryReadFrom for Slot], brec/src/storage/slot/read.rs:58-96. *)
Definition rel_try_read (c : cursor) : res (status slot) * cursor :=
  let start := c_pos c in
  let len := rel_available c in
  st (cap, c) <- rel_hdr_try_read c;
  let needed := wadd (wadd slot_hdr_size ((cap * 8) mod two64)) 4 in
  if len <? needed then (Ok (NotEnough (wsub 29 needed)), c_seek start c)
  else do (sl, c) <- slot_body cursor_reader cap c; (Ok (Success sl), c).

(** [slot.size() + slot.width()] and the like: sums of u64, brec/src/storage/slot/mod.rs:61-69 and 183-187. *)
Definition rel_total (s : slot) : N := wadd (slot_size s mod two64) (slot_width s mod two64).

(** The loop of [load], brec/src/storage/writer/mod.rs:51-70 and brec/src/storage/reader/mod.rs:53-73.  Here it need not
    end: [fuel] is the number of rounds looked at. *)
Fixpoint rel_load_go (fuel : nat) (offset : N) (acc : list (slot * N)) (c : cursor) : res (list (slot * N)) * cursor :=
  match fuel with
  | O => (Panic PFuel, c)
  | S f =>
      match rel_try_read (c_seek offset c) with
      | (Ok (Success s), c) => rel_load_go f (wadd offset (rel_total s)) (acc ++ [(s, offset)]) c
      | (Ok (NotEnough _), c) => (Ok acc, c)
      | (Err e, c) => (Err (load_error e), c)
      | (Panic w, c) => (Panic w, c)
      end
  end.
Definition rel_load (fuel : nat) (c : cursor) : res (list (slot * N)) * cursor := rel_load_go fuel 0 [] c.

(** [setup], brec/src/storage/locator.rs:63-72. *)
Definition rel_setup (slots : list slot) : locator :=
  let l := lc_setup slots new_locator in mk_locator (lc_next l) (lc_off l mod two64).

(** [WriterDef::new] and [load], brec/src/storage/writer/mod.rs:35-73. *)
Definition rel_w_open (fuel : nat) (f : file) : res writer :=
  match rel_load fuel (fl_cur f) with
  | (Ok slots, c) => Ok (mk_writer (map fst slots) (mk_file c (fl_sched f) (fl_flushes f)) (rel_setup (map fst slots)))
  | (Err e, _) => Err e
  | (Panic w, _) => Panic w
  end.

Section Release.
Context {U : Type}.

(** [ReaderDef::new] and [load], brec/src/storage/reader/mod.rs:37-77. *)
Definition rel_d_open (fuel : nat) (data : bytes) : res (sreader U) :=
  match rel_load fuel (mk_cursor data 0) with
  | (Ok slots, c) => Ok (mk_sreader slots c (rel_setup (map fst slots)) [])
  | (Err e, _) => Err e
  | (Panic w, _) => Panic w
  end.

(** Where [reload] starts, brec/src/storage/reader/mod.rs:82-97. *)
Definition rel_last_slot (slots : list (slot * N)) : option (nat * bytes) * N :=
  let (lst, pos) := last_slot slots in (lst, pos mod two64).

(** The loop of [reload], brec/src/storage/reader/mod.rs:99-152. *)
Fixpoint rel_reload_go (fuel : nat) (last : option (nat * bytes)) (count : nat) (source_pos : N) (slots : list (slot * N)) (c : cursor)
  : res (nat + unit) * (list (slot * N) * cursor) :=
  match fuel with
  | O => (Panic PFuel, (slots, c))
  | S f =>
      match rel_try_read (c_seek source_pos c) with
      | (Ok (Success s), c) =>
          match last, (length slots =? count)%nat with
          | Some (_, crc), true =>
              if bytes_eqb crc (sl_crc s) then (Ok (inl O), (slots, c)) else
              match nth_error slots (count - 1) with
              | None => (Err (EAccessSlot (N.of_nat (count - 1))), (slots, c))
              | Some (_, off) =>
                  let slots := set_nth (count - 1) (s, off) slots in
                  match free_slot_index s with
                  | None => rel_reload_go f last count (wadd source_pos (rel_total s)) slots c
                  | Some _ => (Ok (inr tt), (slots, c))
                  end
              end
          | _, _ => rel_reload_go f last count (wadd source_pos (rel_total s)) (slots ++ [(s, source_pos)]) c
          end
      | (Ok (NotEnough needed), c) =>
          match last, (length slots =? count)%nat with
          | None, true => (Ok (inl O), (slots, c))
          | Some _, true =>
              if needed =? slot_hdr_size then (Ok (inr tt), (slots, c))
              else (Err (EDamagedSlot (ENotEnoughData needed)), (slots, c))
          | _, false => (Ok (inr tt), (slots, c))
          end
      | (Err e, c) => (Err (load_error e), (slots, c))
      | (Panic w, c) => (Panic w, (slots, c))
      end
  end.

(** [reload], brec/src/storage/reader/mod.rs:79-182.  The offset of a reader's locator is never used and is left as in
    [d_reload]. *)
Definition rel_d_reload (fuel : nat) (r : sreader U) : res nat * sreader U :=
  let (lst, pos) := rel_last_slot (d_slots r) in
  let count := length (d_slots r) in
  let '(o, (slots, c)) := rel_reload_go fuel lst count pos (d_slots r) (d_file r) in
  match o with
  | Ok (inl n) => (Ok n, mk_sreader slots c (d_loc r) (d_rules r))
  | Ok (inr _) =>
      (Ok (reload_count lst count slots), mk_sreader slots c (lc_setup (map fst slots) (d_loc r)) (d_rules r))
  | Err e => (Err e, mk_sreader slots c (d_loc r) (d_rules r))
  | Panic w => (Panic w, mk_sreader slots c (d_loc r) (d_rules r))
  end.
End Release.
