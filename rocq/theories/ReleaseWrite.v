(** * Inserting into a storage in a release build, where arithmetic wraps around instead of panicking.
    Storage.v describes builds with overflow checks. *)
From Verif Require Import Base Io File Block Payload Packet Slot Storage Release.

(** [FreeSlotLocator::next], brec/src/storage/locator.rs:29-41; the offsets in a slot are sums of u64 themselves,
    brec/src/storage/slot/mod.rs:61-69, 126-132 and 183-187. *)
Definition rel_lc_find (slots : list slot) (l : locator) : option N * locator :=
  match nth_error slots (lc_next l) with
  | None => (None, l)
  | Some s =>
      match free_slot_offset s with
      | Some o => (Some (wadd (lc_off l) (o mod two64)), l)
      | None =>
          let l := mk_locator (S (lc_next l)) (wadd (lc_off l) (rel_total s)) in
          match nth_error slots (lc_next l) with
          | None => (None, l)
          | Some s => (option_map (fun o => wadd (lc_off l) (o mod two64)) (free_slot_offset s), l)
          end
      end
  end.

(** Where the packet goes, brec/src/storage/writer/mod.rs:84-92. *)
Definition rel_w_find (w : writer) : option N * writer :=
  match rel_lc_find (w_slots w) (w_loc w) with
  | (Some o, l) => (Some o, mk_writer (w_slots w) (w_file w) l)
  | (None, l) =>
      let slots := w_slots w ++ [default_slot] in
      let (o, l) := rel_lc_find slots l in (o, mk_writer slots (w_file w) l)
  end.

(** [insert], brec/src/storage/writer/mod.rs:83-114. *)
Definition rel_w_insert {U} (p : packet U) (w : writer) : res unit * writer :=
  match rel_w_find w with
  | (None, w) => (Err ECannotFindFreeSlot, w)
  | (Some offset, w) =>
      let (o, k) := pkt_write_all p (mk_sink [] []) in
      do (_, w) <- (o, w);
      let buffer := k_got k in
      let (o, slots) := lc_insert (w_slots w) (w_loc w) (blen buffer) in
      let w := mk_writer slots (w_file w) (w_loc w) in
      do (_, w) <- (o, w);
      match nth_error slots (lc_next (w_loc w)) with
      | None => (Err ECannotFindFreeSlot, w)
      | Some s =>
          let (o, f) := w_store s (lc_off (w_loc w)) offset buffer (w_file w) in
          (o, mk_writer slots f (w_loc w))
      end
  end.
