(** * Iterating over a storage in a release build, where arithmetic wraps around instead of panicking.
    Storage.v describes builds with overflow checks. *)
From Verif Require Import Base Io Block Payload Packet Rules Slot Storage Release ReleaseRead.

(** [PacketsLocatorIterator::next], brec/src/storage/reader/iters.rs:67-79; [width] and [size] are sums of u64 themselves,
    brec/src/storage/slot/mod.rs:61-69 and 183-187. *)
Definition rel_t_locate (t : siter) : option (N * N) * siter :=
  match t_slots t with
  | [] => (None, t)
  | s :: r =>
      let width := slot_width s mod two64 in
      let size := slot_size s mod two64 in
      if width =? 0 then (None, mk_siter (t_off t) r (t_src t) (t_buf t))
      else (Some (wadd (t_off t) size, wadd (wadd (t_off t) width) size),
            mk_siter (wadd (t_off t) (wadd width size)) r (t_src t) (t_buf t))
  end.

(** The buffer for the next packet, brec/src/storage/reader/iters.rs:161-174 and 254-266. *)
Definition rel_t_ready (t : siter) : option (res unit) * siter :=
  match c_rest (t_buf t) with
  | _ :: _ => (Some (Ok tt), t)
  | [] =>
      match rel_t_locate t with
      | (None, t) => (None, t)
      | (Some range, t) => let (o, t) := rel_t_fetch range t in (Some o, t)
      end
  end.

Section ReleaseIter.
Context {U : Type}.

(** [ReaderIterator::next], brec/src/storage/reader/iters.rs:159-178. *)
Definition rel_t_next (P : proto U) (t : siter) : option (res (packet U)) * siter :=
  match rel_t_ready t with
  | (None, t) => (None, t)
  | (Some (Err e), t) => (Some (Err e), t)
  | (Some (Panic w), t) => (Some (Panic w), t)
  | (Some (Ok _), t) =>
      let (o, b) := pkt_read cursor_reader P (t_buf t) in (Some o, mk_siter (t_off t) (t_slots t) (t_src t) b)
  end.

(** [ReaderFilteredIterator::next], brec/src/storage/reader/iters.rs:252-278; [fuel] as for [t_next_filtered]. *)
Fixpoint rel_t_next_filtered_go (fuel : nat) (P : proto U) (rs : rules U) (t : siter) : option (res (packet U)) * siter :=
  match fuel with
  | O => (Some (Panic PFuel), t)
  | S f =>
      match rel_t_ready t with
      | (None, t) => (None, t)
      | (Some (Err e), t) => (Some (Err e), t)
      | (Some (Panic w), t) => (Some (Panic w), t)
      | (Some (Ok _), t) =>
          let (o, b) := filtered cursor_reader P rs (t_buf t) in
          let t := mk_siter (t_off t) (t_slots t) (t_src t) b in
          match o with
          | Ok (Accepted _ p) => (Some (Ok p), t)
          | Ok (Denied _) => rel_t_next_filtered_go f P rs t
          | Err e => (Some (Err e), t)
          | Panic w => (Some (Panic w), t)
          end
      end
  end.
Definition rel_t_next_filtered (P : proto U) (rs : rules U) (t : siter) : option (res (packet U)) * siter :=
  rel_t_next_filtered_go (length (c_data (t_src t)) + length (c_data (t_buf t)) + length (t_slots t) + 1) P rs t.

(** [ReaderRangeIterator::next], brec/src/storage/reader/iters.rs:343-355. *)
Definition rel_g_next (P : proto U) (g : ranged U) : option (res (packet U)) * ranged U :=
  match g_len g with
  | O => (None, g)
  | S len =>
      let (o, r) := rel_d_nth P (g_from g) (g_reader g) in
      (match o with
       | Ok None => None
       | Ok (Some p) => Some (Ok p)
       | Err e => Some (Err e)
       | Panic w => Some (Panic w)
       end, mk_ranged r len (S (g_from g)))
  end.

(** [ReaderRangeFilteredIterator::next], brec/src/storage/reader/iters.rs:412-434; [fuel] as for [g_next_filtered]. *)
Fixpoint rel_g_next_filtered_go (fuel : nat) (P : proto U) (g : ranged U) : option (res (packet U)) * ranged U :=
  match fuel with
  | O => (Some (Panic PFuel), g)
  | S f =>
      match g_len g with
      | O => (None, g)
      | S len =>
          let (o, r) := rel_d_nth_filtered P (g_from g) (g_reader g) in
          match o with
          | Ok None => (None, mk_ranged r (S len) (S (g_from g)))
          | Ok (Some (Accepted _ p)) => (Some (Ok p), mk_ranged r len (S (g_from g)))
          | Ok (Some (Denied _)) => rel_g_next_filtered_go f P (mk_ranged r (S len) (S (g_from g)))
          | Err e => (Some (Err e), mk_ranged r (S len) (S (g_from g)))
          | Panic w => (Some (Panic w), mk_ranged r (S len) (S (g_from g)))
          end
      end
  end.
Definition rel_g_next_filtered (P : proto U) (g : ranged U) : option (res (packet U)) * ranged U :=
  rel_g_next_filtered_go (length (d_slots (g_reader g)) * default_capacity + 1) P g.
End ReleaseIter.
