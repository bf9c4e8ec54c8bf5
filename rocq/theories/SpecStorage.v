(** * Vocabulary of the specifications of the storage.

    Independent of how the model computes things. *)
From Verif Require Import Base Crc32 Io File Block Payload Packet Rules Slot Storage Spec.

(** ** Slots *)

(** Any slot whose fields fit: the Rust types are u64, and the table has as many entries as announced. *)
Definition slot_ok (s : slot) : Prop :=
  N.of_nat (length (sl_lengths s)) = sl_capacity s /\ sl_capacity s * 8 + 20 < two63 /\ Forall (fun n => n < two64) (sl_lengths s) /\
  sl_crc s = crc32_le (le 8 (sl_capacity s) ++ concat (map (le 8) (sl_lengths s))).

(** The bytes of a slot after its signature and capacity. *)
Definition slot_content (s : slot) : bytes := concat (map (le 8) (sl_lengths s)) ++ sl_crc s.

(** A sequence of inserts into a slot that all succeed. *)
Inductive slot_inserts : slot -> list N -> slot -> Prop :=
| ins_none s : slot_inserts s [] s
| ins_next s n s1 l s2 : slot_insert n s = (Ok tt, s1) -> slot_inserts s1 l s2 -> slot_inserts s (n :: l) s2.

Definition total (l : list N) : N := fold_right N.add 0 l.

(** ** The storage file *)

(** The documented layout of a slot with the lengths [lens]: signature, capacity, lengths (zero when unused), checksum. *)
Definition slot_table (lens : list N) : bytes :=
  let fields := le 8 500 ++ concat (map (le 8) lens) ++ repeat (n2b 0) (8 * (500 - length lens)) in
  map n2b [166; 177; 188; 199; 199; 188; 177; 166] ++ fields ++ crc32_le fields.

Fixpoint in_groups_go {A} (fuel n : nat) (l : list A) : list (list A) :=
  match fuel, l with S f, _ :: _ => firstn n l :: in_groups_go f n (skipn n l) | _, _ => [] end.
(** [l] in groups of [n]. *)
Definition in_groups {A} (n : nat) (l : list A) : list (list A) := in_groups_go (length l) n l.

(** A storage of packets encoded as [es]: groups of 500 packets, each after its table. *)
Definition storage_file (es : list bytes) : bytes :=
  concat (map (fun g => slot_table (map blen g) ++ concat g) (in_groups 500 es)).

(** Where the [i]th packet is. *)
Definition packet_place (es : list bytes) (i : nat) : nat :=
  (4020 * (i / 500 + 1) + length (concat (firstn i es)))%nat.

(** ** Histories of a writer *)
Inductive w_op {U} := WInsert (p : packet U) | WReopen.
Arguments w_op : clear implicits.
(** Closing the writer and opening a new one on the same file. *)
Definition w_step {U} (o : w_op U) (w : writer) : res writer :=
  match o with
  | WInsert p => let (r, w) := w_insert p w in let! _ := r in Ok w
  | WReopen => w_open (healthy (fl_data (w_file w)))
  end.
Fixpoint w_steps {U} (os : list (w_op U)) (w : writer) : res writer :=
  match os with
  | [] => Ok w
  | o :: os => let! w := w_step o w in w_steps os w
  end.
(** From an empty file; all calls succeed. *)
Definition w_history {U} (os : list (w_op U)) : res writer := let! w := w_open (healthy []) in w_steps os w.
Definition w_inserted {U} (os : list (w_op U)) : list (packet U) :=
  concat (map (fun o => match o with WInsert p => [p] | WReopen => [] end) os).
Definition w_data (w : writer) : bytes := fl_data (w_file w).

(** What an iterator gives until it ends. *)
Inductive yields {I A} (next : I -> option A * I) : I -> list A -> Prop :=
| yields_end i i' : next i = (None, i') -> yields next i []
| yields_next i a i' l : next i = (Some a, i') -> yields next i' l -> yields next i (a :: l).

(** Those of the packets that the rules accept, in order. *)
Inductive kept {U} (P : proto U) (rs : rules U) : list (packet U) -> list (packet U) -> Prop :=
| kept_none : kept P rs [] []
| kept_in p ps ks : accepts P rs p -> kept P rs ps ks -> kept P rs (p :: ps) (p :: ks)
| kept_out p ps ks : ~ accepts P rs p -> kept P rs ps ks -> kept P rs (p :: ps) ks.

(** ** Readers in use *)

(** The checksum of the table of the packets from the slot boundary before [n] on. *)
Definition table_sum (n : nat) (es : list bytes) : bytes := skipn 4016 (slot_table (map blen (skipn (500 * (n / 500)) es))).

(** The situations in which [reload] ends in the right state, [es] being the packets seen before and [es'] the new ones:
    nothing new; the last slot was full (or there was none); the new packets fit into the last slot and the checksum of
    its table shows the change. *)
Definition reload_follows (es es' : list bytes) : Prop :=
  es' = [] \/
  (length es mod 500 = 0)%nat \/
  (length (es ++ es') <= 500 * (length es / 500 + 1))%nat /\ table_sum (length es) es <> table_sum (length es) (es ++ es').

(** The number it then reports: 500 less than it should when the new last slot is full as well. *)
Definition reload_number (es es' : list bytes) : nat :=
  if ((length es mod 500 =? 0) && (length (es ++ es') mod 500 =? 0))%nat then (length es' - 500)%nat else length es'.

(** A reader of a storage with the packets [es]: opened on it (up to 15 more bytes at the end do not matter), or reloaded in those situations; rules were set and
    iterators have moved the position of the file. *)
Inductive reading {U} : list bytes -> sreader U -> Prop :=
| reading_open es extra r : blen extra < 16 -> d_open (storage_file es ++ extra) = Ok r -> reading es r
| reading_rules es r ops : reading es r -> reading es (d_with_rules (rule_history ops) r)
| reading_moved es r pos : reading es r -> reading es (d_with_file (c_seek pos (d_file r)) r)
| reading_reload es es' r n r' : reading es r -> reload_follows es es' ->
    d_reload (d_refresh (storage_file (es ++ es')) r) = (Ok n, r') -> reading (es ++ es') r'.

(** An iterator gives [l] and is then in the state [i']. *)
Inductive gives {I A} (next : I -> option A * I) : I -> list A -> I -> Prop :=
| gives_none i : gives next i [] i
| gives_next i a i1 l i' : next i = (Some a, i1) -> gives next i1 l i' -> gives next i (a :: l) i'.

(** ** Files that fail *)

(** The bytes [x] are in the file at [off]. *)
Definition holds (data : bytes) (off : nat) (x : bytes) : Prop := exists a b, data = a ++ x ++ b /\ length a = off.

(** The same writer when the system starts to give other answers: [sched] for the next writes, [flushes] for the next
    flushes. *)
Definition w_faults (sched : list answer) (flushes : list (option iokind)) (w : writer) : writer :=
  mk_writer (w_slots w) (mk_file (fl_cur (w_file w)) sched flushes) (w_loc w).

(** Inserts that may fail; the caller goes on. *)
Fixpoint w_tries {U} (ps : list (packet U)) (w : writer) : list (res unit) * writer :=
  match ps with
  | [] => ([], w)
  | p :: ps => let (o, w) := w_insert p w in let (os, w) := w_tries ps w in (o :: os, w)
  end.

(** What is left of a packet whose insert failed: some of its first bytes, zeros for the others. *)
Definition hole (e d : bytes) : Prop := exists k, (k <= length e)%nat /\ d = firstn k e ++ repeat (n2b 0) (length e - k).
(** Where inserts of packets with the bytes [es] gave [rs], the bytes [ds] are in their places: the packets themselves when
    they were stored, what is left of them otherwise. *)
Inductive stored : list bytes -> list (res unit) -> list bytes -> Prop :=
| stored_none : stored [] [] []
| stored_next e es r rs d ds : hole e d -> (r = Ok tt -> d = e) -> stored es rs ds -> stored (e :: es) (r :: rs) (d :: ds).

(** ** Files of unknown origin *)

(** The table of a slot with any number of entries. *)
Definition table (lens : list N) : bytes :=
  let fields := le 8 (N.of_nat (length lens)) ++ concat (map (le 8) lens) in
  map n2b [166; 177; 188; 199; 199; 188; 177; 166] ++ fields ++ crc32_le fields.
Definition table_len (lens : list N) : N := 20 + 8 * N.of_nat (length lens).

Fixpoint before_zero (l : list N) : list N :=
  match l with [] => [] | n :: r => if n =? 0 then [] else n :: before_zero r end.
(** The bytes that the next table is taken to be behind: all entries when the last one is used, otherwise those before
    the first unused one. *)
Definition announced (lens : list N) : N := if 0 <? last lens 0 then total lens else total (before_zero lens).

(** From [off] on: tables with the entries [ls], each followed by what it announces, as far as [next]. *)
Inductive tables (data : bytes) : N -> list (list N) -> N -> Prop :=
| tables_end off : tables data off [] off
| tables_more off lens ls next rest : Forall (fun n => n < two64) lens ->
    skipn (N.to_nat off) data = table lens ++ rest -> tables data (off + table_len lens + announced lens) ls next ->
    tables data off (lens :: ls) next.
(** All of them. *)
Definition all_tables (data : bytes) (ls : list (list N)) (next : N) : Prop :=
  tables data 0 ls next /\ forall lens rest, Forall (fun n => n < two64) lens -> skipn (N.to_nat next) data <> table lens ++ rest.

(** Why the sequence of tables ends. *)
Definition stops (data : bytes) (next : N) (o : res unit) : Prop :=
  let sig := map n2b [166; 177; 188; 199; 199; 188; 177; 166] in
  let rest := skipn (N.to_nat next) data in
  match o with
  | Ok _ => next <= blen data /\
      (blen rest < 16 \/ exists cap body, rest = sig ++ le 8 cap ++ body /\ cap <= 1 /\ blen body < 8 * cap + 4)
  | Err e => next <= blen data /\ 16 <= blen rest /\
      (e = EDamagedSlot ESignatureDismatch /\ firstn 8 rest <> sig \/
       e = EDamagedSlot ECrcDismatch /\ exists lens crc body, let fields := le 8 (N.of_nat (length lens)) ++ concat (map (le 8) lens) in
         rest = sig ++ fields ++ crc ++ body /\ length crc = 4%nat /\ Forall (fun x => x < two64) lens /\ crc <> crc32_le fields)
  | Panic w => w = POverflow /\
      (blen data < next \/ exists cap body, rest = sig ++ le 8 cap ++ body /\ 2 <= cap < two64 /\ blen body < 8 * cap + 4)
  end.

(** Only whether it worked. *)
Definition un {A} (o : res A) : res unit := let! _ := o in Ok tt.

(** Where the table [i] is. *)
Definition table_place (ls : list (list N)) (i : nat) : N := total (map (fun lens => table_len lens + announced lens) (firstn i ls)).

(** Where the [n]th packet is looked for. *)
Definition nth_place (ls : list (list N)) (n : nat) : res (option N) :=
  match nth_error ls (n / 500) with
  | None => Ok None
  | Some lens =>
      match nth_error lens (n mod 500) with
      | None => Err (EOutOfBounds (N.of_nat (length lens)) (N.of_nat (n mod 500)))
      | Some 0 => Ok None
      | Some _ => Ok (Some (table_place ls (n / 500) + table_len lens + total (firstn (n mod 500) lens)))
      end
  end.

(** Entries as the writer makes them: those in use come first. *)
Definition no_holes (lens : list N) : Prop := exists used k, lens = used ++ repeat 0 k /\ Forall (fun n => 0 < n) used.

(** What an iterator over the packets of a storage reads: the bytes behind each table, up to the first table that
    announces nothing. *)
Fixpoint contents (data : bytes) (off : N) (ls : list (list N)) : list bytes :=
  match ls with
  | [] => []
  | lens :: ls =>
      if announced lens =? 0 then []
      else firstn (N.to_nat (announced lens)) (skipn (N.to_nat (off + table_len lens)) data) ::
           contents data (off + table_len lens + announced lens) ls
  end.

(** Calling a reader again and again until there are no bytes left. *)
Definition by_packet {A} (rd : cursor -> res A * cursor) (c : cursor) : option (res A) * cursor :=
  match c_rest c with [] => (None, c) | _ :: _ => let (o, c) := rd c in (Some o, c) end.

(** A packet header that announces 2^63 bytes or more is somewhere in the bytes. *)
Definition has_huge (data : bytes) : Prop :=
  exists pre size post, data = pre ++ packet_sig ++ le 8 size ++ post /\ two63 <= size < two64.
(** A result that is no panic, but for that of [Packet::read] on such a header (C22). *)
Definition harmless {A} (data : bytes) (o : res A) : Prop := forall w, o = Panic w -> w = PCapacity /\ has_huge data.

(** The entries in use, of one table and of several. *)
Definition in_use (lens : list N) : nat := length (filter (fun n => 0 <? n) lens).
Definition all_in_use (ls : list (list N)) : nat := list_sum (map in_use ls).

(** What a filtering iterator shows of what it reads. *)
Definition shown {U} (o : res (look U)) : list (res (packet U)) :=
  match o with Ok (Accepted _ p) => [Ok p] | Ok (Denied _) => [] | Err e => [Err e] | Panic w => [Panic w] end.

(** What a range gives: the results for its numbers, up to the first number for which there is no packet. *)
Fixpoint until_none {A} (os : list (res (option A))) : list (res A) :=
  match os with
  | [] | Ok None :: _ => []
  | Ok (Some a) :: os => Ok a :: until_none os
  | Err e :: os => Err e :: until_none os
  | Panic w :: os => Panic w :: until_none os
  end.
(** The same with filters: up to [len] accepted packets; errors do not count. *)
Fixpoint picks {U} (len : nat) (os : list (res (option (look U)))) : list (res (packet U)) :=
  match len, os with
  | O, _ | _, [] | _, Ok None :: _ => []
  | S k, Ok (Some (Accepted _ p)) :: os => Ok p :: picks k os
  | _, Ok (Some (Denied _)) :: os => picks len os
  | _, Err e :: os => Err e :: picks len os
  | _, Panic w :: os => Panic w :: picks len os
  end.

(** The bytes [x] in place of those at [off]. *)
Definition put (off : N) (x data : bytes) : bytes := firstn (N.to_nat off) data ++ x ++ skipn (N.to_nat off + length x) data.
(** A table with a free entry at its end; the same with an entry more. *)
Definition room (lens : list N) : Prop := exists l, lens = l ++ [0].
Definition add_entry (n : N) (lens : list N) : list N := before_zero lens ++ n :: skipn (S (length (before_zero lens))) lens.

(** ** Files that change while a reader has them open *)

(** A table as it is kept in memory, and a reader that has found the tables [ls], one behind the other. *)
Definition slot_with (lens : list N) : slot :=
  mk_slot lens (N.of_nat (length lens)) (crc32_le (le 8 (N.of_nat (length lens)) ++ concat (map (le 8) lens))).
Definition known {U} (ls : list (list N)) (r : sreader U) : Prop :=
  d_slots r = combine (map slot_with ls) (map (table_place ls) (seq 0 (length ls))).
(** It counts up to the first table with room, if there is one. *)
Definition located {U} (ls : list (list N)) (r : sreader U) : Prop :=
  (exists lens, nth_error ls (lc_next (d_loc r)) = Some lens /\ room lens /\ Forall (fun l => ~ room l) (firstn (lc_next (d_loc r)) ls)) \/
  Forall (fun l => ~ room l) ls.

(** The tables whose packets are within [len] bytes, up to the first one that announces nothing; and whether the one behind
    them announces more than there is. *)
Fixpoint within (len off : N) (ls : list (list N)) : list (list N) * bool :=
  match ls with
  | [] => ([], false)
  | lens :: ls =>
      let next := off + table_len lens + announced lens in
      if announced lens =? 0 then ([], false)
      else if next <=? len then let (a, cut) := within len next ls in (lens :: a, cut) else ([], true)
  end.

(** An iterator that gives [l] and then panics, or ends. *)
Definition until {A} (cut : bool) (next : siter -> option (res A) * siter) (t : siter) (l : list (res A)) : Prop :=
  if cut then exists t', gives next t l t' /\ fst (next t') = Some (Panic PUnwrap) else yields next t l.

(** No table begins at [next]. *)
Definition no_table (data : bytes) (next : N) : Prop :=
  forall lens rest, Forall (fun n => n < two64) lens -> skipn (N.to_nat next) data <> table lens ++ rest.
(** Why a sequence of tables ends, for a reader whose last table had room: as [stops], but a cut table is an error. *)
Definition stops_room (data : bytes) (next : N) (o : res unit) : Prop :=
  let rest := skipn (N.to_nat next) data in
  match o with
  | Ok _ => next <= blen data /\ blen rest < 16
  | Err (EDamagedSlot (ENotEnoughData n)) => next <= blen data /\
      exists cap body, rest = map n2b [166; 177; 188; 199; 199; 188; 177; 166] ++ le 8 cap ++ body /\ cap <= 1 /\ blen body < 8 * cap + 4 /\ n = 9 - 8 * cap
  | o => stops data next o
  end.
