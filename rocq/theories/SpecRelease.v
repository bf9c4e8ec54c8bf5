(** * Vocabulary for storages in a release build (C91, C92, C95). *)
From Verif Require Import Base Crc32 Io File Slot Storage Release Spec SpecStorage SpecPoll.
Open Scope list_scope.

(** Why the sequence of tables ends; compare [stops]. *)
Definition rel_stops (data : bytes) (next : N) (o : res unit) : Prop :=
  let sig := map n2b [166; 177; 188; 199; 199; 188; 177; 166] in
  let rest := skipn (N.to_nat next) data in
  match o with
  | Ok _ => next <= blen data /\
      (blen rest < 16 \/ exists cap body, rest = sig ++ le 8 cap ++ body /\ cap < two64 /\ 16 + blen body < (20 + 8 * cap) mod two64)
  | Err e =>
      e = EIo UnexpectedEof /\ blen data < next \/
      next <= blen data /\ 16 <= blen rest /\
      (e = EDamagedSlot ESignatureDismatch /\ firstn 8 rest <> sig \/
       e = EDamagedSlot ECrcDismatch /\ exists lens crc body, let fields := le 8 (N.of_nat (length lens)) ++ concat (map (le 8) lens) in
         rest = sig ++ fields ++ crc ++ body /\ length crc = 4%nat /\ Forall (fun x => x < two64) lens /\ crc <> crc32_le fields)
  | Panic w => w = PCapacity /\
      exists cap body, rest = sig ++ le 8 cap ++ body /\ cap < two64 <= 20 + 8 * cap /\ (20 + 8 * cap) mod two64 <= 16 + blen body
  end.

(** As [polls], in a release build. *)
Fixpoint rel_polls {U} (n : nat) (datas : list bytes) (r : sreader U) : list (res nat) * sreader U :=
  match datas with
  | [] => ([], r)
  | d :: datas => let (o, r) := rel_d_reload n (d_refresh d r) in let (os, r) := rel_polls n datas r in (o :: os, r)
  end.

(** What an iterator reads in a release build when sums wrap at 2^64: the bytes behind each table, up to the first one whose
    lengths add up to a multiple of 2^64; and the panic that ends it, if the next region is too large for a buffer or not
    within the file. *)
Fixpoint rel_contents (data : bytes) (off : N) (ls : list (list N)) : list bytes * option why :=
  match ls with
  | [] => ([], None)
  | lens :: ls =>
      let width := announced lens mod 2 ^ 64 in
      let place := (off + table_len lens) mod 2 ^ 64 in
      if width =? 0 then ([], None)
      else if 2 ^ 63 <=? width then ([], Some PCapacity)
      else if blen data <? place + width then ([], Some PUnwrap)
      else let (l, e) := rel_contents data (place + width) ls in
           (firstn (N.to_nat width) (skipn (N.to_nat place) data) :: l, e)
  end.

(** An iterator that gives [l] and then panics with [e], or ends. *)
Definition ends_with {I A} (e : option why) (next : I -> option (res A) * I) (i : I) (l : list (res A)) : Prop :=
  match e with
  | Some w => exists i', gives next i l i' /\ fst (next i') = Some (Panic w)
  | None => yields next i l
  end.
