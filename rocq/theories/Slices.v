(** * Vectored writes: [IoSlices]. *)
From Verif Require Import Base Io.

(** [IoSlices], brec/src/traits/write/slices.rs:6-22: borrowed and owned slots differ only in
    ownership, so a list of byte strings. *)
Definition slices := list bytes.

(** [add_slice]/[add_buffered]/[append], brec/src/traits/write/slices.rs:29-63. *)
Definition add_slice (b : bytes) (s : slices) : slices := s ++ [b].
Definition append (a b : slices) : slices := a ++ b.

(** The [filter_map], brec/src/traits/write/slices.rs:81-97. *)
Fixpoint in_work (source : slices) (offset written : N) : slices :=
  match source with
  | [] => []
  | slice :: r =>
      let start := offset in
      let end_ := offset + blen slice in
      if end_ <=? written then in_work r end_ written
      else if written <=? start then slice :: in_work r end_ written
      else skipn (N.to_nat (written - start)) slice :: in_work r end_ written
  end.

(** [Write::write_vectored]: like [write] on the concatenation (std's contract). *)
Definition sink_write_vectored (bufs : slices) (s : sink) : res N * sink := sink_write (concat bufs) s.

(** The loop, brec/src/traits/write/slices.rs:78-112. Every round but the last writes at least
    one byte, so the number of bytes is enough fuel. *)
Fixpoint write_vectored_go (fuel : nat) (source : slices) (written : N) (s : sink) : res unit * sink :=
  match fuel with
  | O => (Panic PFuel, s)
  | S f =>
      match in_work source 0 written with
      | [] => (Ok tt, s)
      | work =>
          do (n, s) <- sink_write_vectored work s;
          if n =? 0 then (Err (EIo WriteZero), s) else write_vectored_go f source (written + n) s
      end
  end.

(** [write_vectored_all], brec/src/traits/write/slices.rs:74-115. *)
Definition write_vectored_all (source : slices) (s : sink) : res unit * sink :=
  write_vectored_go (length (concat source) + 1) source 0 s.
