(** * Base: bytes, integers, results.

    Shared vocabulary of the model.  No proofs here. *)
From Coq Require Export List NArith ZArith Lia Bool.
From Coq Require Import Strings.Byte.
From Coq Require Strings.String.
Export ListNotations.
Open Scope N_scope.

(** A byte is Coq's [byte] (256 constructors), so every [list byte] is a legal
    Rust [Vec<u8>]/[&[u8]]: no side condition "< 256" is ever needed. *)
Notation byte := Coq.Init.Byte.byte.
Notation bytes := (list byte).

(** [u8 as u64] and [u64 as u8] (truncating). *)
Definition b2n (b : byte) : N := Byte.to_N b.
Definition n2b (n : N) : byte :=
  match Byte.of_N (n mod 256) with Some b => b | None => Byte.x00 end.

(** [xN::to_le_bytes]: [k] little-endian bytes of [n]
    (used everywhere in /repo, e.g. brec/src/packet/header/write.rs:16-27).
    Rust's integers are already in range; here the value is truncated. *)
Fixpoint le (k : nat) (n : N) : bytes :=
  match k with
  | O => []
  | S k' => n2b n :: le k' (n / 256)
  end.

(** [xN::from_le_bytes]. *)
Fixpoint unle (bs : bytes) : N :=
  match bs with
  | [] => 0
  | b :: r => b2n b + 256 * unle r
  end.

(** [len() as u64] of a slice or vector, e.g. brec/src/payload/header/mod.rs. *)
Definition blen (bs : bytes) : N := N.of_nat (length bs).

(** [&s[from..to]] for positions already known to be in range. *)
Definition slice (bs : bytes) (from len : nat) : bytes := firstn len (skipn from bs).

(** [==] on [u8] and on byte slices, e.g. the signature comparison brec/src/packet/header/read.rs:24. *)
Definition byte_eqb (a b : byte) : bool := N.eqb (b2n a) (b2n b).

(** The same for slices. *)
Fixpoint bytes_eqb (a b : bytes) : bool :=
  match a, b with
  | [], [] => true
  | x :: a', y :: b' => byte_eqb x y && bytes_eqb a' b'
  | _, _ => false
  end.

(** [slice::starts_with]. *)
Fixpoint starts_with (pre bs : bytes) : bool :=
  match pre, bs with
  | [], _ => true
  | x :: p, y :: q => byte_eqb x y && starts_with p q
  | _ :: _, [] => false
  end.

(** [u32::MAX] and the sizes of the integer types used in checks: 2^32 ([u32] lengths, brec/src/payload/header/mod.rs), 2^63 (the largest
    allocation, [isize::MAX] + 1) and 2^64 (sums of [u64]). *)
Definition u32_max : N := 4294967295.
Definition two32 : N := 4294967296.
Definition two63 : N := 9223372036854775808.
Definition two64 : N := 18446744073709551616.

(** Kinds of [std::io::Error] the code distinguishes or can meet. *)
Inductive iokind := UnexpectedEof | WriteZero | Interrupted | WouldBlock | InvalidInput | OtherIo.

(** brec/src/error.rs:3-74, the variants reachable from the modelled code;
    strings carried by the variants are dropped. *)
Inductive err :=
| ENotEnoughData (n : N)
| ENotEnoughtSignatureData (len req : N)
| EInvalidCapacity (n : N)
| ESignatureDismatch
| ECrcDismatch
| ERuleDuplicate
| EMaxBlocksCount
| EFailedConverting
| EIo (k : iokind)
| EFailExtractByteBlock
| EFailToReadPayloadHeader
| EEncode
| EInvalidPacketReaderLogic
| ECannotFindFreeSlot
| ECannotFindFreePlaceInSlot
| ECannotInsertIntoSlot
| EDamagedSlot (e : err)
| EOutOfBounds (len req : N)
| EPathIsNotFile
| EFileIsLocked
| ETimeoutToWaitLockedFile
| EFailToLockFile (k : iokind)
| EAccessSlot (n : N)
| EEmptySource
| EZeroLengthBlock.

(** Why a thread panics. *)
Inductive why :=
| PIndex      (* slice index out of range *)
| POverflow   (* arithmetic overflow; a panic in debug builds, a wrap in release builds *)
| PCapacity   (* Vec capacity overflow *)
| PUnwrap     (* unwrap of Err/None *)
| PFuel       (* artefact of the model: a loop ran out of fuel; shown unreachable where it occurs *).

(** [Result<A, Error>], with panics as a third outcome. *)
Inductive res (A : Type) :=
| Ok (a : A)
| Err (e : err)
| Panic (w : why).
Arguments Ok {A}. Arguments Err {A}. Arguments Panic {A}.

(** The [?] operator. *)
Definition rbind {A B} (m : res A) (k : A -> res B) : res B :=
  match m with Ok a => k a | Err e => Err e | Panic w => Panic w end.

(** The [?] operator threaded through a state [S] (the source or sink). *)
Definition sbind {S A B} (m : res A * S) (k : A -> S -> res B * S) : res B * S :=
  match m with
  | (Ok a, s) => k a s
  | (Err e, s) => (Err e, s)
  | (Panic w, s) => (Panic w, s)
  end.

Notation "'let!' x := m 'in' k" := (rbind m (fun x => k))
  (at level 200, x pattern, m at level 100, k at level 200).
Notation "'do' ( x , s ) <- m ; k" := (sbind m (fun x s => k))
  (at level 200, x pattern, s pattern, m at level 100, k at level 200).

(** brec/src/traits/read/mod.rs: [ReadStatus]. *)
Inductive status (A : Type) :=
| Success (a : A)
| NotEnough (n : N).
Arguments Success {A}. Arguments NotEnough {A}.

(** ASCII text as bytes. *)
Definition str (s : String.string) : bytes := String.list_byte_of_string s.
Export String.StringSyntax.
Delimit Scope string_scope with string.
Arguments str s%string.
