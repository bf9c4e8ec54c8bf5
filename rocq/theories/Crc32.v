(** * CRC-32/ISO-HDLC as computed by the crate crc32fast.

    Used through [crc32fast::Hasher] in
    brec/src/packet/header/mod.rs:158-164, brec/src/storage/slot/mod.rs:192-203,
    brec/src/traits/props/mod.rs:31-53, brec_macros/src/codegen/props/block.rs:33-64
    and brec_macros/src/entities/block/mod.rs:39-54.
    The crate's table/SIMD code is replaced by the bitwise definition of the same
    checksum (reflected polynomial 0xEDB88320, init and final xor 0xFFFFFFFF). *)
From Verif Require Import Base.

(** The reflected polynomial, 0xEDB88320 (crate crc32fast). *)
Definition poly : N := 3988292384. (* 0xEDB88320 *)

(** One bit. *)
Definition crc_step (s : N) : N :=
  if N.odd s then N.lxor (N.shiftr s 1) poly else N.shiftr s 1.

(** [k] bits. *)
Fixpoint crc_steps (k : nat) (s : N) : N :=
  match k with O => s | S k' => crc_steps k' (crc_step s) end.

(** One byte. *)
Definition crc_byte (s : N) (b : byte) : N := crc_steps 8 (N.lxor s (b2n b)).

(** [Hasher::update]. *)
Definition crc_update (s : N) (bs : bytes) : N := fold_left crc_byte bs s.

(** [Hasher::new], [update]*, [finalize]. *)
Definition crc32 (bs : bytes) : N := N.lxor (crc_update u32_max bs) u32_max.

(** [finalize().to_le_bytes()]. *)
Definition crc32_le (bs : bytes) : bytes := le 4 (crc32 bs).
