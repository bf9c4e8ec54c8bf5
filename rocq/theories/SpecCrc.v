(** * CRC-32 as standards define it (ISO 3309, ITU-T V.42, RFC 1952): a remainder of polynomials over GF(2).

    A polynomial is a number: bit [i] is the coefficient of [x^i]; [N.lxor] adds, [N.shiftl] multiplies by a power of [x]. *)
From Verif Require Import Base.
Open Scope list_scope.

(** x^32 + x^26 + x^23 + x^22 + x^16 + x^12 + x^11 + x^10 + x^8 + x^7 + x^5 + x^4 + x^2 + x + 1. *)
Definition generator : N := fold_left (fun a k => N.lxor a (N.shiftl 1 k)) [32; 26; 23; 22; 16; 12; 11; 10; 8; 7; 5; 4; 2; 1; 0] 0.

(** Product: the sum of [b * x^i] over the terms [x^i] of [a]. *)
Fixpoint poly_mul_pos (a : positive) (b : N) : N :=
  match a with
  | xH => b
  | xO a => N.double (poly_mul_pos a b)
  | xI a => N.lxor b (N.double (poly_mul_pos a b))
  end.
Definition poly_mul (a b : N) : N := match a with N0 => 0 | Npos a => poly_mul_pos a b end.

(** The polynomial with the given coefficients, highest power first. *)
Definition poly_of (bits : list bool) : N := fold_left (fun a (b : bool) => N.lxor (N.double a) (if b then 1 else 0)) bits 0.

(** Bits in the order of transmission: within a byte, and within the checksum, the lowest bit first. *)
Definition bits_of (n : nat) (v : N) : list bool := map (fun i => N.testbit v (N.of_nat i)) (seq 0 n).
Definition message_bits (bs : bytes) : list bool := concat (map (fun b => bits_of 8 (b2n b)) bs).

(** [r] is the remainder of [a] divided by [g]. *)
Definition poly_rem (a g r : N) : Prop := N.size r < N.size g /\ exists q, a = N.lxor (poly_mul q g) r.

(** [v] is the CRC-32 of [bs]: the first 32 bits of the message with 32 zeros behind it are inverted, that is all ones times [x^k]
    are added, [k] the length of the message in bits; the inverted remainder is the checksum. *)
Definition is_crc32 (bs : bytes) (v : N) : Prop :=
  v < 2 ^ 32 /\
  poly_rem (N.lxor (N.shiftl (poly_of (message_bits bs)) 32) (N.shiftl (2 ^ 32 - 1) (8 * blen bs))) generator (poly_of (map negb (bits_of 32 v))).
