(** * What the streaming reader does to a stream in a release build. *)
From Verif Require Import Base Packet.

(** [kept] is [D] without some pieces, each of which lies directly behind a valid packet header. *)
Inductive left_out : bytes -> bytes -> Prop :=
| lo_none D : left_out D D
| lo_more a hdr x b D h : length hdr = 29%nat -> hdr_read_from_slice hdr = Ok h ->
    left_out (a ++ hdr ++ x ++ b) D -> left_out (a ++ hdr ++ b) D.
