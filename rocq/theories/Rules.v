(** * Rules and filtered reading. *)
From Verif Require Import Base Crc32 Io Block Payload Packet.

Section Rules.
Context {U : Type}.

(** [RuleDef], brec/src/packet/rules.rs:49-65.  Callbacks of the three filters are
    pure predicates (the code stores them as [Fn], static or boxed: the two
    variants of [RuleFnDef] are called in the same way); the [Ignored] callback is
    an effect, recorded in a log under the callback's tag. *)
Inductive rule :=
| RIgnored (tag : N)
| RFilterByBlocks (f : list block -> bool)
| RFilterByPayload (f : bytes -> bool)
| RFilter (f : packet U -> bool).

(** [RuleDefId], generated by enum_ids. *)
Inductive rule_id := IdIgnored | IdFilterByBlocks | IdFilterByPayload | IdFilter.
Definition id_of (r : rule) : rule_id :=
  match r with
  | RIgnored _ => IdIgnored
  | RFilterByBlocks _ => IdFilterByBlocks
  | RFilterByPayload _ => IdFilterByPayload
  | RFilter _ => IdFilter
  end.
Definition id_eqb (a b : rule_id) : bool :=
  match a, b with
  | IdIgnored, IdIgnored | IdFilterByBlocks, IdFilterByBlocks
  | IdFilterByPayload, IdFilterByPayload | IdFilter, IdFilter => true
  | _, _ => false
  end.

(** [RulesDef], brec/src/packet/rules.rs:72-79. *)
Definition rules := list rule.

(** [add_rule], brec/src/packet/rules.rs:96-129. *)
Definition add_rule (r : rule) (rs : rules) : res unit * rules :=
  match r with
  | RFilterByBlocks _ =>
      if existsb (fun x => match x with RFilterByBlocks _ => true | _ => false end) rs
      then (Err ERuleDuplicate, rs) else (Ok tt, rs ++ [r])
  | RFilterByPayload _ =>
      if existsb (fun x => match x with RFilterByPayload _ => true | _ => false end) rs
      then (Err ERuleDuplicate, rs) else (Ok tt, rs ++ [r])
  | RFilter _ =>
      if existsb (fun x => match x with RFilter _ => true | _ => false end) rs
      then (Err ERuleDuplicate, rs) else (Ok tt, rs ++ [r])
  | RIgnored _ =>
      if existsb (fun x => match x with RIgnored _ => true | _ => false end) rs
      then (Err ERuleDuplicate, rs) else (Ok tt, rs ++ [r])
  end.

(** [remove_rule], brec/src/packet/rules.rs:132-135. *)
Definition remove_rule (i : rule_id) (rs : rules) : rules :=
  filter (fun r => negb (id_eqb (id_of r) i)) rs.

(** What the [Ignored] callbacks were called with, oldest first. *)
Definition log := list (N * bytes).

(** [ignore], brec/src/packet/rules.rs:138-149. *)
Fixpoint ignore (rs : rules) (buf : bytes) (l : log) : log :=
  match rs with
  | [] => l
  | RIgnored tag :: r => ignore r buf (l ++ [(tag, buf)])
  | _ :: r => ignore r buf l
  end.

(** [filter_by_blocks], brec/src/packet/rules.rs:152-166. *)
Fixpoint filter_by_blocks (rs : rules) (bs : list block) : bool :=
  match rs with
  | [] => true
  | RFilterByBlocks f :: _ => f bs
  | _ :: r => filter_by_blocks r bs
  end.

(** [filter_by_payload], brec/src/packet/rules.rs:169-183. *)
Fixpoint filter_by_payload (rs : rules) (buf : bytes) : bool :=
  match rs with
  | [] => true
  | RFilterByPayload f :: _ => f buf
  | _ :: r => filter_by_payload r buf
  end.

(** [filter], brec/src/packet/rules.rs:186-200. *)
Fixpoint filter_packet (rs : rules) (p : packet U) : bool :=
  match rs with
  | [] => true
  | RFilter f :: _ => f p
  | _ :: r => filter_packet r p
  end.

(** [LookInStatus], brec/src/packet/mod.rs:56-65. *)
Inductive look :=
| Accepted (n : N) (p : packet U)
| Denied (n : N).

(** The block loop of [filtered], brec/src/packet/mod.rs:132-142. Every block takes at
    least 8 bytes, so the length of the buffer is enough fuel. *)
Fixpoint blocks_loop_slice (fuel : nat) (scs : list schema) (buf : bytes) (blocks_len read : nat)
         (acc : list block) : res (list block) :=
  match fuel with
  | O => Panic PFuel
  | S f =>
      let! blk := bk_read_from_slice scs (skipn read buf) false in
      let read := (read + N.to_nat (bk_size blk))%nat in
      let acc := acc ++ [blk] in
      if (read =? blocks_len)%nat then Ok acc
      else blocks_loop_slice f scs buf blocks_len read acc
  end.

(** [PacketDef::filtered], brec/src/packet/mod.rs:117-188. A [blocks_len] that does not
    fit in the buffer makes the loop end with an error before it is used as an index,
    so the comparison is done in [N] to keep huge values out of [nat]. *)
Definition filtered {S} (R : reader S) (P : proto U) (rs : rules) (s : S) : res look * S :=
  do (h, s) <- hdr_read R s;
  do (_, s) <- (alloc (h_size h), s);
  do (buf, s) <- rd_exact R (h_size h) s;
  do (blocks, s) <-
    ((if 0 <? h_blocks_len h
      then blocks_loop_slice (length buf + 1) (pr_blocks P) buf
             (N.to_nat (N.min (h_blocks_len h) (blen buf + 1))) 0 []
      else Ok []), s);
  if negb (filter_by_blocks rs blocks) then (Ok (Denied (h_size h)), s) else
  do (r, s) <-
    ((if h_payload h then
        let at_payload := skipn (N.to_nat (h_blocks_len h)) buf in
        let! r := ph_peek at_payload in
        match r with
        | NotEnough n => Err (ENotEnoughData n)
        | Success ph =>
            let body := skipn (N.to_nat (h_blocks_len h) + ph_size ph) buf in
            if negb (filter_by_payload rs body) then Ok None else
            let! r := fst (pl_try_read_buf (pr_kinds P) ph (of_slice body)) in
            match r with
            | NotEnough n => Err (ENotEnoughData n)
            | Success pl => Ok (Some (mk_packet blocks (Some pl)))
            end
        end
      else Ok (Some (mk_packet blocks None))), s);
  match r with
  | None => (Ok (Denied (h_size h)), s)
  | Some p => if filter_packet rs p then (Ok (Accepted (h_size h) p), s) else (Ok (Denied (h_size h)), s)
  end.
End Rules.
Arguments rule : clear implicits.
Arguments rules : clear implicits.
Arguments look : clear implicits.
