(** * What the streaming reader has to say about the bytes of one packet, as a statement about bytes. *)
From Verif Require Import Base Crc32 Io Block Payload Packet Rules StreamReader Spec.
Open Scope list_scope.

(** The bytes that a slice reader takes for a value: a bool is true only as the byte 1; otherwise as in [value_bytes]. *)
Definition value_seen (t : fty) (v : fval) (raw : bytes) : Prop :=
  fval_ok t v /\
  match t, v with
  | TBool, VBool b => exists x, raw = [x] /\ (b = true <-> x = n2b 1)
  | TLinked l, VEnum e => exists x, raw = [x] /\ l_of l x = Some e
  | _, _ => raw = field_layout t v
  end.
(** One value after the other. *)
Inductive values_seen : list fty -> list fval -> bytes -> Prop :=
| vs_nil : values_seen [] [] []
| vs_cons t v raw ts vs rest : value_seen t v raw -> values_seen ts vs rest -> values_seen (t :: ts) (v :: vs) (raw ++ rest).
(** The bytes that a slice reader takes for a block. *)
Definition block_seen (b : block) (e : bytes) : Prop :=
  let fields := concat (map (fun tv => field_layout (fst tv) (snd tv)) (combine (map snd (s_fields (bk_ty b))) (bk_vals b))) in
  exists raw, values_seen (map snd (s_fields (bk_ty b))) (bk_vals b) raw /\
    e = crc32_le (signature_text (bk_ty b)) ++ raw
        ++ (if s_no_crc (bk_ty b) then [n2b 0; n2b 0; n2b 0; n2b 0] else crc32_le fields).

Section Judge.
Context {U : Type}.

(** [raw] is made of the blocks [bs] of the protocol. *)
Definition blocks_seen (P : proto U) (bs : list block) (raw : bytes) : Prop :=
  exists raws, Forall2 block_seen bs raws /\ Forall (fun b => In (bk_ty b) (pr_blocks P)) bs /\ raw = concat raws.
(** No block of the protocol is at the beginning of [x]. *)
Definition no_block (P : proto U) (x : bytes) : Prop :=
  forall b e rest, x = e ++ rest -> In (bk_ty b) (pr_blocks P) -> ~ block_seen b e.

(** What the rules say. *)
Definition lets_blocks (rs : rules U) (bs : list block) : Prop := forall f, In (RFilterByBlocks f) rs -> f bs = true.
Definition lets_payload (rs : rules U) (body : bytes) : Prop := forall f, In (RFilterByPayload f) rs -> f body = true.
Definition lets_packet (rs : rules U) (p : packet U) : Prop := forall f, In (RFilter f) rs -> f p = true.

(** [x] begins with a payload header, and [body] are the bytes after it. *)
Definition payload_header_seen (x body : bytes) : Prop :=
  exists sig crc len, In (blen sig) capacities /\ In (blen crc) capacities /\ len <= u32_max /\
    x = payload_header_layout sig crc len ++ body.

(** All of a packet was read. *)
Inductive judged_found (rs : rules U) (p : packet U) : res (next U) -> Prop :=
| judged_yes : lets_packet rs p -> judged_found rs p (Ok (NFound p))
| judged_no : ~ lets_packet rs p -> judged_found rs p (Ok NSkipped).

(** The blocks [bs] of a packet were read, [tail] follows them; [flag]: a payload was announced. *)
Inductive judged_rest (P : proto U) (rs : rules U) (bs : list block) (tail : bytes) : bool -> res (next U) -> fate -> Prop :=
| judged_blocks_filtered flag : ~ lets_blocks rs bs -> judged_rest P rs bs tail flag (Ok NSkipped) Drop
| judged_bare o : lets_blocks rs bs -> judged_found rs (mk_packet bs None) o -> judged_rest P rs bs tail false o Drop
| judged_no_header e : lets_blocks rs bs -> (forall body, ~ payload_header_seen tail body) ->
    judged_rest P rs bs tail true (Err e) Drop
| judged_payload_filtered body : lets_blocks rs bs -> payload_header_seen tail body -> ~ lets_payload rs body ->
    judged_rest P rs bs tail true (Ok NSkipped) Drop
| judged_no_payload body e : lets_blocks rs bs -> payload_header_seen tail body -> lets_payload rs body ->
    (forall pl part rest, tail = part ++ rest -> ~ payload_taken (pr_kinds P) pl part) ->
    judged_rest P rs bs tail true (Err e) Leave
| judged_payload body pl part rest o : lets_blocks rs bs -> payload_header_seen tail body -> lets_payload rs body ->
    tail = part ++ rest -> payload_taken (pr_kinds P) pl part -> judged_found rs (mk_packet bs (Some pl)) o ->
    judged_rest P rs bs tail true o Drop.

(** The report about a packet whose header announces [bl] bytes of blocks and, with [flag], a payload, and has [body] after
    it, and what becomes of the bytes: [Drop], they are gone with the report; otherwise they stay in a buffer that has them all.
    What an error says is left open, but for too many blocks. *)
Inductive judged (P : proto U) (rs : rules U) (bl : N) (flag : bool) (body : bytes) : res (next U) -> fate -> Prop :=
| judged_outside : blen body < bl -> judged P rs bl flag body (Panic PIndex) Leave
| judged_bad_block bs raw x tail e :
    body = raw ++ x ++ tail -> blen (raw ++ x) = bl -> x <> [] -> blocks_seen P bs raw -> (length bs < 255)%nat -> no_block P x ->
    judged P rs bl flag body (Err e) Drop
| judged_many bs raw x tail :
    body = raw ++ x ++ tail -> blen (raw ++ x) = bl -> x <> [] -> blocks_seen P bs raw -> length bs = 255%nat ->
    judged P rs bl flag body (Err EMaxBlocksCount) ClearOnly
| judged_blocks bs raw tail o d :
    body = raw ++ tail -> blen raw = bl -> blocks_seen P bs raw -> (length bs <= 255)%nat -> judged_rest P rs bs tail flag o d ->
    judged P rs bl flag body o d.

(** The bytes of a packet with such a header. *)
Definition frame : Type := (N * bool * bytes)%type.
Definition framed (x : frame) : bytes := let '(bl, flag, body) := x in layout_header (blen body) bl flag ++ body.
Definition frame_ok (x : frame) : Prop := let '(bl, _, body) := x in bl < two64 /\ blen body < two63.
Definition judged_frame (P : proto U) (rs : rules U) (x : frame) (o : res (next U)) (f : fate) : Prop :=
  let '(bl, flag, body) := x in judged P rs bl flag body o f.
End Judge.

(** [j] bytes of the packet [e] have been taken, and the reader says that [n] are missing: of the header, as long as it is not
    complete; then of the packet, or nothing just when the header has become complete. *)
Definition missing (e : bytes) (j : nat) (n : N) : Prop :=
  (0 < j <= length e)%nat /\
  ((j < 29)%nat /\ N.of_nat j + n = 29 \/ (29 <= j)%nat /\ N.of_nat j + n = N.of_nat (length e) \/ j = 29%nat /\ n = 0).
