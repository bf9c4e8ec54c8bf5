(** * The streaming reader in a release build, where arithmetic wraps around instead of panicking.
    StreamReader.v describes builds with overflow checks; what both have in common is taken from there. *)
From Verif Require Import Base Crc32 Io Block Payload Packet Rules StreamReader Release.

Section ReleaseStream.
Context {U : Type}.

(** [self.inner.consume(n)] with a [usize] that is not known to be the length of something: std's [BufReader] sets its position to
    [min(pos + n, filled)].  (The sum wraps in std as well.  The wrapped numbers below reach it only right after [fill_buf] has
    read a new chunk, with [pos = 0]: [refill_drained] in ReleaseStreamProofs.v.) *)
Definition eat_usize (n : N) (r : preader U) : preader U :=
  let cur := b_cur (r_src r) in
  eat (if blen cur <=? n then length cur else N.to_nat n) r.

(** The two [Found] arms of [resolve_header_refill], brec/src/packet/reader.rs:207-214 and 223-230:
    [sgmt.end() - buffered] wraps. *)
Definition rel_refill_found (h : header) (from to : nat) (buf : bytes) (buffered : nat) (r : preader U) : res (next U) * preader U :=
  let r := note (0 <? from)%nat (firstn from buf) r in
  (Ok (NNotEnough 0), set_state (HReady h) (eat_usize (wsub (N.of_nat to) (N.of_nat buffered)) r)).

(** [resolve_header_refill], brec/src/packet/reader.rs:186-252. *)
Definition rel_resolve_refill (buf : bytes) (needed : nat) (r : preader U) : res (next U) * preader U :=
  do (extracted, r) <- pr_fill r;
  match extracted with
  | [] => (Ok NNoData, note true buf r)
  | _ :: _ =>
      let len := length extracted in
      if (len <? needed)%nat then
        (Ok (NNotEnough (N.of_nat (needed - len))), set_state (HRefill (buf ++ extracted) (needed - len)) (eat len r))
      else
        let buffered := length buf in
        do (f, r) <- (read_header (buf ++ firstn needed extracted), r);
        match f with
        | FFound h from to => rel_refill_found h from to (buf ++ firstn needed extracted) buffered r
        | _ =>
            let buf := buf ++ extracted in
            do (f, r) <- (read_header buf, r);
            match f with
            | FFound h from to => rel_refill_found h from to buf buffered r
            | FNotEnough from needed =>
                let r := note (0 <? from)%nat (firstn from buf) r in
                (Ok (NNotEnough (N.of_nat needed)), set_state (HRefill (skipn from buf) needed) (eat len r))
            | FNotFound =>
                let cut := (length buf - hdr_size)%nat in
                let r := note (hdr_size <? length buf)%nat (firstn cut buf) r in
                (Ok NNotFound, set_state (HRefill (skipn cut buf) hdr_size) (eat len r))
            end
        end
  end.

(** The [Empty] arm, brec/src/packet/reader.rs:291-355: [packet_size + *sgmt.end()] (line 339, and the same sum in lines 347 and 349)
    wraps; a slice that ends before it begins panics (line 349). *)
Definition rel_resolve_empty (P : proto U) (r : preader U) : res (next U) * preader U :=
  let r := set_buffered [] r in
  do (buf, r) <- pr_fill r;
  match buf with
  | [] => (Ok NNoData, r)
  | _ :: _ =>
      let available := length buf in
      if (available <? hdr_size)%nat then
        (Ok (NNotEnough (N.of_nat (hdr_size - available))),
         eat available (set_state (HRefill buf (hdr_size - available)) r))
      else
        do (f, r) <- (read_header buf, r);
        match f with
        | FNotFound =>
            let cut := (available - hdr_size)%nat in
            let r := note (hdr_size <? available)%nat (firstn cut buf) r in
            (Ok NNotFound, eat available (set_state (HRefill (skipn cut buf) hdr_size) r))
        | FNotEnough from needed =>
            let r := note (0 <? from)%nat (firstn from buf) r in
            (Ok (NNotEnough (N.of_nat needed)), eat available (set_state (HRefill (skipn from buf) needed) r))
        | FFound h from to =>
            let r := note (0 <? from)%nat (firstn from buf) r in
            let needs := wadd (h_size h) (N.of_nat to) in
            if blen buf <? needs then
              (Ok (NNotEnough (needs - blen buf)),
               set_state (HReady h) (eat available (set_buffered (skipn to buf) r)))
            else if needs <? N.of_nat to then (Panic PIndex, r)
            else finish P h (firstn (N.to_nat needs - to) (skipn to buf)) (Some (N.to_nat needs)) r
        end
  end.

(** [PacketBufReaderDef::read], brec/src/packet/reader.rs:281-446.  ([resolve_header_ready] has no sum that could wrap.) *)
Definition rel_pr_read (P : proto U) (r : preader U) : res (next U) * preader U :=
  let recent := r_state r in
  let r := set_state HEmpty r in
  match recent with
  | HReady h => resolve_ready P h r
  | HRefill buf needed => rel_resolve_refill buf needed r
  | HEmpty => rel_resolve_empty P r
  end.

(** Successive calls of [read]. *)
Fixpoint rel_pr_reads (P : proto U) (n : nat) (r : preader U) : list (res (next U)) * preader U :=
  match n with
  | O => ([], r)
  | S k => let (o, r) := rel_pr_read P r in let (os, r) := rel_pr_reads P k r in (o :: os, r)
  end.
End ReleaseStream.
