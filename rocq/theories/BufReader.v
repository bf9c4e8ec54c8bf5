(** * [BufferedReader]. *)
From Verif Require Import Base Io.

(** [BufferedReader], brec/src/traits/read/reader.rs:58-64. [filled] only holds the result of the
    last [fill_buf] and is left out. *)
Record bufrd := mk_bufrd { f_inner : bufsrc; f_buffer : bytes; f_inner_len : nat; f_consumed : nat }.

(** [new], brec/src/traits/read/reader.rs:103-111. *)
Definition br_new (s : bufsrc) : bufrd := mk_bufrd s [] 0 0.

(** [Read::read] of the inner [BufReader]: at most [n] bytes of what [fill_buf] gives. *)
Definition buf_read (n : nat) (s : bufsrc) : res bytes * bufsrc :=
  do (b, s) <- fill_buf s; (Ok (firstn n b), consume (length (firstn n b)) s).

(** [buffer_len], [len], [is_empty], brec/src/traits/read/reader.rs:116-130. *)
Definition br_buffer_len (r : bufrd) : res nat * bufrd :=
  let (o, s) := fill_buf (f_inner r) in
  (let! b := o in Ok (length b), mk_bufrd s (f_buffer r) (f_inner_len r) (f_consumed r)).
Definition br_len (r : bufrd) : res nat * bufrd :=
  let (o, s) := fill_buf (f_inner r) in
  (let! b := o in Ok (length b + length (f_buffer r))%nat, mk_bufrd s (f_buffer r) (f_inner_len r) (f_consumed r)).
Definition br_is_empty (r : bufrd) : res bool * bufrd :=
  do (n, r) <- br_len r; (Ok (n =? 0)%nat, r).

(** [refill], brec/src/traits/read/reader.rs:145-149: replaces the preloaded bytes. *)
Definition br_refill (r : bufrd) : res unit * bufrd :=
  match fill_buf (f_inner r) with
  | (Ok b, s) => (Ok tt, mk_bufrd (consume (length b) s) b (f_inner_len r) (f_consumed r))
  | (Err e, s) => (Err e, mk_bufrd s (f_buffer r) (f_inner_len r) (f_consumed r))
  | (Panic w, s) => (Panic w, mk_bufrd s (f_buffer r) (f_inner_len r) (f_consumed r))
  end.

(** [Read::read], brec/src/traits/read/reader.rs:165-182: gives the bytes written to the buffer
    of length [n]. When the inner read fails the preloaded bytes are already drained. *)
Definition br_read (n : nat) (r : bufrd) : res bytes * bufrd :=
  match n with
  | O => (Ok [], r)
  | _ =>
      let to_copy := Nat.min (length (f_buffer r)) n in
      let first := firstn to_copy (f_buffer r) in
      let rest := skipn to_copy (f_buffer r) in
      if (to_copy <? n)%nat then
        match buf_read (n - to_copy) (f_inner r) with
        | (Ok more, s) =>
            (Ok (first ++ more), mk_bufrd s rest (f_inner_len r) (f_consumed r + length (first ++ more)))
        | (Err e, s) => (Err e, mk_bufrd s rest (f_inner_len r) (f_consumed r))
        | (Panic w, s) => (Panic w, mk_bufrd s rest (f_inner_len r) (f_consumed r))
        end
      else (Ok first, mk_bufrd (f_inner r) rest (f_inner_len r) (f_consumed r + length first))
  end.

(** [BufRead::fill_buf], brec/src/traits/read/reader.rs:193-204. *)
Definition br_fill_buf (r : bufrd) : res bytes * bufrd :=
  match fill_buf (f_inner r) with
  | (Ok b, s) =>
      match f_buffer r with
      | [] => (Ok b, mk_bufrd s [] (f_inner_len r) (f_consumed r))
      | _ => (Ok (f_buffer r ++ b), mk_bufrd s (f_buffer r) (length b) (f_consumed r))
      end
  | (Err e, s) => (Err e, mk_bufrd s (f_buffer r) (f_inner_len r) (f_consumed r))
  | (Panic w, s) => (Panic w, mk_bufrd s (f_buffer r) (f_inner_len r) (f_consumed r))
  end.

(** [BufRead::consume], brec/src/traits/read/reader.rs:212-240. *)
Definition br_consume (amt : nat) (r : bufrd) : bufrd :=
  match f_buffer r with
  | [] => mk_bufrd (consume amt (f_inner r)) [] (f_inner_len r) (f_consumed r + amt)
  | buffer =>
      let buf_len := length buffer in
      if (amt <=? buf_len)%nat then mk_bufrd (f_inner r) (skipn amt buffer) (f_inner_len r) (f_consumed r + amt)
      else
        let amt := (amt - buf_len)%nat in
        if (amt <=? f_inner_len r)%nat
        then mk_bufrd (consume amt (f_inner r)) [] (f_inner_len r - amt) (f_consumed r + amt)
        else
          let leftover := (amt - f_inner_len r)%nat in
          mk_bufrd (consume leftover (f_inner r)) [] 0 (f_consumed r + leftover)
  end.
