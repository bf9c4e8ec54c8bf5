(** * Sources and sinks: the std::io contracts the code relies on. *)
From Verif Require Import Base.

(** ** [std::io::Read], through [read_exact] only (that is all the code calls on
    plain readers).  A reader over some state [S]. *)
Record reader (S : Type) := mk_reader { rd_exact : N -> S -> res bytes * S }.
Arguments rd_exact {S}.

(** *** A plain byte stream: the state is what is still unread.
    [Read::read_exact]: all or [UnexpectedEof]; on error the contents and the
    position are unspecified by std, here the rest is swallowed
    (what [Cursor]/[File] do). *)
Definition stream := bytes.
Definition stream_read_exact (n : N) (s : stream) : res bytes * stream :=
  if n <=? blen s then (Ok (firstn (N.to_nat n) s), skipn (N.to_nat n) s)
  else (Err (EIo UnexpectedEof), []).
Definition stream_reader : reader stream := mk_reader _ stream_read_exact.

(** *** A seekable source: [std::io::Cursor]/[File]. *)
Record cursor := mk_cursor { c_data : bytes; c_pos : N }.

(** Bytes from the position to the end (none when the position is past the end). *)
Definition c_rest (c : cursor) : bytes :=
  if c_pos c <=? blen (c_data c) then skipn (N.to_nat (c_pos c)) (c_data c) else [].
Definition c_len (c : cursor) : N := blen (c_data c).
(** [seek(SeekFrom::Start(p))]; seeking past the end is allowed.  So it is for [std::io::Cursor]; a file of the operating
    system refuses positions of 2^63 and above with an error, which is not modelled. *)
Definition c_seek (p : N) (c : cursor) : cursor := mk_cursor (c_data c) p.
Definition cursor_read_exact (n : N) (c : cursor) : res bytes * cursor :=
  if n <=? blen (c_rest c)
  then (Ok (firstn (N.to_nat n) (c_rest c)), c_seek (c_pos c + n) c)
  else (Err (EIo UnexpectedEof), c_seek (N.max (c_pos c) (c_len c)) c).
Definition cursor_reader : reader cursor := mk_reader _ cursor_read_exact.

(** The recurring idiom
    [let start = buf.stream_position()?; let len = buf.seek(End(0))? - start; buf.seek(Start(start))?]
    (e.g. brec_macros/src/codegen/read/block.rs:143-146): number of bytes after
    the position; subtraction overflow when the position is past the end. *)
Definition c_available (c : cursor) : res N :=
  if c_pos c <=? c_len c then Ok (c_len c - c_pos c) else Panic POverflow.

(** ** [std::io::BufRead]: [std::io::BufReader] over a source that answers each
    system read with the next event: some bytes ([Chunk []] is an end of file
    seen at that moment) or an error.  An exhausted list is a permanent end of
    file.  Chunk sizes are the adversary's choice. *)
Inductive event := Chunk (bs : bytes) | Fail (k : iokind).
Record bufsrc := mk_bufsrc { b_cur : bytes; b_evs : list event }.

(** [BufReader::fill_buf]: reads only when the internal buffer is exhausted. *)
Definition fill_buf (s : bufsrc) : res bytes * bufsrc :=
  match b_cur s with
  | _ :: _ => (Ok (b_cur s), s)
  | [] =>
      match b_evs s with
      | [] => (Ok [], s)
      | Chunk bs :: r => (Ok bs, mk_bufsrc bs r)
      | Fail k :: r => (Err (EIo k), mk_bufsrc [] r)
      end
  end.

(** [BufReader::consume]: never goes past the buffered bytes. *)
Definition consume (n : nat) (s : bufsrc) : bufsrc := mk_bufsrc (skipn n (b_cur s)) (b_evs s).

(** [read_exact] over a BufReader: drains the internal buffer and keeps reading,
    retrying on [Interrupted] ([default_read_exact]). *)
Fixpoint buf_read_exact_go (evs : list event) (cur : bytes) (n : N) (acc : bytes)
  : res bytes * bufsrc :=
  if n <=? blen cur
  then (Ok (acc ++ firstn (N.to_nat n) cur), mk_bufsrc (skipn (N.to_nat n) cur) evs)
  else
    match evs with
    | [] => (Err (EIo UnexpectedEof), mk_bufsrc [] [])
    | Chunk [] :: r => (Err (EIo UnexpectedEof), mk_bufsrc [] r)
    | Chunk (b :: bs) :: r => buf_read_exact_go r (b :: bs) (n - blen cur) (acc ++ cur)
    | Fail Interrupted :: r => buf_read_exact_go r [] (n - blen cur) (acc ++ cur)
    | Fail k :: r => (Err (EIo k), mk_bufsrc [] r)
    end.
Definition buf_read_exact (n : N) (s : bufsrc) : res bytes * bufsrc :=
  buf_read_exact_go (b_evs s) (b_cur s) n [].
Definition buf_reader : reader bufsrc := mk_reader _ buf_read_exact.

(** [&[u8]] or [Cursor<Vec<u8>>] used as a BufRead: everything in one buffer. *)
Definition of_slice (bs : bytes) : bufsrc := mk_bufsrc bs [].

(** ** Sinks.  [std::io::Write::write] answers with the next element of a schedule:
    how many bytes it accepts at most, or an error.  An exhausted schedule accepts
    everything. *)
Inductive answer := Accept (n : N) | WFail (k : iokind).
Record sink := mk_sink { k_got : bytes; k_sched : list answer }.

(** [Write::write] of such a sink. *)
Definition sink_write (bs : bytes) (s : sink) : res N * sink :=
  match k_sched s with
  | [] => (Ok (blen bs), mk_sink (k_got s ++ bs) [])
  | Accept n :: r =>
      let n := N.min n (blen bs) in
      (Ok n, mk_sink (k_got s ++ firstn (N.to_nat n) bs) r)
  | WFail k :: r => (Err (EIo k), mk_sink (k_got s) r)
  end.

(** [Write::write_all] (std): loops, retries [Interrupted], [WriteZero] on 0. *)
Fixpoint sink_write_all_go (sched : list answer) (bs : bytes) (got : bytes) : res unit * sink :=
  match bs with
  | [] => (Ok tt, mk_sink got sched)
  | _ :: _ =>
      match sched with
      | [] => (Ok tt, mk_sink (got ++ bs) [])
      | Accept n :: r =>
          let n := N.to_nat (N.min n (blen bs)) in
          match n with
          | O => (Err (EIo WriteZero), mk_sink got r)
          | _ => sink_write_all_go r (skipn n bs) (got ++ firstn n bs)
          end
      | WFail Interrupted :: r => sink_write_all_go r bs got
      | WFail k :: r => (Err (EIo k), mk_sink got r)
      end
  end.
Definition sink_write_all (bs : bytes) (s : sink) : res unit * sink :=
  sink_write_all_go (k_sched s) bs (k_got s).
