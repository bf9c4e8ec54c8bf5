(** * Files: a seekable source that can be written to and whose writes can fail. *)
From Verif Require Import Base Io.

(** Bytes [bs] written at position [pos]; a write past the end leaves a hole of zeros ([File], [Cursor<Vec<u8>>]). *)
Definition overwrite (pos : N) (bs data : bytes) : bytes :=
  let p := N.to_nat pos in
  match bs with
  | [] => data
  | _ => firstn p data ++ repeat (n2b 0) (p - length data) ++ bs ++ skipn (p + length bs) data
  end.

(** The content and position, the answers of the system to the next writes and to the next flushes
    (no more answers: everything is accepted). *)
Record file := mk_file { fl_cur : cursor; fl_sched : list answer; fl_flushes : list (option iokind) }.
Definition fl_data (f : file) : bytes := c_data (fl_cur f).

(** A file that works, with the position at its start. *)
Definition healthy (data : bytes) : file := mk_file (mk_cursor data 0) [] [].

(** One [write] of [bs] at the position. *)
Definition c_write (bs : bytes) (c : cursor) : cursor := mk_cursor (overwrite (c_pos c) bs (c_data c)) (c_pos c + blen bs).

(** [Write::write_all] (std): loops, retries [Interrupted], [WriteZero] on 0. *)
Fixpoint file_write_all_go (sched : list answer) (bs : bytes) (c : cursor) : res unit * (cursor * list answer) :=
  match bs with
  | [] => (Ok tt, (c, sched))
  | _ :: _ =>
      match sched with
      | [] => (Ok tt, (c_write bs c, []))
      | Accept n :: r =>
          let n := N.to_nat (N.min n (blen bs)) in
          match n with
          | O => (Err (EIo WriteZero), (c, r))
          | _ => file_write_all_go r (skipn n bs) (c_write (firstn n bs) c)
          end
      | WFail Interrupted :: r => file_write_all_go r bs c
      | WFail k :: r => (Err (EIo k), (c, r))
      end
  end.
Definition file_write_all (bs : bytes) (f : file) : res unit * file :=
  let '(o, (c, sched)) := file_write_all_go (fl_sched f) bs (fl_cur f) in (o, mk_file c sched (fl_flushes f)).

(** [Seek::seek(SeekFrom::Start(p))]. *)
Definition file_seek (p : N) (f : file) : file := mk_file (c_seek p (fl_cur f)) (fl_sched f) (fl_flushes f).

(** [Write::flush]. *)
Definition file_flush (f : file) : res unit * file :=
  match fl_flushes f with
  | [] => (Ok tt, f)
  | a :: r => (match a with None => Ok tt | Some k => Err (EIo k) end, mk_file (fl_cur f) (fl_sched f) r)
  end.
