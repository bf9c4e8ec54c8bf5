(** * Vocabulary for readers that follow a storage while it is written (C90). *)
From Coq Require Import Sorted.
From Verif Require Import Base Io File Packet Slot Storage Spec SpecStorage.
Open Scope list_scope.

(** [data] with [bs] in place of what was at [off]. *)
Definition put (off : nat) (bs data : bytes) : bytes := firstn off data ++ bs ++ skipn (off + length bs) data.

(** The file of a storage of [es] when [m] bytes of the insert of a further packet [e] have arrived: first the 4020 bytes
    of the new table of the last slot (of a new slot when [es] fills its slots), then the bytes of the packet. *)
Definition during (es : list bytes) (e : bytes) (m : nat) : bytes :=
  let full := (500 * (length es / 500))%nat in
  put (packet_place es (length es)) (firstn (m - 4020) e)
    (put (packet_place es full - 4020) (firstn m (slot_table (map blen (skipn full es ++ [e])))) (storage_file es)).

(** A reader that reloads each time the file has become one of [datas]; what the calls give. *)
Fixpoint polls {U} (datas : list bytes) (r : sreader U) : list (res nat) * sreader U :=
  match datas with
  | [] => ([], r)
  | d :: datas => let (o, r) := d_reload (d_refresh d r) in let (os, r) := polls datas r in (o :: os, r)
  end.

(** The number of packets a call announced. *)
Definition told (o : res nat) : nat := match o with Ok n => n | _ => O end.
Definition told_all (os : list (res nat)) : nat := fold_right Nat.add O (map told os).

(** The moments of the insert at which a reload is safe: all of them when the packet is neither the first nor the last one
    of its slot; before the header of a new table is complete; before the checksum of a table that becomes full is
    touched; when the insert is complete. *)
Definition calm (es : list bytes) (e : bytes) (m : nat) : Prop :=
  ((length es mod 500 = 0 -> m < 16) /\ (length es mod 500 = 499 -> m <= 4016) \/ 4020 + length e <= m)%nat.
