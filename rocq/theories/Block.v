(** * Blocks: the code generated by #[block] and by brec::generate!() for blocks. *)
From Coq Require Import DecimalString.
From Verif Require Import Base Crc32 Io.

(** ** Schemas *)

(** Integer and float widths, brec_macros/src/entities/ty/mod.rs:7-23. *)
Inductive iw := W8 | W16 | W32 | W64 | W128.
Inductive fw := F32 | F64.

(** A user enum linked to u8 ([#[link_with(Enum)]]): the user supplies
    [From<&Enum> for u8] and [TryFrom<u8> for Enum]; variants are numbered. *)
Record linked := mk_linked { l_name : bytes; l_to : N -> byte; l_of : byte -> option N }.

(** [Ty], brec_macros/src/entities/ty/mod.rs:7-23. *)
Inductive fty :=
| TU (w : iw)
| TI (w : iw)
| TF (w : fw)
| TBool
| TBlob (n : nat)
| TLinked (l : linked).

(** Sizes of the numeric types, brec_macros/src/entities/ty/mod.rs:26-44. *)
Definition iw_size (w : iw) : nat :=
  match w with W8 => 1 | W16 => 2 | W32 => 4 | W64 => 8 | W128 => 16 end%nat.
Definition fw_size (w : fw) : nat := match w with F32 => 4 | F64 => 8 end%nat.

(** [Ty::size], brec_macros/src/entities/ty/mod.rs:26-44. *)
Definition ty_size (t : fty) : nat :=
  match t with
  | TU w | TI w => iw_size w
  | TF w => fw_size w
  | TBool => 1
  | TBlob n => n
  | TLinked _ => 1
  end%nat.

(** [{}] of a length, used by [Display for Ty], brec_macros/src/entities/ty/mod.rs:47-80. *)
Definition dec (n : nat) : bytes := str (NilEmpty.string_of_uint (Nat.to_uint n)).

(** The number in the name of an integer type, brec_macros/src/entities/ty/mod.rs:47-80. *)
Definition iw_bits (w : iw) : bytes :=
  match w with W8 => str "8" | W16 => str "16" | W32 => str "32" | W64 => str "64" | W128 => str "128" end.

(** [impl Display for Ty], brec_macros/src/entities/ty/mod.rs:47-80. *)
Definition ty_name (t : fty) : bytes :=
  match t with
  | TU w => (str "u" ++ iw_bits w)%list
  | TI w => (str "i" ++ iw_bits w)%list
  | TF F32 => str "f32"
  | TF F64 => str "f64"
  | TBool => str "bool"
  | TBlob n => (str "[u8;" ++ dec n ++ str "]")%list
  | TLinked l => l_name l
  end.

(** A block definition: module path, struct name, user fields in order, and the
    [no_crc] attribute.  (brec_macros/src/entities/block/mod.rs:15-22; the
    injected fields [__sig] and [__crc] of
    brec_macros/src/parsing/block/mod.rs:36-37 are made explicit where used.) *)
Record schema := mk_schema {
  s_path : bytes;
  s_name : bytes;
  s_fields : list (bytes * fty);
  s_no_crc : bool
}.

(** The types of the declared fields, brec_macros/src/entities/block/mod.rs:15-21. *)
Definition s_tys (sc : schema) : list fty := map snd (s_fields sc).

(** Fields including the injected ones, brec_macros/src/parsing/block/mod.rs:36-37. *)
Definition all_fields (sc : schema) : list (bytes * fty) :=
  ((str "__sig", TBlob 4) :: s_fields sc ++ [(str "__crc", TBlob 4)])%list.

(** [join], used in brec_macros/src/entities/block/mod.rs:49. *)
Fixpoint join (sep : bytes) (l : list bytes) : bytes :=
  match l with
  | [] => []
  | [x] => x
  | x :: r => (x ++ sep ++ join sep r)%list
  end.

(** [Block::sig], brec_macros/src/entities/block/mod.rs:39-54: CRC32 of
    "name;field:ty;...", the path is not part of it. *)
Definition snapshot (sc : schema) : bytes :=
  (s_name sc ++ str ";"
   ++ join (str ";") (map (fun f => (fst f ++ str ":" ++ ty_name (snd f))%list) (all_fields sc)))%list.
Definition blk_sig (sc : schema) : bytes := crc32_le (snapshot sc).

(** The sum of the sizes of fields, brec_macros/src/codegen/props/block.rs:67-87. *)
Definition sum_sizes (ts : list fty) : nat := fold_right (fun t a => ty_size t + a)%nat 0%nat ts.

(** [StaticSize::ssize], brec_macros/src/codegen/props/block.rs:67-87. *)
Definition ssize (sc : schema) : nat := sum_sizes (map snd (all_fields sc)).

(** ** Values *)

(** Field values: unsigned and float fields as numbers (floats as their bit
    pattern: the code only ever calls to/from_le_bytes on them), signed as [Z]. *)
Inductive fval :=
| VN (n : N)
| VZ (z : Z)
| VBool (b : bool)
| VBlob (bs : bytes)
| VEnum (v : N).

(** The number of values of an unsigned type of [k] bytes. *)
Definition pow256 (k : nat) : N := 2 ^ (8 * N.of_nat k).

(** Two's complement, [iN as uN] bit pattern and back. *)
Definition z_to_n (k : nat) (z : Z) : N := Z.to_N (z mod Z.of_N (pow256 k)).
Definition n_to_z (k : nat) (n : N) : Z :=
  if (2 * n <? pow256 k) then Z.of_N n else (Z.of_N n - Z.of_N (pow256 k))%Z.

(** [ToBytes for Field], brec_macros/src/tokenized/block/to_bytes/field/mod.rs:7-35.
    The last line is for ill-typed pairs, which cannot be written in Rust; every
    theorem assumes well-typed values. *)
Definition to_bytes (t : fty) (v : fval) : bytes :=
  match t, v with
  | TU w, VN n => le (iw_size w) n
  | TI w, VZ z => le (iw_size w) (z_to_n (iw_size w) z)
  | TF w, VN n => le (fw_size w) n
  | TBool, VBool b => [if b then n2b 1 else n2b 0]
  | TBlob _, VBlob bs => bs
  | TLinked l, VEnum v => [l_to l v]
  | _, _ => []
  end.

(** The byte of a field of one byte, brec_macros/src/tokenized/block/read_exact/field/mod.rs:16,36,47 and
    brec_macros/src/tokenized/block/from_bytes/ty/mod.rs:29,38; [raw] is never empty there. *)
Definition first_byte (raw : bytes) : byte := match raw with b :: _ => b | [] => n2b 0 end.

(** [FromBytes for Ty] (slice readers), brec_macros/src/tokenized/block/from_bytes/ty/mod.rs:7-43;
    [raw] is the field's slice, of the field's size. *)
Definition dec_slice (t : fty) (raw : bytes) : res fval :=
  match t with
  | TU _ => Ok (VN (unle raw))
  | TI w => Ok (VZ (n_to_z (iw_size w) (unle raw)))
  | TF _ => Ok (VN (unle raw))
  | TBool => Ok (VBool (b2n (first_byte raw) =? 1))
  | TBlob _ => Ok (VBlob raw)
  | TLinked l => match l_of l (first_byte raw) with Some v => Ok (VEnum v) | None => Err EFailedConverting end
  end.

(** [ReadExact for Field] (stream readers), brec_macros/src/tokenized/block/read_exact/field/mod.rs:7-53. *)
Definition dec_stream (t : fty) (raw : bytes) : res fval :=
  match t with
  | TU _ => Ok (VN (unle raw))
  | TI w => Ok (VZ (n_to_z (iw_size w) (unle raw)))
  | TF _ => Ok (VN (unle raw))
  | TBool => Ok (VBool (negb (b2n (first_byte raw) =? 0)))
  | TBlob _ => Ok (VBlob raw)
  | TLinked l => match l_of l (first_byte raw) with Some v => Ok (VEnum v) | None => Err EFailedConverting end
  end.

(** The bytes of all declared fields, brec_macros/src/codegen/write/block.rs and (for the checksum)
    brec_macros/src/codegen/props/block.rs:30-41. *)
Fixpoint fields_bytes (ts : list fty) (vs : list fval) : bytes :=
  match ts, vs with
  | t :: ts', v :: vs' => (to_bytes t v ++ fields_bytes ts' vs')%list
  | _, _ => []
  end.

(** [CrcU32::crc], brec_macros/src/codegen/props/block.rs:5-64. *)
Definition blk_crc (sc : schema) (vs : list fval) : bytes :=
  if s_no_crc sc then [n2b 0; n2b 0; n2b 0; n2b 0] else crc32_le (fields_bytes (s_tys sc) vs).

(** The buffer filled by [WriteTo::write]/[write_all],
    brec_macros/src/codegen/write/block.rs:52-80. *)
Definition blk_encode (sc : schema) (vs : list fval) : bytes :=
  (blk_sig sc ++ fields_bytes (s_tys sc) vs ++ blk_crc sc vs)%list.

(** [WriteTo::write] and [write_all], brec_macros/src/codegen/write/block.rs:52-80. *)
Definition blk_write (sc : schema) (vs : list fval) (k : sink) : res N * sink :=
  sink_write (blk_encode sc vs) k.
Definition blk_write_all (sc : schema) (vs : list fval) (k : sink) : res unit * sink :=
  sink_write_all (blk_encode sc vs) k.

(** [Ty::Blob], brec_macros/src/codegen/write/block.rs:117. *)
Definition is_blob (t : fty) : bool := match t with TBlob _ => true | _ => false end.

(** Grouping of fields done by [WriteVectored for Block],
    brec_macros/src/codegen/write/block.rs:92-131: consecutive scalar fields share
    one buffer, consecutive blobs stay separate.  State: finished groups, pending
    blobs ([slices]), pending scalars ([fields]). *)
Fixpoint group_fields (l : list (fty * fval)) (groups : list (list (fty * fval)))
         (blobs scalars : list (fty * fval)) : list (list (fty * fval)) :=
  match l with
  | [] =>
      let groups := match scalars with [] => groups | _ => groups ++ [scalars] end%list in
      match blobs with [] => groups | _ => groups ++ [blobs] end%list
  | f :: r =>
      if is_blob (fst f) then
        match scalars with
        | [] => group_fields r groups (blobs ++ [f])%list []
        | _ => group_fields r (groups ++ [scalars])%list (blobs ++ [f])%list []
        end
      else
        match blobs with
        | [] => group_fields r groups [] (scalars ++ [f])%list
        | _ => group_fields r (groups ++ [blobs])%list [] (scalars ++ [f])%list
        end
  end.

(** Slices emitted for one group, brec_macros/src/codegen/write/block.rs:132-186:
    a scalar group becomes one buffer, each blob its own slice. *)
Definition group_slices (g : list (fty * fval)) : list bytes :=
  match g with
  | [] => []
  | f :: _ =>
      if is_blob (fst f) then (map (fun f => to_bytes (fst f) (snd f)) g : list bytes)
      else [List.concat (map (fun f => to_bytes (fst f) (snd f)) g)]
  end.

(** [WriteVectoredTo::slices], brec_macros/src/codegen/write/block.rs:189-205. *)
Definition blk_slices (sc : schema) (vs : list fval) : list bytes :=
  ([blk_sig sc]
   ++ List.concat (map group_slices (group_fields (combine (s_tys sc) vs) [] [] []))
   ++ [blk_crc sc vs])%list.

(** ** Readers of one block type *)

(** Name capture in the generated readers: they bind the checksum bytes to a local
    variable named [crc] after the field variables and before building the struct
    (brec_macros/src/codegen/read/block.rs:35-40 and 72-77, 112-114), so a user
    field called [crc] receives the checksum instead of its own bytes.  (Compiles
    only when that field has type [u8; 4].) *)
Fixpoint capture (fs : list (bytes * fty)) (vs : list fval) (crc : bytes) : list fval :=
  match fs, vs with
  | f :: fs', v :: vs' =>
      (if bytes_eqb (fst f) (str "crc") then VBlob crc else v) :: capture fs' vs' crc
  | _, _ => []
  end.

Section Stream.
Context {S : Type} (R : reader S).

(** The [#(#fields)*] part of [ReadBlockFrom::read], brec_macros/src/codegen/read/block.rs:33. *)
Fixpoint read_fields (ts : list fty) (s : S) : res (list fval) * S :=
  match ts with
  | [] => (Ok [], s)
  | t :: r =>
      do (raw, s) <- rd_exact R (N.of_nat (ty_size t)) s;
      match dec_stream t raw with
      | Ok v => do (vs, s) <- read_fields r s; (Ok (v :: vs), s)
      | Err e => (Err e, s)
      | Panic w => (Panic w, s)
      end
  end.

(** [ReadBlockFrom::read], brec_macros/src/codegen/read/block.rs:21-46. *)
Definition blk_read (sc : schema) (skip_sig : bool) (s : S) : res (list fval) * S :=
  do (_, s) <- (if skip_sig then (Ok tt, s)
                else do (sig, s) <- rd_exact R 4 s;
                     if bytes_eqb sig (blk_sig sc) then (Ok tt, s) else (Err ESignatureDismatch, s));
  do (vs, s) <- read_fields (s_tys sc) s;
  do (crc, s) <- rd_exact R 4 s;
  let vs := capture (s_fields sc) vs crc in
  if bytes_eqb (blk_crc sc vs) crc then (Ok vs, s) else (Err ECrcDismatch, s).
End Stream.

(** [&src[from..to]]: panics when out of range. *)
Definition checked_slice (src : bytes) (from len : nat) : res bytes :=
  if (from + len <=? length src)%nat then Ok (slice src from len) else Panic PIndex.

(** Field slices of [ReadFromSlice], brec_macros/src/codegen/read/block.rs:60-83. *)
Fixpoint slice_fields (ts : list fty) (src : bytes) (off : nat) : res (list fval * nat) :=
  match ts with
  | [] => Ok ([], off)
  | t :: r =>
      let! raw := checked_slice src off (ty_size t) in
      let! v := dec_slice t raw in
      let! (vs, e) := slice_fields r src (off + ty_size t)%nat in
      Ok (v :: vs, e)
  end.

(** [ReadBlockFromSlice::read_from_slice], brec_macros/src/codegen/read/block.rs:85-124,
    followed by [From<Referred> for Block] (same field values,
    brec_macros/src/codegen/base/block.rs). The offsets of the fields always
    count the signature, also when [skip_sig]. *)
Definition blk_read_from_slice (sc : schema) (src : bytes) (skip_sig : bool) : res (list fval) :=
  let! _ :=
    (if skip_sig then Ok tt
     else if (length src <? 4)%nat then Err (ENotEnoughtSignatureData (blen src) 4)
     else if bytes_eqb (firstn 4 src) (blk_sig sc) then Ok tt
     else Err ESignatureDismatch) in
  let required := (if skip_sig then ssize sc - 4 else ssize sc)%nat in
  if (length src <? required)%nat then Err (ENotEnoughData (N.of_nat required))
  else
    let! (vs, off) := slice_fields (s_tys sc) src 4%nat in
    let! crc := checked_slice src off 4 in
    let vs := capture (s_fields sc) vs crc in
    if bytes_eqb (blk_crc sc vs) crc then Ok vs else Err ECrcDismatch.

(** [TryReadFrom::try_read], brec_macros/src/codegen/read/block.rs:134-165. *)
Definition blk_try_read (sc : schema) (c : cursor) : res (status (list fval)) * cursor :=
  match c_available c with
  | Err e => (Err e, c)
  | Panic w => (Panic w, c)
  | Ok len =>
      let start := c_pos c in
      if len <? 4 then (Ok (NotEnough (4 - len)), c)
      else
        do (sig, c) <- cursor_read_exact 4 c;
        if negb (bytes_eqb sig (blk_sig sc)) then (Err ESignatureDismatch, c_seek start c)
        else if len <? N.of_nat (ssize sc) then (Ok (NotEnough (N.of_nat (ssize sc) - len)), c)
        else
          do (vs, c) <- blk_read cursor_reader sc true c;
          (Ok (Success vs), c)
  end.

(** [TryReadFromBuffered::try_read], brec_macros/src/codegen/read/block.rs:176-205. *)
Definition blk_try_read_buf (sc : schema) (s : bufsrc) : res (status (list fval)) * bufsrc :=
  do (buf, s) <- fill_buf s;
  if (length buf <? 4)%nat then (Ok (NotEnough (4 - blen buf)), s)
  else if negb (starts_with (blk_sig sc) buf) then (Err ESignatureDismatch, s)
  else
    do (vs, s) <- blk_read buf_reader sc true (consume 4 s);
    (Ok (Success vs), s).

(** ** The generated [Block] enum *)

(** A value of the enum: which type it is, and its fields. *)
Record block := mk_block { bk_ty : schema; bk_vals : list fval }.

(** [Size for Block], brec_macros/src/collector/blocks/props.rs:6-25. *)
Definition bk_size (b : block) : N := N.of_nat (ssize (bk_ty b)).

(** [WriteTo]/[WriteVectoredTo] for [Block], brec_macros/src/collector/blocks/write.rs:6-52. *)
Definition bk_encode (b : block) : bytes := blk_encode (bk_ty b) (bk_vals b).
Definition bk_write (b : block) (k : sink) := blk_write (bk_ty b) (bk_vals b) k.
Definition bk_write_all (b : block) (k : sink) := blk_write_all (bk_ty b) (bk_vals b) k.
Definition bk_slices (b : block) : list bytes := blk_slices (bk_ty b) (bk_vals b).

(** [matches!(err, brec::Error::SignatureDismatch)], brec_macros/src/collector/blocks/read.rs:15,44. *)
Definition is_sig_dismatch (e : err) : bool :=
  match e with ESignatureDismatch => true | _ => false end.

(** [ReadFrom]/[ReadBlockFrom] for [Block], brec_macros/src/collector/blocks/read.rs:6-62
    ([ReadFrom::read] is the case [skip_sig = false]). *)
Fixpoint bk_read {S} (R : reader S) (scs : list schema) (skip_sig : bool) (s : S) : res block * S :=
  match scs with
  | [] => (Err ESignatureDismatch, s)
  | sc :: r =>
      match blk_read R sc skip_sig s with
      | (Ok vs, s) => (Ok (mk_block sc vs), s)
      | (Err e, s) => if is_sig_dismatch e then bk_read R r skip_sig s else (Err e, s)
      | (Panic w, s) => (Panic w, s)
      end
  end.

(** [TryReadFrom for Block], brec_macros/src/collector/blocks/read.rs:64-99. *)
Fixpoint bk_try_read (scs : list schema) (c : cursor) : res (status block) * cursor :=
  match scs with
  | [] => (Err ESignatureDismatch, c)
  | sc :: r =>
      match blk_try_read sc c with
      | (Ok (Success vs), c) => (Ok (Success (mk_block sc vs)), c)
      | (Ok (NotEnough n), c) => (Ok (NotEnough n), c)
      | (Err e, c) => if is_sig_dismatch e then bk_try_read r c else (Err e, c)
      | (Panic w, c) => (Panic w, c)
      end
  end.

(** [TryReadFromBuffered for Block], brec_macros/src/collector/blocks/read.rs:101-134. *)
Fixpoint bk_try_read_buf (scs : list schema) (s : bufsrc) : res (status block) * bufsrc :=
  match scs with
  | [] => (Err ESignatureDismatch, s)
  | sc :: r =>
      match blk_try_read_buf sc s with
      | (Ok (Success vs), s) => (Ok (Success (mk_block sc vs)), s)
      | (Ok (NotEnough n), s) => (Ok (NotEnough n), s)
      | (Err e, s) => if is_sig_dismatch e then bk_try_read_buf r s else (Err e, s)
      | (Panic w, s) => (Panic w, s)
      end
  end.

(** [ReadBlockFromSlice for BlockReferred], brec_macros/src/collector/blocks/read.rs:136-167. *)
Fixpoint bk_read_from_slice (scs : list schema) (src : bytes) (skip_sig : bool) : res block :=
  match scs with
  | [] => Err ESignatureDismatch
  | sc :: r =>
      match blk_read_from_slice sc src skip_sig with
      | Ok vs => Ok (mk_block sc vs)
      | Err e => if is_sig_dismatch e then bk_read_from_slice r src skip_sig else Err e
      | Panic w => Panic w
      end
  end.
