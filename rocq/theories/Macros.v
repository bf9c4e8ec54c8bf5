(** * What the macros make of the source text: attributes, names, field types, the
    collector behind brec::generate!() and the enums it produces.

    A compile error is [None].  Identifiers are ASCII. *)
From Verif Require Import Base Crc32 Io Block Payload.

(** ** Source text as the macros see it (syn's types, cut down to what is distinguished) *)

(** [syn::Expr] inside an attribute: a path given by its segments (a leading [::] is an empty
    first segment, generic arguments are left out), a string literal, an assignment, anything else. *)
Inductive expr :=
| EPath (segs : list bytes)
| EStr (text : bytes)
| EAssign (l r : expr)
| EOther.

(** [syn::Type] of a field: a path by its segments (without generic arguments, which are [TyOther]:
    both are refused in the same way), an array with its length if that is an integer literal,
    a reference, anything else. *)
Inductive type_src :=
| TyPath (segs : list bytes)
| TyArray (elem : type_src) (len : option nat)
| TyRef
| TyOther.

(** A struct with named fields, generic or not; anything else is [None] in [bs_fields]. *)
Record block_src := mk_block_src {
  bs_attrs : list expr;
  bs_name : bytes;
  bs_generic : bool;
  bs_fields : option (list (bytes * type_src));
  bs_derives : list bytes
}.

(** A struct or an enum ([ps_data]), or something else. *)
Record payload_src := mk_payload_src {
  ps_attrs : list expr;
  ps_name : bytes;
  ps_generic : bool;
  ps_data : bool;
  ps_derives : list bytes
}.

(** [get_ident] of syn's Path: exactly one segment. *)
Definition get_ident (segs : list bytes) : option bytes :=
  match segs with [s] => Some s | _ => None end.

(** [?] on a result whose error is dropped. *)
Definition obind {A B} (o : option A) (f : A -> option B) : option B :=
  match o with Some a => f a | None => None end.
(** [collect::<Result<Vec<_>, _>>()] and loops returning at the first error. *)
Fixpoint omap {A B} (f : A -> option B) (l : list A) : option (list B) :=
  match l with
  | [] => Some []
  | x :: r => obind (f x) (fun y => obind (omap f r) (fun ys => Some (y :: ys)))
  end.

(** ** Paths and names *)

(** [str::trim], spaces only (the printed tokens contain no other white space). *)
Fixpoint trim_start (s : bytes) : bytes :=
  match s with b :: r => if byte_eqb b (n2b 32) then trim_start r else s | [] => [] end.
Definition trim (s : bytes) : bytes := rev (trim_start (rev (trim_start s))).

(** [split("::")] as applied to the printed path, brec_macros/src/entities/block/attr/mod.rs:24-26. *)
Fixpoint split_colons (acc s : bytes) : list bytes :=
  match s with
  | [] => [rev acc]
  | b :: r =>
      match r with
      | c :: r' => if byte_eqb b (n2b 58) && byte_eqb c (n2b 58) then rev acc :: split_colons [] r'
                   else split_colons (b :: acc) r
      | [] => split_colons (b :: acc) r
      end
  end.

(** [ModulePath::try_from], brec_macros/src/entities/modpath/mod.rs:29-50, and the parsing of
    a string in [join], 14-26.  A path is kept by its trimmed segments.  (The string of a literal is
    not checked to be a path: texts which the compiler would refuse later are accepted here.) *)
Definition module_path (e : expr) : option (list bytes) :=
  match e with
  | EPath segs => Some segs
  | EStr text => Some (map trim (split_colons [] text))
  | _ => None
  end.

(** [char::to_uppercase] of an ASCII character. *)
Definition upper (b : byte) : byte :=
  if (97 <=? b2n b) && (b2n b <=? 122) then n2b (b2n b - 32) else b.
(** brec_macros/src/entities/block/attr/mod.rs:27-33. *)
Definition capital (s : bytes) : bytes := match s with b :: r => upper b :: r | [] => [] end.

(** ** Attributes *)

(** brec_macros/src/entities/block/attr/mod.rs:45-48. *)
Inductive battr := BPath (segs : list bytes) | BNoCrc.
(** brec_macros/src/entities/payload/attr/mod.rs:62-69. *)
Inductive pattr := PPath (segs : list bytes) | PNoDefaultSig | PHooks | PNoAutoCrc | PNoCrc | PBincode.
(** brec_macros/src/generate/config.rs:8-11. *)
Inductive setting := SNoDefaultPayload | SPayloadsDerive (text : bytes).

(** One expression of [impl Parse for BlockAttrs], brec_macros/src/parsing/block/attr/mod.rs:13-47. *)
Definition parse_battr (e : expr) : option (list battr) :=
  match e with
  | EAssign (EPath l) r =>
      obind (get_ident l) (fun key =>
      if bytes_eqb key (str "path") then obind (module_path r) (fun p => Some [BPath p]) else None)
  | EAssign _ _ => None
  | EPath segs =>
      match get_ident segs with
      | Some name => Some (if bytes_eqb name (str "no_crc") then [BNoCrc] else [])
      | None => Some [BPath segs]
      end
  | EStr _ | EOther => None
  end.
Definition parse_battrs (es : list expr) : option (list battr) :=
  obind (omap parse_battr es) (fun ls => Some (concat ls)).

(** One expression of [impl Parse for PayloadAttrs], brec_macros/src/parsing/payload/attr/mod.rs:13-55. *)
Definition parse_pattr (e : expr) : option (list pattr) :=
  match e with
  | EAssign (EPath l) r =>
      obind (get_ident l) (fun key =>
      if bytes_eqb key (str "path") then obind (module_path r) (fun p => Some [PPath p]) else None)
  | EAssign _ _ => None
  | EPath segs =>
      match get_ident segs with
      | Some name =>
          Some (if bytes_eqb name (str "no_default_sig") then [PNoDefaultSig]
                else if bytes_eqb name (str "bincode") then [PBincode]
                else if bytes_eqb name (str "hooks") then [PHooks]
                else if bytes_eqb name (str "no_auto_crc") then [PNoAutoCrc]
                else if bytes_eqb name (str "no_crc") then [PNoCrc]
                else [])
      | None => Some [PPath segs]
      end
  | EStr _ | EOther => None
  end.
Definition parse_pattrs (es : list expr) : option (list pattr) :=
  obind (omap parse_pattr es) (fun ls => Some (concat ls)).

(** One expression of [impl Parse for Config], brec_macros/src/generate/parser.rs:11-50. *)
Definition parse_setting (e : expr) : option setting :=
  match e with
  | EAssign (EPath l) r =>
      obind (get_ident l) (fun key =>
      if bytes_eqb key (str "payloads_derive")
      then match r with EStr text => Some (SPayloadsDerive text) | _ => None end
      else None)
  | EAssign _ _ => None
  | EPath segs =>
      match get_ident segs with
      | Some name => if bytes_eqb name (str "no_default_payload") then Some SNoDefaultPayload else None
      | None => None
      end
  | EStr _ | EOther => None
  end.
Definition parse_config (es : list expr) : option (list setting) := omap parse_setting es.

(** [BlockAttrs::fullpath], [fullname] and [is_no_crc], brec_macros/src/entities/block/attr/mod.rs:11-40. *)
Fixpoint battr_path (l : list battr) : option (list bytes) :=
  match l with [] => None | BPath p :: _ => Some p | BNoCrc :: r => battr_path r end.
Fixpoint is_no_crc (l : list battr) : bool :=
  match l with [] => false | BNoCrc :: _ => true | BPath _ :: r => is_no_crc r end.
Definition fullpath (path : option (list bytes)) (name : bytes) : list bytes :=
  match path with Some p => (p ++ [name])%list | None => [name] end.
Definition fullname (path : option (list bytes)) (name : bytes) : bytes :=
  concat (map capital (fullpath path name)).

(** The same for [PayloadAttrs], brec_macros/src/entities/payload/attr/mod.rs:11-58. *)
Fixpoint pattr_path (l : list pattr) : option (list bytes) :=
  match l with [] => None | PPath p :: _ => Some p | _ :: r => pattr_path r end.
Definition has_no_default_sig (l : list pattr) : bool := existsb (fun a => match a with PNoDefaultSig => true | _ => false end) l.
Definition has_no_auto_crc (l : list pattr) : bool := existsb (fun a => match a with PNoAutoCrc => true | _ => false end) l.
Definition has_no_crc (l : list pattr) : bool := existsb (fun a => match a with PNoCrc => true | _ => false end) l.
Definition has_bincode (l : list pattr) : bool := existsb (fun a => match a with PBincode => true | _ => false end) l.

(** ** Field types and blocks *)

(** The user's conversions between an enum of a given name and u8. *)
Definition links := bytes -> (N -> byte) * (byte -> option N).

(** [TryFrom<&Ident> for Ty], brec_macros/src/parsing/ty/mod.rs:29-49. *)
Definition ident_ty (env : links) (name : bytes) : fty :=
  if bytes_eqb name (str "u8") then TU W8
  else if bytes_eqb name (str "u16") then TU W16
  else if bytes_eqb name (str "u32") then TU W32
  else if bytes_eqb name (str "u64") then TU W64
  else if bytes_eqb name (str "u128") then TU W128
  else if bytes_eqb name (str "i8") then TI W8
  else if bytes_eqb name (str "i16") then TI W16
  else if bytes_eqb name (str "i32") then TI W32
  else if bytes_eqb name (str "i64") then TI W64
  else if bytes_eqb name (str "i128") then TI W128
  else if bytes_eqb name (str "f32") then TF F32
  else if bytes_eqb name (str "f64") then TF F64
  else if bytes_eqb name (str "bool") then TBool
  else TLinked (mk_linked name (fst (env name)) (snd (env name))).

(** [TryFrom<&Type> for Ty], [TryFrom<&TypePath> for Ty] and [TryFrom<&TypeArray> for Ty],
    brec_macros/src/parsing/ty/mod.rs:5-27, 51-68. *)
Fixpoint parse_ty (env : links) (t : type_src) : option fty :=
  match t with
  | TyPath segs => obind (get_ident segs) (fun name => Some (ident_ty env name))
  | TyArray elem len =>
      match parse_ty env elem with
      | Some (TU W8) => obind len (fun n => Some (TBlob n))
      | _ => None
      end
  | TyRef | TyOther => None
  end.

(** [Field::is_reserved_name], brec_macros/src/entities/field/mod.rs:25-27, and
    [TryFrom<&mut syn::Field> for Field], brec_macros/src/parsing/field/mod.rs:4-24. *)
Definition is_reserved_name (name : bytes) : bool :=
  bytes_eqb name (str "__sig") || bytes_eqb name (str "__crc").
Definition parse_field (env : links) (f : bytes * type_src) : option (bytes * fty) :=
  if is_reserved_name (fst f) then None
  else obind (parse_ty env (snd f)) (fun t => Some (fst f, t)).

(** [Block], brec_macros/src/entities/block/mod.rs:15-21: path attribute, schema, derives.
    (The path of the schema is the joined text of the segments.) *)
Record block_decl := mk_block_decl { bd_path : option (list bytes); bd_schema : schema; bd_derives : list bytes }.
(** [TryFrom<(BlockAttrs, &mut DeriveInput)> for Block] without the registration,
    brec_macros/src/parsing/block/mod.rs:11-44; the attributes are parsed before, brec_macros/src/lib.rs:123-127. *)
Definition parse_block (env : links) (s : block_src) : option block_decl :=
  obind (parse_battrs (bs_attrs s)) (fun attrs =>
  if bs_generic s then None else
  obind (bs_fields s) (fun fs =>
  obind (omap (parse_field env) fs) (fun fs =>
  Some (mk_block_decl (battr_path attrs)
          (mk_schema (match battr_path attrs with Some p => join (str "::") p | None => [] end) (bs_name s) fs (is_no_crc attrs))
          (bs_derives s))))).

(** [Payload], brec_macros/src/entities/payload/mod.rs:12-16, and
    [TryFrom<(PayloadAttrs, &mut DeriveInput)> for Payload], brec_macros/src/parsing/payload/mod.rs:11-28. *)
Record payload_decl := mk_payload_decl { pd_attrs : list pattr; pd_name : bytes; pd_derives : list bytes }.
Definition parse_payload (s : payload_src) : option payload_decl :=
  obind (parse_pattrs (ps_attrs s)) (fun attrs =>
  if ps_generic s then None
  else if ps_data s then Some (mk_payload_decl attrs (ps_name s) (ps_derives s)) else None).

(** [fullname], brec_macros/src/entities/block/mod.rs:76 and brec_macros/src/entities/payload/mod.rs:35. *)
Definition bd_fullname (d : block_decl) : bytes := fullname (bd_path d) (s_name (bd_schema d)).
Definition pd_fullname (d : payload_decl) : bytes := fullname (pattr_path (pd_attrs d)) (pd_name d).

(** [Payload::sig], brec_macros/src/entities/payload/mod.rs:26-31. *)
Definition pd_sig (d : payload_decl) : bytes := crc32_le (pd_fullname d).

(** ** Generated payload implementations *)

(** bincode for one type: size, encoder, decoder.  Every error becomes [InvalidData], a kind the
    library does not distinguish from others. *)
Record bincode V := mk_bincode {
  bc_size : V -> option N; bc_encode : V -> option bytes; bc_decode : bytes -> option V }.
Arguments bc_size {V}. Arguments bc_encode {V}. Arguments bc_decode {V}.
Definition invalid {A} (o : option A) : iores A := match o with Some a => IOk a | None => IErr OtherIo end.

(** [Base::gen], [Crc::gen] and [Size::gen] for Payload, brec_macros/src/codegen/base/payload.rs:6-68,
    brec_macros/src/codegen/props/payload.rs:6-46.  [user] holds what the user implements by hand; it counts
    where nothing is generated. *)
Definition kind_of {V} (d : payload_decl) (code : bincode V) (user : pkind V) : pkind V :=
  let sig := if has_no_default_sig (pd_attrs d) then pk_sig user else pd_sig d in
  if has_bincode (pd_attrs d) then
    let body v := invalid (bc_encode code v) in
    {| pk_sig := sig;
       pk_size := fun v => invalid (bc_size code v);
       pk_body := body;
       pk_crc := if negb (has_no_auto_crc (pd_attrs d)) && negb (has_no_crc (pd_attrs d)) then default_crc body
                 else if has_no_crc (pd_attrs d) then fun _ => IOk (repeat (n2b 0) 4)
                 else pk_crc user;
       pk_decode := fun b => invalid (bc_decode code b) |}
  else
    {| pk_sig := sig; pk_size := pk_size user; pk_body := pk_body user; pk_crc := pk_crc user; pk_decode := pk_decode user |}.

(** ** The collector *)

(** [HashMap::entry(key).or_insert(value)]. *)
Definition or_insert {A} (key : bytes) (a : A) (m : list (bytes * A)) : list (bytes * A) :=
  if existsb (fun e => bytes_eqb key (fst e)) m then m else (m ++ [(key, a)])%list.

(** [Collector], brec_macros/src/collector/mod.rs:27-48, for one package.  The order of a HashMap's values is not
    defined: the generated code uses some permutation of the entries kept here in order of insertion. *)
Record collector := mk_collector { co_blocks : list (bytes * block_decl); co_payloads : list (bytes * payload_decl) }.
Definition add_block (d : block_decl) (c : collector) : collector :=
  mk_collector (or_insert (bd_fullname d) d (co_blocks c)) (co_payloads c).
Definition add_payload (d : payload_decl) (c : collector) : collector :=
  mk_collector (co_blocks c) (or_insert (pd_fullname d) d (co_payloads c)).
(** The collector after all declarations of a crate were met. *)
Definition collect (bs : list block_decl) (ps : list payload_decl) : collector :=
  fold_left (fun c d => add_payload d c) ps (fold_left (fun c d => add_block d c) bs (mk_collector [] [])).

(** ** The generated enums *)

(** [Derives::common], brec_macros/src/entities/derives/mod.rs:12-19. *)
Definition common_derives (ds : list (list bytes)) : list bytes :=
  fold_left (fun acc v => filter (fun d => existsb (bytes_eqb d) v) acc) ds (match ds with d :: _ => d | [] => [] end).

(** [split(',')], brec_macros/src/generate/config.rs:29-37. *)
Fixpoint split_commas (acc s : bytes) : list bytes :=
  match s with
  | [] => [rev acc]
  | b :: r => if byte_eqb b (n2b 44) then rev acc :: split_commas [] r else split_commas (b :: acc) r
  end.
(** [Config::is_no_default_payloads] and [Config::get_payload_derive], brec_macros/src/generate/config.rs:16-38;
    an empty text is not a path and refused. *)
Definition no_default_payloads (cfg : list setting) : bool :=
  existsb (fun s => match s with SNoDefaultPayload => true | _ => false end) cfg.
Fixpoint payload_derive (cfg : list setting) : option (list bytes) :=
  match cfg with
  | [] => Some []
  | SPayloadsDerive text :: _ =>
      let ds := map trim (split_commas [] text) in
      if existsb (fun d => bytes_eqb d []) ds then None else Some ds
  | SNoDefaultPayload :: r => payload_derive r
  end.

(** An enum: its derives, its variants in order, and the variants that the match expressions and
    readers of its generated methods name. *)
Record gen_enum := mk_enum { en_derives : list bytes; en_variants : list bytes; en_arms : list bytes }.

(** [blocks::gen], brec_macros/src/collector/blocks/mod.rs:11-39 with enums.rs:6-27: every method has
    one arm for each block. *)
Definition gen_blocks (bs : list block_decl) : gen_enum :=
  mk_enum (common_derives (map bd_derives bs)) (map bd_fullname bs) (map bd_fullname bs).

(** [payloads::gen], brec_macros/src/collector/payloads/mod.rs:11-37, enums.rs:6-46, props.rs, read.rs, write.rs:
    the default variants depend on the settings, the arms for them do not. *)
Definition default_variants : list bytes := [str "Bytes"; str "String"].
Definition gen_payloads (cfg : list setting) (ps : list payload_decl) : option gen_enum :=
  obind (payload_derive cfg) (fun extra =>
  Some (mk_enum (common_derives (map pd_derives ps) ++ extra)
          (map pd_fullname ps ++ (if no_default_payloads cfg then [] else default_variants))
          (map pd_fullname ps ++ default_variants))).

(** What [Collector::write] puts into the generated file, brec_macros/src/collector/mod.rs:55-98: the enum of
    blocks, the enum of payloads, and whether the packet types are there.  [bs] and [ps] are the collected
    declarations in the order of the hash maps. *)
Definition generate (cfg : list setting) (bs : list block_decl) (ps : list payload_decl)
  : option (option gen_enum * option gen_enum * bool) :=
  let nothing := match ps with [] => no_default_payloads cfg | _ => false end in
  let blocks := match bs with [] => None | _ => Some (gen_blocks bs) end in
  let packet := negb (match bs with [] => true | _ => nothing end) in
  if nothing then Some (blocks, None, packet)
  else obind (gen_payloads cfg ps) (fun e => Some (blocks, Some e, packet)).
