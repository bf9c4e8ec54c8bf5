(** * What the attributes and declarations of a crate mean, by brec's documentation
    (brec_macros/src/lib.rs:26-321), independently of how the macros work. *)
From Coq Require Import Permutation.
From Verif Require Import Base Crc32 Io Block Payload Macros Spec.
Open Scope list_scope.

(** ** Field types *)

Definition primitive (t : fty) : Prop := match t with TBlob _ | TLinked _ => False | _ => True end.

(** The table of supported types; any other single name is an enum with conversions from and to u8. *)
Inductive type_means (env : links) : type_src -> fty -> Prop :=
| means_primitive t : primitive t -> type_means env (TyPath [rust_type t]) t
| means_blob n : type_means env (TyArray (TyPath [str "u8"]) (Some n)) (TBlob n)
| means_enum name : (forall t, primitive t -> rust_type t <> name) ->
    type_means env (TyPath [name]) (TLinked (mk_linked name (fst (env name)) (snd (env name)))).

Definition field_means (env : links) (src : bytes * type_src) (f : bytes * fty) : Prop :=
  fst f = fst src /\ ~ In (fst src) [str "__sig"; str "__crc"] /\ type_means env (snd src) (snd f).

(** ** Attributes *)

(** A module path in an attribute: as a path, or as a string of segments joined by "::". *)
Definition segment (s : bytes) : Prop := forall b, In b s -> ~ In (b2n b) [32; 58].
Inductive path_expr : expr -> list bytes -> Prop :=
| path_plain p : path_expr (EPath p) p
| path_text p text : p <> [] -> Forall segment p -> text = join (str "::") p -> path_expr (EStr text) p.

(** [path = a::b], or the shortcut [a::b]. *)
Inductive path_attr : expr -> list bytes -> Prop :=
| path_assigned e p : path_expr e p -> path_attr (EAssign (EPath [str "path"]) e) p
| path_shortcut p : length p <> 1%nat -> path_attr (EPath p) p.

Definition word (w : bytes) : expr := EPath [w].

(** What the documentation lists for [#[block(...)]] and [#[payload(...)]]. *)
Definition block_words : list bytes := [str "no_crc"].
Definition payload_words : list bytes := [str "bincode"; str "hooks"; str "no_auto_crc"; str "no_crc"; str "no_default_sig"].
Definition documented (words : list bytes) (e : expr) : Prop :=
  (exists w, In w words /\ e = word w) \/ exists p, path_attr e p.

(** The first path among the attributes. *)
Definition first_path (es : list expr) (o : option (list bytes)) : Prop :=
  match o with
  | None => forall e p, In e es -> ~ path_attr e p
  | Some p => exists pre e post, es = pre ++ e :: post /\ path_attr e p /\ forall e' p', In e' pre -> ~ path_attr e' p'
  end.

(** An attribute string given as a path is one. *)
Definition good_text (e : expr) : Prop :=
  match e with EAssign _ (EStr text) => exists p, path_expr (EStr text) p | _ => True end.

(** What no reading of the documentation allows. *)
Inductive nonsense : expr -> Prop :=
| ns_text t : nonsense (EStr t)
| ns_other : nonsense EOther
| ns_key l r : l <> EPath [str "path"] -> nonsense (EAssign l r)
| ns_value l r : (forall p, r <> EPath p) -> (forall t, r <> EStr t) -> nonsense (EAssign l r).

(** The parameters of [brec::generate!]. *)
Inductive setting_means : expr -> setting -> Prop :=
| set_no_default : setting_means (word (str "no_default_payload")) SNoDefaultPayload
| set_derive t : setting_means (EAssign (word (str "payloads_derive")) (EStr t)) (SPayloadsDerive t).

(** ** Names *)

(** The place of a type: its module path and its name. *)
Definition place (path : option (list bytes)) (name : bytes) : list bytes :=
  match path with Some p => p | None => [] end ++ [name].

(** "a" .. "z" as capital letters. *)
Definition lower_letters : bytes := str "abcdefghijklmnopqrstuvwxyz".
Definition upper_letters : bytes := str "ABCDEFGHIJKLMNOPQRSTUVWXYZ".
Definition big (b : byte) : byte :=
  match find (fun q => byte_eqb (fst q) b) (combine lower_letters upper_letters) with Some (_, c) => c | None => b end.

(** The variant of a type in the generated enum: the segments of its place, each with a capital
    first letter, one after the other. *)
Fixpoint variant (p : list bytes) : bytes :=
  match p with
  | [] => []
  | [] :: r => variant r
  | (b :: s) :: r => big b :: s ++ variant r
  end.

Definition block_variant (d : block_decl) : bytes := variant (place (bd_path d) (s_name (bd_schema d))).
Definition payload_variant (d : payload_decl) : bytes := variant (place (pattr_path (pd_attrs d)) (pd_name d)).

(** [x] is the first element of [l] with its name. *)
Definition first_of {A} (name : A -> bytes) (l : list A) (x : A) : Prop :=
  exists pre post, l = pre ++ x :: post /\ ~ In (name x) (map name pre).

(** A type name begins with a capital letter. *)
Definition type_name (n : bytes) : Prop := match n with b :: _ => ~ In b lower_letters | [] => False end.

(** ** Generated code *)

(** rustc's rules that matter here: the variants of an enum differ, and a match names existing variants
    and all of them. *)
Definition compiles (e : gen_enum) : Prop :=
  NoDup (en_variants e) /\ forall v, In v (en_arms e) <-> In v (en_variants e).

(** ** Declarations *)

(** What a declared block is. *)
Definition block_means (env : links) (s : block_src) (d : block_decl) : Prop :=
  exists fs, bs_fields s = Some fs /\
    s_name (bd_schema d) = bs_name s /\ bd_derives d = bs_derives s /\
    Forall2 (field_means env) fs (s_fields (bd_schema d)) /\
    (s_no_crc (bd_schema d) = true <-> In (word (str "no_crc")) (bs_attrs s)) /\
    first_path (bs_attrs s) (bd_path d).
(** What cannot be declared. *)
Definition bad_field (env : links) (f : bytes * type_src) : Prop :=
  In (fst f) [str "__sig"; str "__crc"] \/ forall t, ~ type_means env (snd f) t.
Definition bad_block (env : links) (s : block_src) : Prop :=
  (exists e, In e (bs_attrs s) /\ nonsense e) \/ bs_generic s = true \/ bs_fields s = None \/
  exists fs f, bs_fields s = Some fs /\ In f fs /\ bad_field env f.

(** A payload with bincode takes its checksum from the CRC32 of its encoding unless an attribute says otherwise. *)
Definition has (w : bytes) (s : payload_src) : Prop := In (word w) (ps_attrs s).

(** The traits named in [payloads_derive]: names separated by commas, with any spaces around them. *)
Definition spaces (s : bytes) : Prop := Forall (fun b => b = n2b 32) s.
Definition tight (s : bytes) : Prop :=
  (forall b r, s = b :: r -> b <> n2b 32) /\ (forall r b, s = r ++ [b] -> b <> n2b 32).
Definition list_text (text : bytes) (names : list bytes) : Prop :=
  exists ps, ps <> [] /\ text = join (str ",") ps /\ Forall (fun p => ~ In (n2b 44) p) ps /\
    Forall2 (fun n p => tight n /\ exists a b, spaces a /\ spaces b /\ p = a ++ n ++ b) names ps.
(** The first such setting counts. *)
Definition extra_derives (cfg : list setting) (names : list bytes) : Prop :=
  (names = [] /\ forall t, ~ In (SPayloadsDerive t) cfg) \/
  exists pre t post, cfg = pre ++ SPayloadsDerive t :: post /\ (forall t', ~ In (SPayloadsDerive t') pre) /\ list_text t names.

(** ** Values of declared types *)

(** bincode encodes the value as [body] and decodes it back. *)
Definition codec_ok {V} (code : bincode V) (v : V) (body : bytes) : Prop :=
  bc_encode code v = Some body /\ bc_size code v = Some (blen body) /\ bc_decode code body = Some v /\ blen body <= u32_max.
(** A payload value of a crate with the payload declarations [ds], each made from its source:
    of a bincode type whose signature and checksum are generated, or bytes, or a text. *)
Definition declared_value {U} (ds : list (payload_src * payload_decl)) (codes : payload_decl -> bincode U * pkind U)
    (o : option (payload U)) : Prop :=
  match o with
  | None => True
  | Some (PUser k v) => exists s d body, In (s, d) ds /\ k = kind_of d (fst (codes d)) (snd (codes d)) /\
      has (str "bincode") s /\ ~ has (str "no_auto_crc") s /\ ~ has (str "no_default_sig") s /\ codec_ok (fst (codes d)) v body
  | Some (PBytes v) => blen v <= u32_max
  | Some (PString v) => utf8 v /\ blen v <= u32_max
  end.
