(** * Properties of declarations and of the generated enums (C59-C65, C79), each with a concrete case. *)
From Coq Require Import ZifyBool ZifyNat ZifyN Permutation.
From Verif Require Import Base Crc32 Io Block Payload Packet Macros Spec SpecMacros BaseProofs CrcProofs PayloadProofs PayloadEnumProofs PacketProofs WireProofs NegProofs MacroProofs Samples PropsWire.
Ltac Zify.zify_post_hook ::= Z.div_mod_to_equations.
Open Scope list_scope.

(** The conversions of the enums used below; any would do. *)
Definition env0 : links := fun _ => (l_to colour, l_of colour).
Definition u8s (n : nat) : type_src := TyArray (TyPath [str "u8"]) (Some n).
Definition src_block (attrs : list expr) (name : bytes) (fs : list (bytes * type_src)) : block_src :=
  mk_block_src attrs name false (Some fs) [str "Debug"; str "Clone"].
Definition src_payload (attrs : list expr) (name : bytes) : payload_src :=
  mk_payload_src attrs name false true [str "Debug"].

(** ** C59: full claim: every declared type gets a variant in the generated enum.
    Types in different places can get the same variant name; the second declaration is dropped, without a message,
    and its blocks cannot be read. *)
Definition src_one : block_src := src_block [EPath [str "a"; str "b"]] (str "Cd") [(str "id", TyPath [str "u32"])].
Definition src_two : block_src := src_block [EAssign (word (str "path")) (EPath [str "a"])] (str "BCd") [(str "raw", u8s 6)].
Theorem C59_dropped_refuted : exists s1 s2 d1 d2 vs,
  parse_block env0 s1 = Some d1 /\ parse_block env0 s2 = Some d2 /\
  place (bd_path d1) (bs_name s1) <> place (bd_path d2) (bs_name s2) /\
  map snd (co_blocks (collect [d1; d2] [])) = [d1] /\ vals_ok (bd_schema d2) vs /\
  bk_read_from_slice (map bd_schema (map snd (co_blocks (collect [d1; d2] [])))) (blk_encode (bd_schema d2) vs) false = Err ESignatureDismatch.
Proof.
  exists src_one, src_two.
  exists (mk_block_decl (Some [str "a"; str "b"]) (mk_schema (str "a::b") (str "Cd") [(str "id", TU W32)] false) [str "Debug"; str "Clone"]).
  exists (mk_block_decl (Some [str "a"]) (mk_schema (str "a") (str "BCd") [(str "raw", TBlob 6)] false) [str "Debug"; str "Clone"]).
  exists [VBlob (str "sixsix")].
  split; [vm_compute; reflexivity|]. split; [vm_compute; reflexivity|]. split; [vm_compute; discriminate|].
  split; [vm_compute; reflexivity|]. split; [repeat constructor|]. vm_compute. reflexivity.
Qed.
Print Assumptions C59_dropped_refuted.

(** Exactly the first declaration of each variant name takes part. *)
Theorem C59_first_wins : forall bs ps,
  (forall d, In d (map snd (co_blocks (collect bs ps))) <-> first_of block_variant bs d) /\
  (forall d, In d (map snd (co_payloads (collect bs ps))) <-> first_of payload_variant ps d).
Proof.
  intros bs ps. rewrite collect_split. cbn [co_blocks co_payloads].
  assert (EB : forall d, bd_fullname d = block_variant d) by (intros d; apply fullname_variant).
  assert (EP : forall d, pd_fullname d = payload_variant d) by (intros d; apply fullname_variant).
  split; intros d; rewrite in_map_iff; split.
  - intros ((k & x) & <- & I). apply (collect_first bd_fullname bs) in I as (_ & pre & post & -> & N).
    exists pre, post. split; [reflexivity|]. rewrite <- EB. now rewrite <- (map_ext _ _ EB).
  - intros (pre & post & E & N). exists (bd_fullname d, d). split; [reflexivity|]. apply (collect_first bd_fullname bs).
    split; [reflexivity|]. exists pre, post. split; [exact E|]. rewrite EB. now rewrite (map_ext _ _ EB).
  - intros ((k & x) & <- & I). apply (collect_first pd_fullname ps) in I as (_ & pre & post & -> & N).
    exists pre, post. split; [reflexivity|]. rewrite <- EP. now rewrite <- (map_ext _ _ EP).
  - intros (pre & post & E & N). exists (pd_fullname d, d). split; [reflexivity|]. apply (collect_first pd_fullname ps).
    split; [reflexivity|]. exists pre, post. split; [exact E|]. rewrite EP. now rewrite (map_ext _ _ EP).
Qed.
Print Assumptions C59_first_wins.

(** What holds: types with different variant names all take part, in whatever order the hash map delivers them; types with the same
    path have different variant names (missing: types with different paths). *)
Theorem C59_declared_partial : forall bs ps order,
  NoDup (map block_variant bs) -> Permutation order (map snd (co_blocks (collect bs ps))) ->
  Permutation order bs /\ Permutation (en_variants (gen_blocks order)) (map block_variant bs).
Proof.
  intros bs ps order ND HP. assert (EB : forall d, bd_fullname d = block_variant d) by (intros d; apply fullname_variant).
  rewrite collect_split in HP. cbn [co_blocks] in HP. rewrite <- (map_ext _ _ EB) in ND.
  change (fun m d => or_insert (bd_fullname d) d m) with (fun (m : list (bytes * block_decl)) d => or_insert (bd_fullname d) d m) in HP.
  rewrite (collect_all bd_fullname bs ND) in HP. split; [exact HP|]. cbn [gen_blocks en_variants]. rewrite (map_ext _ _ EB).
  now apply Permutation_map.
Qed.
Print Assumptions C59_declared_partial.
Theorem C59_payloads_partial : forall bs ps order,
  NoDup (map payload_variant ps) -> Permutation order (map snd (co_payloads (collect bs ps))) -> Permutation order ps.
Proof.
  intros bs ps order ND HP. assert (EP : forall d, pd_fullname d = payload_variant d) by (intros d; apply fullname_variant).
  rewrite collect_split in HP. cbn [co_payloads] in HP. rewrite <- (map_ext _ _ EP) in ND.
  now rewrite (collect_all pd_fullname ps ND) in HP.
Qed.
Print Assumptions C59_payloads_partial.
Theorem C59_same_path_partial : forall path n n', type_name n -> type_name n' -> n <> n' ->
  variant (place path n) <> variant (place path n').
Proof. exact variant_inj. Qed.
Print Assumptions C59_same_path_partial.
Example C59_example :
  type_name (str "Alpha") /\ type_name (str "Beta") /\
  variant (place (Some [str "crate"; str "my_mod"]) (str "Alpha")) = str "CrateMy_modAlpha" /\
  variant (place None (str "Beta")) = str "Beta".
Proof.
  assert (T : forall b s, existsb (byte_eqb b) lower_letters = false -> type_name (b :: s)).
  { intros b s H I. assert (X : existsb (byte_eqb b) lower_letters = true) by (apply existsb_exists; exists b; split; [exact I|apply N.eqb_refl]). congruence. }
  split; [apply T; reflexivity|]. split; [apply T; reflexivity|]. split; reflexivity.
Qed.

(** ** C60: full claim: different payload types have different signatures. *)
Definition d_plumless : payload_decl := mk_payload_decl [PBincode] (str "Plumless") [].
Definition d_buckeroo : payload_decl := mk_payload_decl [PBincode] (str "Buckeroo") [].
Definition code_num : bincode N :=
  mk_bincode N (fun _ => Some 4) (fun v => if v <? two32 then Some (le 4 v) else None) (fun b => if blen b =? 4 then Some (unle b) else None).
Definition code_not : bincode N :=
  mk_bincode N (fun _ => Some 4) (fun v => if v <? two32 then Some (le 4 (two32 - 1 - v)) else None) (fun b => if blen b =? 4 then Some (two32 - 1 - unle b) else None).
Theorem C60_signatures_refuted : exists s1 s2 d1 d2 k1 k2 v body v',
  parse_payload s1 = Some d1 /\ parse_payload s2 = Some d2 /\ payload_variant d1 <> payload_variant d2 /\
  map snd (co_payloads (collect [] [d1; d2])) = [d1; d2] /\
  k1 = kind_of d1 code_num k_num /\ k2 = kind_of d2 code_not k_num /\
  encodes k2 v body (crc32_le body) /\
  pl_read stream_reader [k1; k2] (mk_pheader (pk_sig k2) (crc32_le body) (blen body)) body = (Ok (PUser k1 v'), []) /\ v' <> v.
Proof.
  exists (src_payload [word (str "bincode")] (str "Plumless")), (src_payload [word (str "bincode")] (str "Buckeroo")).
  eexists _, _, _, _, 5, (le 4 (two32 - 1 - 5)), (two32 - 1 - 5).
  split; [vm_compute; reflexivity|]. split; [vm_compute; reflexivity|]. split; [vm_compute; discriminate|].
  split; [vm_compute; reflexivity|]. split; [reflexivity|]. split; [reflexivity|].
  split; [repeat split; try (vm_compute; reflexivity); try (vm_compute; now left); vm_compute; discriminate|].
  split; [|vm_compute; discriminate]. cbn [pl_read].
  match goal with |- or_next (pk_read ?R ?k ?h ?b) _ _ = _ =>
    assert (E : pk_read R k h b = (Ok (two32 - 1 - 5), [])) by (vm_compute; reflexivity) end.
  rewrite E. reflexivity.
Qed.
Print Assumptions C60_signatures_refuted.

(** What holds: the signature is the checksum of the variant name; names of the same length that differ in at most four
    consecutive letters have different signatures. *)
Theorem C60_signatures_partial : forall d,
  pd_sig d = crc32_le (payload_variant d) /\
  forall d', burst 4 (payload_variant d) (payload_variant d') -> payload_variant d <> payload_variant d' -> pd_sig d <> pd_sig d'.
Proof.
  intros d. split; [apply payload_sig_text|]. intros d' (pre & w & w' & post & E & E' & L & L4) NE C. rewrite !payload_sig_text, E, E' in C.
  apply NE. rewrite E, E'. do 2 f_equal. apply (crc32_burst pre w w' post L L4). apply (f_equal unle) in C. unfold crc32_le in C.
  now rewrite !unle_le in C by apply crc32_bound.
Qed.
Print Assumptions C60_signatures_partial.
Example C60_example :
  let d := mk_payload_decl [] (str "Frame1") [] in let d' := mk_payload_decl [] (str "Frame2") [] in
  burst 4 (payload_variant d) (payload_variant d') /\ payload_variant d <> payload_variant d'.
Proof.
  cbv zeta. split; [|vm_compute; discriminate]. exists (str "Frame"), (str "1"), (str "2"), []. vm_compute. repeat split; auto.
Qed.

(** With [no_default_sig] the signature is the user's, otherwise the checksum of the name. *)
Theorem C60_who_signs : forall V s d (code : bincode V) user, Forall good_text (ps_attrs s) -> parse_payload s = Some d ->
  (has (str "no_default_sig") s -> pk_sig (kind_of d code user) = pk_sig user) /\
  (~ has (str "no_default_sig") s -> pk_sig (kind_of d code user) = crc32_le (payload_variant d)).
Proof. intros V s d code user. exact (kind_sig s d code user). Qed.
Print Assumptions C60_who_signs.
Example C60_who_example :
  let s w := src_payload [word (str "bincode"); word w] (str "Own") in
  (exists d, parse_payload (s (str "no_default_sig")) = Some d /\ has (str "no_default_sig") (s (str "no_default_sig")) /\
     pk_sig (kind_of d code_num k_num) = pk_sig k_num) /\
  (exists d, parse_payload (s (str "hooks")) = Some d /\ pk_sig (kind_of d code_num k_num) = crc32_le (str "Own")).
Proof.
  cbv zeta. split; eexists; (split; [vm_compute; reflexivity|]).
  - split; [right; now left|reflexivity].
  - reflexivity.
Qed.

(** ** C61: the generated enums derive what all their types derive. *)
Theorem C61_block_derives : forall bs d, bs <> [] ->
  In d (en_derives (gen_blocks bs)) <-> forall b, In b bs -> In d (bd_derives b).
Proof.
  intros bs d NE. cbn [gen_blocks en_derives]. rewrite common_means by (destruct bs; [easy|discriminate]).
  split; [intros H b I; apply H; now apply in_map|]. intros H l I. apply in_map_iff in I as (b & <- & I). now apply H.
Qed.
Print Assumptions C61_block_derives.
(** The names in [payloads_derive] are separated by commas, with any spaces around them; the first such setting counts,
    and an empty name in it is refused. *)
Theorem C61_payload_derives : forall cfg ps, ps <> [] -> exists extra,
  extra_derives cfg extra /\
  (forall extra', extra_derives cfg extra' -> (gen_payloads cfg ps = None <-> In [] extra')) /\
  forall e, gen_payloads cfg ps = Some e -> forall extra', extra_derives cfg extra' -> forall d,
    In d (en_derives e) <-> (forall p, In p ps -> In d (pd_derives p)) \/ In d extra'.
Proof.
  intros cfg ps NE. destruct (extra_exists cfg) as (extra & X). exists extra. split; [exact X|].
  assert (EX : forall l, existsb (fun d => bytes_eqb d []) l = true <-> In [] l).
  { intros l. rewrite existsb_exists. split; [intros (d & I & E); apply bytes_eqb_eq in E; now subst|intros I; exists []; auto]. }
  split.
  - intros e' X'. rewrite <- EX. unfold gen_payloads. rewrite (payload_derive_means _ _ X').
    destruct (existsb _ e'); cbn [obind]; split; (reflexivity || discriminate).
  - intros e H e' X' d. unfold gen_payloads in H. rewrite (payload_derive_means _ _ X') in H.
    destruct (existsb _ e'); [discriminate|]. cbn [obind] in H. injection H as <-. cbn [en_derives].
    rewrite in_app_iff, common_means by (destruct ps; [easy|discriminate]).
    split; (intros [H|H]; [left|now right]).
    + intros p I. apply H. now apply in_map.
    + intros l I. apply in_map_iff in I as (p & <- & I). now apply H.
Qed.
Print Assumptions C61_payload_derives.
Example C61_list_example :
  extra_derives [SNoDefaultPayload; SPayloadsDerive (str "Debug, Clone ,Eq"); SPayloadsDerive (str "Copy")] [str "Debug"; str "Clone"; str "Eq"] /\
  extra_derives [SPayloadsDerive (str "Debug,")] [str "Debug"; []].
Proof.
  assert (T : forall s, match s with b :: _ => byte_eqb b (n2b 32) = false | [] => True end ->
                        match rev s with b :: _ => byte_eqb b (n2b 32) = false | [] => True end -> tight s).
  { intros s H1 H2. split.
    - intros b r -> ->. discriminate.
    - intros r b -> ->. rewrite rev_app_distr in H2. discriminate. }
  assert (S0 : spaces []) by constructor. assert (S1 : spaces (str " ")) by (constructor; [reflexivity|constructor]).
  assert (N : forall p, forallb (fun b => negb (byte_eqb b (n2b 44))) p = true -> ~ In (n2b 44) p).
  { intros p H I. rewrite forallb_forall in H. apply H in I. discriminate. }
  split; right.
  - exists [SNoDefaultPayload], (str "Debug, Clone ,Eq"), [SPayloadsDerive (str "Copy")]. split; [reflexivity|].
    split; [intros t [C|[]]; discriminate|]. exists [str "Debug"; str " Clone "; str "Eq"]. split; [discriminate|]. split; [reflexivity|].
    split; [repeat constructor; apply N; reflexivity|].
    constructor; [split; [apply T; reflexivity|exists [], []; auto]|].
    constructor; [split; [apply T; reflexivity|exists (str " "), (str " "); auto]|].
    constructor; [split; [apply T; reflexivity|exists [], []; auto]|constructor].
  - exists [], (str "Debug,"), []. split; [reflexivity|]. split; [intros t []|]. exists [str "Debug"; []]. split; [discriminate|].
    split; [reflexivity|]. split; [repeat constructor; apply N; reflexivity|].
    constructor; [split; [apply T; reflexivity|exists [], []; auto]|].
    constructor; [split; [apply T; exact I|exists [], []; auto]|constructor].
Qed.
(** A trait that all payloads derive and that is named in [payloads_derive] as well is derived twice; rustc refuses this. *)
Theorem C61_twice_refuted : exists s d cfg e,
  parse_config [EAssign (word (str "payloads_derive")) (EStr (str "Debug"))] = Some cfg /\
  parse_payload s = Some d /\ gen_payloads cfg [d] = Some e /\ ~ NoDup (en_derives e).
Proof.
  exists (src_payload [word (str "bincode")] (str "Note")). eexists _, _, _. split; [vm_compute; reflexivity|]. split; [vm_compute; reflexivity|].
  split; [vm_compute; reflexivity|]. cbn [en_derives]. intros N. inversion N as [|x l H _]; subst. apply H. now left.
Qed.
Print Assumptions C61_twice_refuted.
Example C61_example :
  let b ds := mk_block_decl None sc_a ds in
  en_derives (gen_blocks [b [str "Debug"; str "Clone"; str "Default"]; b [str "Clone"; str "Debug"]]) = [str "Debug"; str "Clone"] /\
  option_map en_derives (gen_payloads [SPayloadsDerive (str "Debug, Clone")] []) = Some [str "Debug"; str "Clone"].
Proof. vm_compute. auto. Qed.
(** Not every trait that the types derive can be derived for the enum: [Default] needs a variant marked as default. *)
Theorem C61_derivable_refuted : exists s1 s2 d1 d2,
  parse_block env0 s1 = Some d1 /\ parse_block env0 s2 = Some d2 /\
  In (str "Default") (en_derives (gen_blocks (map snd (co_blocks (collect [d1; d2] []))))).
Proof.
  exists (mk_block_src [] (str "One") false (Some [(str "id", TyPath [str "u32"])]) [str "Debug"; str "Default"]).
  exists (mk_block_src [] (str "Two") false (Some [(str "id", TyPath [str "u32"])]) [str "Default"; str "Clone"]).
  eexists _, _. split; [vm_compute; reflexivity|]. split; [vm_compute; reflexivity|]. vm_compute. now left.
Qed.
Print Assumptions C61_derivable_refuted.

(** ** C62: full claim: an attribute that is not documented is refused.
    A misspelt [no_crc], or a path of one segment, is accepted and has no effect. *)
Theorem C62_unknown_refuted : exists w s d,
  ~ documented block_words (word w) /\ bs_attrs s = [word w] /\ parse_block env0 s = Some d /\
  s_no_crc (bd_schema d) = false /\ bd_path d = None.
Proof.
  exists (str "nocrc"), (src_block [word (str "nocrc")] (str "Cd") [(str "id", TyPath [str "u32"])]). eexists.
  split; [|split; [reflexivity|split; [vm_compute; reflexivity|split; reflexivity]]].
  intros [(w & [<-|[]] & E)|(p & E)]; [discriminate|]. now apply word_no_path in E.
Qed.
Print Assumptions C62_unknown_refuted.
(** For every such word, for blocks and payloads. *)
Theorem C62_unknown_ignored : forall w es,
  (~ In w block_words -> parse_battrs (word w :: es) = parse_battrs es) /\
  (~ In w payload_words -> parse_pattrs (word w :: es) = parse_pattrs es).
Proof.
  intros w es. split; intros N.
  - rewrite battrs_cons. cbn [parse_battr word get_ident]. replace (bytes_eqb w (str "no_crc")) with false.
    + cbn [obind app]. now destruct (parse_battrs es).
    + symmetry. apply eqb_neq. intros ->. apply N. now left.
  - rewrite pattrs_cons, parse_word. cbn [obind]. replace (flag_of w) with (@nil pattr); [now destruct (parse_pattrs es)|].
    unfold flag_of. repeat match goal with |- context [bytes_eqb w ?x] => let q := fresh in destruct (bytes_eqb w x) eqn:q;
      [apply eqb_str in q; exfalso; apply N; subst w; cbn; tauto|clear q] end. reflexivity.
Qed.
Print Assumptions C62_unknown_ignored.
(** What holds: refused is exactly what is neither a word nor a path; documented words and paths have their effect (C64, C65). *)
Theorem C62_refused_partial : forall es,
  (parse_battrs es = None <-> exists e, In e es /\ nonsense e) /\ (parse_pattrs es = None <-> exists e, In e es /\ nonsense e).
Proof. intros es. split; [apply battrs_refused|apply pattrs_refused]. Qed.
Print Assumptions C62_refused_partial.
(** The parameters of [generate!]: everything else is refused. *)
Theorem C62_settings : forall es cfg, parse_config es = Some cfg <-> Forall2 setting_means es cfg.
Proof. exact config_means. Qed.
Print Assumptions C62_settings.
Example C62_example :
  parse_battrs [word (str "no_crc"); EAssign (word (str "path")) (EStr (str "crate::x"))] = Some [BNoCrc; BPath [str "crate"; str "x"]] /\
  parse_battrs [EAssign (word (str "pth")) (EPath [str "x"])] = None /\ parse_battrs [word (str "crate")] = Some [] /\
  parse_config [word (str "no_default_payload")] = Some [SNoDefaultPayload] /\ parse_config [word (str "no_default_payloads")] = None.
Proof. vm_compute. auto 6. Qed.

(** ** C63: full claim: the generated code compiles for all settings.
    With [no_default_payload] and a payload of one's own the generated functions name variants that do not exist. *)
Theorem C63_no_default_refuted : exists cfg s d e,
  parse_config [word (str "no_default_payload")] = Some cfg /\ parse_payload s = Some d /\
  gen_payloads cfg (map snd (co_payloads (collect [] [d]))) = Some e /\ ~ compiles e.
Proof.
  exists [SNoDefaultPayload], (src_payload [word (str "bincode")] (str "Mine")). eexists _, _.
  split; [vm_compute; reflexivity|]. split; [vm_compute; reflexivity|]. split; [vm_compute; reflexivity|].
  intros [_ C]. destruct (C (str "Bytes")) as [C1 _]. cbn [en_arms en_variants] in C1. destruct C1 as [Q|[]]; [right; now left|discriminate].
Qed.
Print Assumptions C63_no_default_refuted.
(** For every set of payloads. *)
Theorem C63_no_default : forall cfg ps e, gen_payloads cfg ps = Some e -> In SNoDefaultPayload cfg ->
  (exists v, In v [str "Bytes"; str "String"] /\ ~ In v (map payload_variant ps)) -> ~ compiles e.
Proof.
  intros cfg ps e H ND (v & I & N). apply no_default_in in ND. apply (no_default_broken cfg ps e H ND). exists v. split; [exact I|].
  assert (EP : forall d, pd_fullname d = payload_variant d) by (intros d; apply fullname_variant). now rewrite (map_ext _ _ EP).
Qed.
Print Assumptions C63_no_default.
(** What holds: with the default payloads, and no payload called Bytes or String, both enums compile, for all declarations and
    all orders (missing: [no_default_payload] and these two names). *)
Theorem C63_compiles_partial : forall cfg bs ps border porder e,
  Permutation border (map snd (co_blocks (collect bs ps))) -> Permutation porder (map snd (co_payloads (collect bs ps))) ->
  gen_payloads cfg porder = Some e -> ~ In SNoDefaultPayload cfg ->
  (forall d, In d ps -> ~ In (payload_variant d) [str "Bytes"; str "String"]) ->
  compiles (gen_blocks border) /\ compiles e.
Proof.
  intros cfg bs ps border porder e HB HP H ND N. apply no_default_out in ND. split; [exact (blocks_compile bs ps border HB)|].
  apply (payloads_compile cfg bs ps porder e HP H ND). intros d I.
  assert (EP : pd_fullname d = payload_variant d) by apply fullname_variant. rewrite EP. apply N.
  apply (Permutation_in _ HP) in I. apply (C59_first_wins bs ps) in I as (pre & post & -> & _). rewrite in_app_iff. right. now left.
Qed.
Print Assumptions C63_compiles_partial.
(** Which parts are generated at all. *)
Theorem C63_parts : forall cfg bs ps b p pk, generate cfg bs ps = Some (b, p, pk) ->
  (pk = true <-> bs <> [] /\ (ps <> [] \/ ~ In SNoDefaultPayload cfg)) /\
  (b = None <-> bs = []) /\ (p = None <-> ps = [] /\ In SNoDefaultPayload cfg).
Proof. intros cfg bs ps b p pk H. rewrite <- no_default_in, not_true_iff_false. exact (generate_packet cfg bs ps b p pk H). Qed.
Print Assumptions C63_parts.
Example C63_example : exists b e,
  generate [] [mk_block_decl None sc_a []] [d_plumless; d_buckeroo] = Some (Some b, Some e, true) /\
  en_variants e = [str "Plumless"; str "Buckeroo"; str "Bytes"; str "String"] /\ compiles e.
Proof.
  eexists _, _. split; [vm_compute; reflexivity|]. split; [reflexivity|]. split; [|cbn [en_arms en_variants]; tauto].
  apply nodup_bytes. vm_compute. reflexivity.
Qed.

(** ** C64: a block is what was declared: the fields in their order with their types, the checksum unless [no_crc] is among the
    attributes, the first path; and a declaration is refused exactly when it cannot be encoded. *)
Theorem C64_block_declaration : forall env s,
  (forall d, Forall good_text (bs_attrs s) -> parse_block env s = Some d -> block_means env s d) /\
  (parse_block env s = None <-> bad_block env s).
Proof. intros env s. split; [intros d; exact (parse_block_means env s d)|exact (parse_block_bad env s)]. Qed.
Print Assumptions C64_block_declaration.
Theorem C64_payload_declaration : forall s,
  (forall d, Forall good_text (ps_attrs s) -> parse_payload s = Some d ->
     pd_name d = ps_name s /\ pd_derives d = ps_derives s /\ first_path (ps_attrs s) (pattr_path (pd_attrs d))) /\
  (parse_payload s = None <-> (exists e, In e (ps_attrs s) /\ nonsense e) \/ ps_generic s = true \/ ps_data s = false).
Proof. intros s. split; [intros d; exact (parse_payload_means s d)|exact (parse_payload_bad s)]. Qed.
Print Assumptions C64_payload_declaration.
Example C64_example :
  let s := src_block [EAssign (word (str "path")) (EStr (str "crate::x")); word (str "no_crc")] (str "Log")
             [(str "level", TyPath [str "Level"]); (str "at", TyPath [str "u64"]); (str "msg", u8s 20)] in
  Forall good_text (bs_attrs s) /\
  match parse_block env0 s with
  | Some d => map (fun f => (fst f, rust_type (snd f))) (s_fields (bd_schema d))
                = [(str "level", str "Level"); (str "at", str "u64"); (str "msg", str "[u8;20]")]
              /\ s_no_crc (bd_schema d) = true /\ bd_path d = Some [str "crate"; str "x"]
  | None => False
  end /\
  parse_block env0 (src_block [] (str "Log") [(str "__crc", TyPath [str "u64"])]) = None /\
  parse_block env0 (src_block [] (str "Log") [(str "msg", TyArray (TyPath [str "u16"]) (Some 4%nat))]) = None /\
  parse_block env0 (src_block [] (str "Log") [(str "msg", TyPath [str "std"; str "string"; str "String"])]) = None.
Proof.
  cbv zeta. split; [|vm_compute; auto].
  constructor; [|constructor; [exact I|constructor]]. exists [str "crate"; str "x"]. apply path_text; [discriminate| |reflexivity].
  assert (T : forall s, forallb (fun b => negb (existsb (N.eqb (b2n b)) [32; 58])) s = true -> segment s).
  { intros s H b I J. rewrite forallb_forall in H. apply H in I. apply negb_true_iff in I.
    assert (X : existsb (N.eqb (b2n b)) [32; 58] = true) by (apply existsb_exists; exists (b2n b); split; [exact J|apply N.eqb_refl]). congruence. }
  constructor; [apply T; reflexivity|constructor; [apply T; reflexivity|constructor]].
Qed.

(** ** C65: full claim: [no_crc] switches the verification of a payload's checksum off.
    A checksum field that is not zero is still refused, and without [bincode] the attribute has no effect. *)
Definition src_quiet : payload_src := src_payload [word (str "bincode"); word (str "no_crc")] (str "Quiet").
Theorem C65_no_crc_refuted : exists d crc body v,
  parse_payload src_quiet = Some d /\ bc_decode code_num body = Some v /\
  pk_read stream_reader (kind_of d code_num k_num) (mk_pheader (pk_sig (kind_of d code_num k_num)) crc (blen body)) body = (Err ECrcDismatch, []).
Proof.
  eexists _, (le 4 1), (le 4 77), 77. split; [vm_compute; reflexivity|]. split; vm_compute; reflexivity.
Qed.
Print Assumptions C65_no_crc_refuted.
Theorem C65_no_crc_alone : forall V s d (code : bincode V) user, Forall good_text (ps_attrs s) -> parse_payload s = Some d ->
  ~ has (str "bincode") s -> forall v, pk_crc (kind_of d code user) v = pk_crc user v.
Proof. intros V s d code user. exact (kind_plain s d code user). Qed.
Print Assumptions C65_no_crc_alone.
Example C65_alone_example : exists d, parse_payload (src_payload [word (str "no_crc")] (str "Quiet")) = Some d /\
  ~ has (str "bincode") (src_payload [word (str "no_crc")] (str "Quiet")) /\
  pk_crc (kind_of d code_num k_num) 77 = IOk (crc32_le (le 4 77)).
Proof. eexists. split; [vm_compute; reflexivity|]. split; [intros [Q|[]]; discriminate|vm_compute; reflexivity]. Qed.
(** What holds for [bincode] payloads: with [no_crc] the field is written as four zeros, and with zeros in the field every body
    that decodes is accepted; without [no_crc] and [no_auto_crc] the checksum is the CRC32 of the encoding (so C58 applies);
    with [no_auto_crc] alone it is the one the user implements. *)
Theorem C65_no_crc_partial : forall V s d (code : bincode V) user, Forall good_text (ps_attrs s) -> parse_payload s = Some d ->
  has (str "bincode") s ->
  let k := kind_of d code user in
  (has (str "no_crc") s ->
     (forall v h, ph_new k v = Ok h -> ph_crc h = repeat (n2b 0) 4) /\
     forall S (R : reader S) view okst, lawful R view okst ->
     forall body v x rest, bc_decode code body = Some v -> okst x -> view x = body ++ rest ->
     exists x', pk_read R k (mk_pheader (pk_sig k) (repeat (n2b 0) 4) (blen body)) x = (Ok v, x') /\ view x' = rest) /\
  (~ has (str "no_crc") s -> ~ has (str "no_auto_crc") s -> auto_crc k) /\
  (~ has (str "no_crc") s -> has (str "no_auto_crc") s -> forall v, pk_crc k v = pk_crc user v).
Proof.
  intros V s d code user G H B k. split; [|split].
  - intros N. destruct (kind_no_crc s d code user G H B N) as (C & _). split.
    + intros v h E. unfold ph_new in E. destruct (io (pk_size k v)) as [len| |]; cbn [rbind] in E; try discriminate.
      destruct (u32_max <? len); [discriminate|]. fold k in C. rewrite C in E. cbn [io rbind] in E. injection E as <-. reflexivity.
    + intros S R view okst L body v x rest. exact (no_crc_read s d code user R view okst L G H B N body v x rest).
  - intros N A. exact (kind_auto s d code user G H B N A).
  - intros N A v. unfold k. now rewrite (kind_own_crc s d code user G H B N A).
Qed.
Print Assumptions C65_no_crc_partial.
Example C65_example : exists d, Forall good_text (ps_attrs src_quiet) /\ parse_payload src_quiet = Some d /\
  has (str "bincode") src_quiet /\ has (str "no_crc") src_quiet /\
  pk_read stream_reader (kind_of d code_num k_num) (mk_pheader (pk_sig (kind_of d code_num k_num)) (repeat (n2b 0) 4) 4) (le 4 78) = (Ok 78, []).
Proof.
  eexists. split; [repeat constructor|]. split; [vm_compute; reflexivity|]. split; [now left|]. split; [right; now left|]. vm_compute. reflexivity.
Qed.

(** ** C79: from the declarations of a crate to packets that come back. *)
Theorem C79_declared_round_trip : forall U env bss bds pss pds (codes : payload_decl -> bincode U * pkind U) border porder,
  Forall2 (fun s d => parse_block env s = Some d) bss bds ->
  Forall2 (fun s d => Forall good_text (ps_attrs s) /\ parse_payload s = Some d) pss pds ->
  (forall n, linked_ok (mk_linked n (fst (env n)) (snd (env n)))) ->
  (forall s fs f, In s bss -> bs_fields s = Some fs -> In f fs -> fst f <> str "crc") ->
  NoDup (map block_variant bds) -> NoDup (map payload_variant pds) ->
  Permutation border (map snd (co_blocks (collect bds pds))) -> Permutation porder (map snd (co_payloads (collect bds pds))) ->
  let P := mk_proto (map bd_schema border) (map (fun d => kind_of d (fst (codes d)) (snd (codes d))) porder) in
  proto_ok P ->
  forall (vals : list (block_decl * list fval)) (pl : option (payload U)),
  Forall (fun x => In (fst x) bds /\ vals_ok (bd_schema (fst x)) (snd x)) vals -> (length vals <= 256)%nat ->
  declared_value (combine pss pds) codes pl ->
  let p := mk_packet (map (fun x => mk_block (bd_schema (fst x)) (snd x)) vals) pl in
  blen (concat (map bk_encode (p_blocks p))) < 2 ^ 62 ->
  exists e, written (pkt_write_all p) e /\
    forall S (R : reader S) view okst, lawful R view okst ->
    forall s rest, okst s -> view s = e ++ rest ->
    exists s', pkt_read R P s = (Ok p, s') /\ view s' = rest /\ okst s'.
Proof.
  intros U env bss bds pss pds codes border porder FB FP HL HC NB NP PB PP P HP vals pl FV LV HD p LB.
  destruct (C59_declared_partial bds pds border NB PB) as (PB' & _). pose proof (C59_payloads_partial bds pds porder NP PP) as PP'.
  assert (TAIL : exists tail, payload_part (pr_kinds P) (p_payload p) tail /\ blen tail <= u32_max + 14).
  { cbn [p_payload p]. destruct pl as [[k v|v|v]|]; cbn [payload_part declared_value] in *.
    - destruct HD as (s & d & body & I & -> & B & A & SG & CO).
      assert (Q : Forall good_text (ps_attrs s) /\ parse_payload s = Some d /\ In d pds).
      { clear - FP I. induction FP as [|s0 d0 pss pds H FP IH]; cbn [combine In] in I; [easy|]. destruct I as [E|I].
        - apply pair_equal_spec in E as [-> ->]. split; [apply H|]. split; [apply H|now left].
        - apply IH in I as (I1 & I2 & I3). split; [exact I1|]. split; [exact I2|now right]. }
      destruct Q as (G & Q & ID). destruct (declared_encodes s d (fst (codes d)) (snd (codes d)) v body G Q B A SG CO) as (crc & EN & L4).
      destruct (kind_sig s d (fst (codes d)) (snd (codes d)) G Q) as (_ & SG').
      eexists. split.
      + exists body, crc. split; [|split; [exact L4|reflexivity]]. cbn [payload_ok]. split; [|exact EN].
        cbn [P pr_kinds]. apply in_map_iff. exists d. split; [reflexivity|]. apply (Permutation_in d (Permutation_sym PP') ID).
      + destruct CO as (_ & _ & _ & L). unfold ph_bytes. cbn [pl_sig ph_sig ph_crc ph_len]. rewrite !blen_app, blen_le4, !blen1, L4, (SG' SG).
        replace (blen (crc32_le (payload_variant d))) with 4 by (unfold blen; now rewrite crc32_le_length). lia.
    - assert (L4 : blen (crc32_le v) = 4) by (unfold blen; now rewrite crc32_le_length).
      eexists. split.
      + exists v, (crc32_le v). split; [|split; [exact L4|reflexivity]]. cbn [payload_ok]. split; [reflexivity|].
        now apply encodes_bytes.
      + unfold ph_bytes. cbn [pl_sig ph_sig ph_crc ph_len]. rewrite !blen_app, blen_le4, !blen1, L4.
        change (blen (pk_sig bytes_kind)) with 4. lia.
    - destruct HD as [HU HD]. assert (L4 : blen (crc32_le v) = 4) by (unfold blen; now rewrite crc32_le_length).
      eexists. split.
      + exists v, (crc32_le v). split; [|split; [exact L4|reflexivity]]. cbn [payload_ok]. split; [reflexivity|]. split; [exact HU|].
        now apply encodes_string.
      + unfold ph_bytes. cbn [pl_sig ph_sig ph_crc ph_len]. rewrite !blen_app, blen_le4, !blen1, L4.
        change (blen (pk_sig string_kind)) with 4. lia.
    - exists []. split; [reflexivity|]. change (blen []) with 0. lia. }
  destruct TAIL as (tail & PT & LT). eexists. apply (C01_read_round_trip U P p); [exact HP| |cbn [p p_blocks]; now rewrite map_length].
  exists tail. split; [|split; [exact PT|split; [|reflexivity]]].
  - cbn [p p_blocks]. apply Forall_map. revert FV. apply Forall_impl. intros [d vs] (ID & HV). cbn [fst snd] in *.
    split; [cbn [bk_ty P pr_blocks]; apply in_map; apply (Permutation_in d (Permutation_sym PB') ID)|]. cbn [bk_ty bk_vals]. split; [|exact HV].
    assert (Q : exists s, In s bss /\ parse_block env s = Some d).
    { clear - FB ID. induction FB as [|s0 d0 bss bds H FB IH]; [easy|]. destruct ID as [->|ID].
      - exists s0. split; [now left|exact H].
      - apply IH in ID as (s & I & E). exists s. split; [now right|exact E]. }
    destruct Q as (s & IS & E). apply (declared_schema_ok env s d E HL). intros fs f. now apply HC.
  - unfold u32_max in LT. unfold two63. change (2 ^ 62) with 4611686018427387904 in LB. lia.
Qed.
Print Assumptions C79_declared_round_trip.
(** A crate with two blocks (one in a module, with an enum as a field) and a bincode payload, blocks delivered by the hash map in
    the other order. *)
Definition src_log : block_src := src_block [EAssign (word (str "path")) (EPath [str "crate"; str "logs"])] (str "Log")
  [(str "level", TyPath [str "Level"]); (str "at", TyPath [str "u64"]); (str "msg", u8s 5)].
Definition src_pos : block_src := src_block [word (str "no_crc")] (str "Pos") [(str "x", TyPath [str "i32"])].
Definition src_num : payload_src := src_payload [word (str "bincode")] (str "Num").
Definition get {A} (o : option A) (d : A) : A := match o with Some a => a | None => d end.
Definition d_log : block_decl := get (parse_block env0 src_log) (mk_block_decl None sc_a []).
Definition d_pos : block_decl := get (parse_block env0 src_pos) (mk_block_decl None sc_a []).
Definition d_num : payload_decl := get (parse_payload src_num) d_plumless.
Example C79_example :
  let codes (_ : payload_decl) := (code_num, k_num) in
  let border := [d_pos; d_log] in
  let P := mk_proto (map bd_schema border) [kind_of d_num code_num k_num] in
  let vals := [(d_log, [VEnum 2; VN 77; VBlob (str "hello")]); (d_pos, [VZ (-3)])] in
  let pl := Some (PUser (kind_of d_num code_num k_num) 5) in
  Forall2 (fun s d => parse_block env0 s = Some d) [src_log; src_pos] [d_log; d_pos] /\
  Forall2 (fun s d => Forall good_text (ps_attrs s) /\ parse_payload s = Some d) [src_num] [d_num] /\
  (forall n, linked_ok (mk_linked n (fst (env0 n)) (snd (env0 n)))) /\
  (forall s fs f, In s [src_log; src_pos] -> bs_fields s = Some fs -> In f fs -> fst f <> str "crc") /\
  NoDup (map block_variant [d_log; d_pos]) /\ NoDup (map payload_variant [d_num]) /\
  Permutation border (map snd (co_blocks (collect [d_log; d_pos] [d_num]))) /\
  Permutation [d_num] (map snd (co_payloads (collect [d_log; d_pos] [d_num]))) /\ proto_ok P /\
  Forall (fun x => In (fst x) [d_log; d_pos] /\ vals_ok (bd_schema (fst x)) (snd x)) vals /\
  declared_value (combine [src_num] [d_num]) codes pl /\
  blen (concat (map bk_encode (map (fun x => mk_block (bd_schema (fst x)) (snd x)) vals))) = 34.
Proof.
  cbv zeta. split; [repeat constructor|]. split; [repeat constructor|].
  split.
  { intros n b v. unfold env0. cbn [fst snd l_of l_to]. exact (fun H => colour_ok b v H). }
  split.
  { intros s fs f [<-|[<-|[]]] E I; apply (f_equal (fun o => get o [])) in E; cbn [get] in E;
      [assert (Q : In f (get (bs_fields src_log) [])) by (now rewrite E)|assert (Q : In f (get (bs_fields src_pos) [])) by (now rewrite E)];
      cbn [src_log src_pos src_block bs_fields get In] in Q; intuition (subst; discriminate). }
  split; [apply nodup_bytes; vm_compute; reflexivity|]. split; [apply nodup_bytes; vm_compute; reflexivity|].
  split.
  { replace (map snd (co_blocks (collect [d_log; d_pos] [d_num]))) with [d_log; d_pos] by (vm_compute; reflexivity). apply perm_swap. }
  split; [replace (map snd (co_payloads (collect [d_log; d_pos] [d_num]))) with [d_num] by (vm_compute; reflexivity); apply Permutation_refl|].
  split; [split; apply nodup_bytes; vm_compute; reflexivity|].
  split; [|split; [|vm_compute; reflexivity]].
  - constructor; [split; [now left|]|constructor; [split; [right; now left|]|constructor]]; unfold vals_ok; cbn [fst snd].
    + repeat constructor; vm_compute; repeat split; try discriminate; auto.
    + repeat constructor; vm_compute; repeat split; try discriminate; auto.
  - exists src_num, d_num, (le 4 5). split; [now left|]. split; [reflexivity|]. split; [now left|].
    split; [intros [Q|[]]; discriminate|]. split; [intros [Q|[]]; discriminate|]. vm_compute. repeat split; discriminate.
Qed.
