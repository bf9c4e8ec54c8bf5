(** * Proofs about what the macros make of a crate's declarations. *)
From Coq Require Import ZifyBool ZifyNat ZifyN Permutation.
From Verif Require Import Base Crc32 Io Block Payload Macros Spec SpecMacros BaseProofs CrcProofs.
Ltac Zify.zify_post_hook ::= Z.div_mod_to_equations.
Open Scope list_scope.

Lemma eqb_str a b : bytes_eqb a b = true <-> a = b.
Proof. split; [apply bytes_eqb_eq|intros ->; apply bytes_eqb_refl]. Qed.
Lemma eqb_neq a b : bytes_eqb a b = false <-> a <> b.
Proof. rewrite <- eqb_str. destruct (bytes_eqb a b); split; congruence. Qed.

(** ** Field types *)

Lemma ident_ty_means env n : type_means env (TyPath [n]) (ident_ty env n).
Proof.
  unfold ident_ty.
  repeat match goal with
  | |- type_means _ (TyPath [?n]) (if bytes_eqb ?n ?w then _ else _) =>
      let q := fresh in destruct (bytes_eqb n w) eqn:q; [apply eqb_str in q; subst n; match goal with |- type_means _ _ ?t => exact (means_primitive env t I) end|apply eqb_neq in q]
  end.
  apply means_enum. intros t P. destruct t as [w|w|w| | |]; try easy; try destruct w; cbn [rust_type]; congruence.
Qed.

Lemma means_ident env src t : type_means env src t -> forall n, src = TyPath [n] ->
  primitive t /\ rust_type t = n \/
  (forall t, primitive t -> rust_type t <> n) /\ t = TLinked (mk_linked n (fst (env n)) (snd (env n))).
Proof. intros [u P|k|m NE] n E; [injection E as E; now left|discriminate|injection E as <-; right; split; [exact NE|reflexivity]]. Qed.

Lemma ident_ty_only env n t : type_means env (TyPath [n]) t -> t = ident_ty env n.
Proof.
  intros H. destruct (means_ident env _ _ H n eq_refl) as [[P E]|[NE ->]].
  - subst n. destruct t as [w|w|w| | |]; try easy; try destruct w; reflexivity.
  - destruct (means_ident env _ _ (ident_ty_means env n) n eq_refl) as [[P E]|[_ E]]; [|now rewrite E]. now destruct (NE _ P).
Qed.

Lemma parse_ty_means env src t : parse_ty env src = Some t <-> type_means env src t.
Proof.
  split.
  - destruct src as [segs|elem len| |]; cbn [parse_ty]; try discriminate.
    + destruct segs as [|n [|]]; cbn [get_ident obind]; try discriminate. intros H. injection H as <-. apply ident_ty_means.
    + destruct (parse_ty env elem) as [t0|] eqn:E; [|discriminate].
      assert (EL : t0 = TU W8 -> elem = TyPath [str "u8"]).
      { intros ->. destruct elem as [segs|e l| |]; cbn [parse_ty] in E; try discriminate.
        - destruct segs as [|n [|]]; cbn [get_ident obind] in E; try discriminate. injection E as E.
          pose proof (ident_ty_means env n) as M. rewrite E in M. inversion M; subst; reflexivity.
        - destruct (parse_ty env e) as [[[]|[]| | | |]|]; try discriminate. destruct l; cbn [obind] in E; discriminate. }
      destruct t0 as [[]|[]| | | |]; try discriminate. destruct len as [n|]; cbn [obind]; [|discriminate].
      intros H. injection H as <-. rewrite EL by reflexivity. constructor.
  - intros H. destruct src as [segs|elem len| |].
    + assert (S1 : exists n, segs = [n]) by (inversion H; eauto). destruct S1 as (n & ->).
      cbn [parse_ty get_ident obind]. now rewrite (ident_ty_only _ _ _ H).
    + inversion H; subst. reflexivity.
    + inversion H.
    + inversion H.
Qed.

Lemma parse_field_means env src f : parse_field env src = Some f <-> field_means env src f.
Proof.
  unfold parse_field, field_means, is_reserved_name. destruct src as [n t], f as [n' t']. cbn [fst snd In].
  destruct (bytes_eqb n (str "__sig")) eqn:A; cbn [orb].
  { apply eqb_str in A. split; [discriminate|]. intros (_ & H & _). exfalso. apply H. now left. }
  destruct (bytes_eqb n (str "__crc")) eqn:B; cbn [orb].
  { apply eqb_str in B. split; [discriminate|]. intros (_ & H & _). exfalso. apply H. right. now left. }
  apply eqb_neq in A, B. rewrite <- parse_ty_means. destruct (parse_ty env t) as [u|]; cbn [obind].
  - split.
    + intros H. injection H as <- <-. repeat split. intros [Q|[Q|[]]]; congruence.
    + intros (-> & _ & H). injection H as ->. reflexivity.
  - split; [discriminate|]. intros (_ & _ & H). discriminate.
Qed.

Lemma omap_forall2 {A B} (f : A -> option B) l r : omap f l = Some r <-> Forall2 (fun x y => f x = Some y) l r.
Proof.
  revert r. induction l as [|x l IH]; intros r; cbn [omap].
  - split; [intros H; injection H as <-; constructor|intros H; now inversion H].
  - destruct (f x) as [y|] eqn:E; cbn [obind].
    + destruct (omap f l) as [ys|]; cbn [obind].
      * split; [intros H; injection H as <-; constructor; [exact E|now apply IH]|].
        intros H. inversion H as [|? y' ? r' Q F]; subst. rewrite E in Q. injection Q as ->. apply IH in F. injection F as ->. reflexivity.
      * split; [discriminate|]. intros H. inversion H as [|? y' ? r' Q F]; subst. apply IH in F. discriminate.
    + split; [discriminate|]. intros H. inversion H as [|? y' ? r' Q F]; subst. congruence.
Qed.

Lemma parse_fields_means env src fs : omap (parse_field env) src = Some fs <-> Forall2 (field_means env) src fs.
Proof.
  rewrite omap_forall2. split; intros H; (induction H as [|a b l r H F IH]; constructor; [now apply parse_field_means|exact IH]).
Qed.

(** ** Attributes *)

Lemma split_colons_seg s acc rest : segment s ->
  split_colons acc (s ++ str "::" ++ rest) = (rev acc ++ s) :: split_colons [] rest.
Proof.
  revert acc. induction s as [|b s IH]; intros acc H.
  - cbn. now rewrite app_nil_r.
  - assert (B : byte_eqb b (n2b 58) = false).
    { unfold byte_eqb. apply N.eqb_neq. intros E. apply (H b); [now left|]. rewrite E. right. now left. }
    assert (HS : segment s) by (intros c I; apply H; now right).
    cbn [app split_colons]. specialize (IH (b :: acc) HS). cbn [rev] in IH. rewrite <- app_assoc in IH. cbn [app] in IH. rewrite <- IH.
    destruct s as [|c s]; cbn [app]; rewrite B; reflexivity.
Qed.
Lemma split_colons_last s acc : segment s -> split_colons acc s = [rev acc ++ s].
Proof.
  revert acc. induction s as [|b s IH]; intros acc H; cbn [split_colons]; [now rewrite app_nil_r|].
  assert (B : byte_eqb b (n2b 58) = false).
  { unfold byte_eqb. apply N.eqb_neq. intros E. apply (H b); [now left|]. rewrite E. right. now left. }
  assert (HS : segment s) by (intros c I; apply H; now right).
  specialize (IH (b :: acc) HS). cbn [rev] in IH. rewrite <- app_assoc in IH. cbn [app] in IH.
  destruct s as [|c s]; [exact IH|]. rewrite B. cbn [andb]. exact IH.
Qed.
Lemma split_join p : p <> [] -> Forall segment p -> split_colons [] (join (str "::") p) = p.
Proof.
  induction p as [|s p IH]; intros NE F; [easy|]. inversion F as [|? ? S1 F']; subst.
  destruct p as [|s' p]; [cbn [join]; now apply split_colons_last|].
  change (join (str "::") (s :: s' :: p)) with (s ++ str "::" ++ join (str "::") (s' :: p)).
  rewrite split_colons_seg by easy. cbn [rev app]. now rewrite IH.
Qed.
Lemma trim_start_seg s : segment s -> trim_start s = s.
Proof.
  destruct s as [|b s]; intros H; [reflexivity|]. cbn [trim_start].
  replace (byte_eqb b (n2b 32)) with false; [reflexivity|]. symmetry. unfold byte_eqb. apply N.eqb_neq.
  intros E. apply (H b); [now left|]. rewrite E. now left.
Qed.
Lemma trim_seg s : segment s -> trim s = s.
Proof.
  intros H. unfold trim. rewrite (trim_start_seg s H).
  assert (H' : segment (rev s)) by (intros b I; apply H; now apply in_rev). rewrite (trim_start_seg _ H'). apply rev_involutive.
Qed.
Lemma trims p : Forall segment p -> map trim p = p.
Proof. intros F. induction F as [|s p H F IH]; [reflexivity|]. cbn [map]. now rewrite IH, trim_seg. Qed.

Lemma path_expr_module e p : path_expr e p -> module_path e = Some p.
Proof. intros [q|q text NE F ->]; cbn [module_path]; [reflexivity|]. now rewrite split_join, trims. Qed.

(** Attribute strings that are paths (others are refused by the compiler later on). *)
Lemma parse_battr_path e p : path_attr e p -> parse_battr e = Some [BPath p].
Proof.
  intros [e' q H|q H]; cbn [parse_battr get_ident obind].
  - rewrite bytes_eqb_refl, (path_expr_module _ _ H). reflexivity.
  - destruct q as [|a [|]]; [reflexivity|now destruct H|reflexivity].
Qed.
Lemma parse_pattr_path e p : path_attr e p -> parse_pattr e = Some [PPath p].
Proof.
  intros [e' q H|q H]; cbn [parse_pattr get_ident obind].
  - rewrite bytes_eqb_refl, (path_expr_module _ _ H). reflexivity.
  - destruct q as [|a [|]]; [reflexivity|now destruct H|reflexivity].
Qed.

Lemma ns_parse e : nonsense e -> parse_battr e = None /\ parse_pattr e = None.
Proof.
  intros [t| |l r H|l r H H']; cbn [parse_battr parse_pattr]; auto.
  - destruct l as [segs|t|a b|]; auto. destruct segs as [|k [|]]; cbn [get_ident obind]; auto.
    replace (bytes_eqb k (str "path")) with false; [auto|]. symmetry. apply eqb_neq. intros ->. now apply H.
  - destruct l as [segs|t|a b|]; auto. destruct segs as [|k [|]]; cbn [get_ident obind]; auto.
    destruct (bytes_eqb k (str "path")); auto. destruct r; cbn [module_path obind]; auto; [now destruct (H segs)|now destruct (H' text)].
Qed.

(** Everything else is a path or a single word. *)
Lemma expr_cases e : nonsense e \/ (exists w, e = word w) \/ (exists p, parse_battr e = Some [BPath p] /\ parse_pattr e = Some [PPath p]).
Proof.
  destruct e as [segs|t|l r|]; [|left; constructor| |left; constructor].
  - destruct segs as [|w [|v segs]]; [right; right; now exists []|right; left; now exists w|right; right; now exists (w :: v :: segs)].
  - destruct l as [segs|t|a b|]; try (left; apply ns_key; discriminate).
    destruct segs as [|k [|]]; try (left; apply ns_key; discriminate).
    destruct (bytes_eqb k (str "path")) eqn:Q; [apply eqb_str in Q; subst k|left; apply ns_key; intros E; injection E as ->; now rewrite bytes_eqb_refl in Q].
    destruct r as [segs|t|a b|]; try (left; apply ns_value; intros; discriminate).
    + right; right. exists segs. split; reflexivity.
    + right; right. exists (map trim (split_colons [] t)). split; reflexivity.
Qed.

Lemma omap_none {A B} (f : A -> option B) l : omap f l = None <-> exists x, In x l /\ f x = None.
Proof.
  induction l as [|x l IH]; cbn [omap]; [split; [discriminate|intros (x & [] & _)]|].
  destruct (f x) as [y|] eqn:E; cbn [obind].
  - destruct (omap f l) as [ys|]; cbn [obind].
    + split; [discriminate|]. intros (z & [->|I] & Q); [congruence|]. destruct IH as [_ IH]. assert (D : Some ys = None) by (apply IH; eauto). discriminate.
    + split; [intros _|reflexivity]. destruct IH as [IH _]. destruct IH as (z & I & Q); [reflexivity|]. exists z. split; [now right|exact Q].
  - split; [intros _; exists x; split; [now left|exact E]|reflexivity].
Qed.

Lemma battrs_refused es : parse_battrs es = None <-> exists e, In e es /\ nonsense e.
Proof.
  unfold parse_battrs. destruct (omap parse_battr es) as [ls|] eqn:E; cbn [obind].
  - split; [discriminate|]. intros (e & I & H). assert (D : omap parse_battr es = None) by (apply omap_none; exists e; split; [exact I|apply ns_parse, H]).
    congruence.
  - split; [intros _|reflexivity]. apply omap_none in E as (e & I & Q). exists e. split; [exact I|].
    destruct (expr_cases e) as [H|[(w & ->)|(p & H & _)]]; [exact H|discriminate|congruence].
Qed.
Lemma pattrs_refused es : parse_pattrs es = None <-> exists e, In e es /\ nonsense e.
Proof.
  unfold parse_pattrs. destruct (omap parse_pattr es) as [ls|] eqn:E; cbn [obind].
  - split; [discriminate|]. intros (e & I & H). assert (D : omap parse_pattr es = None) by (apply omap_none; exists e; split; [exact I|apply ns_parse, H]).
    congruence.
  - split; [intros _|reflexivity]. apply omap_none in E as (e & I & Q). exists e. split; [exact I|].
    destruct (expr_cases e) as [H|[(w & ->)|(p & _ & H)]]; [exact H|discriminate|congruence].
Qed.

Lemma battrs_cons e es : parse_battrs (e :: es) =
  obind (parse_battr e) (fun a => obind (parse_battrs es) (fun b => Some (a ++ b))).
Proof.
  unfold parse_battrs. cbn [omap]. destruct (parse_battr e); [|reflexivity]. cbn [obind].
  destruct (omap parse_battr es); reflexivity.
Qed.
Lemma pattrs_cons e es : parse_pattrs (e :: es) =
  obind (parse_pattr e) (fun a => obind (parse_pattrs es) (fun b => Some (a ++ b))).
Proof.
  unfold parse_pattrs. cbn [omap]. destruct (parse_pattr e); [|reflexivity]. cbn [obind].
  destruct (omap parse_pattr es); reflexivity.
Qed.

Lemma word_no_path w p : ~ path_attr (word w) p.
Proof. intros H. inversion H; subst. cbn in *. lia. Qed.

Lemma path_attr_of e p : good_text e -> parse_battr e = Some [BPath p] -> path_attr e p.
Proof.
  intros G H. destruct (expr_cases e) as [N|[(w & ->)|_]]; [apply ns_parse in N as [N _]; congruence| |].
  - cbn [parse_battr word get_ident] in H. destruct (bytes_eqb w (str "no_crc")); discriminate.
  - destruct e as [segs|t|l r|]; cbn [parse_battr] in H; try discriminate.
    + destruct segs as [|a [|b segs]]; cbn [get_ident] in H.
      * injection H as <-. now apply path_shortcut.
      * destruct (bytes_eqb a (str "no_crc")); discriminate.
      * injection H as <-. now apply path_shortcut.
    + destruct l as [segs|t|a b|]; try discriminate. destruct segs as [|k [|]]; try discriminate. cbn [get_ident obind] in H.
      destruct (bytes_eqb k (str "path")) eqn:Q; [|discriminate]. apply eqb_str in Q. subst k. constructor.
      destruct r as [segs|t|a b|]; try discriminate; cbn [module_path obind] in H; injection H as <-; [constructor|].
      destruct G as (p & G). pose proof (path_expr_module _ _ G) as M. cbn [module_path] in M. injection M as M. now rewrite M.
Qed.

Lemma first_path_cons e es o : first_path (e :: es) o <->
  (exists p, path_attr e p /\ o = Some p) \/ (forall p, ~ path_attr e p) /\ first_path es o.
Proof.
  destruct o as [p|]; cbn [first_path].
  - split.
    + intros (pre & e' & post & E & H & F). destruct pre as [|x pre]; cbn [app] in E; injection E as E1 E2; subst.
      * left. eauto.
      * right. split; [intros q; apply F; now left|]. exists pre, e', post. repeat split; auto. intros e'' p' I. apply F. now right.
    + intros [(q & H & E)|(N & pre & e' & post & E & H & F)].
      * injection E as ->. exists [], e, es. repeat split; auto.
      * exists (e :: pre), e', post. subst es. repeat split; auto. intros e'' p' [<-|I]; [apply N|now apply F].
  - split.
    + intros H. right. split; [intros p; apply H; now left|intros e' p I; apply H; now right].
    + intros [(p & _ & E)|(N & F)]; [discriminate|]. intros e' p [<-|I]; [apply N|now apply F].
Qed.

Lemma battrs_means es : Forall good_text es -> forall attrs, parse_battrs es = Some attrs ->
  first_path es (battr_path attrs) /\ (is_no_crc attrs = true <-> In (word (str "no_crc")) es).
Proof.
  intros G. induction G as [|e es G GS IH]; intros attrs H.
  - injection H as <-. cbn. split; [intros e p []|]. split; [discriminate|easy].
  - rewrite battrs_cons in H. destruct (parse_battr e) as [a|] eqn:E; [|discriminate]. cbn [obind] in H.
    destruct (parse_battrs es) as [b|]; [|discriminate]. cbn [obind] in H. injection H as <-.
    specialize (IH b eq_refl). destruct IH as [IH1 IH2]. rewrite first_path_cons.
    destruct (expr_cases e) as [N|[(w & ->)|(p & P & _)]].
    + apply ns_parse in N as [N _]. congruence.
    + cbn [parse_battr word get_ident] in E. destruct (bytes_eqb w (str "no_crc")) eqn:Q; injection E as <-; cbn [app battr_path is_no_crc].
      * apply eqb_str in Q. subst w. split; [right; split; [apply word_no_path|exact IH1]|]. split; [now left|reflexivity].
      * split; [right; split; [apply word_no_path|exact IH1]|]. rewrite IH2. split; [now right|].
        intros [X|X]; [|exact X]. injection X as ->. now rewrite bytes_eqb_refl in Q.
    + rewrite P in E. injection E as <-. cbn [app battr_path is_no_crc]. pose proof (path_attr_of e p G P) as PA.
      split; [left; now exists p|]. rewrite IH2. split; [now right|]. intros [X|X]; [|exact X]. exfalso. subst e. now apply word_no_path in PA.
Qed.

Lemma pattr_path_of e p : good_text e -> parse_pattr e = Some [PPath p] -> path_attr e p.
Proof.
  intros G H. apply path_attr_of; [exact G|]. destruct (expr_cases e) as [N|[(w & ->)|(q & A & B)]].
  - apply ns_parse in N as [_ N]. congruence.
  - exfalso. cbn [parse_pattr word get_ident] in H.
    repeat match type of H with context [bytes_eqb w ?x] => destruct (bytes_eqb w x); [discriminate|] end. discriminate.
  - rewrite B in H. injection H as ->. exact A.
Qed.

Definition flag_of (w : bytes) : list pattr :=
  if bytes_eqb w (str "no_default_sig") then [PNoDefaultSig]
  else if bytes_eqb w (str "bincode") then [PBincode]
  else if bytes_eqb w (str "hooks") then [PHooks]
  else if bytes_eqb w (str "no_auto_crc") then [PNoAutoCrc]
  else if bytes_eqb w (str "no_crc") then [PNoCrc]
  else [].
Lemma parse_word w : parse_pattr (word w) = Some (flag_of w).
Proof. reflexivity. Qed.

Lemma flags w :
  existsb (fun a => match a with PBincode => true | _ => false end) (flag_of w) = bytes_eqb w (str "bincode") /\
  existsb (fun a => match a with PNoCrc => true | _ => false end) (flag_of w) = bytes_eqb w (str "no_crc") /\
  existsb (fun a => match a with PNoAutoCrc => true | _ => false end) (flag_of w) = bytes_eqb w (str "no_auto_crc") /\
  existsb (fun a => match a with PNoDefaultSig => true | _ => false end) (flag_of w) = bytes_eqb w (str "no_default_sig").
Proof.
  unfold flag_of.
  repeat match goal with |- context [if bytes_eqb w ?x then _ else _] =>
    let q := fresh in destruct (bytes_eqb w x) eqn:q; [apply eqb_str in q; subst w; vm_compute; auto|] end.
  cbn. auto.
Qed.

Lemma in_word w w' es : In (word w) (word w' :: es) <-> w' = w \/ In (word w) es.
Proof. cbn [In]. split; (intros [H|H]; [left|now right]); [now injection H|now subst]. Qed.
Lemma in_not_word w e es p : path_attr e p -> In (word w) (e :: es) <-> In (word w) es.
Proof. intros H. cbn [In]. split; [intros [->|I]; [now apply word_no_path in H|exact I]|now right]. Qed.

Lemma pattrs_means es : Forall good_text es -> forall attrs, parse_pattrs es = Some attrs ->
  first_path es (pattr_path attrs) /\
  (has_bincode attrs = true <-> In (word (str "bincode")) es) /\
  (has_no_crc attrs = true <-> In (word (str "no_crc")) es) /\
  (has_no_auto_crc attrs = true <-> In (word (str "no_auto_crc")) es) /\
  (has_no_default_sig attrs = true <-> In (word (str "no_default_sig")) es).
Proof.
  intros G. induction G as [|e es G GS IH]; intros attrs H.
  - injection H as <-. cbn. split; [intros e p []|]. repeat split; try discriminate; easy.
  - rewrite pattrs_cons in H. destruct (parse_pattr e) as [a|] eqn:E; [|discriminate]. cbn [obind] in H.
    destruct (parse_pattrs es) as [b|]; [|discriminate]. cbn [obind] in H. injection H as <-.
    specialize (IH b eq_refl). destruct IH as (IH1 & IH2 & IH3 & IH4 & IH5). rewrite first_path_cons.
    unfold has_bincode, has_no_crc, has_no_auto_crc, has_no_default_sig in *. rewrite !existsb_app, !orb_true_iff, IH2, IH3, IH4, IH5.
    destruct (expr_cases e) as [N|[(w & ->)|(p & _ & P)]].
    + apply ns_parse in N as [_ N]. congruence.
    + rewrite parse_word in E. injection E as <-. rewrite !in_word.
      assert (PP : pattr_path (flag_of w ++ b) = pattr_path b).
      { unfold flag_of. repeat match goal with |- context [bytes_eqb w ?x] => destruct (bytes_eqb w x); [reflexivity|] end. reflexivity. }
      rewrite PP. split; [right; split; [apply word_no_path|exact IH1]|].
      destruct (flags w) as (F1 & F2 & F3 & F4). rewrite F1, F2, F3, F4, !eqb_str. tauto.
    + rewrite P in E. injection E as <-. pose proof (pattr_path_of e p G P) as PA. rewrite !(in_not_word _ e es p PA).
      split; [left; now exists p|]. cbn [existsb orb]. repeat split; ((intros [X|X]; [discriminate X|exact X]) || (intros X; now right)).
Qed.

(** ** Settings *)

Lemma config_means es cfg : parse_config es = Some cfg <-> Forall2 setting_means es cfg.
Proof.
  unfold parse_config. rewrite omap_forall2.
  assert (Q : forall e s, parse_setting e = Some s <-> setting_means e s).
  { intros e s. split.
    - destruct e as [segs|t|l r|]; cbn [parse_setting]; try discriminate.
      + destruct segs as [|w [|]]; cbn [get_ident]; try discriminate. destruct (bytes_eqb w (str "no_default_payload")) eqn:W; [|discriminate].
        apply eqb_str in W. subst w. intros H. injection H as <-. constructor.
      + destruct l as [segs|t|a b|]; try discriminate. destruct segs as [|k [|]]; try discriminate. cbn [get_ident obind].
        destruct (bytes_eqb k (str "payloads_derive")) eqn:W; [|discriminate]. apply eqb_str in W. subst k.
        destruct r; try discriminate. intros H. injection H as <-. constructor.
    - intros [|t]; reflexivity. }
  split; intros H; (induction H as [|a b l r H F IH]; constructor; [now apply Q|exact IH]).
Qed.

(** ** Names *)

Lemma upper_big b : upper b = big b.
Proof. destruct b; reflexivity. Qed.
Lemma fullname_variant path name : fullname path name = variant (place path name).
Proof.
  assert (Q : forall l, concat (map capital l) = variant l).
  { induction l as [|[|b s] l IH]; cbn [map concat capital variant app]; [reflexivity|exact IH|]. now rewrite upper_big, IH. }
  unfold fullname. rewrite Q. destruct path; reflexivity.
Qed.

Lemma variant_app a b : variant (a ++ b) = variant a ++ variant b.
Proof. induction a as [|[|c s] a IH]; cbn [variant app]; [reflexivity|exact IH|]. rewrite IH. now rewrite <- app_assoc. Qed.
Lemma big_id b : ~ In b lower_letters -> big b = b.
Proof. intros H. destruct b; try reflexivity; exfalso; apply H; cbn; tauto. Qed.
Lemma variant_type n : type_name n -> variant [n] = n.
Proof. destruct n as [|b s]; [easy|]. intros H. cbn [variant]. now rewrite big_id, app_nil_r. Qed.
Lemma variant_inj path n n' : type_name n -> type_name n' -> n <> n' -> variant (place path n) <> variant (place path n').
Proof.
  intros T T' NE E. apply NE. unfold place in E. rewrite !variant_app, !variant_type in E by easy. now apply app_inv_head in E.
Qed.

(** ** The collector *)

Lemma in_keys (key : bytes) {A} (m : list (bytes * A)) : existsb (fun e => bytes_eqb key (fst e)) m = true <-> In key (map fst m).
Proof.
  rewrite existsb_exists, in_map_iff. split.
  - intros ((k & a) & I & E). apply eqb_str in E. cbn in E. subst k. now exists (key, a).
  - intros ((k & a) & E & I). cbn in E. subst k. exists (key, a). split; [exact I|apply bytes_eqb_refl].
Qed.

Section Collect.
Context {A : Type} (name : A -> bytes).
Let add (m : list (bytes * A)) (d : A) := or_insert (name d) d m.

Lemma add_keys m d : In (name d) (map fst (add m d)).
Proof.
  unfold add, or_insert. destruct (existsb _ m) eqn:E; [now apply in_keys|]. rewrite map_app, in_app_iff. right. now left.
Qed.
Lemma collect_keys l : forall m k, In k (map fst (fold_left add l m)) <-> In k (map fst m) \/ In k (map name l).
Proof.
  induction l as [|d l IH]; intros m k; cbn [fold_left map In]; [tauto|]. rewrite IH. unfold add at 1, or_insert.
  destruct (existsb (fun e => bytes_eqb (name d) (fst e)) m) eqn:E.
  - apply in_keys in E. split; [tauto|]. intros [H|[<-|H]]; tauto.
  - rewrite map_app, in_app_iff. cbn. tauto.
Qed.
Lemma collect_app l l' m : fold_left add (l ++ l') m = fold_left add l' (fold_left add l m).
Proof. apply fold_left_app. Qed.

(** Exactly the first declaration of each name is kept, under its name, in the order of declaration. *)
Lemma collect_first l : forall k d, In (k, d) (fold_left add l []) <-> k = name d /\ first_of name l d.
Proof.
  induction l as [|x l IH] using rev_ind; intros k d.
  - cbn. split; [easy|]. intros (_ & pre & post & E & _). now destruct pre.
  - rewrite collect_app. cbn [fold_left]. unfold add at 1, or_insert.
    assert (K := collect_keys l [] (name x)). cbn [map In] in K.
    assert (F : first_of name (l ++ [x]) d <-> first_of name l d \/ d = x /\ ~ In (name x) (map name l)).
    { split.
      - intros (pre & post & E & N). destruct post as [|y post] using rev_ind; [|clear IHpost].
        + apply app_inj_tail in E as [-> ->]. now right.
        + left. rewrite app_comm_cons, app_assoc in E. apply app_inj_tail in E as [-> _]. now exists pre, post.
      - intros [(pre & post & -> & N)|[-> N]]; [exists pre, (post ++ [x]); now rewrite <- app_assoc|now exists l, []]. }
    rewrite F. destruct (existsb (fun e => bytes_eqb (name x) (fst e)) (fold_left add l [])) eqn:E.
    + apply in_keys, K in E. destruct E as [[]|E]. rewrite IH. tauto.
    + assert (E' : ~ In (name x) (map name l)).
      { intros I. apply (or_intror (A := False)), K, in_keys in I. congruence. }
      rewrite in_app_iff, IH. cbn [In]. split.
      * intros [H|[H|[]]]; [tauto|]. injection H as <- <-. tauto.
      * intros (-> & [H|[-> _]]); [tauto|]. right. now left.
Qed.

Lemma collect_all l : NoDup (map name l) -> map snd (fold_left add l []) = l.
Proof.
  induction l as [|x l IH] using rev_ind; intros ND; [reflexivity|]. rewrite map_app in ND. cbn [map] in ND.
  assert (N : ~ In (name x) (map name l)) by (apply NoDup_remove_2 in ND; now rewrite app_nil_r in ND).
  apply NoDup_remove_1 in ND. rewrite app_nil_r in ND. rewrite collect_app. cbn [fold_left]. unfold add at 1, or_insert.
  destruct (existsb (fun e => bytes_eqb (name x) (fst e)) (fold_left add l [])) eqn:E.
  - apply in_keys, collect_keys in E. destruct E as [[]|E]. easy.
  - rewrite map_app, IH by easy. reflexivity.
Qed.

Lemma collect_nodup l : NoDup (map fst (fold_left add l [])).
Proof.
  induction l as [|x l IH] using rev_ind; [constructor|]. rewrite collect_app. cbn [fold_left]. unfold add at 1, or_insert.
  destruct (existsb _ _) eqn:E; [exact IH|]. rewrite map_app. cbn [map fst].
  apply (Permutation_NoDup (l := name x :: map fst (fold_left add l []))).
  - apply Permutation_cons_append.
  - constructor; [|exact IH]. intros I. apply in_keys in I. congruence.
Qed.
Lemma collect_names l : map fst (fold_left add l []) = map name (map snd (fold_left add l [])).
Proof.
  assert (Q : forall e, In e (fold_left add l []) -> fst e = name (snd e)).
  { intros [k d] I. now apply collect_first in I as [-> _]. }
  rewrite map_map. now apply map_ext_in.
Qed.
End Collect.

Lemma collect_split bs ps : collect bs ps =
  mk_collector (fold_left (fun m d => or_insert (bd_fullname d) d m) bs [])
               (fold_left (fun m d => or_insert (pd_fullname d) d m) ps []).
Proof.
  unfold collect.
  assert (B : forall c, fold_left (fun c d => add_block d c) bs c =
    mk_collector (fold_left (fun m d => or_insert (bd_fullname d) d m) bs (co_blocks c)) (co_payloads c)).
  { induction bs as [|b bs IH]; intros [x y]; cbn [fold_left co_blocks co_payloads]; [reflexivity|]. now rewrite IH. }
  assert (P : forall c, fold_left (fun c d => add_payload d c) ps c =
    mk_collector (co_blocks c) (fold_left (fun m d => or_insert (pd_fullname d) d m) ps (co_payloads c))).
  { induction ps as [|p ps IH]; intros [x y]; cbn [fold_left co_blocks co_payloads]; [reflexivity|]. now rewrite IH. }
  rewrite P, B. reflexivity.
Qed.

(** ** Derives *)

Lemma common_means ds d : ds <> [] -> In d (common_derives ds) <-> forall l, In l ds -> In d l.
Proof.
  intros NE. unfold common_derives. destruct ds as [|d0 ds0]; [easy|]. clear NE. remember (d0 :: ds0) as ds.
  assert (Q : forall l acc, In d (fold_left (fun acc v => filter (fun d => existsb (bytes_eqb d) v) acc) l acc) <->
                            In d acc /\ forall v, In v l -> In d v).
  { induction l as [|v l IH]; intros acc; cbn [fold_left].
    - split; [intros H; split; [exact H|intros v []]|tauto].
    - rewrite IH, filter_In. assert (X : existsb (bytes_eqb d) v = true <-> In d v).
      { rewrite existsb_exists. split; [intros (x & I & E); apply eqb_str in E; now subst|intros I; exists d; split; [exact I|apply bytes_eqb_refl]]. }
      rewrite X. cbn [In]. split; [intros ((H & H') & F); split; [exact H|intros w [<-|I]; auto]|intros (H & F); split; [split; [exact H|apply F; now left]|intros w I; apply F; now right]]. }
  rewrite Q. split; [tauto|]. intros H. split; [apply H; subst; now left|exact H].
Qed.

(** ** Declarations *)

Lemma type_means_dec env src : (exists t, type_means env src t) \/ forall t, ~ type_means env src t.
Proof.
  destruct (parse_ty env src) as [t|] eqn:E; [left; exists t; now apply parse_ty_means|].
  right. intros t H. apply parse_ty_means in H. congruence.
Qed.

Lemma parse_field_none env f : parse_field env f = None <-> bad_field env f.
Proof.
  split.
  - intros H. unfold bad_field. destruct (type_means_dec env (snd f)) as [(t & T)|N]; [|now right]. left.
    destruct (in_dec (list_eq_dec Byte.byte_eq_dec) (fst f) [str "__sig"; str "__crc"]) as [I|I]; [exact I|].
    assert (M : field_means env f (fst f, t)) by (repeat split; auto). apply parse_field_means in M. congruence.
  - intros H. destruct (parse_field env f) as [g|] eqn:E; [|reflexivity]. apply parse_field_means in E as (_ & NR & T).
    destruct H as [H|H]; [easy|now destruct (H (snd g))].
Qed.

Lemma parse_block_means env s d : Forall good_text (bs_attrs s) -> parse_block env s = Some d -> block_means env s d.
Proof.
  intros G H. unfold parse_block in H. destruct (parse_battrs (bs_attrs s)) as [attrs|] eqn:EA; [|discriminate]. cbn [obind] in H.
  destruct (bs_generic s); [discriminate|]. destruct (bs_fields s) as [fs|] eqn:EF; [|discriminate]. cbn [obind] in H.
  destruct (omap (parse_field env) fs) as [gs|] eqn:EO; [|discriminate]. cbn [obind] in H. injection H as <-.
  destruct (battrs_means _ G _ EA) as [FP NC]. exists fs. cbn [bd_schema s_name bd_derives s_fields s_no_crc bd_path].
  split; [exact EF|]. split; [reflexivity|]. split; [reflexivity|]. split; [now apply parse_fields_means|]. split; [exact NC|exact FP].
Qed.

Lemma parse_block_bad env s : parse_block env s = None <-> bad_block env s.
Proof.
  unfold parse_block, bad_block. destruct (parse_battrs (bs_attrs s)) as [attrs|] eqn:EA; cbn [obind].
  2:{ apply battrs_refused in EA. split; [tauto|reflexivity]. }
  assert (NN : ~ exists e, In e (bs_attrs s) /\ nonsense e) by (intros N; apply battrs_refused in N; congruence).
  destruct (bs_generic s); [split; [tauto|reflexivity]|].
  destruct (bs_fields s) as [fs|]; cbn [obind]; [|split; [tauto|reflexivity]].
  destruct (omap (parse_field env) fs) as [gs|] eqn:EO; cbn [obind].
  - split; [discriminate|]. intros [H|[H|[H|(fs' & f & E & I & B)]]]; try easy. injection E as <-. exfalso.
    apply parse_field_none in B. assert (D : omap (parse_field env) fs = None) by (apply omap_none; eauto). congruence.
  - split; [intros _|reflexivity]. apply omap_none in EO as (f & I & E). right; right; right. exists fs, f.
    split; [reflexivity|]. split; [exact I|]. now apply parse_field_none.
Qed.

Lemma parse_payload_means s d : Forall good_text (ps_attrs s) -> parse_payload s = Some d ->
  pd_name d = ps_name s /\ pd_derives d = ps_derives s /\ first_path (ps_attrs s) (pattr_path (pd_attrs d)).
Proof.
  intros G H. unfold parse_payload in H. destruct (parse_pattrs (ps_attrs s)) as [attrs|] eqn:EA; [|discriminate]. cbn [obind] in H.
  destruct (ps_generic s); [discriminate|]. destruct (ps_data s); [|discriminate]. injection H as <-.
  destruct (pattrs_means _ G _ EA) as [FP _]. auto.
Qed.
Lemma parse_payload_bad s : parse_payload s = None <->
  (exists e, In e (ps_attrs s) /\ nonsense e) \/ ps_generic s = true \/ ps_data s = false.
Proof.
  unfold parse_payload. destruct (parse_pattrs (ps_attrs s)) as [attrs|] eqn:EA; cbn [obind].
  2:{ apply pattrs_refused in EA. split; [tauto|reflexivity]. }
  assert (NN : ~ exists e, In e (ps_attrs s) /\ nonsense e) by (intros N; apply pattrs_refused in N; congruence).
  destruct (ps_generic s); [split; [tauto|reflexivity]|]. destruct (ps_data s); split; try tauto; try discriminate. intros [H|[H|H]]; easy.
Qed.

(** ** Generated implementations *)

Lemma payload_flags s d : Forall good_text (ps_attrs s) -> parse_payload s = Some d ->
  (has_bincode (pd_attrs d) = true <-> has (str "bincode") s) /\
  (has_no_crc (pd_attrs d) = true <-> has (str "no_crc") s) /\
  (has_no_auto_crc (pd_attrs d) = true <-> has (str "no_auto_crc") s) /\
  (has_no_default_sig (pd_attrs d) = true <-> has (str "no_default_sig") s).
Proof.
  intros G H. unfold parse_payload in H. destruct (parse_pattrs (ps_attrs s)) as [attrs|] eqn:EA; [|discriminate]. cbn [obind] in H.
  destruct (ps_generic s); [discriminate|]. destruct (ps_data s); [|discriminate]. injection H as <-.
  destruct (pattrs_means _ G _ EA) as (_ & R). exact R.
Qed.
Lemma flag_false b P : (b = true <-> P) -> ~ P -> b = false.
Proof. intros H N. destruct b; [exfalso; apply N, H; reflexivity|reflexivity]. Qed.

Lemma kind_auto {V} s d (code : bincode V) user : Forall good_text (ps_attrs s) -> parse_payload s = Some d ->
  has (str "bincode") s -> ~ has (str "no_crc") s -> ~ has (str "no_auto_crc") s -> auto_crc (kind_of d code user).
Proof.
  intros G H B N A. destruct (payload_flags s d G H) as (F1 & F2 & F3 & _). apply F1 in B.
  unfold kind_of. rewrite B, (flag_false _ _ F2 N), (flag_false _ _ F3 A). cbn [negb andb]. intros v. reflexivity.
Qed.
Lemma kind_own_crc {V} s d (code : bincode V) user : Forall good_text (ps_attrs s) -> parse_payload s = Some d ->
  has (str "bincode") s -> ~ has (str "no_crc") s -> has (str "no_auto_crc") s -> pk_crc (kind_of d code user) = pk_crc user.
Proof.
  intros G H B N A. destruct (payload_flags s d G H) as (F1 & F2 & F3 & _). apply F1 in B. apply F3 in A.
  unfold kind_of. now rewrite B, (flag_false _ _ F2 N), A.
Qed.
Lemma kind_no_crc {V} s d (code : bincode V) user : Forall good_text (ps_attrs s) -> parse_payload s = Some d ->
  has (str "bincode") s -> has (str "no_crc") s ->
  (forall v, pk_crc (kind_of d code user) v = IOk (repeat (n2b 0) 4)) /\
  (forall v, pk_body (kind_of d code user) v = invalid (bc_encode code v)) /\
  (forall b, pk_decode (kind_of d code user) b = invalid (bc_decode code b)).
Proof.
  intros G H B N. destruct (payload_flags s d G H) as (F1 & F2 & _). apply F1 in B. apply F2 in N.
  unfold kind_of. rewrite B, N. cbn [negb andb]. rewrite andb_false_r. auto.
Qed.
Lemma kind_plain {V} s d (code : bincode V) user : Forall good_text (ps_attrs s) -> parse_payload s = Some d ->
  ~ has (str "bincode") s -> forall v, pk_crc (kind_of d code user) v = pk_crc user v.
Proof.
  intros G H B v. destruct (payload_flags s d G H) as (F1 & _). unfold kind_of. now rewrite (flag_false _ _ F1 B).
Qed.

Lemma no_crc_read {V S} s d (code : bincode V) user (R : reader S) view okst (L : lawful R view okst) :
  Forall good_text (ps_attrs s) -> parse_payload s = Some d -> has (str "bincode") s -> has (str "no_crc") s ->
  forall body v x rest, bc_decode code body = Some v -> okst x -> view x = body ++ rest ->
  let k := kind_of d code user in
  exists x', pk_read R k (mk_pheader (pk_sig k) (repeat (n2b 0) 4) (blen body)) x = (Ok v, x') /\ view x' = rest.
Proof.
  intros G H B N body v x rest D O W k. destruct (kind_no_crc s d code user G H B N) as (C & _ & DE). fold k in C, DE.
  unfold pk_read. cbn [ph_sig ph_len ph_crc]. rewrite bytes_eqb_refl. cbn [negb].
  destruct (lw_ok R view okst L (blen body) x body rest O W eq_refl) as (s1 & E & W1 & O1). rewrite E. cbn [sbind].
  rewrite DE, D. cbn [invalid io sbind]. rewrite C. cbn [io sbind]. rewrite bytes_eqb_refl. eauto.
Qed.

(** ** Generated enums *)

Lemma blocks_compile bs ps order : Permutation order (map snd (co_blocks (collect bs ps))) -> compiles (gen_blocks order).
Proof.
  intros HP. split; [|cbn [gen_blocks en_arms en_variants]; tauto]. cbn [gen_blocks en_variants].
  apply (Permutation_NoDup (l := map bd_fullname (map snd (co_blocks (collect bs ps))))); [now apply Permutation_map, Permutation_sym|].
  rewrite collect_split. cbn [co_blocks]. rewrite <- (collect_names bd_fullname bs). exact (collect_nodup bd_fullname bs).
Qed.

Lemma payload_names_nodup bs ps order : Permutation order (map snd (co_payloads (collect bs ps))) -> NoDup (map pd_fullname order).
Proof.
  intros HP. apply (Permutation_NoDup (l := map pd_fullname (map snd (co_payloads (collect bs ps))))); [now apply Permutation_map, Permutation_sym|].
  rewrite collect_split. cbn [co_payloads]. rewrite <- (collect_names pd_fullname ps). exact (collect_nodup pd_fullname ps).
Qed.

Lemma nodup_app_disjoint {A} (l r : list A) : NoDup l -> NoDup r -> (forall x, In x l -> ~ In x r) -> NoDup (l ++ r).
Proof.
  induction l as [|x l IH]; intros NL NR D; [exact NR|]. inversion NL; subst. cbn [app]. constructor.
  - rewrite in_app_iff. intros [I|I]; [easy|]. now apply (D x); [left|].
  - apply IH; auto. intros y I. apply D. now right.
Qed.

Lemma no_default_in cfg : no_default_payloads cfg = true <-> In SNoDefaultPayload cfg.
Proof.
  unfold no_default_payloads. rewrite existsb_exists. split; [intros ([] & I & Q); [exact I|discriminate Q] || (intros ([] & I & Q); [discriminate Q|exact I])|].
  intros I. exists SNoDefaultPayload. auto.
Qed.
Lemma no_default_out cfg : no_default_payloads cfg = false <-> ~ In SNoDefaultPayload cfg.
Proof. rewrite <- no_default_in. destruct (no_default_payloads cfg); intuition congruence. Qed.

Lemma payloads_compile cfg bs ps order e : Permutation order (map snd (co_payloads (collect bs ps))) ->
  gen_payloads cfg order = Some e -> no_default_payloads cfg = false ->
  (forall d, In d order -> ~ In (pd_fullname d) [str "Bytes"; str "String"]) -> compiles e.
Proof.
  intros HP H ND NB. unfold gen_payloads in H. destruct (payload_derive cfg); [|discriminate]. cbn [obind] in H. injection H as <-.
  rewrite ND. split; cbn [en_variants en_arms]; [|tauto]. apply nodup_app_disjoint.
  - now apply (payload_names_nodup bs ps).
  - repeat constructor; cbn; [|easy]. intros [Q|[]]. discriminate.
  - intros x I. apply in_map_iff in I as (d & <- & I). now apply NB.
Qed.

Lemma no_default_broken cfg ps e : gen_payloads cfg ps = Some e -> no_default_payloads cfg = true ->
  (exists v, In v [str "Bytes"; str "String"] /\ ~ In v (map pd_fullname ps)) -> ~ compiles e.
Proof.
  intros H ND (v & I & N) [_ C]. unfold gen_payloads in H. destruct (payload_derive cfg); [|discriminate]. cbn [obind] in H. injection H as <-.
  rewrite ND in C. cbn [en_variants en_arms] in C. rewrite app_nil_r in C. apply N, C. rewrite in_app_iff. now right.
Qed.

Lemma generate_packet cfg bs ps b p pk : generate cfg bs ps = Some (b, p, pk) ->
  (pk = true <-> bs <> [] /\ (ps <> [] \/ no_default_payloads cfg = false)) /\
  (b = None <-> bs = []) /\ (p = None <-> ps = [] /\ no_default_payloads cfg = true).
Proof.
  unfold generate. destruct bs as [|b0 bs], ps as [|p0 ps], (no_default_payloads cfg) eqn:ND; cbn [negb];
    repeat match goal with |- context [gen_payloads ?c ?l] => destruct (gen_payloads c l); cbn [obind] end;
    intros H; try discriminate; injection H as <- <- <-; repeat split; try discriminate; try tauto; try congruence;
    try (intros []; congruence); try (now intros [? [?|?]]); auto; try (left; discriminate); try (right; reflexivity).
Qed.

(** ** Payload signatures *)
Lemma payload_sig_text d : pd_sig d = crc32_le (payload_variant d).
Proof. unfold pd_sig, pd_fullname, payload_variant. now rewrite fullname_variant. Qed.

(** ** The setting [payloads_derive] *)

Lemma trim_start_split s : exists a, spaces a /\ s = a ++ trim_start s.
Proof.
  induction s as [|b s (a & A & E)]; [exists []; split; [constructor|reflexivity]|]. cbn [trim_start].
  destruct (byte_eqb b (n2b 32)) eqn:Q; [|exists []; split; [constructor|reflexivity]].
  exists (b :: a). split; [constructor; [now apply byte_eqb_eq|exact A]|]. cbn [app]. now rewrite <- E.
Qed.
Lemma byte_same b : byte_eqb b b = true.
Proof. apply N.eqb_refl. Qed.
Lemma trim_start_head s b r : trim_start s = b :: r -> b <> n2b 32.
Proof.
  induction s as [|c s IH]; [discriminate|]. cbn [trim_start]. destruct (byte_eqb c (n2b 32)) eqn:Q; [exact IH|].
  intros E C. injection E as -> ->. subst b. now rewrite byte_same in Q.
Qed.
Lemma spaces_rev a : spaces a -> spaces (rev a).
Proof. intros H. apply Forall_forall. intros b I. apply in_rev in I. revert b I. now apply Forall_forall. Qed.
Lemma trim_means s : tight (trim s) /\ exists a b, spaces a /\ spaces b /\ s = a ++ trim s ++ b.
Proof.
  unfold trim. destruct (trim_start_split s) as (a & A & EA). set (u := trim_start s) in *.
  destruct (trim_start_split (rev u)) as (b & B & EB). set (w := trim_start (rev u)) in *.
  assert (EU : u = rev w ++ rev b) by (rewrite <- rev_app_distr, <- EB; now rewrite rev_involutive).
  split; [split|].
  - intros c r E. apply (trim_start_head s c (r ++ rev b)). fold u. rewrite EU, E. reflexivity.
  - intros r c E. apply (trim_start_head (rev u) c (rev r)). fold w. rewrite <- (rev_involutive w), E, rev_app_distr. reflexivity.
  - exists a, (rev b). split; [exact A|]. split; [now apply spaces_rev|]. rewrite <- EU. exact EA.
Qed.
Lemma trim_start_spaces a s : spaces a -> trim_start (a ++ s) = trim_start s.
Proof. intros H. induction H as [|b a -> H IH]; [reflexivity|]. cbn [app trim_start]. now rewrite byte_same. Qed.
Lemma trim_start_tight s : (forall b r, s = b :: r -> b <> n2b 32) -> trim_start s = s.
Proof.
  destruct s as [|b s]; intros H; [reflexivity|]. cbn [trim_start]. destruct (byte_eqb b (n2b 32)) eqn:Q; [|reflexivity].
  apply byte_eqb_eq in Q. now apply (H b s) in Q.
Qed.
Lemma trim_unique n a b : tight n -> spaces a -> spaces b -> trim (a ++ n ++ b) = n.
Proof.
  intros [T1 T2] A B. unfold trim. rewrite trim_start_spaces by easy. destruct n as [|c n].
  - cbn [app]. pose proof (trim_start_spaces b [] B) as E. rewrite app_nil_r in E. rewrite E. reflexivity.
  - rewrite (trim_start_tight ((c :: n) ++ b)) by (intros x r E; injection E as <- _; now apply (T1 c n)).
    rewrite rev_app_distr, trim_start_spaces by now apply spaces_rev.
    rewrite trim_start_tight; [apply rev_involutive|]. intros x r E. apply (T2 (rev r)).
    rewrite <- (rev_involutive (c :: n)), E. reflexivity.
Qed.
Lemma split_commas_piece p acc rest : ~ In (n2b 44) p ->
  split_commas acc (p ++ n2b 44 :: rest) = (rev acc ++ p) :: split_commas [] rest.
Proof.
  revert acc. induction p as [|b p IH]; intros acc N; cbn [app split_commas].
  - rewrite byte_same. now rewrite app_nil_r.
  - destruct (byte_eqb b (n2b 44)) eqn:Q; [apply byte_eqb_eq in Q; exfalso; apply N; now left|].
    rewrite IH by (intros I; apply N; now right). cbn [rev]. now rewrite <- app_assoc.
Qed.
Lemma split_commas_last p acc : ~ In (n2b 44) p -> split_commas acc p = [rev acc ++ p].
Proof.
  revert acc. induction p as [|b p IH]; intros acc N; cbn [split_commas]; [now rewrite app_nil_r|].
  destruct (byte_eqb b (n2b 44)) eqn:Q; [apply byte_eqb_eq in Q; exfalso; apply N; now left|].
  rewrite IH by (intros I; apply N; now right). cbn [rev]. now rewrite <- app_assoc.
Qed.
Lemma split_commas_join ps : ps <> [] -> Forall (fun p => ~ In (n2b 44) p) ps -> split_commas [] (join (str ",") ps) = ps.
Proof.
  induction ps as [|p ps IH]; intros NE F; [easy|]. inversion F as [|? ? N F']; subst.
  destruct ps as [|q ps]; [cbn [join]; now apply split_commas_last|].
  change (join (str ",") (p :: q :: ps)) with (p ++ n2b 44 :: join (str ",") (q :: ps)).
  rewrite split_commas_piece by easy. cbn [rev app]. now rewrite IH.
Qed.
Lemma split_commas_exists s : forall acc, ~ In (n2b 44) acc ->
  exists ps, ps <> [] /\ rev acc ++ s = join (str ",") ps /\ Forall (fun p => ~ In (n2b 44) p) ps.
Proof.
  induction s as [|b s IH]; intros acc N.
  - exists [rev acc]. split; [easy|]. split; [apply app_nil_r|]. constructor; [now rewrite <- in_rev|constructor].
  - destruct (byte_eqb b (n2b 44)) eqn:Q.
    + apply byte_eqb_eq in Q. subst b. destruct (IH [] (fun f => f)) as (ps & NE & E & F). cbn [rev app] in E.
      exists (rev acc :: ps). split; [easy|]. split; [|constructor; [now rewrite <- in_rev|exact F]].
      destruct ps as [|p ps]; [easy|]. change (join (str ",") (rev acc :: p :: ps)) with (rev acc ++ n2b 44 :: join (str ",") (p :: ps)).
      now rewrite <- E.
    + assert (N' : ~ In (n2b 44) (b :: acc)).
      { intros [C|C]; [|now apply N]. subst b. now rewrite byte_same in Q. }
      destruct (IH (b :: acc) N') as (ps & NE & E & F). exists ps. split; [exact NE|]. split; [|exact F]. rewrite <- E. cbn [rev].
      now rewrite <- app_assoc.
Qed.
Lemma list_text_exists t : exists names, list_text t names.
Proof.
  destruct (split_commas_exists t [] (fun f => f)) as (ps & NE & E & F). cbn [rev app] in E. exists (map trim ps), ps.
  split; [exact NE|]. split; [exact E|]. split; [exact F|]. clear. induction ps as [|p ps IH]; [constructor|].
  cbn [map]. constructor; [apply trim_means|exact IH].
Qed.
Lemma list_text_split t names : list_text t names -> map trim (split_commas [] t) = names.
Proof.
  intros (ps & NE & -> & F & Q). rewrite split_commas_join by easy. clear NE F.
  induction Q as [|n p names ps (T & a & b & A & B & ->) Q IH]; [reflexivity|]. cbn [map]. now rewrite IH, trim_unique.
Qed.
Lemma extra_exists cfg : exists names, extra_derives cfg names.
Proof.
  induction cfg as [|c cfg (names & H)].
  - exists []. left. split; [reflexivity|]. intros t [].
  - destruct c as [|t].
    + exists names. destruct H as [(-> & H)|(pre & t & post & -> & H & L)].
      * left. split; [reflexivity|]. intros t [C|C]; [discriminate|now apply H in C].
      * right. exists (SNoDefaultPayload :: pre), t, post. split; [reflexivity|]. split; [|exact L].
        intros t' [C|C]; [discriminate|now apply H in C].
    + destruct (list_text_exists t) as (ns & L). exists ns. right. exists [], t, cfg. split; [reflexivity|]. split; [intros t' []|exact L].
Qed.
Lemma payload_derive_means cfg names : extra_derives cfg names ->
  payload_derive cfg = if existsb (fun d => bytes_eqb d []) names then None else Some names.
Proof.
  intros [(-> & H)|(pre & t & post & -> & H & L)].
  - cbn [existsb]. induction cfg as [|[|t] cfg IH]; cbn [payload_derive]; [reflexivity| |exfalso; apply (H t); now left].
    apply IH. intros t I. apply (H t). now right.
  - apply list_text_split in L. induction pre as [|[|t'] pre IH]; cbn [app payload_derive]; [now rewrite L| |exfalso; apply (H t'); now left].
    apply IH. intros t' I. apply (H t'). now right.
Qed.

(** ** Signatures *)

Lemma kind_sig {V} s d (code : bincode V) user : Forall good_text (ps_attrs s) -> parse_payload s = Some d ->
  (has (str "no_default_sig") s -> pk_sig (kind_of d code user) = pk_sig user) /\
  (~ has (str "no_default_sig") s -> pk_sig (kind_of d code user) = crc32_le (payload_variant d)).
Proof.
  intros G H. destruct (payload_flags s d G H) as (_ & _ & _ & F). unfold kind_of. split; intros X.
  - apply F in X. rewrite X. destruct (has_bincode (pd_attrs d)); reflexivity.
  - rewrite (flag_false _ _ F X), payload_sig_text. destruct (has_bincode (pd_attrs d)); reflexivity.
Qed.

(** ** Values of declared types *)

Lemma declared_schema_ok env s d : parse_block env s = Some d ->
  (forall n, linked_ok (mk_linked n (fst (env n)) (snd (env n)))) ->
  (forall fs f, bs_fields s = Some fs -> In f fs -> fst f <> str "crc") -> schema_ok (bd_schema d).
Proof.
  intros H HL HC. unfold parse_block in H. destruct (parse_battrs (bs_attrs s)) as [attrs|]; [|discriminate]. cbn [obind] in H.
  destruct (bs_generic s); [discriminate|]. destruct (bs_fields s) as [fs|] eqn:EF; [|discriminate]. cbn [obind] in H.
  destruct (omap (parse_field env) fs) as [gs|] eqn:EO; [|discriminate]. cbn [obind] in H. injection H as <-. cbn [bd_schema].
  unfold schema_ok. cbn [s_fields]. pose proof (proj1 (parse_fields_means env _ _) EO) as F. clear EO EF.
  assert (C : forall f, In f fs -> fst f <> str "crc") by (intros f I; now apply (HC fs f)). clear HC.
  induction F as [|f g fs gs (E & _ & T) F IH]; [constructor|]. constructor.
  - rewrite E. split; [apply C; now left|]. destruct T as [t PT|n|name N]; [destruct t; cbn in *; tauto|exact I|apply HL].
  - apply IH. intros f' I. apply C. now right.
Qed.
Lemma declared_encodes {V} s d (code : bincode V) user v body : Forall good_text (ps_attrs s) -> parse_payload s = Some d ->
  has (str "bincode") s -> ~ has (str "no_auto_crc") s -> ~ has (str "no_default_sig") s -> codec_ok code v body ->
  exists crc, encodes (kind_of d code user) v body crc /\ blen crc = 4.
Proof.
  intros G H B A SG (E1 & E2 & E3 & L). destruct (kind_sig s d code user G H) as (_ & SG'). specialize (SG' SG).
  destruct (payload_flags s d G H) as (F1 & F2 & F3 & F4). apply F1 in B.
  assert (CAP : In 4 capacities) by (unfold capacities; cbn [In]; tauto).
  assert (LS : In (blen (pk_sig (kind_of d code user))) capacities) by (rewrite SG'; unfold blen; now rewrite crc32_le_length).
  exists (if has_no_crc (pd_attrs d) then repeat (n2b 0) 4 else crc32_le body).
  assert (LC : blen (if has_no_crc (pd_attrs d) then repeat (n2b 0) 4 else crc32_le body) = 4).
  { destruct (has_no_crc (pd_attrs d)); [reflexivity|unfold blen; now rewrite crc32_le_length]. }
  split; [|exact LC]. unfold encodes. rewrite LC. split; [|split; [|split; [|split; [|auto]]]];
    unfold kind_of; rewrite B; cbn [pk_body pk_size pk_decode pk_crc]; rewrite ?E1, ?E2, ?E3; try reflexivity.
  rewrite (flag_false _ _ F3 A). destruct (has_no_crc (pd_attrs d)); cbn [negb andb]; [reflexivity|].
  unfold default_crc. now rewrite E1.
Qed.
