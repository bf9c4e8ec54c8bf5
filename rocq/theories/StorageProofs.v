(** * The storage file, the writer and the loading of slots. *)
From Coq Require Import ZifyBool ZifyNat ZifyN.
From Verif Require Import Base Crc32 Io File Block Payload Packet Rules Slot Storage StreamReader Spec SpecStorage BaseProofs CrcProofs BlockProofs PayloadProofs PacketProofs SlotProofs.
Ltac Zify.zify_post_hook ::= Z.div_mod_to_equations.
Open Scope list_scope.
#[global] Opaque default_capacity.
Local Notation C := default_capacity.

Lemma cap_eq : C = 500%nat.
Proof. reflexivity. Qed.
Lemma cap_pos : (0 < C)%nat.
Proof. rewrite cap_eq. apply Nat.lt_0_succ. Qed.
Definition tsz : N := 4020.
Lemma tsz_eq : N.of_nat (20 + 8 * C) = tsz.
Proof. rewrite cap_eq. vm_compute. reflexivity. Qed.

(** ** Lengths only *)
Definition lsl (lens : list N) : slot := tab C lens.
Definition gsz (lens : list N) : N := tsz + sum lens.
Definition gszs (ls : list (list N)) : N := sum (map gsz ls).
Definition good (lens : list N) : Prop := (length lens <= C)%nat /\ pos_all lens.
Definition fullg (lens : list N) : Prop := length lens = C /\ pos_all lens.

Lemma full_good g : fullg g -> good g.
Proof. intros (A & B). split; [lia|exact B]. Qed.
Lemma gszs_app a b : gszs (a ++ b) = gszs a + gszs b.
Proof. unfold gszs. now rewrite map_app, sum_app. Qed.
Lemma lsl_total lens : good lens -> slot_size (lsl lens) + slot_width (lsl lens) = gsz lens.
Proof. intros (L & P). unfold lsl, gsz. now rewrite tab_size, tab_width, tsz_eq by assumption. Qed.
Lemma lsl_default : default_slot = lsl [].
Proof. apply tab_empty. Qed.
Lemma lsl_full lens : fullg lens -> free_slot_offset (lsl lens) = None.
Proof. intros (L & P). unfold lsl. rewrite tab_free_offset by (auto; lia). now replace (length lens <? C)%nat with false by lia. Qed.
Lemma lsl_free lens : pos_all lens -> (length lens < C)%nat -> free_slot_offset (lsl lens) = Some (sum lens + tsz).
Proof. intros P L. unfold lsl. rewrite tab_free_offset, tsz_eq by (auto; lia). now replace (length lens <? C)%nat with true by lia. Qed.

Lemma lsl_insert lens n : pos_all lens -> (length lens < C)%nat -> slot_insert n (lsl lens) = (Ok tt, lsl (lens ++ [n])).
Proof. intros P L. unfold lsl. rewrite tab_insert by (auto; lia). now replace (length lens <? C)%nat with true by lia. Qed.

Lemma nth_map_end {A B} (f : A -> B) (a : list A) x : nth_error (map f a ++ [x]) (length a) = Some x.
Proof. rewrite nth_error_app2, map_length, Nat.sub_diag by (rewrite map_length; lia). reflexivity. Qed.
Lemma nth_map_none {A B} (f : A -> B) (a : list A) : nth_error (map f a) (length a) = None.
Proof. apply nth_error_None. rewrite map_length. lia. Qed.
Lemma set_nth_end {A} (a : list A) x y : set_nth (length a) y (a ++ [x]) = a ++ [y].
Proof. induction a as [|z a IH]; cbn [length app set_nth]; [reflexivity|]. now rewrite IH. Qed.
Lemma set_nth_map_end {A B} (f : A -> B) (a : list A) x y : set_nth (length a) y (map f a ++ [x]) = map f a ++ [y].
Proof. rewrite <- (map_length f a). apply set_nth_end. Qed.

Lemma nth_mid {A} (a : list A) x r : nth_error (a ++ x :: r) (length a) = Some x.
Proof. now rewrite nth_error_app2, Nat.sub_diag by lia. Qed.
Lemma nth_mid_next {A} (a : list A) x r : nth_error (a ++ x :: r) (S (length a)) = nth_error r 0.
Proof. rewrite nth_error_app2 by lia. now replace (S (length a) - length a)%nat with 1%nat by lia. Qed.

(** ** Locator *)
Definition at_loc (fs : list (list N)) : locator := mk_locator (length fs) (gszs fs).
Record w_mem (fs : list (list N)) (l : list N) (slots : list slot) (loc : locator) : Prop := {
  wm_full : Forall fullg fs;
  wm_last : (length l < C)%nat /\ pos_all l;
  wm_slots : slots = map lsl fs ++ [lsl l] \/ l = [] /\ slots = map lsl fs;
  wm_loc : loc = at_loc fs \/ exists fs' f, fs = fs' ++ [f] /\ loc = at_loc fs' }.

Lemma setup_full fs rest : Forall fullg fs -> forall loc,
  lc_setup_go (map lsl fs ++ rest) loc = lc_setup_go rest (mk_locator (lc_next loc + length fs) (lc_off loc + gszs fs)).
Proof.
  induction fs as [|f fs IH]; intros F loc; cbn [map app lc_setup_go length].
  - unfold gszs. cbn [map sum fold_right]. rewrite Nat.add_0_r, N.add_0_r. now destruct loc.
  - inversion F as [|? ? Hf F']; subst. rewrite lsl_full by exact Hf. rewrite lsl_total by now apply full_good. rewrite IH by exact F'. cbn [lc_next lc_off].
    change (gszs (f :: fs)) with (gsz f + gszs fs). do 2 f_equal; lia.
Qed.
Lemma setup_mem fs l slots : Forall fullg fs -> (length l < C)%nat -> pos_all l ->
  slots = map lsl fs ++ [lsl l] \/ l = [] /\ slots = map lsl fs -> lc_setup slots new_locator = at_loc fs.
Proof.
  intros F L P [->|(-> & ->)]; unfold lc_setup.
  - rewrite setup_full by exact F. cbn [lc_setup_go]. now rewrite lsl_free.
  - rewrite <- (app_nil_r (map lsl fs)), setup_full by exact F. reflexivity.
Qed.

Lemma w_find_spec fs l w : w_mem fs l (w_slots w) (w_loc w) ->
  w_find w = (Some (gszs fs + (sum l + tsz)), mk_writer (map lsl fs ++ [lsl l]) (w_file w) (at_loc fs)).
Proof.
  intros [F (L & P) SL LO]. destruct w as [slots f loc]. cbn [w_slots w_loc w_file] in *. unfold w_find. cbn [w_slots w_loc w_file].
  assert (forall x, lc_find (map lsl fs ++ [lsl l]) x = (Some (gszs fs + (sum l + tsz)), x) \/ x <> at_loc fs) as A1.
  { intros x. destruct (Nat.eq_dec (lc_next x) (length fs)) as [E|E]; [|right; intros ->; now apply E].
    destruct (N.eq_dec (lc_off x) (gszs fs)) as [E2|E2]; [|right; intros ->; now apply E2]. left.
    unfold lc_find. rewrite E, nth_map_end, lsl_free, E2 by assumption. reflexivity. }
  assert (lc_find (map lsl fs ++ [lsl l]) (at_loc fs) = (Some (gszs fs + (sum l + tsz)), at_loc fs)) as AT.
  { destruct (A1 (at_loc fs)) as [E|E]; [exact E|now elim E]. }
  clear A1. assert (l = [] -> lc_find (map lsl fs) (at_loc fs) = (None, at_loc fs)) as NONE.
  { intros _. unfold lc_find, at_loc. cbn [lc_next]. now rewrite nth_map_none. }
  destruct LO as [->|(fs' & f' & -> & ->)].
  - destruct SL as [->|(-> & ->)]; [now rewrite AT|]. rewrite NONE by reflexivity. rewrite lsl_default, AT. reflexivity.
  - apply Forall_app in F as (F1 & F2). inversion F2 as [|? ? Hf _]; subst.
    assert (forall r, lc_find (map lsl (fs' ++ [f']) ++ r) (at_loc fs') =
       match nth_error r 0 with None => (None, at_loc (fs' ++ [f'])) | Some s => (option_map (fun o => gszs (fs' ++ [f']) + o) (free_slot_offset s), at_loc (fs' ++ [f'])) end) as STALE.
    { intros r. unfold lc_find at 1. cbn [lc_next at_loc]. rewrite map_app, <- app_assoc. change (map lsl [f'] ++ r) with (lsl f' :: r).
      rewrite <- (map_length lsl fs'). rewrite nth_mid. rewrite lsl_full by exact Hf.
      rewrite lsl_total by now apply full_good. change (lc_off (at_loc fs')) with (gszs fs'). cbn [lc_off lc_next]. rewrite nth_mid_next. rewrite map_length.
      assert (mk_locator (S (length fs')) (gszs fs' + gsz f') = at_loc (fs' ++ [f'])) as ->.
      { unfold at_loc. rewrite app_length, gszs_app. unfold gszs at 3. cbn [map sum fold_right length]. f_equal; lia. }
      replace (gszs fs' + gsz f') with (gszs (fs' ++ [f'])).
      2:{ rewrite gszs_app. unfold gszs at 2. cbn [map sum fold_right length]. lia. }
      destruct (nth_error r 0); reflexivity. }
    destruct SL as [->|(-> & ->)].
    + rewrite STALE. cbn [nth_error]. rewrite lsl_free by assumption. reflexivity.
    + rewrite <- (app_nil_r (map lsl (fs' ++ [f']))) at 1. rewrite STALE. cbn [nth_error].
      rewrite lsl_default, AT. reflexivity.
Qed.

Definition push {A} (fs : list (list A)) (l : list A) (x : A) : list (list A) * list A :=
  if (length l + 1 =? C)%nat then (fs ++ [l ++ [x]], []) else (fs, l ++ [x]).

Lemma mem_push fs l n slots loc : w_mem fs l slots loc -> 0 < n ->
  w_mem (fst (push fs l n)) (snd (push fs l n)) (map lsl fs ++ [lsl (l ++ [n])]) (at_loc fs).
Proof.
  intros [F (L & P) _ _] Hn. assert (pos_all (l ++ [n])) as PN by (apply Forall_app; split; [exact P|repeat constructor; exact Hn]).
  unfold push. destruct (Nat.eqb_spec (length l + 1) C) as [E|E]; cbn [fst snd].
  - split.
    + apply Forall_app. split; [exact F|]. repeat constructor; [rewrite app_length; exact E|exact PN].
    + split; [apply cap_pos|constructor].
    + right. split; [reflexivity|]. now rewrite map_app.
    + right. eauto.
  - split; auto. split; [rewrite app_length; cbn [length]; lia|exact PN].
Qed.

(** ** One insert *)
Section Insert.
Context {U : Type}.
Implicit Types (p : packet U).

Lemma insert_ok fs l w p e : w_mem fs l (w_slots w) (w_loc w) -> pkt_write_all p (mk_sink [] []) = (Ok tt, mk_sink e []) ->
  w_insert p w =
    let '(o, f) := w_store (lsl (l ++ [blen e])) (gszs fs) (gszs fs + (sum l + tsz)) e (w_file w) in
    (o, mk_writer (map lsl fs ++ [lsl (l ++ [blen e])]) f (at_loc fs)).
Proof.
  intros M WR. unfold w_insert. rewrite (w_find_spec fs l w M), WR. cbn [sbind k_got w_slots w_file w_loc].
  destruct M as [F (L & P) _ _]. unfold lc_insert. cbn [at_loc lc_next]. rewrite nth_map_end.
  rewrite lsl_insert by assumption.
  rewrite set_nth_map_end. cbn [sbind w_slots w_loc w_file]. rewrite nth_map_end. reflexivity.
Qed.

Lemma insert_fails fs l w p o k : w_mem fs l (w_slots w) (w_loc w) -> pkt_write_all p (mk_sink [] []) = (o, k) -> o <> Ok tt ->
  w_insert p w = (o, mk_writer (map lsl fs ++ [lsl l]) (w_file w) (at_loc fs)).
Proof.
  intros M WR NO. unfold w_insert. rewrite (w_find_spec fs l w M), WR. destruct o as [[]|e|x]; [contradiction|reflexivity|reflexivity].
Qed.
End Insert.

Lemma mem_pending fs l slots loc : w_mem fs l slots loc -> w_mem fs l (map lsl fs ++ [lsl l]) (at_loc fs).
Proof. intros [F L _ _]. split; auto. Qed.

(** ** Bytes *)
Definition gfile (g : list bytes) : bytes := slot_table (map blen g) ++ concat g.
Definition files (gs : list (list bytes)) : bytes := concat (map gfile gs).
Definition gro {A} (fs : list (list A)) (l : list A) : list (list A) := fs ++ match l with [] => [] | _ => [l] end.

Lemma files_app a b : files (a ++ b) = files a ++ files b.
Proof. unfold files. now rewrite map_app, concat_app. Qed.
Lemma files_one g : files [g] = gfile g.
Proof. unfold files. cbn [map concat]. apply app_nil_r. Qed.

Lemma le_zero k : le k 0 = repeat (n2b 0) k.
Proof. induction k as [|k IH]; cbn [le repeat]; [reflexivity|]. change (0 / 256) with 0. now rewrite IH. Qed.
Lemma le8_zeros n : concat (map (le 8) (repeat 0 n)) = repeat (n2b 0) (8 * n).
Proof.
  induction n as [|n IH]; [reflexivity|]. cbn [repeat map concat]. rewrite IH, le_zero, <- repeat_app. f_equal. lia.
Qed.
Lemma slot_table_eq lens : slot_table lens = slot_sig ++ le 8 (sl_capacity (lsl lens)) ++ slot_content (lsl lens).
Proof.
  unfold slot_table, slot_content. change (map n2b _) with slot_sig. cbv zeta.
  unfold lsl, tab, with_crc, slot_crc. cbn [sl_capacity sl_lengths sl_crc]. rewrite map_app, concat_app, le8_zeros, cap_eq.
  change (N.of_nat 500) with 500. rewrite <- !app_assoc. reflexivity.
Qed.
Lemma slot_table_length lens : (length lens <= C)%nat -> blen (slot_table lens) = tsz.
Proof.
  intros L. rewrite slot_table_eq. unfold slot_content. rewrite <- tsz_eq. unfold blen, lsl, tab, with_crc, slot_crc. cbn [sl_capacity sl_lengths sl_crc].
  rewrite !app_length, le_length, le8_length, crc32_le_length, app_length, repeat_length. change (length slot_sig) with 8%nat. lia.
Qed.
Lemma lsl_bytes lens : (length lens <= C)%nat -> slot_bytes (lsl lens) = Ok (slot_table lens).
Proof.
  intros L. rewrite slot_table_eq. unfold slot_bytes, slot_content.
  set (b := slot_sig ++ _). assert (blen b = slot_size (lsl lens)) as E.
  { change (blen (slot_sig ++ le 8 (sl_capacity (lsl lens)) ++ slot_content (lsl lens)) = slot_size (lsl lens)).
    rewrite <- slot_table_eq, slot_table_length by exact L. unfold lsl. now rewrite tab_size, tsz_eq. }
  rewrite E, N.leb_refl, N.sub_diag. cbn [N.to_nat repeat]. now rewrite app_nil_r.
Qed.
Lemma concat_blen g : blen (concat g) = sum (map blen g).
Proof. induction g as [|e g IH]; cbn [concat map sum fold_right]; [reflexivity|]. rewrite blen_app, IH. reflexivity. Qed.
Lemma gfile_blen g : (length g <= C)%nat -> blen (gfile g) = gsz (map blen g).
Proof. intros L. unfold gfile, gsz. now rewrite blen_app, slot_table_length, concat_blen by now rewrite map_length. Qed.
Definition small (g : list bytes) : Prop := (length g <= C)%nat.
Lemma files_blen gs : Forall small gs -> blen (files gs) = gszs (map (map blen) gs).
Proof.
  unfold gszs. intros F. induction F as [|g gs H F IH]; cbn [map sum fold_right]; [reflexivity|]. change (files (g :: gs)) with (gfile g ++ files gs).
  rewrite blen_app, IH, gfile_blen by exact H. reflexivity.
Qed.

Lemma overwrite_at A T bs p : length A = N.to_nat p -> bs <> [] -> overwrite p bs (A ++ T) = A ++ bs ++ skipn (length bs) T.
Proof.
  intros L NE. unfold overwrite. destruct bs as [|b bs]; [contradiction|]. rewrite <- L.
  rewrite firstn_app_exact by reflexivity. f_equal. rewrite app_length. replace (length A - (length A + length T))%nat with 0%nat by lia.
  cbn [repeat app]. f_equal. f_equal. rewrite skipn_app, skipn_all2 by lia. cbn [app]. f_equal. lia.
Qed.

Lemma write_healthy bs c : file_write_all bs (mk_file c [] []) = (Ok tt, mk_file (match bs with [] => c | _ => c_write bs c end) [] []).
Proof. unfold file_write_all. cbn [fl_sched fl_cur fl_flushes]. destruct bs; reflexivity. Qed.

Lemma store_ok s so off sb buf c : slot_bytes s = Ok sb -> exists c',
  w_store s so off buf (mk_file c [] []) = (Ok tt, mk_file c' [] []) /\ c_data c' = overwrite off buf (overwrite so sb (c_data c)).
Proof.
  intros E. unfold w_store. cbn [file_flush fl_flushes sbind]. rewrite E. unfold file_seek. cbn [sbind fl_cur fl_sched fl_flushes].
  rewrite write_healthy. cbn [sbind file_flush fl_flushes fl_cur fl_sched]. rewrite write_healthy. cbn [sbind file_flush fl_flushes].
  eexists. split; [reflexivity|].
  assert (forall bs d, c_data (match bs with [] => d | _ => c_write bs d end) = overwrite (c_pos d) bs (c_data d)) as W by (intros [|b bs] d; reflexivity).
  rewrite W. unfold c_seek at 2. cbn [c_pos]. f_equal. unfold c_seek. cbn [c_data]. rewrite W. reflexivity.
Qed.

(** *** Groups *)
Definition shaped {A} (fs : list (list A)) (l : list A) : Prop := Forall (fun g => length g = C) fs /\ (length l < C)%nat.

Lemma concat_gro {A} (fs : list (list A)) l : concat (gro fs l) = concat fs ++ l.
Proof. unfold gro. rewrite concat_app. f_equal. destruct l; cbn [concat]; [reflexivity|apply app_nil_r]. Qed.
Lemma groups_go {A} n (fs : list (list A)) l : (0 < n)%nat -> Forall (fun g => length g = n) fs -> (length l < n)%nat ->
  forall fuel, (length (concat fs ++ l) <= fuel)%nat -> in_groups_go fuel n (concat fs ++ l) = gro fs l.
Proof.
  intros CP F L. induction F as [|g fs Hg F IH]; intros fuel LF.
  - cbn [concat app] in *. unfold gro. cbn [app]. destruct l as [|x l]; [destruct fuel; reflexivity|].
    destruct fuel as [|f]; [cbn [length] in LF; lia|]. cbn [in_groups_go]. rewrite firstn_all2, skipn_all2 by lia. now destruct f.
  - cbn [concat] in *. rewrite <- app_assoc in *. rewrite app_length in LF.
    destruct fuel as [|f]; [lia|]. destruct g as [|x g]; [cbn [length] in Hg; lia|].
    cbn [in_groups_go app]. change (x :: g ++ concat fs ++ l) with ((x :: g) ++ concat fs ++ l).
    rewrite firstn_app_exact, skipn_app_exact by now rewrite Hg. rewrite IH by (cbn [length] in *; lia). reflexivity.
Qed.
Lemma groups_shaped {A} (fs : list (list A)) l : shaped fs l -> in_groups C (concat fs ++ l) = gro fs l.
Proof. intros (F & L). apply groups_go; auto. apply cap_pos. Qed.
Lemma storage_shaped fs l : shaped fs l -> storage_file (concat fs ++ l) = files (gro fs l).
Proof. intros SH. unfold storage_file, files. rewrite <- (groups_shaped fs l SH), cap_eq. reflexivity. Qed.

Lemma shaped_push {A} (fs : list (list A)) l x : shaped fs l -> shaped (fst (push fs l x)) (snd (push fs l x)).
Proof.
  intros (F & L). unfold push. destruct (Nat.eqb_spec (length l + 1) C); cbn [fst snd]; split; auto.
  - apply Forall_app. split; [exact F|]. repeat constructor. rewrite app_length. assumption.
  - apply cap_pos.
  - rewrite app_length. cbn [length]. lia.
Qed.
Lemma concat_push {A} (fs : list (list A)) l x : concat (fst (push fs l x)) ++ snd (push fs l x) = (concat fs ++ l) ++ [x].
Proof.
  unfold push. destruct (_ =? _)%nat; cbn [fst snd]; [|apply app_assoc]. rewrite concat_app. cbn [concat]. now rewrite !app_nil_r, app_assoc.
Qed.
Lemma gro_push {A} (fs : list (list A)) l x : gro (fst (push fs l x)) (snd (push fs l x)) = fs ++ [l ++ [x]].
Proof. unfold push, gro. destruct (_ =? _)%nat; cbn [fst snd]; [apply app_nil_r|]. destruct l; reflexivity. Qed.
Lemma push_map {A B} (f : A -> B) fs l x : push (map (map f) fs) (map f l) (f x) = (map (map f) (fst (push fs l x)), map f (snd (push fs l x))).
Proof. unfold push. rewrite map_length. destruct (_ =? _)%nat; cbn [fst snd]; rewrite ?map_app; cbn [map]; rewrite ?map_app; reflexivity. Qed.
Lemma decompose {A} (es : list A) : exists fs l, shaped fs l /\ es = concat fs ++ l.
Proof.
  induction es as [|x es IH] using rev_ind.
  - exists [], []. split; [|reflexivity]. split; [constructor|apply cap_pos].
  - destruct IH as (fs & l & SH & ->). exists (fst (push fs l x)), (snd (push fs l x)). split; [now apply shaped_push|]. now rewrite concat_push.
Qed.
Lemma shaped_small fs l : shaped fs l -> Forall small (gro fs l).
Proof.
  intros (F & L). unfold gro. apply Forall_app. split.
  - eapply Forall_impl; [|exact F]. intros g E. cbv beta in E. unfold small. lia.
  - destruct l; repeat constructor. unfold small. lia.
Qed.
(** The size of a storage only depends on the sizes of the packets. *)
Lemma groups_size fuel : forall es es', map blen es = map blen es' ->
  blen (concat (map gfile (in_groups_go fuel 500 es))) = blen (concat (map gfile (in_groups_go fuel 500 es'))).
Proof.
  induction fuel as [|fuel IH]; intros es es' E; [reflexivity|]. cbn [in_groups_go]. destruct es as [|x es], es' as [|x' es']; try discriminate; [reflexivity|].
  cbn [map concat]. rewrite !blen_app. rewrite (IH (skipn 500 (x :: es)) (skipn 500 (x' :: es'))) by now rewrite <- !skipn_map, E. f_equal.
  unfold gfile. rewrite !blen_app, !concat_blen, <- !firstn_map, E. reflexivity.
Qed.
Lemma storage_size es es' : map blen es = map blen es' -> blen (storage_file es) = blen (storage_file es').
Proof.
  intros E. unfold storage_file, in_groups. rewrite <- (map_length blen es), E, map_length. apply groups_size. exact E.
Qed.
Lemma storage_mono es es' : blen (storage_file es) <= blen (storage_file (es ++ es')).
Proof.
  induction es' as [|x es' IH] using rev_ind; [rewrite app_nil_r; lia|]. rewrite app_assoc. etransitivity; [exact IH|].
  destruct (decompose (es ++ es')) as (fs & l & SH & ->). rewrite <- concat_push, !storage_shaped by auto using shaped_push.
  rewrite gro_push. unfold gro. rewrite !files_app, !blen_app, files_one.
  destruct SH as (F & L). rewrite gfile_blen by (rewrite app_length; cbn [length]; lia).
  destruct l as [|y l]; [change (files []) with (@nil byte); rewrite blen_nil; lia|]. rewrite files_one, gfile_blen by lia.
  unfold gsz. rewrite map_app, sum_app. lia.
Qed.

(** ** The writer on a file that works *)
Record w_ok (fs : list (list bytes)) (l : list bytes) (w : writer) : Prop := {
  wo_mem : w_mem (map (map blen) fs) (map blen l) (w_slots w) (w_loc w);
  wo_file : exists c, w_file w = mk_file c [] [] /\ c_data c = files (gro fs l) }.

Lemma mem_shaped fs l slots loc : w_mem (map (map blen) fs) (map blen l) slots loc -> @shaped bytes fs l.
Proof.
  intros [F (L & _) _ _]. rewrite map_length in L. split; [|exact L]. rewrite Forall_map in F.
  eapply Forall_impl; [|exact F]. intros g (E & _). now rewrite map_length in E.
Qed.
Lemma ok_shaped fs l w : w_ok fs l w -> shaped fs l.
Proof. intros [M _]. apply (mem_shaped _ _ _ _ M). Qed.
(** Left-over bytes at the end of the file are overwritten. *)
Lemma ok_insert_tail {U} fs l w (p : packet U) e c J : w_mem (map (map blen) fs) (map blen l) (w_slots w) (w_loc w) ->
  w_file w = mk_file c [] [] -> c_data c = files (gro fs l) ++ J -> blen J < 16 /\ blen J <= blen e \/ l = [] /\ blen J <= tsz ->
  pkt_write_all p (mk_sink [] []) = (Ok tt, mk_sink e []) -> e <> [] ->
  exists w', w_insert p w = (Ok tt, w') /\ w_ok (fst (push fs l e)) (snd (push fs l e)) w'.
Proof.
  intros M FI D JS WR NE.
  assert (shaped fs l) as SH by (apply (mem_shaped _ _ _ _ M)). rewrite (insert_ok _ _ _ _ _ M WR), FI.
  pose proof SH as (F & L).
  assert (length (map blen l ++ [blen e]) <= C)%nat as LS by (rewrite app_length, map_length; cbn [length]; lia).
  destruct (store_ok (lsl (map blen l ++ [blen e])) (gszs (map (map blen) fs)) (gszs (map (map blen) fs) + (sum (map blen l) + tsz)) _ e c (lsl_bytes _ LS)) as (c' & E & D').
  rewrite E. eexists. split; [reflexivity|]. split; cbn [w_slots w_loc w_file].
  - assert (0 < blen e) as PE by (destruct e; [contradiction|rewrite blen_cons; lia]).
    pose proof (mem_push _ _ (blen e) _ _ M PE) as Q. rewrite push_map in Q. exact Q.
  - exists c'. split; [reflexivity|]. rewrite D', D, gro_push. unfold gro. rewrite !files_app, files_one, <- app_assoc. set (A := files fs).
    assert (blen A = gszs (map (map blen) fs)) as LA.
    { apply files_blen. eapply Forall_impl; [|exact F]. intros g Eg. cbv beta in Eg. unfold small. lia. }
    set (stb := slot_table (map blen l ++ [blen e])). assert (blen stb = tsz) as LT by now apply slot_table_length.
    assert (length stb = N.to_nat tsz) as LT' by (rewrite <- LT, to_nat_blen; reflexivity).
    rewrite overwrite_at; [|rewrite <- LA, to_nat_blen; reflexivity|destruct stb; [rewrite blen_nil in LT; discriminate LT|discriminate]].
    assert (exists J', skipn (length stb) (files match l with [] => [] | _ => [l] end ++ J) = concat l ++ J' /\ (length J' <= length e)%nat) as (J' & -> & LJ).
    { destruct l as [|x l].
      - exists []. split; [|apply Nat.le_0_l]. change (files []) with (@nil byte). cbn [app concat]. apply skipn_all2. unfold blen, tsz in *. lia.
      - destruct JS as [(_ & JE)|(Q & _)]; [|discriminate]. exists J. split; [|unfold blen in JE; lia]. rewrite files_one. unfold gfile. rewrite <- app_assoc. apply skipn_app_exact. rewrite LT'.
        pose proof (slot_table_length (map blen (x :: l))) as Q. rewrite map_length in Q. specialize (Q ltac:(lia)). rewrite <- Q, to_nat_blen. reflexivity. }
    replace (A ++ stb ++ concat l ++ J') with ((A ++ stb ++ concat l) ++ J') by now rewrite <- !app_assoc. rewrite overwrite_at; [|rewrite !app_length|exact NE].
    + unfold gfile. rewrite map_app. cbn [map]. fold stb. rewrite concat_app. cbn [concat].
      rewrite skipn_all2 by exact LJ. rewrite !app_nil_r, <- !app_assoc. reflexivity.
    + pose proof (concat_blen l) as Q. rewrite <- LA, <- LT, <- Q. unfold blen. lia.
Qed.
Lemma ok_insert {U} fs l w (p : packet U) e : w_ok fs l w -> pkt_write_all p (mk_sink [] []) = (Ok tt, mk_sink e []) -> e <> [] ->
  exists w', w_insert p w = (Ok tt, w') /\ w_ok (fst (push fs l e)) (snd (push fs l e)) w'.
Proof.
  intros [M (c & FI & D)] WR NE. apply (ok_insert_tail fs l w p e c [] M FI); auto; [now rewrite app_nil_r|left; rewrite blen_nil; lia].
Qed.

(** ** Loading *)
Fixpoint anch (off : N) (gs : list (list bytes)) : list (slot * N) :=
  match gs with [] => [] | g :: r => (lsl (map blen g), off) :: anch (off + gsz (map blen g)) r end.
Lemma anch_fst off gs : map fst (anch off gs) = map (fun g => lsl (map blen g)) gs.
Proof. revert off. induction gs as [|g gs IH]; intros off; cbn [anch map fst]; [reflexivity|]. now rewrite IH. Qed.
Lemma anch_length off gs : length (anch off gs) = length gs.
Proof. revert off. induction gs as [|g gs IH]; intros off; cbn [anch length]; [reflexivity|]. now rewrite IH. Qed.
Definition filled (g : list bytes) : Prop := (length g <= C)%nat /\ Forall (fun e => e <> []) g.
Lemma filled_good g : filled g -> good (map blen g).
Proof.
  intros (L & F). split; [now rewrite map_length|]. apply Forall_map. eapply Forall_impl; [|exact F]. intros e NE.
  destruct e; [contradiction|rewrite blen_cons; lia].
Qed.

Lemma c_at A B data p : data = A ++ B -> blen A = p -> forall c, c_data c = data ->
  c_rest (c_seek p c) = B /\ c_ok (c_seek p c) /\ c_data (c_seek p c) = data.
Proof.
  intros -> <- c E. unfold c_rest, c_seek, c_ok, c_len. cbn [c_pos c_data]. rewrite E, blen_app.
  replace (blen A <=? blen A + blen B) with true by lia. rewrite to_nat_blen, skipn_app_exact by reflexivity. split; [reflexivity|]. split; [lia|reflexivity].
Qed.

Lemma sum_in l n : In n l -> n <= sum l.
Proof. induction l as [|x l IH]; cbn [In sum fold_right]; [easy|]. fold (sum l). intros [->|I]; [lia|]. specialize (IH I). lia. Qed.

Lemma small_ok g : (length g <= C)%nat -> blen (concat g) < two64 -> slot_ok (lsl (map blen g)).
Proof.
  intros L B. apply tab_ok; [now rewrite map_length|rewrite cap_eq; vm_compute; reflexivity|]. apply Forall_forall. intros n I.
  rewrite concat_blen in B. pose proof (sum_in _ _ I). lia.
Qed.

(** Whatever precedes and follows: a complete group is found. *)
Lemma try_group A g B c : c_data c = A ++ gfile g ++ B -> (length g <= C)%nat -> blen (concat g) < two64 ->
  exists c', slot_try_read (c_seek (blen A) c) = (Ok (Success (lsl (map blen g))), c') /\ c_data c' = c_data c.
Proof.
  intros D L S. destruct (c_at A (gfile g ++ B) _ (blen A) D eq_refl c eq_refl) as (V & O & D').
  unfold gfile in V. rewrite slot_table_eq, <- !app_assoc in V.
  destruct (slot_try_ok _ (lsl (map blen g)) _ O (small_ok g L S) V) as (c' & E & _). exists c'. split; [exact E|].
  apply slot_try_data in E. congruence.
Qed.
Lemma try_tail A J c : c_data c = A ++ J -> blen J < 16 -> slot_try_read (c_seek (blen A) c) = (Ok (NotEnough 16), c_seek (blen A) c).
Proof.
  intros D LJ. destruct (c_at A J (A ++ J) (blen A) eq_refl eq_refl c D) as (V & O & _).
  apply slot_try_short; [exact O|]. now rewrite V.
Qed.
Lemma try_end A c : c_data c = A -> slot_try_read (c_seek (blen A) c) = (Ok (NotEnough 16), c_seek (blen A) c).
Proof. intros D. apply (try_tail A []); [now rewrite app_nil_r|reflexivity]. Qed.

(** Complete groups are loaded, whatever follows. *)
Lemma load_skip J gs : forall fuel A acc c, c_data c = A ++ files gs ++ J -> Forall filled gs -> blen (A ++ files gs) < two63 ->
  exists c', load_go (length gs + fuel) (blen A) acc c = load_go fuel (blen (A ++ files gs)) (acc ++ anch (blen A) gs) c' /\ c_data c' = c_data c.
Proof.
  induction gs as [|g gs IH]; intros fuel A acc c D F B.
  - change (files []) with (@nil byte). rewrite !app_nil_r. exists c. cbn [anch length Nat.add]. rewrite ?app_nil_r. split; reflexivity.
  - cbn [length Nat.add load_go].
    inversion F as [|? ? Hg F']; subst. change (files (g :: gs)) with (gfile g ++ files gs) in *. rewrite !blen_app, gfile_blen in B by apply Hg.
    rewrite <- app_assoc in D.
    destruct (try_group A g (files gs ++ J) c D (proj1 Hg)) as (c1 & E & D1).
    { unfold gsz in B. rewrite concat_blen. unfold two63, two64 in *. lia. }
    rewrite E. rewrite lsl_total by now apply filled_good.
    assert (blen (A ++ gfile g) = blen A + gsz (map blen g)) as LA by (rewrite blen_app, gfile_blen by apply Hg; reflexivity).
    replace (two64 <=? blen A + gsz (map blen g)) with false by (unfold two63, two64 in *; lia). rewrite <- LA.
    destruct (IH fuel (A ++ gfile g) (acc ++ [(lsl (map blen g), blen A)]) c1) as (c' & E' & D').
    + rewrite D1, D, <- app_assoc. reflexivity. + exact F'. + rewrite !blen_app, gfile_blen by apply Hg. lia.
    + exists c'. rewrite E', <- !app_assoc. cbn [app anch]. rewrite LA. split; [reflexivity|congruence].
Qed.

Lemma files_fuel gs : Forall filled gs -> (length gs <= length (files gs))%nat.
Proof.
  induction 1 as [|g gs H F IH]; [apply Nat.le_0_l|]. change (files (g :: gs)) with (gfile g ++ files gs). rewrite app_length. cbn [length].
  pose proof (gfile_blen g (proj1 H)) as Q. unfold gsz, tsz, blen in Q. lia.
Qed.
Lemma load_tail gs J c : c_data c = files gs ++ J -> Forall filled gs -> blen (files gs) < two63 -> blen J < 16 ->
  exists c', load c = (Ok (anch 0 gs), c') /\ c_data c' = c_data c.
Proof.
  intros D F B LJ. unfold load. pose proof (files_fuel gs F) as FU.
  replace (length (c_data c) + 1)%nat with (length gs + S (length (c_data c) - length gs))%nat by (rewrite D, app_length; lia).
  destruct (load_skip J gs (S (length (c_data c) - length gs)) [] [] c D F B) as (c' & E & D'). change (blen []) with 0 in E. rewrite E.
  cbn [load_go]. cbn [app]. rewrite (try_tail (files gs) J) by congruence. eexists. split; [reflexivity|]. cbn [c_seek c_data]. exact D'.
Qed.
Lemma load_ok gs c : c_data c = files gs -> Forall filled gs -> blen (files gs) < two63 ->
  exists c', load c = (Ok (anch 0 gs), c') /\ c_data c' = c_data c.
Proof. intros D F B. apply (load_tail gs []); auto; [now rewrite app_nil_r|reflexivity]. Qed.

Definition nonempty_all (es : list bytes) : Prop := Forall (fun e => e <> []) es.
Lemma shaped_filled fs l : shaped fs l -> nonempty_all (concat fs ++ l) -> Forall filled (gro fs l).
Proof.
  intros SH NE. pose proof (shaped_small _ _ SH) as SM. rewrite <- concat_gro in NE. unfold nonempty_all in NE. rewrite Forall_concat in NE.
  apply Forall_forall. intros g I. rewrite Forall_forall in SM. split; [now apply SM|]. rewrite Forall_forall in NE. now apply NE.
Qed.
Lemma shaped_full fs l : shaped fs l -> nonempty_all (concat fs ++ l) ->
  Forall fullg (map (map blen) fs) /\ (length (map blen l) < C)%nat /\ pos_all (map blen l).
Proof.
  intros (F & L) NE. apply Forall_app in NE as (N1 & N2). rewrite Forall_concat in N1.
  assert (forall g, Forall (fun e : bytes => e <> []) g -> pos_all (map blen g)) as P.
  { intros g Q. apply Forall_map. eapply Forall_impl; [|exact Q]. intros e NE. destruct e; [contradiction|rewrite blen_cons; lia]. }
  split; [|split; [now rewrite map_length|auto]]. apply Forall_map. rewrite Forall_forall in *. intros g I. split; [rewrite map_length; auto|auto].
Qed.
Lemma gro_slots fs l : let slots := map (fun g => lsl (map blen g)) (gro fs l) in
  slots = map lsl (map (map blen) fs) ++ [lsl (map blen l)] \/ map blen l = [] /\ slots = map lsl (map (map blen) fs).
Proof.
  cbv zeta. unfold gro. rewrite map_app, map_map. destruct l as [|x l]; [right|left; reflexivity]. split; [reflexivity|]. apply app_nil_r.
Qed.

Lemma open_tail fs l J : shaped fs l -> nonempty_all (concat fs ++ l) -> blen (files (gro fs l)) < two63 -> blen J < 16 ->
  exists w c, w_open (healthy (files (gro fs l) ++ J)) = Ok w /\ w_mem (map (map blen) fs) (map blen l) (w_slots w) (w_loc w) /\
    w_file w = mk_file c [] [] /\ c_data c = files (gro fs l) ++ J.
Proof.
  intros SH NE B LJ. pose proof (shaped_filled _ _ SH NE) as FF.
  destruct (load_tail (gro fs l) J (mk_cursor (files (gro fs l) ++ J) 0)) as (c' & E & D'); [reflexivity|exact FF|exact B|exact LJ|].
  unfold w_open, healthy. cbn [fl_cur fl_sched fl_flushes]. rewrite E. eexists _, c'. split; [reflexivity|]. cbn [w_slots w_loc w_file].
  destruct (shaped_full _ _ SH NE) as (A1 & A2 & A3). split; [|split; [reflexivity|exact D']].
  rewrite anch_fst. pose proof (gro_slots fs l) as Q. cbv zeta in Q. split; auto. left. eapply setup_mem; eauto.
Qed.
Lemma open_ok fs l data : shaped fs l -> nonempty_all (concat fs ++ l) -> data = files (gro fs l) -> blen data < two63 ->
  exists w, w_open (healthy data) = Ok w /\ w_ok fs l w.
Proof.
  intros SH NE -> B. destruct (open_tail fs l [] SH NE B ltac:(reflexivity)) as (w & c & E & M & FI & D). rewrite app_nil_r in *.
  exists w. split; [exact E|]. split; [exact M|]. eauto.
Qed.

(** ** Histories *)
Lemma packet_enc_nonempty {U} (P : proto U) p e : packet_enc P p e -> e <> [].
Proof. intros (tail & _ & _ & _ & ->). unfold layout_header. cbn [map app]. discriminate. Qed.
Lemma encs_nonempty {U} (P : proto U) ps es : Forall2 (packet_enc P) ps es -> nonempty_all es.
Proof. induction 1; constructor; eauto using packet_enc_nonempty. Qed.

Lemma steps_ok {U} (P : proto U) os : forall fs l w es',
  w_ok fs l w -> nonempty_all (concat fs ++ l) -> Forall2 (packet_enc P) (w_inserted os) es' ->
  blen (storage_file ((concat fs ++ l) ++ es')) < two63 ->
  exists fs' l' w', w_steps os w = Ok w' /\ w_ok fs' l' w' /\ concat fs' ++ l' = (concat fs ++ l) ++ es'.
Proof.
  induction os as [|o os IH]; intros fs l w es' OK NE FE B; cbn [w_steps].
  - inversion FE; subst. exists fs, l, w. rewrite app_nil_r. auto.
  - destruct o as [p|]; cbn [w_step]; change (w_inserted (?o :: os)) with ((match o with WInsert p => [p] | WReopen => [] end) ++ w_inserted os) in FE; cbn [app] in FE.
    + inversion FE as [|? e ? es2 Hp FE2]; subst.
      destruct (ok_insert fs l w p e OK (pkt_write_all_ok P p e [] Hp) (packet_enc_nonempty _ _ _ Hp)) as (w1 & E & OK1). rewrite E. cbn [rbind].
      destruct (IH (fst (push fs l e)) (snd (push fs l e)) w1 es2 OK1) as (fs' & l' & w' & E' & OK' & CC).
      * rewrite concat_push. apply Forall_app. split; [exact NE|]. repeat constructor. now apply (packet_enc_nonempty _ _ _ Hp).
      * exact FE2. * rewrite concat_push, <- app_assoc. exact B.
      * exists fs', l', w'. rewrite CC, concat_push, <- app_assoc. auto.
    + pose proof (ok_shaped _ _ _ OK) as SH. destruct OK as [M (c & FI & D)]. rewrite FI. cbn [fl_data fl_cur]. unfold fl_data. cbn [fl_cur].
      destruct (open_ok fs l (c_data c) SH NE D) as (w1 & E & OK1).
      { rewrite D, <- storage_shaped by exact SH. pose proof (storage_mono (concat fs ++ l) es'). lia. }
      rewrite E. cbn [rbind]. now apply IH.
Qed.

Lemma history_ok {U} (P : proto U) os es : Forall2 (packet_enc P) (w_inserted os) es -> blen (storage_file es) < two63 ->
  exists fs l w, w_history os = Ok w /\ w_ok fs l w /\ concat fs ++ l = es.
Proof.
  intros FE B. unfold w_history. destruct (open_ok [] [] [] ltac:(split; [constructor|apply cap_pos]) ltac:(constructor) eq_refl ltac:(reflexivity)) as (w & E & OK).
  rewrite E. cbn [rbind]. destruct (steps_ok P os [] [] w es OK ltac:(constructor) FE B) as (fs & l & w' & E' & OK' & CC). eauto 8.
Qed.
Lemma history_data fs l w : w_ok fs l w -> w_data w = storage_file (concat fs ++ l).
Proof. intros OK. rewrite storage_shaped by now apply (ok_shaped _ _ w). destruct OK as [_ (c & E & D)]. unfold w_data. now rewrite E. Qed.
