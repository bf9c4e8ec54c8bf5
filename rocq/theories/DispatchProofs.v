(** * The generated Block enum: dispatch over the declared types; write paths. *)
From Coq Require Import Permutation ZifyBool ZifyNat ZifyN.
From Verif Require Import Base Crc32 Io Block Spec BaseProofs BlockProofs.
Open Scope list_scope.

(** ** Errors after the signature *)
Lemma dec_slice_err t raw e : dec_slice t raw = Err e -> e = EFailedConverting.
Proof. destruct t; simpl; try easy. destruct (l_of l _); [easy|]. now inversion 1. Qed.
Lemma dec_stream_err t raw e : dec_stream t raw = Err e -> e = EFailedConverting.
Proof. destruct t; simpl; try easy. destruct (l_of l _); [easy|]. now inversion 1. Qed.

Lemma fields_parse_err D (HD : forall t raw e, D t raw = Err e -> e = EFailedConverting) ts :
  forall raw e, fields_parse D ts raw = Err e -> e = EFailedConverting.
Proof.
  induction ts as [|t ts IH]; intros raw e E; cbn [fields_parse] in E; [easy|].
  destruct (D t (firstn (ty_size t) raw)) eqn:ED; cbn [rbind] in E; try easy.
  - destruct (fields_parse D ts (skipn (ty_size t) raw)) eqn:EP; cbn [rbind] in E; try easy.
    inversion E; subst. eauto.
  - inversion E; subst. eauto.
Qed.

Lemma blk_parse_err D (HD : forall t raw e, D t raw = Err e -> e = EFailedConverting) sc raw crc e :
  blk_parse D sc raw crc = Err e -> e = EFailedConverting \/ e = ECrcDismatch.
Proof.
  unfold blk_parse. destruct (fields_parse D (s_tys sc) raw) eqn:EP; cbn [rbind]; try easy.
  - destruct (bytes_eqb _ crc); inversion 1; auto.
  - inversion 1; subst. left. eapply fields_parse_err; eauto.
Qed.

(** Readers that only fail with I/O errors. *)
Definition io_only {S} (R : reader S) : Prop :=
  forall n s e s', rd_exact R n s = (Err e, s') -> exists k, e = EIo k.

Lemma stream_io_only : io_only stream_reader.
Proof. intros n s e s'. simpl. unfold stream_read_exact. destruct (n <=? blen s); inversion 1; eauto. Qed.
Lemma cursor_io_only : io_only cursor_reader.
Proof. intros n s e s'. simpl. unfold cursor_read_exact. destruct (n <=? _); inversion 1; eauto. Qed.
Lemma buf_io_only : io_only buf_reader.
Proof.
  intros n s e s'. simpl. unfold buf_read_exact. generalize (@nil byte) as acc. generalize n, (b_cur s).
  induction (b_evs s) as [|ev evs IH]; intros m cur acc; cbn [buf_read_exact_go];
    destruct (m <=? blen cur); try easy.
  - inversion 1; eauto.
  - destruct ev as [[|b bs]|k]; [inversion 1; eauto|apply IH|].
    destruct k; try apply IH; inversion 1; subst; eauto.
Qed.

Lemma read_fields_err {S} (R : reader S) (HR : io_only R) ts : forall s e s',
  read_fields R ts s = (Err e, s') -> e = EFailedConverting \/ exists k, e = EIo k.
Proof.
  induction ts as [|t ts IH]; intros s e s' E; cbn [read_fields] in E; [easy|].
  destruct (rd_exact R (N.of_nat (ty_size t)) s) as [[a|e1|] s1] eqn:E1; cbn [sbind] in E; try easy.
  - destruct (dec_stream t a) eqn:ED; try easy.
    + destruct (read_fields R ts s1) as [[vs|e2|] s2] eqn:E2; cbn [sbind] in E; try easy.
      inversion E; subst. eauto.
    + inversion E; subst. left. eapply dec_stream_err; eauto.
  - inversion E; subst. right. eapply HR; eauto.
Qed.

Lemma blk_read_skip_err {S} (R : reader S) (HR : io_only R) sc s e s' :
  blk_read R sc true s = (Err e, s') -> is_sig_dismatch e = false.
Proof.
  unfold blk_read. cbn [sbind].
  destruct (read_fields R (s_tys sc) s) as [[vs|e1|] s1] eqn:E1; cbn [sbind]; try easy.
  - destruct (rd_exact R 4 s1) as [[crc|e2|] s2] eqn:E2; cbn [sbind]; try easy.
    + destruct (bytes_eqb _ crc); inversion 1; easy.
    + inversion 1; subst. destruct (HR _ _ _ _ E2) as (k & ->). easy.
  - inversion 1; subst. destruct (read_fields_err R HR _ _ _ _ E1) as [-> | (k & ->)]; easy.
Qed.

(** ** Which type is picked *)
Definition pick (scs : list schema) (sig : bytes) : option schema :=
  find (fun sc => bytes_eqb sig (blk_sig sc)) scs.

Lemma pick_in scs sc : In sc scs -> NoDup (map blk_sig scs) -> pick scs (blk_sig sc) = Some sc.
Proof.
  induction scs as [|x scs IH]; intros HI ND; [easy|]. cbn [map] in ND. unfold pick. cbn [find].
  inversion ND; subst. destruct HI as [-> | HI].
  - now rewrite bytes_eqb_refl.
  - destruct (bytes_eqb (blk_sig sc) (blk_sig x)) eqn:E; [|now apply IH].
    apply bytes_eqb_eq in E. exfalso. apply H1. rewrite <- E. now apply in_map.
Qed.

Lemma pick_some scs sig sc : pick scs sig = Some sc -> In sc scs /\ sig = blk_sig sc.
Proof. intros H. apply find_some in H. destruct H as [H E]. apply bytes_eqb_eq in E. auto. Qed.

Lemma pick_perm scs scs' sig : Permutation scs scs' -> NoDup (map blk_sig scs) ->
  pick scs sig = pick scs' sig.
Proof.
  intros HP ND.
  assert (ND' : NoDup (map blk_sig scs')) by (eapply Permutation_NoDup; [apply Permutation_map, HP|easy]).
  destruct (pick scs sig) as [sc|] eqn:E.
  - apply pick_some in E. destruct E as [HI ->]. symmetry. apply pick_in; [|easy].
    eapply Permutation_in; eauto.
  - destruct (pick scs' sig) as [sc|] eqn:E'; [|easy].
    apply pick_some in E'. destruct E' as [HI ->].
    rewrite pick_in in E; [easy| |easy]. eapply Permutation_in; [symmetry|]; eauto.
Qed.

Definition lift_st {S} (sc : schema) (m : res (status (list fval)) * S) : res (status block) * S :=
  match m with
  | (Ok (Success vs), s) => (Ok (Success (mk_block sc vs)), s)
  | (Ok (NotEnough n), s) => (Ok (NotEnough n), s)
  | (Err e, s) => (Err e, s)
  | (Panic w, s) => (Panic w, s)
  end.

Lemma blk_slice_sig_ok sc src : (4 <= length src)%nat -> firstn 4 src = blk_sig sc ->
  forall e, blk_read_from_slice sc src false = Err e -> is_sig_dismatch e = false.
Proof.
  intros L4 SG e E. destruct (Nat.lt_ge_cases (length src) (ssize sc)) as [H|H].
  - unfold blk_read_from_slice in E. replace (length src <? 4)%nat with false in E by lia.
    rewrite SG, bytes_eqb_refl in E. cbn [rbind] in E.
    replace (length src <? ssize sc)%nat with true in E by lia. now inversion E.
  - destruct (split_block sc src H) as (sig & raw & crc & rest & -> & L1 & L2 & L3).
    rewrite firstn_app_exact in SG by easy. subst sig.
    rewrite blk_slice_spec in E by easy. rewrite bytes_eqb_refl in E.
    destruct (blk_parse_err _ dec_slice_err _ _ _ _ E) as [-> | ->]; easy.
Qed.

Lemma bk_slice_pick scs src : (4 <= length src)%nat ->
  bk_read_from_slice scs src false =
  match pick scs (firstn 4 src) with
  | Some sc => let! vs := blk_read_from_slice sc src false in Ok (mk_block sc vs)
  | None => Err ESignatureDismatch
  end.
Proof.
  intros L4. induction scs as [|sc scs IH]; [easy|].
  cbn [bk_read_from_slice]. unfold pick. cbn [find]. fold (pick scs (firstn 4 src)).
  destruct (bytes_eqb (firstn 4 src) (blk_sig sc)) eqn:E.
  - apply bytes_eqb_eq in E. pose proof (blk_slice_sig_ok sc src L4 E) as Q.
    destruct (blk_read_from_slice sc src false) as [vs|e|w]; cbn [rbind]; try easy.
    now rewrite (Q e eq_refl).
  - assert (EQ : blk_read_from_slice sc src false = Err ESignatureDismatch).
    { unfold blk_read_from_slice. replace (length src <? 4)%nat with false by lia. now rewrite E. }
    rewrite EQ. cbn [is_sig_dismatch]. exact IH.
Qed.

Lemma bk_slice_short scs src : (length src < 4)%nat ->
  bk_read_from_slice scs src false =
  match scs with [] => Err ESignatureDismatch | _ => Err (ENotEnoughtSignatureData (blen src) 4) end.
Proof.
  intros H. destruct scs as [|sc scs]; [easy|]. cbn [bk_read_from_slice].
  unfold blk_read_from_slice. now replace (length src <? 4)%nat with true by lia.
Qed.

Lemma bk_slice_perm scs scs' src : Permutation scs scs' -> NoDup (map blk_sig scs) ->
  bk_read_from_slice scs src false = bk_read_from_slice scs' src false.
Proof.
  intros HP ND. destruct (Nat.lt_ge_cases (length src) 4) as [H|H].
  - rewrite !bk_slice_short by easy.
    destruct scs, scs'; auto; [apply Permutation_nil in HP; easy|symmetry in HP; apply Permutation_nil in HP; easy].
  - rewrite !bk_slice_pick by easy. now rewrite (pick_perm _ _ _ HP ND).
Qed.

(** *** seekable *)
Lemma c_read_sig c : c_ok c -> 4 <= blen (c_rest c) ->
  cursor_read_exact 4 c = (Ok (firstn 4 (c_rest c)), c_seek (c_pos c + 4) c).
Proof. intros H L4. unfold cursor_read_exact. now replace (4 <=? blen (c_rest c)) with true by lia. Qed.

Lemma blk_try_miss sc c : c_ok c -> 4 <= blen (c_rest c) -> firstn 4 (c_rest c) <> blk_sig sc ->
  blk_try_read sc c = (Err ESignatureDismatch, c).
Proof.
  intros H L4 N1. unfold blk_try_read. rewrite c_available_ok by easy.
  replace (blen (c_rest c) <? 4) with false by lia. rewrite c_read_sig by easy. cbn [sbind].
  apply bytes_eqb_neq in N1. rewrite N1. cbn [negb]. unfold c_seek. simpl. now destruct c.
Qed.

Lemma blk_try_hit_err sc c e c' : c_ok c -> 4 <= blen (c_rest c) -> firstn 4 (c_rest c) = blk_sig sc ->
  blk_try_read sc c = (Err e, c') -> is_sig_dismatch e = false.
Proof.
  intros H L4 SG. unfold blk_try_read. rewrite c_available_ok by easy.
  replace (blen (c_rest c) <? 4) with false by lia. rewrite c_read_sig by easy. cbn [sbind].
  rewrite SG, bytes_eqb_refl. cbn [negb]. destruct (_ <? _); [easy|].
  destruct (blk_read cursor_reader sc true _) as [[vs|e1|] c1] eqn:E; cbn [sbind]; try easy.
  inversion 1; subst. eapply blk_read_skip_err; [apply cursor_io_only|eauto].
Qed.

Lemma bk_try_pick scs c : c_ok c -> 4 <= blen (c_rest c) ->
  bk_try_read scs c =
  match pick scs (firstn 4 (c_rest c)) with
  | Some sc => lift_st sc (blk_try_read sc c)
  | None => (Err ESignatureDismatch, c)
  end.
Proof.
  intros H L4. induction scs as [|sc scs IH]; [easy|].
  cbn [bk_try_read]. unfold pick. cbn [find]. fold (pick scs (firstn 4 (c_rest c))).
  destruct (bytes_eqb (firstn 4 (c_rest c)) (blk_sig sc)) eqn:E.
  - apply bytes_eqb_eq in E. pose proof (fun e c' => blk_try_hit_err sc c e c' H L4 E) as Q.
    destruct (blk_try_read sc c) as [[[vs|n]|e|w] c1]; cbn [lift_st]; try easy.
    now rewrite (Q e c1 eq_refl).
  - apply bytes_eqb_neq in E. rewrite (blk_try_miss sc c H L4 E). cbn [is_sig_dismatch]. exact IH.
Qed.

Lemma bk_try_short scs c : c_ok c -> blen (c_rest c) < 4 -> scs <> [] ->
  bk_try_read scs c = (Ok (NotEnough (4 - blen (c_rest c))), c).
Proof.
  intros H L4 N1. destruct scs as [|sc scs]; [easy|]. cbn [bk_try_read].
  destruct (blk_try_read_spec sc c H) as [Q _]. now rewrite (Q L4).
Qed.

Lemma c_available_bad c : ~ c_ok c -> c_available c = Panic POverflow.
Proof. unfold c_ok, c_available. intros H. now replace (c_pos c <=? c_len c) with false by lia. Qed.

Lemma perm_nil_iff {A} (l l' : list A) : Permutation l l' -> l = [] -> l' = [].
Proof. intros H ->. now apply Permutation_nil. Qed.

Lemma bk_try_perm scs scs' c : Permutation scs scs' -> NoDup (map blk_sig scs) ->
  bk_try_read scs c = bk_try_read scs' c.
Proof.
  intros HP ND.
  destruct scs as [|x xs]; [now rewrite (perm_nil_iff _ _ HP eq_refl)|].
  destruct scs' as [|y ys]; [symmetry in HP; apply Permutation_nil in HP; easy|].
  assert (D : c_ok c \/ ~ c_ok c) by (unfold c_ok; lia). destruct D as [H|H].
  - destruct (N.lt_ge_cases (blen (c_rest c)) 4) as [L4|L4].
    + now rewrite !bk_try_short.
    + rewrite !bk_try_pick by easy. now rewrite (pick_perm _ _ _ HP ND).
  - cbn [bk_try_read]. unfold blk_try_read. now rewrite (c_available_bad c H).
Qed.

(** *** buffered *)
Lemma fill_again s buf s1 : fill_buf s = (Ok buf, s1) -> buf <> [] -> fill_buf s1 = (Ok buf, s1) /\ b_cur s1 = buf.
Proof.
  unfold fill_buf. destruct (b_cur s) as [|x xs] eqn:E.
  - destruct (b_evs s) as [|[bs|k] evs]; [now inversion 1| |now inversion 1].
    inversion 1; subst. intros N1. destruct buf; [easy|]. simpl. auto.
  - inversion 1; subst. rewrite E. auto.
Qed.

Lemma bk_buf_pick scs s buf s1 : fill_buf s = (Ok buf, s1) -> (4 <= length buf)%nat -> scs <> [] ->
  bk_try_read_buf scs s =
  match pick scs (firstn 4 buf) with
  | Some sc => lift_st sc (blk_try_read_buf sc s1)
  | None => (Err ESignatureDismatch, s1)
  end.
Proof.
  intros F L4.
  assert (NE : buf <> []) by (destruct buf; simpl in *; [lia|easy]).
  destruct (fill_again s buf s1 F NE) as [F1 _].
  assert (G : forall scs, bk_try_read_buf scs s1 =
    match pick scs (firstn 4 buf) with
    | Some sc => lift_st sc (blk_try_read_buf sc s1)
    | None => (Err ESignatureDismatch, s1)
    end).
  { clear scs. induction scs as [|sc scs IH]; [easy|].
    cbn [bk_try_read_buf]. unfold pick. cbn [find]. fold (pick scs (firstn 4 buf)).
    unfold blk_try_read_buf at 1. rewrite F1. cbn [sbind].
    replace (length buf <? 4)%nat with false by lia.
    rewrite starts_with_firstn, blk_sig_length.
    destruct (bytes_eqb (firstn 4 buf) (blk_sig sc)) eqn:E; cbn [negb].
    - assert (EQ : blk_try_read_buf sc s1 =
        do (vs, s) <- blk_read buf_reader sc true (consume 4 s1); (Ok (Success vs), s)).
      { unfold blk_try_read_buf. rewrite F1. cbn [sbind]. replace (length buf <? 4)%nat with false by lia.
        now rewrite starts_with_firstn, blk_sig_length, E. }
      rewrite EQ. destruct (blk_read buf_reader sc true _) as [[vs|e|] s2] eqn:EB; cbn [sbind lift_st]; try easy.
      now rewrite (blk_read_skip_err _ buf_io_only _ _ _ _ EB).
    - cbn [is_sig_dismatch]. exact IH. }
  intros NS. rewrite <- G. destruct scs as [|sc scs]; [easy|]. cbn [bk_try_read_buf].
  assert (EQ : blk_try_read_buf sc s = blk_try_read_buf sc s1) by (unfold blk_try_read_buf; now rewrite F, F1).
  rewrite EQ. destruct (blk_try_read_buf sc s1) as [[[vs|n]|e|w] s2] eqn:EB; try easy.
Qed.

Lemma bk_buf_perm scs scs' s : Permutation scs scs' -> NoDup (map blk_sig scs) ->
  bk_try_read_buf scs s = bk_try_read_buf scs' s.
Proof.
  intros HP ND.
  destruct scs as [|x xs]; [now rewrite (perm_nil_iff _ _ HP eq_refl)|].
  destruct scs' as [|y ys]; [symmetry in HP; apply Permutation_nil in HP; easy|].
  destruct (fill_buf s) as [[buf|e|] s1] eqn:F.
  - destruct (Nat.lt_ge_cases (length buf) 4) as [L4|L4].
    + cbn [bk_try_read_buf]. unfold blk_try_read_buf. rewrite F. cbn [sbind].
      now replace (length buf <? 4)%nat with true by lia.
    + rewrite !(bk_buf_pick _ s buf s1) by easy. now rewrite (pick_perm _ _ _ HP ND).
  - cbn [bk_try_read_buf]. unfold blk_try_read_buf. rewrite F. cbn [sbind].
    assert (Q : is_sig_dismatch e = false).
    { unfold fill_buf in F. destruct (b_cur s); [|easy]. destruct (b_evs s) as [|[|k] ?]; inversion F; easy. }
    now rewrite Q.
  - cbn [bk_try_read_buf]. unfold blk_try_read_buf. now rewrite F.
Qed.

(** ** Reading back a written block *)
Lemma bk_encode_length scs b : block_ok scs b -> length (bk_encode b) = ssize (bk_ty b).
Proof. intros (_ & _ & H). now apply blk_encode_length. Qed.

Lemma bk_encode_pos scs b : block_ok scs b -> (8 <= length (bk_encode b))%nat.
Proof. intros H. rewrite (bk_encode_length _ _ H), ssize_eq. lia. Qed.

Lemma bk_eta b : mk_block (bk_ty b) (bk_vals b) = b.
Proof. now destruct b. Qed.

Section RoundTrip.
Variable scs : list schema.
Hypothesis ND : NoDup (map blk_sig scs).

Lemma bk_slice_rt b rest : block_ok scs b ->
  bk_read_from_slice scs (bk_encode b ++ rest) false = Ok b.
Proof.
  intros H. pose proof H as (HI & HS & HV).
  rewrite bk_slice_pick by (rewrite app_length; pose proof (bk_encode_pos _ _ H); lia).
  unfold bk_encode, blk_encode. rewrite <- !app_assoc. rewrite firstn_app_exact by (now rewrite blk_sig_length).
  rewrite pick_in by easy.
  rewrite blk_slice_spec; [|apply blk_sig_length|now apply fields_bytes_length|apply blk_crc_length].
  rewrite bytes_eqb_refl. rewrite (blk_parse_rt dec_slice) by (easy || apply good_slice). cbn [rbind]. now rewrite bk_eta.
Qed.

Lemma bk_try_rt b c rest : block_ok scs b -> c_ok c -> c_rest c = bk_encode b ++ rest ->
  let c' := c_seek (c_pos c + N.of_nat (ssize (bk_ty b))) c in
  bk_try_read scs c = (Ok (Success b), c') /\ c_rest c' = rest /\ c_ok c'.
Proof.
  intros H O V c'. pose proof H as (HI & HS & HV).
  rewrite bk_try_pick; [|easy|rewrite V, blen_app; pose proof (bk_encode_pos _ _ H); unfold blen; lia].
  unfold bk_encode, blk_encode in V. rewrite <- !app_assoc in V. rewrite V.
  rewrite firstn_app_exact by (now rewrite blk_sig_length). rewrite pick_in by easy.
  destruct (blk_try_read_spec (bk_ty b) c O) as [_ Q].
  destruct (Q _ _ V (blk_sig_length _)) as (_ & _ & Q3).
  specialize (Q3 _ _ _ eq_refl eq_refl (fields_bytes_length _ _ HV) (blk_crc_length _ _)).
  rewrite (blk_parse_rt dec_stream) in Q3 by (easy || apply good_stream).
  destruct Q3 as (c1 & E & W & O1 & EC). rewrite E. cbn [lift_st]. rewrite bk_eta.
  subst c1. auto.
Qed.

Lemma bk_buf_rt b cur evs : block_ok scs b ->
  bk_try_read_buf scs (mk_bufsrc (bk_encode b ++ cur) evs) = (Ok (Success b), mk_bufsrc cur evs).
Proof.
  intros H. set (s := mk_bufsrc (bk_encode b ++ cur) evs). pose proof H as (HI & HS & HV).
  pose proof (bk_encode_pos _ _ H) as PL.
  assert (NE : bk_encode b ++ cur <> []) by (destruct (bk_encode b); simpl in *; [lia|easy]).
  assert (F : fill_buf s = (Ok (bk_encode b ++ cur), s)).
  { unfold s, fill_buf. cbn [b_cur]. destruct (bk_encode b ++ cur); easy. }
  assert (NS : scs <> []) by (intros ->; easy).
  rewrite (bk_buf_pick _ _ _ _ F) by (try easy; rewrite app_length; lia).
  assert (EE : bk_encode b ++ cur = blk_sig (bk_ty b) ++ (fields_bytes (s_tys (bk_ty b)) (bk_vals b)
             ++ blk_crc (bk_ty b) (bk_vals b) ++ cur)).
  { unfold bk_encode, blk_encode. now rewrite <- !app_assoc. }
  rewrite EE. rewrite firstn_app_exact by (now rewrite blk_sig_length). rewrite pick_in by easy.
  (* the whole block is in the current buffer: the state is determined *)
  unfold blk_try_read_buf. rewrite F. cbn [sbind].
  replace (length (bk_encode b ++ cur) <? 4)%nat with false by (rewrite app_length; lia).
  rewrite starts_with_firstn, blk_sig_length, EE, firstn_app_exact, bytes_eqb_refl by (now rewrite blk_sig_length).
  cbn [negb]. unfold s, consume. cbn [b_cur b_evs]. rewrite EE, skipn_app_exact by (now rewrite blk_sig_length).
  assert (G : forall ts vs cur, Forall ty_ok ts -> Forall2 fval_ok ts vs ->
     read_fields buf_reader ts (mk_bufsrc (fields_bytes ts vs ++ cur) evs) = (Ok vs, mk_bufsrc cur evs)).
  { clear. induction ts as [|t ts IH]; intros vs cur HT HF; inversion HF; inversion HT; subst; [easy|].
    cbn [read_fields fields_bytes]. simpl rd_exact. rewrite <- app_assoc.
    assert (LT : length (to_bytes t y) = ty_size t) by (now apply to_bytes_length).
    replace (N.of_nat (ty_size t)) with (blen (to_bytes t y)) by (unfold blen; lia). rewrite (buf_read_cur _ _ _ _ eq_refl). cbn [sbind].
    rewrite (gd_rt _ good_stream) by easy. now rewrite IH. }
  unfold blk_read. cbn [sbind]. rewrite G; [|now apply schema_tys_ok|exact HV]. cbn [sbind]. simpl rd_exact.
  replace 4 with (blen (blk_crc (bk_ty b) (bk_vals b))) by (unfold blen; now rewrite blk_crc_length). rewrite (buf_read_cur _ _ _ _ eq_refl). cbn [sbind].
  rewrite capture_ok by (easy || now apply Forall2_len in HV). rewrite bytes_eqb_refl. cbn [lift_st].
  cbn [sbind lift_st]. now rewrite bk_eta.
Qed.
End RoundTrip.

(** ** Vectored slices *)
Definition fb (l : list (fty * fval)) : bytes := concat (map (fun f => to_bytes (fst f) (snd f)) l).

Lemma fb_app a b : fb (a ++ b) = fb a ++ fb b.
Proof. unfold fb. now rewrite map_app, concat_app. Qed.

Lemma group_fields_concat l : forall groups blobs scalars,
  blobs = [] \/ scalars = [] ->
  concat (concat (map group_slices (group_fields l groups blobs scalars)))
  = concat (concat (map group_slices groups)) ++ fb blobs ++ fb scalars ++ fb l.
Proof.
  assert (GS : forall g, concat (group_slices g) = fb g).
  { intros [|f g]; [easy|]. unfold group_slices. destruct (is_blob (fst f)); [easy|].
    simpl. now rewrite app_nil_r. }
  assert (GA : forall gs g, concat (concat (map group_slices (gs ++ [g])))
               = concat (concat (map group_slices gs)) ++ fb g).
  { intros gs g. rewrite map_app, concat_app, concat_app. simpl. now rewrite app_nil_r, GS. }
  assert (FN : fb [] = []) by easy.
  assert (FC : forall f l, fb (f :: l) = to_bytes (fst f) (snd f) ++ fb l) by easy.
  Local Ltac fin GA FC FN := rewrite ?GA, ?fb_app, ?FC, ?FN, ?app_nil_r, <- ?app_assoc; simpl app; try reflexivity.
  induction l as [|f l IH]; intros groups blobs scalars INV; cbn [group_fields].
  - destruct scalars as [|x xs]; destruct blobs as [|y ys]; fin GA FC FN. destruct INV; easy.
  - destruct (is_blob (fst f)).
    + destruct scalars as [|x xs].
      * rewrite IH by auto. fin GA FC FN.
      * destruct INV as [-> | INV]; [|easy]. rewrite IH by auto. fin GA FC FN.
    + destruct blobs as [|x xs].
      * rewrite IH by auto. fin GA FC FN.
      * destruct INV as [INV | ->]; [easy|]. rewrite IH by auto. fin GA FC FN.
Qed.

Lemma fb_combine ts : forall vs, fb (combine ts vs) = fields_bytes ts vs.
Proof.
  induction ts as [|t ts IH]; intros [|v vs]; try easy. cbn [combine fields_bytes].
  rewrite <- IH. reflexivity.
Qed.

Lemma blk_slices_concat sc vs : concat (blk_slices sc vs) = blk_encode sc vs.
Proof.
  unfold blk_slices, blk_encode. rewrite !concat_app, group_fields_concat by auto. simpl.
  rewrite !app_nil_r. now rewrite fb_combine.
Qed.
