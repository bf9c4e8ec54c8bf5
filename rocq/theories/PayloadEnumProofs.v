(** * Lemmas about payload kinds and the generated Payload enum. *)
From Coq Require Import Permutation ZifyBool ZifyNat ZifyN.
From Verif Require Import Base Crc32 Io Block Payload Packet Spec BaseProofs CrcProofs BlockProofs DispatchProofs PayloadProofs.
Ltac Zify.zify_post_hook ::= Z.div_mod_to_equations.
Open Scope list_scope.

(** ** One kind *)
Definition hdr_of {V} (k : pkind V) (body crc : bytes) : pheader := mk_pheader (pk_sig k) crc (blen body).

Lemma ph_new_ok {V} (k : pkind V) v body crc : encodes k v body crc ->
  ph_new k v = Ok (hdr_of k body crc) /\ ph_ok (hdr_of k body crc).
Proof.
  intros (EB & ES & ED & EC & HS & HC & HL). unfold ph_new. rewrite ES, EC. simpl.
  replace (u32_max <? blen body) with false by lia. split; [easy|]. now repeat split.
Qed.

Lemma pk_read_rt {V S} (R : reader S) view okst (OK : okl R view okst) (k : pkind V) v body crc s rest :
  encodes k v body crc -> okst s -> view s = body ++ rest ->
  exists s', pk_read R k (hdr_of k body crc) s = (Ok v, s') /\ view s' = rest /\ okst s'.
Proof.
  intros (EB & ES & ED & EC & HS & HC & HL) O VW. unfold pk_read. cbn [ph_sig ph_len ph_crc hdr_of].
  rewrite bytes_eqb_refl. cbn [negb]. rd OK. rewrite ED. cbn [sbind io]. rewrite EC. cbn [sbind io].
  rewrite bytes_eqb_refl. eauto.
Qed.

Lemma pk_read_miss {V S} (R : reader S) (k : pkind V) h s : ph_sig h <> pk_sig k ->
  pk_read R k h s = (Err ESignatureDismatch, s).
Proof. intros H. unfold pk_read. apply bytes_eqb_neq in H. now rewrite H. Qed.

Lemma pk_read_hit_err {V S} (R : reader S) (HR : io_only R) (k : pkind V) h s e s' :
  ph_sig h = pk_sig k -> pk_read R k h s = (Err e, s') -> sig_dismatch e = false.
Proof.
  intros EQ. unfold pk_read. rewrite EQ, bytes_eqb_refl. cbn [negb].
  destruct (rd_exact R (ph_len h) s) as [[body|e1|] s1] eqn:E1; cbn [sbind]; try easy.
  - destruct (pk_decode k body); cbn [sbind io]; [|now inversion 1].
    destruct (pk_crc k a); cbn [sbind io]; [|now inversion 1].
    destruct (bytes_eqb _ _); now inversion 1.
  - destruct (HR _ _ _ _ E1) as (kk & ->). now inversion 1.
Qed.

(** ** Dispatch *)
Section Pick.
Context {U : Type}.
Implicit Types (ks : list (pkind U)) (h : pheader).

Definition pmap {A B S} (f : A -> B) (m : res A * S) : res B * S :=
  match m with (Ok a, s) => (Ok (f a), s) | (Err e, s) => (Err e, s) | (Panic w, s) => (Panic w, s) end.

(** What the enum reader does, stated by looking the signature up. *)
Definition pl_pick {S} (R : reader S) ks h (s : S) : res (payload U) * S :=
  match find (fun k => bytes_eqb (ph_sig h) (pk_sig k)) ks with
  | Some k => pmap (PUser k) (pk_read R k h s)
  | None =>
      if bytes_eqb (ph_sig h) (pk_sig bytes_kind) then pmap PBytes (pk_read R bytes_kind h s)
      else if bytes_eqb (ph_sig h) (pk_sig string_kind) then pmap PString (pk_read R string_kind h s)
      else (Err ESignatureDismatch, s)
  end.

Lemma or_next_hit {V S} (R : reader S) (HR : io_only R) (k : pkind V) (inj : V -> payload U) next h s :
  ph_sig h = pk_sig k -> or_next (pk_read R k h s) inj next = pmap inj (pk_read R k h s).
Proof.
  intros H. pose proof (fun e s' => pk_read_hit_err R HR k h s e s' H) as Q. unfold or_next, pmap.
  destruct (pk_read R k h s) as [[v|e|] s']; try easy. now rewrite (Q e s' eq_refl).
Qed.

Lemma or_next_miss {V S} (R : reader S) (k : pkind V) (inj : V -> payload U) next h s :
  ph_sig h <> pk_sig k -> or_next (pk_read R k h s) inj next = next s.
Proof. intros H. rewrite pk_read_miss by easy. reflexivity. Qed.

Lemma pl_read_pick {S} (R : reader S) (HR : io_only R) ks h s : pl_read R ks h s = pl_pick R ks h s.
Proof.
  unfold pl_pick. induction ks as [|k ks IH]; cbn [pl_read find].
  - destruct (bytes_eqb (ph_sig h) (pk_sig bytes_kind)) eqn:E1.
    + apply bytes_eqb_eq in E1. now apply or_next_hit.
    + apply bytes_eqb_neq in E1. rewrite or_next_miss by easy.
      destruct (bytes_eqb (ph_sig h) (pk_sig string_kind)) eqn:E2.
      * apply bytes_eqb_eq in E2. now apply or_next_hit.
      * apply bytes_eqb_neq in E2. now rewrite or_next_miss.
  - destruct (bytes_eqb (ph_sig h) (pk_sig k)) eqn:E.
    + apply bytes_eqb_eq in E. now apply or_next_hit.
    + apply bytes_eqb_neq in E. rewrite or_next_miss by easy. exact IH.
Qed.

Lemma pl_try_read_buf_eq ks h s : pl_try_read_buf ks h s = pmap Success (pl_read buf_reader ks h s).
Proof.
  assert (G : forall {V} (k : pkind V) (inj : V -> payload U) n1 n2 s,
     (forall s, n2 s = pmap Success (n1 s)) ->
     or_next (pk_try_read_buf k h s) (st_map inj) n2 = pmap Success (or_next (pk_read buf_reader k h s) inj n1)).
  { intros V k inj n1 n2 t HN. unfold pk_try_read_buf, or_next.
    destruct (pk_read buf_reader k h t) as [[v|e|w] t']; cbn [sbind pmap]; try easy.
    destruct (sig_dismatch e); [apply HN|easy]. }
  revert s. induction ks as [|k ks IH]; intros s; cbn [pl_try_read_buf pl_read].
  - apply G. intros s1. apply G. reflexivity.
  - apply G. exact IH.
Qed.

Lemma pl_try_read_eq ks h c : c_ok c ->
  pl_try_read ks h c =
    if blen (c_rest c) <? ph_len h then (Ok (NotEnough (ph_len h - blen (c_rest c))), c)
    else pmap Success (pl_read cursor_reader ks h c).
Proof.
  intros O. destruct (blen (c_rest c) <? ph_len h) eqn:EL.
  - assert (G : forall {V} (k : pkind V) (inj : V -> payload U) n, or_next (pk_try_read k h c) (st_map inj) n
              = (Ok (NotEnough (ph_len h - blen (c_rest c))), c)).
    { intros V k inj n. unfold pk_try_read. rewrite c_available_ok by easy. cbn [sbind]. now rewrite EL. }
    destruct ks; apply G.
  - assert (G : forall {V} (k : pkind V) (inj : V -> payload U) n1 n2,
       n2 c = pmap Success (n1 c) ->
       or_next (pk_try_read k h c) (st_map inj) n2 = pmap Success (or_next (pk_read cursor_reader k h c) inj n1)).
    { intros V k inj n1 n2 HN. unfold pk_try_read. rewrite c_available_ok by easy. cbn [sbind]. rewrite EL.
      destruct (bytes_eqb (ph_sig h) (pk_sig k)) eqn:E.
      - apply bytes_eqb_eq in E. rewrite (or_next_hit _ cursor_io_only) by easy.
        pose proof (fun e s' => pk_read_hit_err _ cursor_io_only k h c e s' E) as Q.
        unfold or_next, pmap. destruct (pk_read cursor_reader k h c) as [[v|e|w] t']; cbn [sbind]; try easy.
        now rewrite (Q e t' eq_refl).
      - apply bytes_eqb_neq in E. rewrite or_next_miss by easy. rewrite pk_read_miss by easy. cbn [sbind]. exact HN. }
    induction ks as [|k ks IH]; cbn [pl_try_read pl_read].
    + apply G. apply G. reflexivity.
    + apply G. exact IH.
Qed.

(** Order independence and lookup. *)
Lemma find_kind_in ks k : In k ks -> NoDup (map pk_sig ks) ->
  find (fun k' => bytes_eqb (pk_sig k) (pk_sig k')) ks = Some k.
Proof.
  induction ks as [|x ks IH]; intros HI ND; [easy|]. cbn [map find] in *.
  inversion ND; subst. destruct HI as [-> | HI].
  - now rewrite bytes_eqb_refl.
  - destruct (bytes_eqb (pk_sig k) (pk_sig x)) eqn:E; [|now apply IH].
    apply bytes_eqb_eq in E. exfalso. apply H1. rewrite <- E. now apply in_map.
Qed.

Lemma find_kind_perm ks ks' sg : Permutation ks ks' -> NoDup (map pk_sig ks) ->
  find (fun k => bytes_eqb sg (pk_sig k)) ks = find (fun k => bytes_eqb sg (pk_sig k)) ks'.
Proof.
  intros HP ND.
  assert (ND' : NoDup (map pk_sig ks')) by (eapply Permutation_NoDup; [apply Permutation_map, HP|easy]).
  destruct (find _ ks) as [k|] eqn:E.
  - apply find_some in E. destruct E as [HI E]. apply bytes_eqb_eq in E. subst. symmetry.
    apply find_kind_in; [|easy]. eapply Permutation_in; eauto.
  - destruct (find _ ks') as [k|] eqn:E'; [|easy].
    apply find_some in E'. destruct E' as [HI E']. apply bytes_eqb_eq in E'. subst.
    rewrite find_kind_in in E; [easy| |easy]. eapply Permutation_in; [symmetry|]; eauto.
Qed.

Lemma nodup_kinds ks : NoDup (pl_sigs ks) -> NoDup (map pk_sig ks).
Proof. unfold pl_sigs. generalize (map pk_sig ks) as l. induction l as [|x l IH]; intros H; [constructor|].
  inversion H; subst. constructor; [|auto]. intros HI. apply H2. apply in_or_app. auto. Qed.

Lemma pl_read_perm {S} (R : reader S) (HR : io_only R) ks ks' h s :
  Permutation ks ks' -> NoDup (pl_sigs ks) -> pl_read R ks h s = pl_read R ks' h s.
Proof.
  intros HP ND. rewrite !pl_read_pick by easy. unfold pl_pick.
  now rewrite (find_kind_perm ks ks' _ HP (nodup_kinds _ ND)).
Qed.

(** The header a payload is written with. *)
Definition pl_hdr (p : payload U) (body crc : bytes) : pheader := mk_pheader (pl_sig p) crc (blen body).

Lemma payload_not_user ks sg : NoDup (pl_sigs ks) -> In sg [crc32_le (str "Vec<u8>"); crc32_le (str "String")] ->
  find (fun k => bytes_eqb sg (pk_sig k)) ks = None.
Proof.
  intros ND HI. destruct (find _ ks) as [k|] eqn:E; [|easy].
  apply find_some in E. destruct E as [HK E]. apply bytes_eqb_eq in E.
  exfalso. unfold pl_sigs in ND. subst sg.
  apply (in_map pk_sig) in HK. revert ND HK HI. generalize (map pk_sig ks) as l.
  generalize [crc32_le (str "Vec<u8>"); crc32_le (str "String")] as l2.
  induction l as [|x l IH]; intros ND HK HI; [easy|].
  inversion ND; subst. destruct HK as [-> | HK]; [|auto].
  apply H1, in_or_app. auto.
Qed.

Lemma pl_read_rt {S} (R : reader S) view okst (OK : okl R view okst) (HR : io_only R) ks p body crc s rest :
  NoDup (pl_sigs ks) -> payload_ok ks p body crc -> okst s -> view s = body ++ rest ->
  exists s', pl_read R ks (pl_hdr p body crc) s = (Ok p, s') /\ view s' = rest /\ okst s'.
Proof.
  intros ND HP O V. rewrite pl_read_pick by easy. unfold pl_pick, pl_hdr. cbn [ph_sig].
  destruct p as [k u|v|v]; cbn [pl_sig].
  - destruct HP as (HI & HE). rewrite find_kind_in by (easy || now apply nodup_kinds).
    destruct (pk_read_rt R view okst OK k u body crc s rest HE O V) as (s' & E & ? & ?).
    unfold hdr_of in E. rewrite E. cbn [pmap]. eauto.
  - destruct HP as (-> & HE). rewrite payload_not_user by (easy || (simpl; auto)).
    rewrite bytes_eqb_refl.
    destruct (pk_read_rt R view okst OK bytes_kind v v crc s rest HE O V) as (s' & E & ? & ?).
    unfold hdr_of in E. rewrite E. cbn [pmap]. eauto.
  - destruct HP as (-> & HU & HE). rewrite payload_not_user by (easy || (simpl; auto)).
    replace (bytes_eqb (pk_sig string_kind) (pk_sig bytes_kind)) with false by reflexivity.
    rewrite bytes_eqb_refl.
    destruct (pk_read_rt R view okst OK string_kind v v crc s rest HE O V) as (s' & E & ? & ?).
    unfold hdr_of in E. rewrite E. cbn [pmap]. eauto.
Qed.

Lemma payload_ok_hdr ks p body crc : payload_ok ks p body crc -> ph_ok (pl_hdr p body crc).
Proof.
  destruct p as [k u|v|v]; intros H; [destruct H as (_ & H)|destruct H as (_ & H)|destruct H as (_ & _ & H)];
    apply ph_new_ok in H; apply H.
Qed.

Lemma pl_write_all_ok ks p body crc : payload_ok ks p body crc -> forall got,
  pl_write_all p (mk_sink got []) = (Ok tt, mk_sink (got ++ ph_bytes (pl_hdr p body crc) ++ body) []).
Proof.
  assert (G : forall {V} (k : pkind V) v, encodes k v body crc -> forall got,
    pk_write_all k v (mk_sink got []) = (Ok tt, mk_sink (got ++ ph_bytes (hdr_of k body crc) ++ body) [])).
  { intros V k v H got. destruct (ph_new_ok k v body crc H) as (E & _). unfold pk_write_all.
    destruct H as (EB & _). rewrite E. cbn [sbind]. rewrite sink_write_all_nil. cbn [sbind]. rewrite EB. cbn [sbind io].
    rewrite sink_write_all_nil. now rewrite app_assoc. }
  destruct p as [k u|v|v]; intros H; [destruct H as (_ & H)|destruct H as (_ & H)|destruct H as (_ & _ & H)];
    cbn [pl_write_all]; intros got; now rewrite (G _ _ _ H).
Qed.

Lemma pl_slices_ok ks p body crc : payload_ok ks p body crc ->
  pl_slices p = Ok [ph_bytes (pl_hdr p body crc); body].
Proof.
  assert (G : forall {V} (k : pkind V) v, encodes k v body crc ->
    pk_slices k v = Ok [ph_bytes (hdr_of k body crc); body]).
  { intros V k v H. destruct (ph_new_ok k v body crc H) as (E & _). unfold pk_slices.
    destruct H as (EB & _). rewrite E. cbn [rbind]. now rewrite EB. }
  destruct p as [k u|v|v]; intros H; [destruct H as (_ & H)|destruct H as (_ & H)|destruct H as (_ & _ & H)];
    cbn [pl_slices]; now rewrite (G _ _ _ H).
Qed.

Lemma pl_size_ok ks p body crc : payload_ok ks p body crc -> pl_size p = Ok (blen body).
Proof.
  destruct p as [k u|v|v]; intros H; [destruct H as (_ & H)|destruct H as (_ & H)|destruct H as (_ & _ & H)];
    destruct H as (EB & ES & _); unfold pl_size; rewrite ES; reflexivity.
Qed.

(** ** No panics *)
Lemma pk_read_nopanic {V S} (R : reader S) view okst (L : lawful R view okst) (k : pkind V) h s w s' :
  okst s -> pk_read R k h s <> (Panic w, s').
Proof.
  intros O. unfold pk_read. destruct (negb _); [easy|].
  destruct (rd_exact R (ph_len h) s) as [[body|e1|w1] s1] eqn:E1; cbn [sbind]; try easy.
  - destruct (pk_decode k body); cbn [sbind io]; [|easy].
    destruct (pk_crc k a); cbn [sbind io]; [|easy]. destruct (bytes_eqb _ _); easy.
  - intros _. exact (lw_nopanic L _ _ _ _ O E1).
Qed.

Lemma pl_read_nopanic {S} (R : reader S) (HR : io_only R) view okst (L : lawful R view okst) ks h s w s' :
  okst s -> pl_read R ks h s <> (Panic w, s').
Proof.
  intros O. rewrite pl_read_pick by easy. unfold pl_pick.
  assert (G : forall {V} (k : pkind V) (f : V -> payload U), pmap f (pk_read R k h s) <> (Panic w, s')).
  { intros V k f E. destruct (pk_read R k h s) as [[v|e|w1] s1] eqn:E1; cbn [pmap] in E; try easy.
    exact (pk_read_nopanic R view okst L k h s _ _ O E1). }
  destruct (find _ ks); [apply G|]. destruct (bytes_eqb _ _); [apply G|]. destruct (bytes_eqb _ _); [apply G|easy].
Qed.
End Pick.

(** ** The built-in kinds *)
Lemma encodes_bytes v : blen v <= u32_max -> encodes bytes_kind v v (crc32_le v).
Proof.
  intros H. repeat split; try exact H; simpl; auto.
Qed.

Lemma in_range_n lo hi x : x < 256 -> in_range lo hi (n2b x) = (lo <=? x) && (x <=? hi).
Proof. intros H. unfold in_range. rewrite b2n_n2b. now replace (x mod 256) with x by lia. Qed.

Lemma cont_n x : 128 <= x < 192 -> cont (Some (n2b x)) = true.
Proof. intros H. cbn [cont]. rewrite in_range_n by lia. lia. Qed.

Lemma utf8_step_of c rest : scalar c ->
  exists b r, utf8_of c ++ rest = b :: r /\ utf8_step b r = (true, length (utf8_of c)).
Proof.
  intros HC. unfold scalar in HC. unfold utf8_of.
  destruct (c <? 128) eqn:E1; [|destruct (c <? 2048) eqn:E2; [|destruct (c <? 65536) eqn:E3]];
    cbn [app length]; eexists _, _; (split; [reflexivity|]); unfold utf8_step.
  - assert (W : utf8_width (n2b c) = 1%nat).
    { unfold utf8_width. rewrite in_range_n by lia. now replace ((0 <=? c) && (c <=? 127)) with true by lia. }
    now rewrite W.
  - assert (W : utf8_width (n2b (192 + c / 64)) = 2%nat).
    { unfold utf8_width. rewrite !in_range_n by lia.
      replace ((0 <=? 192 + c / 64) && (192 + c / 64 <=? 127)) with false by lia.
      now replace ((194 <=? 192 + c / 64) && (192 + c / 64 <=? 223)) with true by lia. }
    rewrite W. cbn [nth_error]. rewrite cont_n by lia. reflexivity.
  - assert (W : utf8_width (n2b (224 + c / 4096)) = 3%nat).
    { unfold utf8_width. rewrite !in_range_n by lia.
      replace ((0 <=? 224 + c / 4096) && (224 + c / 4096 <=? 127)) with false by lia.
      replace ((194 <=? 224 + c / 4096) && (224 + c / 4096 <=? 223)) with false by lia.
      now replace ((224 <=? 224 + c / 4096) && (224 + c / 4096 <=? 239)) with true by lia. }
    rewrite W. cbn [nth_error].
    assert (S : second_ok (n2b (224 + c / 4096)) (Some (n2b (128 + (c / 64) mod 64))) = true).
    { unfold second_ok. rewrite b2n_n2b. rewrite !in_range_n by lia.
      destruct (N.eqb _ 224) eqn:B1; [lia|]. destruct (N.eqb _ 237) eqn:B2; [lia|].
      destruct (N.eqb _ 240) eqn:B3; [lia|]. destruct (N.eqb _ 244) eqn:B4; lia. }
    rewrite S, cont_n by lia. reflexivity.
  - assert (W : utf8_width (n2b (240 + c / 262144)) = 4%nat).
    { unfold utf8_width. rewrite !in_range_n by lia.
      replace ((0 <=? 240 + c / 262144) && (240 + c / 262144 <=? 127)) with false by lia.
      replace ((194 <=? 240 + c / 262144) && (240 + c / 262144 <=? 223)) with false by lia.
      replace ((224 <=? 240 + c / 262144) && (240 + c / 262144 <=? 239)) with false by lia.
      now replace ((240 <=? 240 + c / 262144) && (240 + c / 262144 <=? 244)) with true by lia. }
    rewrite W. cbn [nth_error].
    assert (S : second_ok (n2b (240 + c / 262144)) (Some (n2b (128 + (c / 4096) mod 64))) = true).
    { unfold second_ok. rewrite b2n_n2b. rewrite !in_range_n by lia.
      destruct (N.eqb _ 224) eqn:B1; [lia|]. destruct (N.eqb _ 237) eqn:B2; [lia|].
      destruct (N.eqb _ 240) eqn:B3; [lia|]. destruct (N.eqb _ 244) eqn:B4; lia. }
    rewrite S, !cont_n by lia. reflexivity.
Qed.

Lemma utf8_of_length c : (1 <= length (utf8_of c))%nat.
Proof. unfold utf8_of. repeat (destruct (_ <? _)); simpl; lia. Qed.

Lemma lossy_go_valid cs : Forall scalar cs -> forall fuel,
  (length (concat (map utf8_of cs)) <= fuel)%nat ->
  lossy_go fuel (concat (map utf8_of cs)) = concat (map utf8_of cs).
Proof.
  induction 1 as [|c cs HC F IH]; intros fuel HF; [now destruct fuel|].
  cbn [map concat] in *. rewrite app_length in HF. pose proof (utf8_of_length c) as L1.
  destruct (utf8_step_of c (concat (map utf8_of cs)) HC) as (b & r & E & ST).
  destruct fuel as [|fuel]; [lia|]. rewrite E. cbn [lossy_go]. rewrite ST, <- E.
  rewrite firstn_app_exact, skipn_app_exact by easy. rewrite IH by lia. reflexivity.
Qed.

Lemma lossy_valid bs : utf8 bs -> lossy bs = bs.
Proof. intros (cs & F & ->). unfold lossy. now apply lossy_go_valid. Qed.

Lemma encodes_string v : utf8 v -> blen v <= u32_max -> encodes string_kind v v (crc32_le v).
Proof.
  intros HU H. repeat split; try exact H; simpl; auto. now rewrite lossy_valid.
Qed.

(** ** Corruption of a raw body *)
Lemma raw_corruption {S} (R : reader S) view okst (OK : okl R view okst) body body' s rest :
  burst 4 body body' -> body' <> body -> okst s -> view s = body' ++ rest ->
  exists s', pk_read R bytes_kind (hdr_of bytes_kind body (crc32_le body)) s = (Err ECrcDismatch, s')
             /\ view s' = rest /\ okst s'.
Proof.
  intros (pre & w & w' & post & EB & EB' & LW & L4) NE O V.
  unfold pk_read. cbn [ph_sig ph_len ph_crc hdr_of]. rewrite bytes_eqb_refl. cbn [negb].
  destruct (OK (blen body) s body' rest O V) as (s1 & E & W & O1).
  { rewrite EB, EB', !blen_app. unfold blen. lia. }
  rewrite E. cbn [sbind pk_decode bytes_kind io pk_crc default_crc].
  destruct (bytes_eqb (crc32_le body) (crc32_le body')) eqn:EQ; [|eauto].
  exfalso. apply bytes_eqb_eq in EQ. apply NE. subst.
  apply le_inj in EQ; [|apply crc32_bound|apply crc32_bound].
  apply crc32_burst in EQ; [|easy|easy]. now subst.
Qed.
