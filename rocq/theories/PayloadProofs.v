(** * Lemmas about payload headers and payloads. *)
From Coq Require Import Permutation ZifyBool ZifyNat ZifyN.
From Verif Require Import Base Crc32 Io Block Payload Packet Spec BaseProofs CrcProofs BlockProofs DispatchProofs.
Ltac Zify.zify_post_hook ::= Z.div_mod_to_equations.
Open Scope list_scope.

(** The success half of the reader law (it also holds within the current buffer of a
    BufRead source whose later events are arbitrary). *)
Definition okl {S} (R : reader S) (view : S -> bytes) (okst : S -> Prop) : Prop :=
  forall n s a b, okst s -> view s = a ++ b -> blen a = n ->
    exists s', rd_exact R n s = (Ok a, s') /\ view s' = b /\ okst s'.

Lemma lawful_okl {S} (R : reader S) view okst : lawful R view okst -> okl R view okst.
Proof. intros L. exact (lw_ok _ _ _ L). Qed.

Lemma cur_okl evs : okl buf_reader b_cur (fun s => b_evs s = evs).
Proof.
  intros n [cur e] a b H V <-. simpl in *. subst. exists (mk_bufsrc b evs).
  now rewrite (buf_read_cur _ _ _ _ eq_refl).
Qed.

Lemma cur_state evs s rest : b_evs s = evs -> b_cur s = rest -> s = mk_bufsrc rest evs.
Proof. destruct s. simpl. now intros -> ->. Qed.

(** ** Capacities *)
Lemma valid_capacity_in n : valid_capacity n = true <-> In n capacities.
Proof.
  unfold valid_capacity. rewrite existsb_exists. split.
  - intros (x & H & E). apply N.eqb_eq in E. now subst.
  - intros H. exists n. split; [easy|]. apply N.eqb_refl.
Qed.

Lemma capacity_byte n : In n capacities -> 4 <= n <= 128.
Proof. simpl. lia. Qed.

Lemma check_capacity_in n : In n capacities -> check_capacity n = Ok tt.
Proof. intros H. unfold check_capacity. apply valid_capacity_in in H. now rewrite H. Qed.

Lemma to_byte_block_in v : In (blen v) capacities -> to_byte_block v = Ok v.
Proof. intros H. unfold to_byte_block. apply valid_capacity_in in H. now rewrite H. Qed.

Lemma unle1 n : n < 256 -> unle [n2b n] = n.
Proof. intros H. cbn [unle]. rewrite b2n_n2b. lia. Qed.

Lemma ph_bytes_app h rest : ph_bytes h ++ rest
  = [n2b (blen (ph_sig h))] ++ ph_sig h ++ [n2b (blen (ph_crc h))] ++ ph_crc h ++ le 4 (ph_len h) ++ rest.
Proof. unfold ph_bytes. now rewrite <- !app_assoc. Qed.

Lemma ph_bytes_length h : length (ph_bytes h) = ph_size h.
Proof. unfold ph_bytes, ph_size. rewrite !app_length, le_length. simpl. lia. Qed.

Ltac rd OK := match goal with
  | |- context [rd_exact ?R ?n ?s] =>
      match goal with
      | H : ?v s = ?a ++ ?b, O : _ s |- _ =>
          let s1 := fresh "s" in let E := fresh "E" in let W := fresh "W" in let O1 := fresh "O" in
          destruct (OK n s a b O H) as (s1 & E & W & O1); [try reflexivity|rewrite E; cbn [sbind]; clear E H O]
      end
  end.

Lemma u32_le n : n <= u32_max -> unle (le 4 n) = n.
Proof. intros H. apply unle_le. unfold u32_max in H. simpl. lia. Qed.

Lemma blen_le4 n : blen (le 4 n) = 4.
Proof. unfold blen. now rewrite le_length. Qed.

Lemma blen1 (b : byte) : blen [b] = 1.
Proof. reflexivity. Qed.

Lemma ph_read_rt {S} (R : reader S) view okst (OK : okl R view okst) h s rest :
  ph_ok h -> okst s -> view s = ph_bytes h ++ rest ->
  exists s', ph_read R s = (Ok h, s') /\ view s' = rest /\ okst s'.
Proof.
  intros (HS & HC & HL) O V. rewrite ph_bytes_app in V. unfold ph_read.
  rd OK. rewrite unle1 by (pose proof (capacity_byte _ HS); lia).
  rewrite check_capacity_in by easy. cbn [sbind].
  rd OK. rd OK. rewrite unle1 by (pose proof (capacity_byte _ HC); lia).
  rewrite check_capacity_in by easy. cbn [sbind].
  rd OK. rd OK.
  rewrite !to_byte_block_in by easy. cbn [sbind]. rewrite u32_le by easy.
  destruct h. simpl. eauto.
Qed.

(** ** Truncated headers *)
Lemma safe_next_ok n f c a b : c_ok c -> c_rest c = a ++ b -> blen a = n ->
  sf_len f = sf_read f + blen (c_rest c) ->
  exists c', safe_next n f c = (Ok (Success (a, mk_safe (sf_spos f) (sf_read f + n) (sf_len f))), c')
    /\ c_rest c' = b /\ c_ok c' /\ c' = c_seek (c_pos c + n) c.
Proof.
  intros O V B L. unfold safe_next. rewrite V, blen_app in L.
  replace (sf_len f <? sf_read f + n) with false by lia.
  destruct (cursor_read_ok c a b O V) as (E & W & O1). subst n. rewrite E. cbn [sbind]. eauto.
Qed.

Lemma safe_next_short n f c : sf_len f < sf_read f + n ->
  safe_next n f c = (Ok (NotEnough (sf_read f + n - sf_len f)), c_seek (sf_spos f) c).
Proof. intros H. unfold safe_next. now replace (sf_len f <? sf_read f + n) with true by lia. Qed.

Lemma ph_try_read_rt h c rest : ph_ok h -> c_ok c -> c_rest c = ph_bytes h ++ rest ->
  let c' := c_seek (c_pos c + N.of_nat (ph_size h)) c in
  ph_try_read c = (Ok (Success h), c') /\ c_rest c' = rest /\ c_ok c'.
Proof.
  intros (HS & HC & HL) O V c'. pose proof V as V0. rewrite ph_bytes_app in V. unfold ph_try_read.
  assert (EN : safe_new c = Ok (mk_safe (c_pos c) 0 (blen (c_rest c)))).
  { unfold safe_new. now rewrite c_available_ok. }
  rewrite EN. cbn [sbind].
  assert (LT : blen (c_rest c) = 1 + blen (ph_sig h) + 1 + blen (ph_crc h) + 4 + blen rest).
  { rewrite V, !blen_app, blen_le4, !blen1. lia. }
  rewrite LT.
  destruct (safe_next_ok 1 (mk_safe (c_pos c) 0 (1 + blen (ph_sig h) + 1 + blen (ph_crc h) + 4 + blen rest)) c _ _ O V eq_refl)
    as (c1 & -> & V1 & O1 & E1). { cbn [sf_len sf_read]. rewrite LT. lia. }
  cbn [stbind sf_spos sf_read sf_len]. rewrite unle1 by (pose proof (capacity_byte _ HS); lia).
  rewrite check_capacity_in by easy. cbn [sbind].
  Local Ltac nxt V1 O1 c2 V2 O2 E2 :=
    match goal with |- context [safe_next ?n ?f ?c] =>
      destruct (safe_next_ok n f c _ _ O1 V1 eq_refl) as (c2 & -> & V2 & O2 & E2);
      [cbn [sf_len sf_read]; rewrite V1, ?blen_app, ?blen_le4, ?blen1; lia|];
      cbn [stbind sf_spos sf_read sf_len]
    end.
  nxt V1 O1 c2 V2 O2 E2. nxt V2 O2 c3 V3 O3 E3.
  rewrite unle1 by (pose proof (capacity_byte _ HC); lia).
  rewrite check_capacity_in by easy. cbn [sbind].
  nxt V3 O3 c4 V4 O4 E4.
  destruct (safe_next_ok 4 (mk_safe (c_pos c) (0 + 1 + blen (ph_sig h) + 1 + blen (ph_crc h))
     (1 + blen (ph_sig h) + 1 + blen (ph_crc h) + 4 + blen rest)) c4 _ _ O4 V4 (blen_le4 _)) as (c5 & EE & V5 & O5 & E5).
  { cbn [sf_len sf_read]; rewrite V4, ?blen_app, ?blen_le4, ?blen1; lia. }
  rewrite EE. cbn [stbind sf_spos sf_read sf_len].
  rewrite !to_byte_block_in by easy. cbn [sbind]. rewrite u32_le by easy.
  assert (EC : c5 = c').
  { unfold c'. subst c5 c4 c3 c2 c1. unfold c_seek, ph_size. cbn [c_pos c_data]. f_equal.
    unfold blen. lia. }
  rewrite EC in V5, O5 |- *. replace (mk_pheader (ph_sig h) (ph_crc h) (ph_len h)) with h by (now destruct h). auto.
Qed.

(** The buffered variant decides on the same conditions. *)
Lemma nth_app_at {A} (a : list A) x b d : nth (length a) (a ++ x :: b) d = x.
Proof. rewrite app_nth2 by lia. now rewrite Nat.sub_diag. Qed.

Lemma ph_peek_rt h rest : ph_ok h -> ph_peek (ph_bytes h ++ rest) = Ok (Success h).
Proof.
  intros H. pose proof H as (HS & HC & HL).
  pose proof (capacity_byte _ HS). pose proof (capacity_byte _ HC).
  assert (LT : blen (ph_bytes h ++ rest) = 1 + blen (ph_sig h) + 1 + blen (ph_crc h) + 4 + blen rest).
  { rewrite ph_bytes_app, !blen_app, blen_le4, !blen1. lia. }
  unfold ph_peek. rewrite LT.
  assert (E0 : b2n (nth 0 (ph_bytes h ++ rest) (n2b 0)) = blen (ph_sig h)).
  { rewrite ph_bytes_app. simpl. rewrite b2n_n2b. lia. }
  rewrite E0, check_capacity_in by easy. cbn [rbind].
  assert (E1 : b2n (nth (N.to_nat (1 + blen (ph_sig h) + 1 - 1)) (ph_bytes h ++ rest) (n2b 0)) = blen (ph_crc h)).
  { rewrite ph_bytes_app.
    replace (N.to_nat (1 + blen (ph_sig h) + 1 - 1)) with (length ([n2b (blen (ph_sig h))] ++ ph_sig h))
      by (rewrite app_length; cbn [length]; unfold blen; lia).
    rewrite (app_assoc [n2b (blen (ph_sig h))]).
    change ([n2b (blen (ph_crc h))] ++ ph_crc h ++ le 4 (ph_len h) ++ rest)
      with (n2b (blen (ph_crc h)) :: (ph_crc h ++ le 4 (ph_len h) ++ rest)).
    rewrite nth_app_at. rewrite b2n_n2b. lia. }
  rewrite E1, check_capacity_in by easy. cbn [rbind].
  repeat match goal with |- context [?a <? ?b] => replace (a <? b) with false by lia end.
  destruct (ph_read_rt _ _ _ (lawful_okl _ _ _ stream_lawful) h (ph_bytes h ++ rest) rest H I eq_refl) as (s' & E & _).
  rewrite E. reflexivity.
Qed.

(** [q] is cut somewhere inside [a ++ b]. *)
Lemma prefix_split (q a b : bytes) : strict_prefix q (a ++ b) ->
  (blen q < blen a) \/ (exists q', q = a ++ q' /\ strict_prefix q' b).
Proof.
  intros (r & NR & E). destruct (N.lt_ge_cases (blen q) (blen a)) as [H|H]; [auto|right].
  unfold blen in H. exists (skipn (length a) q).
  assert (Q : firstn (length a) q = a).
  { transitivity (firstn (length a) (q ++ r)).
    - rewrite firstn_app. replace (length a - length q)%nat with 0%nat by lia. simpl. now rewrite app_nil_r.
    - rewrite <- E. now rewrite firstn_app_exact. }
  split.
  - rewrite <- Q at 1. now rewrite firstn_skipn.
  - exists r. split; [easy|]. transitivity (skipn (length a) (q ++ r)).
    + rewrite <- E. now rewrite skipn_app_exact.
    + rewrite skipn_app. now replace (length a - length q)%nat with 0%nat by lia.
Qed.

Lemma prefix_short (q a : bytes) : strict_prefix q a -> blen q < blen a.
Proof. intros (r & NR & ->). rewrite blen_app. destruct r; [easy|]. rewrite blen_cons. lia. Qed.

Lemma c_seek_back p c : c_seek (c_pos c) (c_seek p c) = c.
Proof. now destruct c. Qed.
Lemma c_seek_seek p q c : c_seek p (c_seek q c) = c_seek p c.
Proof. reflexivity. Qed.
Lemma c_seek_same c : c_seek (c_pos c) c = c.
Proof. now destruct c. Qed.

Local Ltac ends := unfold pheader_ends; cbv zeta; cbn [to_end];
  repeat match goal with |- context [?a <? ?b] => destruct (N.ltb_spec a b); try (exfalso; lia) end; lia.
Lemma ph_try_read_truncated h c : ph_ok h -> c_ok c -> strict_prefix (c_rest c) (ph_bytes h) ->
  exists n, ph_try_read c = (Ok (NotEnough n), c) /\ 0 < n /\ blen (c_rest c) + n <= blen (ph_bytes h) /\ n = to_end (pheader_ends h) (blen (c_rest c)).
Proof.
  intros (HS & HC & HL) O P.
  assert (LH : blen (ph_bytes h) = 1 + blen (ph_sig h) + 1 + blen (ph_crc h) + 4).
  { unfold ph_bytes. rewrite !blen_app, blen_le4, !blen1. lia. }
  pose proof (capacity_byte _ HS) as BS. pose proof (capacity_byte _ HC) as BC.
  assert (EN : safe_new c = Ok (mk_safe (c_pos c) 0 (blen (c_rest c)))).
  { unfold safe_new. now rewrite c_available_ok. }
  unfold ph_try_read. rewrite EN. cbn [sbind].
  set (T := blen (c_rest c)) in *. unfold ph_bytes in P.
  Local Ltac short := rewrite safe_next_short by (cbn [sf_len sf_read]; lia);
    cbn [stbind sf_spos sf_read sf_len]; eexists; split; [rewrite ?c_seek_seek, c_seek_same; reflexivity|ends].
  apply prefix_split in P. destruct P as [P|(q1 & V1 & P)].
  { fold T in P. rewrite blen1 in P. short. }
  assert (LT : T = 1 + blen q1) by (unfold T; rewrite V1, blen_app, blen1; lia).
  destruct (safe_next_ok 1 (mk_safe (c_pos c) 0 T) c _ _ O V1 eq_refl) as (c1 & -> & V1' & O1 & E1).
  { cbn [sf_len sf_read]. fold T. lia. }
  cbn [stbind sf_spos sf_read sf_len]. rewrite unle1 by lia. rewrite check_capacity_in by easy. cbn [sbind].
  apply prefix_split in P. destruct P as [P|(q2 & V2 & P)].
  { subst c1. short. }
  rewrite V2 in V1'. assert (LT2 : blen q1 = blen (ph_sig h) + blen q2) by (rewrite V2, blen_app; lia).
  Local Ltac adv V O c2 V2' O2 E2 :=
    match goal with |- context [safe_next ?n ?f ?c] =>
      destruct (safe_next_ok n f c _ _ O V eq_refl) as (c2 & -> & V2' & O2 & E2);
      [cbn [sf_len sf_read]; rewrite V, ?blen_app, ?blen_le4, ?blen1; lia|];
      cbn [stbind sf_spos sf_read sf_len]
    end.
  adv V1' O1 c2 V2' O2 E2.
  apply prefix_split in P. destruct P as [P|(q3 & V3 & P)].
  { rewrite blen1 in P. subst c2 c1. short. }
  rewrite V3 in V2'. assert (LT3 : blen q2 = 1 + blen q3) by (rewrite V3, blen_app, blen1; lia).
  adv V2' O2 c3 V3' O3 E3. rewrite unle1 by lia. rewrite check_capacity_in by easy. cbn [sbind].
  apply prefix_split in P. destruct P as [P|(q4 & V4 & P)].
  { subst c3 c2 c1. short. }
  rewrite V4 in V3'. assert (LT4 : blen q3 = blen (ph_crc h) + blen q4) by (rewrite V4, blen_app; lia).
  adv V3' O3 c4 V4' O4 E4.
  apply prefix_short in P. rewrite blen_le4 in P. subst c4 c3 c2 c1. short.
Qed.

Lemma ph_peek_truncated h q : ph_ok h -> strict_prefix q (ph_bytes h) ->
  exists n, ph_peek q = Ok (NotEnough n) /\ 0 < n /\ blen q + n <= blen (ph_bytes h) /\ n = to_end (pheader_ends h) (blen q).
Proof.
  intros (HS & HC & HL) P.
  assert (LH : blen (ph_bytes h) = 1 + blen (ph_sig h) + 1 + blen (ph_crc h) + 4).
  { unfold ph_bytes. rewrite !blen_app, blen_le4, !blen1. lia. }
  pose proof (capacity_byte _ HS) as BS. pose proof (capacity_byte _ HC) as BC.
  unfold ph_bytes in P. unfold ph_peek.
  Local Ltac small := match goal with |- context [?a <? ?b] => replace (a <? b) with true by lia end;
    eexists; split; [reflexivity|ends].
  Local Ltac big := match goal with |- context [?a <? ?b] => replace (a <? b) with false by lia end.
  apply prefix_split in P. destruct P as [P|(q1 & V1 & P)].
  { rewrite blen1 in P. small. }
  assert (LT : blen q = 1 + blen q1) by (rewrite V1, blen_app, blen1; lia).
  big.
  assert (E0 : b2n (nth 0 q (n2b 0)) = blen (ph_sig h)).
  { rewrite V1. simpl. rewrite b2n_n2b. lia. }
  rewrite E0, check_capacity_in by easy. cbn [rbind].
  apply prefix_split in P. destruct P as [P|(q2 & V2 & P)]. { small. }
  assert (LT2 : blen q1 = blen (ph_sig h) + blen q2) by (rewrite V2, blen_app; lia). big.
  apply prefix_split in P. destruct P as [P|(q3 & V3 & P)]. { rewrite blen1 in P. small. }
  assert (LT3 : blen q2 = 1 + blen q3) by (rewrite V3, blen_app, blen1; lia). big.
  assert (E1 : b2n (nth (N.to_nat (1 + blen (ph_sig h) + 1 - 1)) q (n2b 0)) = blen (ph_crc h)).
  { rewrite V1, V2, V3.
    replace (N.to_nat (1 + blen (ph_sig h) + 1 - 1)) with (length ([n2b (blen (ph_sig h))] ++ ph_sig h))
      by (rewrite app_length; cbn [length]; unfold blen; lia).
    rewrite (app_assoc [n2b (blen (ph_sig h))]).
    change ([n2b (blen (ph_crc h))] ++ q3) with (n2b (blen (ph_crc h)) :: q3).
    rewrite nth_app_at. rewrite b2n_n2b. lia. }
  rewrite E1, check_capacity_in by easy. cbn [rbind].
  apply prefix_split in P. destruct P as [P|(q4 & V4 & P)]. { small. }
  assert (LT4 : blen q3 = blen (ph_crc h) + blen q4) by (rewrite V4, blen_app; lia). big.
  apply prefix_short in P. rewrite blen_le4 in P. small.
Qed.

(** ** Rejected length bytes *)
Lemma check_capacity_out n : ~ In n capacities -> check_capacity n = Err (EInvalidCapacity n).
Proof.
  intros H. unfold check_capacity. destruct (valid_capacity n) eqn:E; [|easy].
  apply valid_capacity_in in E. easy.
Qed.

Lemma ph_read_bad_sig {S} (R : reader S) view okst (OK : okl R view okst) s b rest :
  okst s -> view s = [b] ++ rest -> ~ In (b2n b) capacities ->
  exists s', ph_read R s = (Err (EInvalidCapacity (b2n b)), s').
Proof.
  intros O V H. unfold ph_read. rd OK. cbn [unle]. replace (b2n b + 256 * 0) with (b2n b) by lia.
  rewrite check_capacity_out by easy. cbn [sbind]. eauto.
Qed.

Lemma ph_read_bad_crc {S} (R : reader S) view okst (OK : okl R view okst) s sig b rest :
  okst s -> In (blen sig) capacities -> view s = [n2b (blen sig)] ++ sig ++ [b] ++ rest ->
  ~ In (b2n b) capacities ->
  exists s', ph_read R s = (Err (EInvalidCapacity (b2n b)), s').
Proof.
  intros O HS V H. unfold ph_read. rd OK. rewrite unle1 by (pose proof (capacity_byte _ HS); lia).
  rewrite check_capacity_in by easy. cbn [sbind]. rd OK. rd OK.
  cbn [unle]. replace (b2n b + 256 * 0) with (b2n b) by lia.
  rewrite check_capacity_out by easy. cbn [sbind]. eauto.
Qed.

(** ** Whatever [ph_read] accepts is the canonical encoding of the result. *)
Lemma check_capacity_inv n u : check_capacity n = Ok u -> In n capacities.
Proof.
  unfold check_capacity. destruct (valid_capacity n) eqn:E; [|easy]. intros _. now apply valid_capacity_in.
Qed.

Lemma blen1_inv (a : bytes) : blen a = 1 -> a = [n2b (unle a)].
Proof.
  destruct a as [|x [|y a]]; unfold blen; simpl length; intros H; try lia.
  cbn [unle]. replace (b2n x + 256 * 0) with (b2n x) by lia. now rewrite n2b_b2n.
Qed.

Lemma ph_read_inv {S} (R : reader S) view okst (L : lawful R view okst) s h s' :
  okst s -> ph_read R s = (Ok h, s') -> view s = ph_bytes h ++ view s' /\ ph_ok h /\ okst s'.
Proof.
  intros O E. unfold ph_read in E.
  Local Ltac get L E O a s1 V B O1 :=
    match type of E with context [rd_exact ?R ?n ?s] =>
      let Q := fresh "Q" in
      destruct (rd_exact R n s) as [[a| |] s1] eqn:Q; cbn [sbind] in E; try easy;
      destruct (lw_inv L _ _ _ _ O Q) as (V & B & O1); clear Q
    end.
  get L E O sl s1 V1 B1 O1.
  destruct (check_capacity (unle sl)) eqn:C1; cbn [sbind] in E; try easy. apply check_capacity_inv in C1.
  get L E O1 sg s2 V2 B2 O2. get L E O2 cl s3 V3 B3 O3.
  destruct (check_capacity (unle cl)) eqn:C2; cbn [sbind] in E; try easy. apply check_capacity_inv in C2.
  get L E O3 crc s4 V4 B4 O4. get L E O4 ln s5 V5 B5 O5.
  rewrite !to_byte_block_in in E by (rewrite ?B2, ?B4; easy). cbn [sbind] in E. inversion E; subst. clear E.
  split; [|split; [|easy]].
  - rewrite ph_bytes_app. cbn [ph_sig ph_crc ph_len]. rewrite V1, V2, V3, V4, V5.
    rewrite B2, B4. rewrite (blen1_inv sl B1) at 1. rewrite (blen1_inv cl B3) at 1.
    assert (Q : le 4 (unle ln) = ln).
    { replace 4%nat with (length ln) by (unfold blen in B5; lia). apply le_unle. }
    rewrite Q. reflexivity.
  - unfold ph_ok. cbn [ph_sig ph_crc ph_len]. rewrite B2, B4. repeat split; auto.
    pose proof (unle_bound ln) as UB. rewrite B5 in UB. unfold u32_max. simpl in UB. lia.
Qed.

Lemma ph_read_nopanic {S} (R : reader S) view okst (L : lawful R view okst) s w s' :
  okst s -> ph_read R s <> (Panic w, s').
Proof.
  intros O E. unfold ph_read in E.
  Local Ltac getp L E O a s1 V B O1 :=
    match type of E with context [rd_exact ?R ?n ?s] =>
      let Q := fresh "Q" in
      destruct (rd_exact R n s) as [[a| |] s1] eqn:Q; cbn [sbind] in E; try easy;
      [destruct (lw_inv L _ _ _ _ O Q) as (V & B & O1); clear Q|exact (lw_nopanic L _ _ _ _ O Q)]
    end.
  assert (CC : forall n w, check_capacity n <> Panic w) by (intros n v; unfold check_capacity; destruct (valid_capacity n); easy).
  assert (BB : forall n w, to_byte_block n <> Panic w) by (intros n v; unfold to_byte_block; destruct (valid_capacity _); easy).
  getp L E O sl s1 V1 B1 O1.
  destruct (check_capacity (unle sl)) eqn:C1; cbn [sbind] in E; try easy; [|now apply CC in C1].
  getp L E O1 sg s2 V2 B2 O2. getp L E O2 cl s3 V3 B3 O3.
  destruct (check_capacity (unle cl)) eqn:C2; cbn [sbind] in E; try easy; [|now apply CC in C2].
  getp L E O3 crc s4 V4 B4 O4. getp L E O4 ln s5 V5 B5 O5.
  destruct (to_byte_block crc) eqn:T1; cbn [sbind] in E; try easy; [|now apply BB in T1].
  destruct (to_byte_block sg) eqn:T2; cbn [sbind] in E; try easy. now apply BB in T2.
Qed.

Lemma ph_peek_nopanic q w : ph_peek q <> Panic w.
Proof.
  assert (CC : forall n w, check_capacity n <> Panic w) by (intros n v; unfold check_capacity; destruct (valid_capacity n); easy).
  unfold ph_peek. intros E.
  destruct (blen q <? 1); [easy|].
  destruct (check_capacity (b2n (nth 0 q (n2b 0)))) eqn:C1; cbn [rbind] in E; try easy; [|now apply CC in C1].
  destruct (blen q <? _); [easy|]. destruct (blen q <? _); [easy|].
  destruct (check_capacity _) eqn:C2 in E; cbn [rbind] in E; try easy; [|now apply CC in C2].
  destruct (blen q <? _); [easy|]. destruct (blen q <? _); [easy|].
  destruct (ph_read stream_reader q) as [[h|e|v] s'] eqn:EP; cbn [fst rbind] in E; try easy.
  exact (ph_read_nopanic _ _ _ stream_lawful q v s' I EP).
Qed.

Lemma ph_peek_inv q h : ph_peek q = Ok (Success h) -> exists rest, q = ph_bytes h ++ rest /\ ph_ok h.
Proof.
  unfold ph_peek. intros E.
  destruct (blen q <? 1); [easy|].
  destruct (check_capacity (b2n (nth 0 q (n2b 0)))) eqn:C1; cbn [rbind] in E; try easy.
  destruct (blen q <? _); [easy|]. destruct (blen q <? _); [easy|].
  destruct (check_capacity _) eqn:C2 in E; cbn [rbind] in E; try easy.
  destruct (blen q <? _); [easy|]. destruct (blen q <? _); [easy|].
  destruct (ph_read stream_reader q) as [[h'|e|v] s'] eqn:EP; cbn [fst rbind] in E; try easy.
  inversion E; subst. destruct (ph_read_inv _ _ _ stream_lawful q h s' I EP) as (V & H & _). eauto.
Qed.

Lemma safe_next_cases n f c : c_ok c -> sf_len f = sf_read f + blen (c_rest c) ->
  (exists a c', safe_next n f c = (Ok (Success (a, mk_safe (sf_spos f) (sf_read f + n) (sf_len f))), c')
     /\ c_rest c = a ++ c_rest c' /\ blen a = n /\ c_ok c' /\ c_data c' = c_data c) \/
  (blen (c_rest c) < n /\ exists m, 0 < m /\ safe_next n f c = (Ok (NotEnough m), c_seek (sf_spos f) c)).
Proof.
  intros O L. destruct (N.lt_ge_cases (blen (c_rest c)) n) as [H|H].
  - right. split; [easy|]. exists (sf_read f + n - sf_len f). split; [lia|]. apply safe_next_short. lia.
  - left. set (a := firstn (N.to_nat n) (c_rest c)). set (b := skipn (N.to_nat n) (c_rest c)).
    assert (V : c_rest c = a ++ b) by (unfold a, b; now rewrite firstn_skipn).
    assert (B : blen a = n) by (unfold a, blen in *; rewrite firstn_length; lia).
    destruct (safe_next_ok n f c a b O V B L) as (c' & E & W & O1 & EC).
    exists a, c'. rewrite W. repeat split; auto. now subst c'.
Qed.

Lemma ph_try_read_total c : c_ok c ->
  (exists h c', ph_try_read c = (Ok (Success h), c') /\ c_rest c = ph_bytes h ++ c_rest c' /\ ph_ok h
                /\ c_ok c' /\ c_data c' = c_data c) \/
  (exists n, 0 < n /\ ph_try_read c = (Ok (NotEnough n), c)) \/
  (exists e c', ph_try_read c = (Err e, c')).
Proof.
  intros O.
  assert (EN : safe_new c = Ok (mk_safe (c_pos c) 0 (blen (c_rest c)))).
  { unfold safe_new. now rewrite c_available_ok. }
  unfold ph_try_read. rewrite EN. cbn [sbind].
  assert (SB : forall c', c_data c' = c_data c -> c_seek (c_pos c) c' = c).
  { intros c' D. unfold c_seek. rewrite D. now destruct c. }
  Local Ltac stp O a c1 V B O1 D1 SB :=
    match goal with |- context [safe_next ?n ?f ?c] =>
      destruct (safe_next_cases n f c O) as [(a & c1 & -> & V & B & O1 & D1)|(_ & m & Hm & ->)];
      [cbn [sf_len sf_read]; lia | |
       cbn [stbind sf_spos]; right; left; exists m; split; [exact Hm|]; rewrite SB; [reflexivity|congruence]];
      cbn [stbind sf_spos sf_read sf_len];
      assert (blen (c_rest c) = blen a + blen (c_rest c1)) by (rewrite V; apply blen_app)
    end.
  stp O sl c1 V1 B1 O1 D1 SB.
  destruct (valid_capacity (unle sl)) eqn:C1;
    [|right; right; unfold check_capacity; rewrite C1; cbn [sbind]; eauto].
  apply valid_capacity_in in C1. rewrite check_capacity_in by easy. cbn [sbind].
  stp O1 sg c2 V2 B2 O2 D2 SB. stp O2 cl c3 V3 B3 O3 D3 SB.
  destruct (valid_capacity (unle cl)) eqn:C2;
    [|right; right; unfold check_capacity; rewrite C2; cbn [sbind]; eauto].
  apply valid_capacity_in in C2. rewrite check_capacity_in by easy. cbn [sbind].
  stp O3 crc c4 V4 B4 O4 D4 SB. stp O4 ln c5 V5 B5 O5 D5 SB.
  rewrite !to_byte_block_in by (rewrite ?B2, ?B4; easy). cbn [sbind].
  left. eexists _, c5. split; [reflexivity|]. split; [|split; [|split; [easy|congruence]]].
  - rewrite ph_bytes_app. cbn [ph_sig ph_crc ph_len]. rewrite V1, V2, V3, V4, V5.
    rewrite B2, B4. rewrite (blen1_inv sl B1) at 1. rewrite (blen1_inv cl B3) at 1.
    assert (Q : le 4 (unle ln) = ln).
    { replace 4%nat with (length ln) by (unfold blen in B5; lia). apply le_unle. }
    rewrite Q. reflexivity.
  - unfold ph_ok. cbn [ph_sig ph_crc ph_len]. rewrite B2, B4. repeat split; auto.
    pose proof (unle_bound ln) as UB. rewrite B5 in UB. unfold u32_max. simpl in UB. lia.
Qed.
