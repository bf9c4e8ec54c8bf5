(** * Lemmas about Base and Io. *)
From Coq Require Import Strings.Byte ZifyBool ZifyNat ZifyN.
From Verif Require Import Base Io Block Payload Packet Spec.
Ltac Zify.zify_post_hook ::= Z.div_mod_to_equations.

(** ** bytes *)
Lemma b2n_bound b : b2n b < 256.
Proof. unfold b2n. pose proof (Byte.to_N_bounded b). lia. Qed.

Lemma n2b_b2n b : n2b (b2n b) = b.
Proof.
  unfold n2b, b2n. rewrite N.mod_small by apply b2n_bound.
  now rewrite Byte.of_to_N.
Qed.

Lemma b2n_n2b n : b2n (n2b n) = n mod 256.
Proof.
  unfold n2b, b2n.
  destruct (Byte.of_N (n mod 256)) eqn:E.
  - now apply Byte.to_of_N.
  - exfalso. apply Byte.of_N_None_iff in E. assert (n mod 256 < 256) by (apply N.mod_lt; lia). lia.
Qed.

Lemma b2n_inj a b : b2n a = b2n b -> a = b.
Proof. intro H. rewrite <- (n2b_b2n a), <- (n2b_b2n b). now rewrite H. Qed.

Lemma byte_eqb_eq a b : byte_eqb a b = true <-> a = b.
Proof.
  unfold byte_eqb. rewrite N.eqb_eq. split; [apply b2n_inj|now intros ->].
Qed.

Lemma bytes_eqb_eq a : forall b, bytes_eqb a b = true <-> a = b.
Proof.
  induction a as [|x a IH]; intros [|y b]; simpl; try easy.
  rewrite andb_true_iff, byte_eqb_eq, IH. split; [intros [-> ->]; easy|intros E; inversion E; easy].
Qed.

Lemma bytes_eqb_refl a : bytes_eqb a a = true.
Proof. now apply bytes_eqb_eq. Qed.

Lemma bytes_eqb_neq a b : bytes_eqb a b = false <-> a <> b.
Proof.
  rewrite <- bytes_eqb_eq. destruct (bytes_eqb a b); split; intros H; easy.
Qed.

Lemma starts_with_app p : forall bs, starts_with p bs = true <-> exists r, bs = p ++ r.
Proof.
  induction p as [|x p IH]; intros bs; simpl.
  - split; [intros _; now exists bs|easy].
  - destruct bs as [|y bs].
    + split; [easy|intros [r E]; easy].
    + rewrite andb_true_iff, byte_eqb_eq, IH. split.
      * intros [-> [r ->]]. now exists r.
      * intros [r E]. inversion E; subst. split; [easy|now exists r].
Qed.

Lemma starts_with_self p r : starts_with p (p ++ r) = true.
Proof. apply starts_with_app. now exists r. Qed.

Lemma starts_with_firstn p bs : starts_with p bs = bytes_eqb (firstn (length p) bs) p.
Proof.
  revert bs. induction p as [|x p IH]; intros [|y bs]; simpl; try easy.
  rewrite IH. f_equal. unfold byte_eqb. apply N.eqb_sym.
Qed.

(** ** lengths *)
Lemma blen_app a b : blen (a ++ b) = blen a + blen b.
Proof. unfold blen. rewrite app_length. lia. Qed.
Lemma blen_nil : blen [] = 0.
Proof. reflexivity. Qed.
Lemma blen_cons x a : blen (x :: a) = 1 + blen a.
Proof. unfold blen. simpl length. lia. Qed.
Lemma to_nat_blen a : N.to_nat (blen a) = length a.
Proof. unfold blen. lia. Qed.
Lemma blen_0 a : blen a = 0 -> a = [].
Proof. destruct a; [easy|]. rewrite blen_cons. lia. Qed.

Lemma firstn_app_exact {A} (a b : list A) n : n = length a -> firstn n (a ++ b) = a.
Proof. intros ->. rewrite firstn_app, firstn_all, Nat.sub_diag. apply app_nil_r. Qed.
Lemma skipn_app_exact {A} (a b : list A) n : n = length a -> skipn n (a ++ b) = b.
Proof. intros ->. rewrite skipn_app, skipn_all, Nat.sub_diag. reflexivity. Qed.

Lemma slice_app_exact a b c off n :
  off = length a -> n = length b -> slice (a ++ b ++ c) off n = b.
Proof. intros -> ->. unfold slice. now rewrite skipn_app_exact, firstn_app_exact. Qed.

Lemma slice_length bs off n : (off + n <= length bs)%nat -> length (slice bs off n) = n.
Proof. intros. unfold slice. rewrite firstn_length, skipn_length. lia. Qed.

(** ** little endian *)
Lemma le_length k : forall n, length (le k n) = k.
Proof. induction k; simpl; intros; [easy|now rewrite IHk]. Qed.
Lemma blen_le k n : blen (le k n) = N.of_nat k.
Proof. unfold blen. now rewrite le_length. Qed.

Lemma unle_le k : forall n, n < 2 ^ (8 * N.of_nat k) -> unle (le k n) = n.
Proof.
  induction k as [|k IH]; intros n H; cbn [le unle].
  - change (8 * N.of_nat 0) with 0 in H. rewrite N.pow_0_r in H. lia.
  - rewrite b2n_n2b.
    assert (E : 2 ^ (8 * N.of_nat (S k)) = 256 * 2 ^ (8 * N.of_nat k)).
    { replace (8 * N.of_nat (S k)) with (8 + 8 * N.of_nat k) by lia.
      rewrite N.pow_add_r. reflexivity. }
    rewrite IH; [lia|]. rewrite E in H. apply N.div_lt_upper_bound; lia.
Qed.

Lemma unle_bound bs : unle bs < 2 ^ (8 * blen bs).
Proof.
  induction bs as [|b r IH]; [reflexivity|].
  rewrite blen_cons. cbn [unle].
  replace (8 * (1 + blen r)) with (8 + 8 * blen r) by lia.
  rewrite N.pow_add_r. change (2 ^ 8) with 256.
  pose proof (b2n_bound b). nia.
Qed.

Lemma le_unle bs : le (length bs) (unle bs) = bs.
Proof.
  induction bs as [|b r IH]; [reflexivity|]. cbn [length le unle].
  pose proof (b2n_bound b).
  f_equal.
  - apply b2n_inj. rewrite b2n_n2b. lia.
  - replace ((b2n b + 256 * unle r) / 256) with (unle r) by lia. apply IH.
Qed.

Lemma unle_inj a b : length a = length b -> unle a = unle b -> a = b.
Proof. intros L E. rewrite <- (le_unle a), <- (le_unle b). now rewrite L, E. Qed.

Lemma le_inj k a b : a < 2 ^ (8 * N.of_nat k) -> b < 2 ^ (8 * N.of_nat k) -> le k a = le k b -> a = b.
Proof. intros Ha Hb E. rewrite <- (unle_le k a), <- (unle_le k b) by easy. now rewrite E. Qed.

Lemma unle_app a : forall b, unle (a ++ b) = unle a + 2 ^ (8 * blen a) * unle b.
Proof.
  induction a as [|x a IH]; intros b.
  - cbn [app unle]. rewrite blen_nil. change (2 ^ (8 * 0)) with 1. lia.
  - cbn [app unle]. rewrite IH, blen_cons.
    replace (8 * (1 + blen a)) with (8 + 8 * blen a) by lia.
    rewrite N.pow_add_r. change (2 ^ 8) with 256. nia.
Qed.

(** ** Sources *)

Lemma stream_lawful : lawful stream_reader (fun s => s) (fun _ => True).
Proof.
  split; simpl; unfold stream_read_exact.
  - intros n s a b _ E L. subst.
    replace (blen a <=? blen (a ++ b)) with true by (rewrite blen_app; lia).
    rewrite to_nat_blen, firstn_app_exact, skipn_app_exact by easy. eauto.
  - intros n s _ H. replace (n <=? blen s) with false by lia. eauto.
Qed.

Lemma skipn_blen n bs : blen (skipn n bs) = blen bs - N.of_nat n.
Proof. unfold blen. rewrite skipn_length. lia. Qed.

Lemma c_rest_len c : c_ok c -> blen (c_rest c) = c_len c - c_pos c.
Proof.
  unfold c_ok, c_rest, c_len. intros H.
  replace (c_pos c <=? blen (c_data c)) with true by lia.
  rewrite skipn_blen. lia.
Qed.

Lemma c_available_ok c : c_ok c -> c_available c = Ok (blen (c_rest c)).
Proof.
  intros H. rewrite c_rest_len by easy. unfold c_available. unfold c_ok in H.
  now replace (c_pos c <=? c_len c) with true by lia.
Qed.

Lemma skipn_skipn {A} x y (l : list A) : skipn x (skipn y l) = skipn (x + y) l.
Proof.
  revert l. induction y as [|y IH]; intros l.
  - now rewrite Nat.add_0_r.
  - rewrite Nat.add_succ_r. destruct l; [now rewrite !skipn_nil|]. simpl. apply IH.
Qed.

Lemma c_rest_advance c n : c_ok c -> n <= blen (c_rest c) ->
  c_rest (c_seek (c_pos c + n) c) = skipn (N.to_nat n) (c_rest c).
Proof.
  intros H L. rewrite c_rest_len in L by easy. unfold c_ok in H. unfold c_rest, c_seek, c_len in *. simpl.
  replace (c_pos c + n <=? blen (c_data c)) with true by lia.
  replace (c_pos c <=? blen (c_data c)) with true by lia.
  rewrite skipn_skipn. f_equal. lia.
Qed.

Lemma cursor_read_ok c a b : c_ok c -> c_rest c = a ++ b ->
  cursor_read_exact (blen a) c = (Ok a, c_seek (c_pos c + blen a) c)
  /\ c_rest (c_seek (c_pos c + blen a) c) = b /\ c_ok (c_seek (c_pos c + blen a) c).
Proof.
  intros H E. unfold cursor_read_exact.
  assert (L : blen a <= blen (c_rest c)) by (rewrite E, blen_app; lia).
  replace (blen a <=? blen (c_rest c)) with true by lia.
  rewrite c_rest_advance by easy. rewrite E, to_nat_blen, firstn_app_exact, skipn_app_exact by easy.
  repeat split. unfold c_ok, c_seek, c_len in *. simpl. rewrite c_rest_len in L by easy.
  unfold c_len in L. lia.
Qed.

Lemma cursor_lawful : lawful cursor_reader c_rest c_ok.
Proof.
  split; simpl.
  - intros n c a b H E <-. destruct (cursor_read_ok c a b H E) as (-> & ? & ?). eauto.
  - intros n c H L. unfold cursor_read_exact. replace (n <=? blen (c_rest c)) with false by lia. eauto.
Qed.

Lemma buf_go_ok evs : forall cur n acc a b,
  Forall ev_ok evs -> cur ++ concat (map ev_bytes evs) = a ++ b -> blen a = n ->
  exists s', buf_read_exact_go evs cur n acc = (Ok (acc ++ a), s') /\ b_view s' = b /\ b_ok s'.
Proof.
  induction evs as [|e evs IH]; intros cur n acc a b F E L.
  - simpl in E. rewrite app_nil_r in E. subst cur n.
    simpl. replace (blen a <=? blen (a ++ b)) with true by (rewrite blen_app; lia).
    rewrite to_nat_blen, firstn_app_exact, skipn_app_exact by easy.
    eexists; split; [reflexivity|]. split; [unfold b_view; simpl; apply app_nil_r|constructor].
  - cbn [buf_read_exact_go]. destruct (n <=? blen cur) eqn:C.
    + apply N.leb_le in C.
      assert (exists c2, cur = a ++ c2 /\ b = c2 ++ concat (map ev_bytes (e :: evs))) as (c2 & -> & ->).
      { exists (skipn (length a) cur).
        assert (La : (length a <= length cur)%nat) by (unfold blen in *; lia).
        assert (firstn (length a) cur = a).
        { transitivity (firstn (length a) (cur ++ concat (map ev_bytes (e :: evs)))).
          - rewrite firstn_app. replace (length a - length cur)%nat with 0%nat by lia.
            simpl. now rewrite app_nil_r.
          - rewrite E. now rewrite firstn_app_exact. }
        split.
        - rewrite <- H at 1. now rewrite firstn_skipn.
        - transitivity (skipn (length a) (cur ++ concat (map ev_bytes (e :: evs)))).
          + rewrite E. now rewrite skipn_app_exact.
          + rewrite skipn_app. now replace (length a - length cur)%nat with 0%nat by lia. }
      subst n. rewrite to_nat_blen, firstn_app_exact, skipn_app_exact by easy.
      eexists; split; [reflexivity|]. split; [reflexivity|exact F].
    + apply N.leb_gt in C. inversion F as [|? ? Fe Fr]; subst.
      destruct e as [[|x xs]|k]; try easy.
      assert (exists a2, a = cur ++ a2) as (a2 & ->).
      { exists (skipn (length cur) a).
        assert (La : (length cur <= length a)%nat) by (unfold blen in *; lia).
        assert (firstn (length cur) a = cur).
        { transitivity (firstn (length cur) (a ++ b)).
          - rewrite firstn_app. replace (length cur - length a)%nat with 0%nat by lia.
            simpl. now rewrite app_nil_r.
          - rewrite <- E. now rewrite firstn_app_exact. }
        rewrite <- H at 1. now rewrite firstn_skipn. }
      rewrite <- app_assoc in E. apply app_inv_head in E.
      destruct (IH (x :: xs) (blen (cur ++ a2) - blen cur) (acc ++ cur) a2 b Fr) as (s' & H1 & H2 & H3).
      * exact E.
      * rewrite blen_app. lia.
      * rewrite H1. exists s'. rewrite app_assoc. auto.
Qed.

Lemma buf_go_short evs : forall cur n acc,
  Forall ev_ok evs -> blen (cur ++ concat (map ev_bytes evs)) < n ->
  exists s', buf_read_exact_go evs cur n acc = (Err (EIo UnexpectedEof), s').
Proof.
  induction evs as [|e evs IH]; intros cur n acc F L.
  - simpl in *. rewrite app_nil_r in L. replace (n <=? blen cur) with false by lia. eauto.
  - cbn [buf_read_exact_go]. replace (n <=? blen cur) with false by (rewrite blen_app in L; lia).
    inversion F as [|? ? Fe Fr]; subst. destruct e as [[|x xs]|k]; try easy.
    apply IH; [easy|]. rewrite blen_app in L. cbn [map concat ev_bytes] in L. rewrite blen_app in *. lia.
Qed.

Lemma buf_lawful : lawful buf_reader b_view b_ok.
Proof.
  split; simpl; unfold buf_read_exact.
  - intros n s a b H E L.
    destruct (buf_go_ok (b_evs s) (b_cur s) n [] a b H E L) as (s' & ? & ? & ?). eauto.
  - intros n s H L. now apply buf_go_short.
Qed.

(** Reading within the buffered bytes does not touch the events. *)
Lemma buf_read_cur cur evs a c :
  cur = a ++ c -> buf_read_exact (blen a) (mk_bufsrc cur evs) = (Ok a, mk_bufsrc c evs).
Proof.
  intros ->. unfold buf_read_exact. simpl b_evs. simpl b_cur.
  destruct evs; cbn [buf_read_exact_go];
  replace (blen a <=? blen (a ++ c)) with true by (rewrite blen_app; lia);
  now rewrite to_nat_blen, firstn_app_exact, skipn_app_exact.
Qed.

(** ** sinks *)
Lemma sink_write_all_nil bs got : sink_write_all bs (mk_sink got []) = (Ok tt, mk_sink (got ++ bs) []).
Proof. destruct bs; unfold sink_write_all; simpl; [now rewrite app_nil_r|easy]. Qed.

Lemma sink_write_nil bs got : sink_write bs (mk_sink got []) = (Ok (blen bs), mk_sink (got ++ bs) []).
Proof. reflexivity. Qed.

(** Inversion of lawful reads. *)
Section Lawful.
Context {S : Type} {R : reader S} {view : S -> bytes} {okst : S -> Prop} (L : lawful R view okst).

Lemma lw_cases n s : okst s ->
  (exists a b s', view s = a ++ b /\ blen a = n /\ rd_exact R n s = (Ok a, s') /\ view s' = b /\ okst s')
  \/ (blen (view s) < n /\ exists s', rd_exact R n s = (Err (EIo UnexpectedEof), s')).
Proof.
  intros H. destruct (N.lt_ge_cases (blen (view s)) n) as [C|C].
  - right. split; [easy|]. now apply (lw_short _ _ _ L).
  - left. exists (firstn (N.to_nat n) (view s)), (skipn (N.to_nat n) (view s)).
    assert (Q : blen (firstn (N.to_nat n) (view s)) = n).
    { unfold blen in *. rewrite firstn_length. lia. }
    destruct (lw_ok _ _ _ L n s (firstn (N.to_nat n) (view s)) (skipn (N.to_nat n) (view s)) H) as (s' & ? & ? & ?).
    + now rewrite firstn_skipn.
    + easy.
    + exists s'. rewrite firstn_skipn. auto.
Qed.

Lemma lw_inv n s a s' : okst s -> rd_exact R n s = (Ok a, s') ->
  view s = a ++ view s' /\ blen a = n /\ okst s'.
Proof.
  intros H E. destruct (lw_cases n s H) as [(a' & b & t & V & B & Q & W & O)|[_ (t & Q)]]; rewrite Q in E; inversion E; subst; auto.
Qed.

Lemma lw_nopanic n s w s' : okst s -> rd_exact R n s <> (Panic w, s').
Proof.
  intros H E. destruct (lw_cases n s H) as [(a' & b & t & V & B & Q & W & O)|[_ (t & Q)]]; rewrite Q in E; discriminate.
Qed.

Lemma lw_err n s e s' : okst s -> rd_exact R n s = (Err e, s') -> e = EIo UnexpectedEof /\ blen (view s) < n.
Proof.
  intros H E. destruct (lw_cases n s H) as [(a' & b & t & V & B & Q & W & O)|[C (t & Q)]]; rewrite Q in E; inversion E; subst; auto.
Qed.
End Lawful.
