(** * Vectored writes and [BufferedReader]. *)
From Coq Require Import ZifyBool ZifyNat ZifyN.
From Verif Require Import Base Io Slices BufReader Block Payload Packet Rules StreamReader Spec BaseProofs.
Ltac Zify.zify_post_hook ::= Z.div_mod_to_equations.
Open Scope list_scope.

(** ** [write_vectored_all] *)
Lemma in_work_spec src : forall off w,
  concat (in_work src off w) = skipn (N.to_nat (w - off)) (concat src) /\
  (in_work src off w = [] -> blen (concat src) + off <= w \/ concat src = []) /\
  (off + blen (concat src) <= w -> in_work src off w = []).
Proof.
  induction src as [|b src IH]; intros off w; cbn [in_work concat].
  - rewrite skipn_nil. auto.
  - rewrite blen_app. destruct (IH (off + blen b) w) as (I1 & I2 & I3).
    destruct (N.leb_spec (off + blen b) w) as [L|L].
    + rewrite I1, skipn_app. assert (skipn (N.to_nat (w - off)) b = []) as -> by (apply skipn_all2; unfold blen in *; lia).
      cbn [app]. split; [f_equal; unfold blen in *; lia|]. split.
      * intros E. destruct (I2 E) as [G|G]; [left; lia|]. rewrite G. rewrite blen_nil. left. lia.
      * intros G. apply I3. lia.
    + destruct (N.leb_spec w off) as [M|M].
      * cbn [concat]. rewrite I1. replace (w - (off + blen b)) with 0 by lia. replace (w - off) with 0 by lia.
        cbn [N.to_nat skipn]. split; [reflexivity|]. split; [discriminate|]. unfold blen in *. lia.
      * cbn [concat]. rewrite I1, skipn_app. replace (w - (off + blen b)) with 0 by lia.
        replace (N.to_nat (w - off) - length b)%nat with 0%nat by (unfold blen in *; lia).
        split; [reflexivity|]. split; [discriminate|]. unfold blen in *. lia.
Qed.

Lemma in_work_concat src w : concat (in_work src 0 w) = skipn (N.to_nat w) (concat src).
Proof. destruct (in_work_spec src 0 w) as (E & _). now rewrite N.sub_0_r in E. Qed.
Lemma in_work_nil src w : w <= blen (concat src) -> in_work src 0 w = [] -> w = blen (concat src).
Proof.
  intros L E. destruct (in_work_spec src 0 w) as (_ & H & _). destruct (H E) as [G|G]; [lia|]. rewrite G, blen_nil in *. lia.
Qed.
Lemma in_work_done src w : blen (concat src) <= w -> in_work src 0 w = [].
Proof. intros L. destruct (in_work_spec src 0 w) as (_ & _ & H). apply H. lia. Qed.

Definition refusal (a : answer) (e : err) : Prop :=
  match a with Accept n => n = 0 /\ e = EIo WriteZero | WFail k => e = EIo k end.

Lemma vectored_go src : forall fuel w s o s',
  w <= blen (concat src) -> (length (concat src) + 1 <= fuel + N.to_nat w)%nat ->
  write_vectored_go fuel src w s = (o, s') ->
  exists n used, (N.to_nat w + n <= length (concat src))%nat /\
    k_got s' = k_got s ++ firstn n (skipn (N.to_nat w) (concat src)) /\
    k_sched s = used ++ k_sched s' /\ (length used + N.to_nat w <= length (concat src))%nat /\
    match o with
    | Ok _ => (N.to_nat w + n)%nat = length (concat src)
    | Err e => (N.to_nat w + n < length (concat src))%nat /\ exists us a, used = us ++ [a] /\ refusal a e
    | Panic _ => False
    end.
Proof.
  induction fuel as [|f IH]; intros w s o s' L F E.
  { unfold blen in L. lia. }
  cbn [write_vectored_go] in E. destruct (in_work src 0 w) as [|x work] eqn:W.
  - apply in_work_nil in W; [|exact L]. injection E as <- <-. exists 0%nat, []. cbn [firstn app length]. rewrite app_nil_r.
    unfold blen in *. repeat (split; [lia || reflexivity|]). lia.
  - assert (w < blen (concat src)) as L'.
    { destruct (N.lt_ge_cases w (blen (concat src))) as [|G]; [assumption|]. rewrite in_work_done in W by exact G. discriminate. }
    rewrite <- W in E. unfold sink_write_vectored, sink_write in E. rewrite in_work_concat in E.
    set (D := concat src) in *. set (R := skipn (N.to_nat w) D) in *.
    assert (LR : length R = (length D - N.to_nat w)%nat) by (unfold R; apply skipn_length).
    destruct s as [got sched]. cbn [k_got k_sched] in *. destruct sched as [|[n|k] sched]; cbn [sbind] in E.
    + destruct (N.eqb_spec (blen R) 0) as [Z|Z]; [unfold blen in *; lia|].
      destruct f as [|f]; [unfold blen in *; lia|]. cbn [write_vectored_go] in E.
      rewrite in_work_done in E by (fold D; unfold blen in *; lia). injection E as <- <-.
      exists (length R), []. cbn [k_got k_sched app length]. rewrite firstn_all. unfold blen in *.
      repeat (split; [lia || reflexivity|]). lia.
    + destruct (N.eqb_spec (N.min n (blen R)) 0) as [Z|Z].
      * injection E as <- <-. exists 0%nat, [Accept n]. cbn [k_got k_sched app length].
        rewrite Z. cbn [N.to_nat firstn]. unfold blen in *.
        repeat (split; [lia || reflexivity|]). exists [], (Accept n). cbn [app refusal]. split; [reflexivity|]. split; [lia|reflexivity].
      * apply IH in E; [|fold D; unfold blen in *; lia|fold D; unfold blen in *; lia]. fold D in E.
        destruct E as (m & used & E1 & E2 & E3 & E4 & E5). cbn [k_got k_sched] in *.
        set (a := N.min n (blen R)) in *. assert (a <= blen R) as LA by lia.
        exists (N.to_nat a + m)%nat, (Accept n :: used). cbn [length app]. rewrite E3.
        split; [unfold blen in *; lia|]. split.
        { rewrite E2, <- app_assoc. f_equal. replace (N.to_nat (w + a)) with (N.to_nat a + N.to_nat w)%nat by lia.
          rewrite <- skipn_skipn. fold R. rewrite <- (firstn_skipn (N.to_nat a) R) at 3.
          rewrite firstn_app, firstn_firstn, firstn_length.
          replace (Nat.min (N.to_nat a + m) (N.to_nat a)) with (N.to_nat a) by lia. do 2 f_equal. unfold blen in *. lia. }
        split; [reflexivity|]. split; [unfold blen in *; lia|].
        destruct o as [u|e|]; [unfold blen in *; lia| |contradiction]. destruct E5 as (E5 & us & b & -> & E6).
        split; [unfold blen in *; lia|]. exists (Accept n :: us), b. auto.
    + injection E as <- <-. exists 0%nat, [WFail k]. cbn [firstn k_got k_sched app length]. rewrite app_nil_r. unfold blen in *.
      repeat (split; [lia || reflexivity|]). exists [], (WFail k). cbn [app refusal]. auto.
Qed.

Lemma vectored_all src s o s' : write_vectored_all src s = (o, s') ->
  exists sent rest used, concat src = sent ++ rest /\ k_got s' = k_got s ++ sent /\
    k_sched s = used ++ k_sched s' /\ (length used <= length (concat src))%nat /\
    match o with
    | Ok _ => rest = []
    | Err e => rest <> [] /\ exists us a, used = us ++ [a] /\ refusal a e
    | Panic _ => False
    end.
Proof.
  intros E. apply vectored_go in E; [|lia|cbn [N.to_nat]; lia]. destruct E as (n & used & E1 & E2 & E3 & E4 & E5).
  cbn [N.to_nat skipn Nat.add] in *. exists (firstn n (concat src)), (skipn n (concat src)), used.
  split; [now rewrite firstn_skipn|]. split; [exact E2|]. split; [exact E3|]. split; [lia|].
  destruct o as [u|e|]; [|split|contradiction].
  - apply skipn_all2. lia.
  - intros Z. apply (f_equal (@length _)) in Z. rewrite skipn_length in Z. cbn [length] in Z. lia.
  - apply E5.
Qed.

(** ** [BufferedReader] *)
(** A [fill_buf] of the inner reader only moves bytes within the view. *)
Lemma fill_inner s o s' : fill_buf s = (o, s') ->
  b_view s' = b_view s /\ (exists t, b_cur s' = b_cur s ++ t) /\ (forall b, o = Ok b -> b = b_cur s') /\ (forall w, o <> Panic w).
Proof.
  destruct s as [[|c cur] evs]; unfold fill_buf, b_view; cbn [b_cur b_evs].
  - destruct evs as [|[bs|k] r]; intros E; injection E as <- <-; cbn [b_cur b_evs map ev_bytes concat app].
    + split; [reflexivity|]. split; [now exists []|]. split; [congruence|discriminate].
    + split; [reflexivity|]. split; [now exists bs|]. split; [congruence|discriminate].
    + split; [reflexivity|]. split; [now exists []|]. split; discriminate.
  - intros E. injection E as <- <-. split; [reflexivity|]. split; [exists []; now rewrite app_nil_r|]. split; [cbn [b_cur]; congruence|discriminate].
Qed.
Lemma consume_inner n s : (n <= length (b_cur s))%nat -> b_view s = firstn n (b_cur s) ++ b_view (consume n s).
Proof. intros L. unfold b_view, consume. cbn [b_cur b_evs]. now rewrite app_assoc, firstn_skipn. Qed.
Lemma read_inner n s o s' : buf_read n s = (o, s') ->
  (forall b, o = Ok b -> b_view s = b ++ b_view s') /\ (forall e, o = Err e -> b_view s' = b_view s).
Proof.
  unfold buf_read. destruct (fill_buf s) as ([b|e|w] & s1) eqn:E; cbn [sbind]; apply fill_inner in E as (E1 & _ & E2 & E3).
  - rewrite (E2 b eq_refl). intros X. injection X as <- <-. split; [|discriminate]. intros ? Y. injection Y as <-.
    rewrite <- E1. rewrite (consume_inner (length (firstn n (b_cur s1)))) at 1 by (rewrite firstn_length; lia).
    rewrite firstn_length. f_equal. rewrite <- (firstn_all (b_cur s1)) at 3. rewrite firstn_firstn. reflexivity.
  - intros X. injection X as <- <-. split; [discriminate|congruence].
  - exfalso. now apply (E3 w).
Qed.

Definition br_inv (strict : bool) (src : bytes) (c : br_client) : Prop :=
  let r := bc_reader c in
  bc_got c ++ f_buffer r ++ b_view (f_inner r) = src /\
  (exists t, f_buffer r ++ b_cur (f_inner r) = bc_allowed c ++ t) /\
  (f_buffer r <> [] -> (length (bc_allowed c) <= length (f_buffer r) + f_inner_len r)%nat) /\
  (strict = true -> f_consumed r = length (bc_got c)).

Lemma br_call_inv strict src c o c' : br_inv strict src c -> br_polite strict c o -> br_call c o c' -> br_inv strict src c'.
Proof.
  intros (I1 & (t & I2) & I3 & I4) PO CA. destruct CA; cbn [br_polite bc_reader bc_allowed bc_got] in *.
  - (* read *) unfold br_inv. cbn [bc_reader bc_allowed bc_got]. unfold br_read in H. destruct n as [|n].
    { injection H as <- <-. rewrite app_nil_r. split; [exact I1|]. split; [eexists; reflexivity|]. split; [intros _; apply Nat.le_0_l|exact I4]. }
    set (k := S n) in *. set (m := Nat.min (length (f_buffer r)) k) in *.
    destruct (Nat.ltb_spec m k) as [L|L].
    + destruct (buf_read (k - m) (f_inner r)) as ([more|e|w] & s) eqn:E; try discriminate. apply read_inner in E as (E & _).
      specialize (E _ eq_refl). injection H as <- <-. cbn [f_buffer f_inner f_inner_len f_consumed].
      assert (m = length (f_buffer r)) as -> by lia. rewrite firstn_all, skipn_all. cbn [app].
      split; [rewrite <- I1, E, !app_assoc; reflexivity|]. split; [eexists; reflexivity|]. split; [intros _; apply Nat.le_0_l|].
      intros S1. rewrite !app_length, (I4 S1). lia.
    + injection H as <- <-. cbn [f_buffer f_inner f_inner_len f_consumed]. split.
      * rewrite <- I1, <- app_assoc. f_equal. rewrite (app_assoc (firstn m _)), firstn_skipn. reflexivity.
      * split; [eexists; reflexivity|]. split; [intros _; apply Nat.le_0_l|]. intros S1. rewrite !app_length, (I4 S1). lia.
  - destruct PO as [PO|(b & rr & PO)]; [|congruence]. unfold br_inv. cbn [bc_reader bc_allowed bc_got].
    unfold br_read in H. destruct n as [|n]; [discriminate|]. rewrite PO in H. cbn [length Nat.min firstn skipn Nat.ltb Nat.leb] in H.
    destruct (buf_read (S n - 0) (f_inner r)) as ([more|e1|w] & s) eqn:E; try discriminate. apply read_inner in E as (_ & E).
    specialize (E _ eq_refl). injection H as <- <-. cbn [f_buffer f_inner f_inner_len f_consumed]. rewrite PO in *.
    split; [rewrite E; exact I1|]. split; [eexists; reflexivity|]. split; [congruence|exact I4].
  - (* fill *) unfold br_inv. cbn [bc_reader bc_allowed bc_got]. unfold br_fill_buf in H.
    destruct (fill_buf (f_inner r)) as ([i|e|w] & s) eqn:E; try discriminate. apply fill_inner in E as (E1 & _ & E2 & _).
    specialize (E2 _ eq_refl). subst i. destruct (f_buffer r) as [|x buf] eqn:B; injection H as <- <-;
      cbn [f_buffer f_inner f_inner_len f_consumed].
    + split; [rewrite E1; exact I1|]. split; [exists []; rewrite app_nil_r; reflexivity|]. split; [congruence|exact I4].
    + split; [rewrite E1; exact I1|]. split; [exists []; rewrite app_nil_r; reflexivity|]. split; [cbn [length app]; rewrite ?app_length; lia|exact I4].
  - unfold br_inv. cbn [bc_reader bc_allowed bc_got]. unfold br_fill_buf in H.
    destruct (fill_buf (f_inner r)) as ([i|e1|w] & s) eqn:E; [destruct (f_buffer r); discriminate| |discriminate].
    apply fill_inner in E as (E1 & _ & _ & _). injection H as <- <-. cbn [f_buffer f_inner f_inner_len f_consumed].
    split; [rewrite E1; exact I1|]. split; [eexists; reflexivity|]. split; [intros _; apply Nat.le_0_l|exact I4].
  - (* consume *) unfold br_inv. cbn [bc_reader bc_allowed bc_got]. unfold br_consume.
    destruct (f_buffer r) as [|x buf] eqn:B.
    + cbn [app] in *. cbn [f_buffer f_inner f_inner_len f_consumed].
      assert (n <= length (b_cur (f_inner r)))%nat as L by (rewrite I2, app_length; lia).
      assert (firstn n a = firstn n (b_cur (f_inner r))) as FA.
      { rewrite I2, firstn_app. replace (n - length a)%nat with 0%nat by lia. now rewrite firstn_O, app_nil_r. }
      split; [|split; [|split]].
      * rewrite <- app_assoc, FA, <- consume_inner by exact L. exact I1.
      * exists t. cbn [consume b_cur app]. rewrite I2, skipn_app. replace (n - length a)%nat with 0%nat by lia. reflexivity.
      * congruence.
      * intros S1. rewrite app_length, firstn_length, (I4 S1). lia.
    + set (buffer := x :: buf) in *. assert (buffer <> []) as NE by discriminate. specialize (I3 NE).
      destruct (Nat.leb_spec n (length buffer)) as [L|L].
      * cbn [f_buffer f_inner f_inner_len f_consumed].
        assert (firstn n a = firstn n buffer) as FA.
        { transitivity (firstn n (a ++ t)); [|rewrite <- I2].
          - rewrite firstn_app. replace (n - length a)%nat with 0%nat by lia. now rewrite firstn_O, app_nil_r.
          - rewrite firstn_app. replace (n - length buffer)%nat with 0%nat by lia. now rewrite firstn_O, app_nil_r. }
        split; [|split; [|split]].
        -- rewrite <- app_assoc, FA, (app_assoc (firstn n buffer)), firstn_skipn. exact I1.
        -- exists t. assert (skipn n (buffer ++ b_cur (f_inner r)) = skipn n (a ++ t)) as S by (rewrite I2; reflexivity).
           rewrite !skipn_app in S. replace (n - length buffer)%nat with 0%nat in S by lia.
           replace (n - length a)%nat with 0%nat in S by lia. exact S.
        -- intros _. rewrite !skipn_length. lia.
        -- intros S1. rewrite app_length, firstn_length, (I4 S1). lia.
      * assert (strict <> true) as NS.
        { intros S1. destruct (PO S1) as [PO'|PO']; [congruence|]. lia. }
        destruct (Nat.leb_spec (n - length buffer) (f_inner_len r)) as [M|M]; [|lia].
        cbn [f_buffer f_inner f_inner_len f_consumed].
        assert (length buffer + length (b_cur (f_inner r)) = length a + length t)%nat as LL by (rewrite <- !app_length, I2; reflexivity).
        assert (firstn n a = buffer ++ firstn (n - length buffer) (b_cur (f_inner r))) as FA.
        { transitivity (firstn n (a ++ t)); [|rewrite <- I2].
          - rewrite firstn_app. replace (n - length a)%nat with 0%nat by lia. now rewrite firstn_O, app_nil_r.
          - rewrite firstn_app. rewrite firstn_all2 by lia. reflexivity. }
        split; [|split; [|split]].
        -- cbn [app]. rewrite FA, <- !app_assoc, <- consume_inner by lia. exact I1.
        -- exists t. assert (skipn n (buffer ++ b_cur (f_inner r)) = skipn n (a ++ t)) as S by (rewrite I2; reflexivity).
           rewrite !skipn_app in S. rewrite skipn_all2 in S by lia. replace (n - length a)%nat with 0%nat in S by lia. exact S.
        -- congruence.
        -- intros S1. contradiction.
  - (* refill *) unfold br_inv. cbn [bc_reader bc_allowed bc_got]. unfold br_refill in H.
    destruct (fill_buf (f_inner r)) as ([i|e|w] & s) eqn:E; try discriminate. apply fill_inner in E as (E1 & _ & E2 & _).
    specialize (E2 _ eq_refl). subst i. injection H as <-. cbn [f_buffer f_inner f_inner_len f_consumed].
    rewrite PO in I1. cbn [app] in I1. split.
    + rewrite <- I1, <- E1, (consume_inner (length (b_cur s)) s) by lia. now rewrite firstn_all.
    + split; [eexists; reflexivity|]. split; [intros _; apply Nat.le_0_l|exact I4].
  - unfold br_inv. cbn [bc_reader bc_allowed bc_got]. unfold br_refill in H.
    destruct (fill_buf (f_inner r)) as ([i|e1|w] & s) eqn:E; try discriminate. apply fill_inner in E as (E1 & _ & _ & _).
    injection H as <- <-. cbn [f_buffer f_inner f_inner_len f_consumed].
    split; [rewrite E1; exact I1|]. split; [eexists; reflexivity|]. split; [intros _; apply Nat.le_0_l|exact I4].
  - (* len *) unfold br_inv. cbn [bc_reader bc_allowed bc_got]. unfold br_len in H.
    destruct (fill_buf (f_inner r)) as (i & s) eqn:E. apply fill_inner in E as (E1 & (u & E2) & _ & _).
    injection H as _ <-. cbn [f_buffer f_inner f_inner_len f_consumed].
    split; [rewrite E1; exact I1|]. split; [|split; [exact I3|exact I4]].
    exists (t ++ u). rewrite E2, !app_assoc. f_equal. exact I2.
  - unfold br_inv. cbn [bc_reader bc_allowed bc_got]. unfold br_len in H.
    destruct (fill_buf (f_inner r)) as (i & s) eqn:E. apply fill_inner in E as (E1 & _ & _ & _).
    injection H as _ <-. cbn [f_buffer f_inner f_inner_len f_consumed].
    split; [rewrite E1; exact I1|]. split; [eexists; reflexivity|]. split; [intros _; apply Nat.le_0_l|exact I4].
  - unfold br_inv. cbn [bc_reader bc_allowed bc_got]. unfold br_buffer_len in H.
    destruct (fill_buf (f_inner r)) as (i & s) eqn:E. apply fill_inner in E as (E1 & (u & E2) & _ & _).
    injection H as _ <-. cbn [f_buffer f_inner f_inner_len f_consumed].
    split; [rewrite E1; exact I1|]. split; [|split; [exact I3|exact I4]].
    exists (t ++ u). rewrite E2, !app_assoc. f_equal. exact I2.
  - unfold br_inv. cbn [bc_reader bc_allowed bc_got]. unfold br_buffer_len in H.
    destruct (fill_buf (f_inner r)) as (i & s) eqn:E. apply fill_inner in E as (E1 & _ & _ & _).
    injection H as _ <-. cbn [f_buffer f_inner f_inner_len f_consumed].
    split; [rewrite E1; exact I1|]. split; [eexists; reflexivity|]. split; [intros _; apply Nat.le_0_l|exact I4].
Qed.

Lemma br_calls_inv strict src os : forall c c', br_inv strict src c -> br_calls (br_polite strict) c os c' -> br_inv strict src c'.
Proof.
  induction os as [|o os IH]; intros c c' I C; inversion C; subst; [exact I|].
  eapply IH; [|eassumption]. eapply br_call_inv; eassumption.
Qed.

Lemma br_start_inv strict evs : br_inv strict (b_view (mk_bufsrc [] evs)) (br_start evs).
Proof. unfold br_inv, br_start, br_new; cbn. split; [reflexivity|]. split; [now exists []|]. split; [congruence|reflexivity]. Qed.

(** Any calls, one by one. *)
Definition br_inv2 (c : br_client) : Prop :=
  let r := bc_reader c in
  (exists t, f_buffer r ++ b_cur (f_inner r) = bc_allowed c ++ t) /\
  (f_buffer r <> [] -> (length (bc_allowed c) <= length (f_buffer r) + f_inner_len r)%nat).

Lemma br_call_any c o c' : br_inv2 c -> br_call c o c' ->
  br_inv2 c' /\ exists del, bc_got c' = bc_got c ++ del /\
    f_buffer (bc_reader c) ++ b_view (f_inner (bc_reader c))
      = del ++ br_lost c o ++ f_buffer (bc_reader c') ++ b_view (f_inner (bc_reader c')) /\
    (f_consumed (bc_reader c') + br_uncounted c o = f_consumed (bc_reader c) + length del)%nat.
Proof.
  intros ((t & I2) & I3) CA. unfold br_inv2.
  destruct CA; unfold br_lost, br_uncounted; cbn [bc_reader bc_allowed bc_got] in *; try (rewrite H; cbn [fst]).
  - (* read *) unfold br_read in H. destruct n as [|n].
    { injection H as <- <-. split; [split; [eexists; reflexivity|intros _; apply Nat.le_0_l]|]. exists []. cbn [length app]. rewrite app_nil_r. repeat split; lia. }
    set (k := S n) in *. set (m := Nat.min (length (f_buffer r)) k) in *.
    split; [split; [eexists; reflexivity|intros _; apply Nat.le_0_l]|]. exists b. split; [reflexivity|]. cbn [app].
    destruct (Nat.ltb_spec m k) as [L|L].
    + destruct (buf_read (k - m) (f_inner r)) as ([more|e|w] & s) eqn:E; try discriminate. apply read_inner in E as (E & _).
      specialize (E _ eq_refl). injection H as <- <-. cbn [f_buffer f_inner f_inner_len f_consumed].
      assert (m = length (f_buffer r)) as -> by lia. rewrite firstn_all, skipn_all. cbn [app].
      split; [rewrite E, !app_assoc; reflexivity|lia].
    + injection H as <- <-. cbn [f_buffer f_inner f_inner_len f_consumed]. split; [|lia].
      rewrite (app_assoc (firstn m _)), firstn_skipn. reflexivity.
  - unfold br_read in H. destruct n as [|n]; [discriminate|]. set (k := S n) in *. set (m := Nat.min (length (f_buffer r)) k) in *.
    split; [split; [eexists; reflexivity|intros _; apply Nat.le_0_l]|]. exists []. rewrite app_nil_r. split; [reflexivity|]. cbn [app length].
    destruct (Nat.ltb_spec m k) as [L|L]; [|discriminate].
    destruct (buf_read (k - m) (f_inner r)) as ([more|e1|w] & s) eqn:E; try discriminate. apply read_inner in E as (_ & E).
    specialize (E _ eq_refl). injection H as <- <-. cbn [f_buffer f_inner f_inner_len f_consumed].
    assert (m = length (f_buffer r)) as -> by lia. rewrite skipn_all. cbn [app]. rewrite E. split; [reflexivity|lia].
  - (* fill *) unfold br_fill_buf in H.
    destruct (fill_buf (f_inner r)) as ([i|e|w] & s) eqn:E; try discriminate. apply fill_inner in E as (E1 & _ & E2 & _).
    specialize (E2 _ eq_refl). subst i. destruct (f_buffer r) as [|x buf] eqn:B; injection H as <- <-;
      cbn [f_buffer f_inner f_inner_len f_consumed].
    + split; [split; [exists []; rewrite app_nil_r; reflexivity|congruence]|]. exists []. rewrite app_nil_r. cbn [app length]. rewrite E1. repeat split; lia.
    + split; [split; [exists []; rewrite app_nil_r; reflexivity|cbn [length app]; rewrite ?app_length; lia]|].
      exists []. rewrite app_nil_r. cbn [app length]. rewrite E1. repeat split; lia.
  - unfold br_fill_buf in H.
    destruct (fill_buf (f_inner r)) as ([i|e1|w] & s) eqn:E; [destruct (f_buffer r); discriminate| |discriminate].
    apply fill_inner in E as (E1 & _ & _ & _). injection H as <- <-. cbn [f_buffer f_inner f_inner_len f_consumed].
    split; [split; [eexists; reflexivity|intros _; apply Nat.le_0_l]|]. exists []. rewrite app_nil_r. cbn [app length]. rewrite E1. repeat split; lia.
  - (* consume *) unfold br_consume. destruct (f_buffer r) as [|x buf] eqn:B.
    + cbn [app] in *. cbn [f_buffer f_inner f_inner_len f_consumed].
      assert (n <= length (b_cur (f_inner r)))%nat as L by (rewrite I2, app_length; lia).
      assert (firstn n a = firstn n (b_cur (f_inner r))) as FA.
      { rewrite I2, firstn_app. replace (n - length a)%nat with 0%nat by lia. now rewrite firstn_O, app_nil_r. }
      split; [split|].
      * exists t. cbn [consume b_cur app]. rewrite I2, skipn_app. replace (n - length a)%nat with 0%nat by lia. reflexivity.
      * congruence.
      * exists (firstn n a). split; [reflexivity|]. split; [cbn [app]; rewrite FA, <- consume_inner by exact L; reflexivity|].
        rewrite firstn_length. cbn [length]. destruct (0 <? n)%nat; lia.
    + set (buffer := x :: buf) in *. assert (buffer <> []) as NE by discriminate. specialize (I3 NE).
      destruct (Nat.leb_spec n (length buffer)) as [L|L].
      * cbn [f_buffer f_inner f_inner_len f_consumed].
        assert (firstn n a = firstn n buffer) as FA.
        { transitivity (firstn n (a ++ t)); [|rewrite <- I2].
          - rewrite firstn_app. replace (n - length a)%nat with 0%nat by lia. now rewrite firstn_O, app_nil_r.
          - rewrite firstn_app. replace (n - length buffer)%nat with 0%nat by lia. now rewrite firstn_O, app_nil_r. }
        split; [split|].
        -- exists t. assert (skipn n (buffer ++ b_cur (f_inner r)) = skipn n (a ++ t)) as S by (rewrite I2; reflexivity).
           rewrite !skipn_app in S. replace (n - length buffer)%nat with 0%nat in S by lia.
           replace (n - length a)%nat with 0%nat in S by lia. exact S.
        -- intros _. rewrite !skipn_length. lia.
        -- exists (firstn n a). split; [reflexivity|]. split; [cbn [app]; rewrite FA, (app_assoc (firstn n buffer)), firstn_skipn; reflexivity|].
           rewrite firstn_length. replace (length buffer <? n)%nat with false by (symmetry; now apply Nat.ltb_ge). lia.
      * destruct (Nat.leb_spec (n - length buffer) (f_inner_len r)) as [M|M]; [|lia].
        cbn [f_buffer f_inner f_inner_len f_consumed].
        assert (length buffer + length (b_cur (f_inner r)) = length a + length t)%nat as LL by (rewrite <- !app_length, I2; reflexivity).
        assert (firstn n a = buffer ++ firstn (n - length buffer) (b_cur (f_inner r))) as FA.
        { transitivity (firstn n (a ++ t)); [|rewrite <- I2].
          - rewrite firstn_app. replace (n - length a)%nat with 0%nat by lia. now rewrite firstn_O, app_nil_r.
          - rewrite firstn_app. rewrite firstn_all2 by lia. reflexivity. }
        split; [split|].
        -- exists t. assert (skipn n (buffer ++ b_cur (f_inner r)) = skipn n (a ++ t)) as S by (rewrite I2; reflexivity).
           rewrite !skipn_app in S. rewrite skipn_all2 in S by lia. replace (n - length a)%nat with 0%nat in S by lia. exact S.
        -- congruence.
        -- exists (firstn n a). split; [reflexivity|]. split; [cbn [app]; rewrite FA, <- !app_assoc, <- consume_inner by lia; reflexivity|].
           rewrite firstn_length. replace (length buffer <? n)%nat with true by (symmetry; now apply Nat.ltb_lt). lia.
  - (* refill *) unfold br_refill in H.
    destruct (fill_buf (f_inner r)) as ([i|e|w] & s) eqn:E; try discriminate. apply fill_inner in E as (E1 & _ & E2 & _).
    specialize (E2 _ eq_refl). subst i. injection H as <-. cbn [f_buffer f_inner f_inner_len f_consumed].
    split; [split; [eexists; reflexivity|intros _; apply Nat.le_0_l]|]. exists []. rewrite app_nil_r. cbn [app length].
    split; [reflexivity|]. split; [|lia]. f_equal. rewrite <- E1, (consume_inner (length (b_cur s)) s) by lia. now rewrite firstn_all.
  - unfold br_refill in H.
    destruct (fill_buf (f_inner r)) as ([i|e1|w] & s) eqn:E; try discriminate. apply fill_inner in E as (E1 & _ & _ & _).
    injection H as <- <-. cbn [f_buffer f_inner f_inner_len f_consumed].
    split; [split; [eexists; reflexivity|intros _; apply Nat.le_0_l]|]. exists []. rewrite app_nil_r. cbn [app length]. rewrite E1. repeat split; lia.
  - (* len *) unfold br_len in H.
    destruct (fill_buf (f_inner r)) as (i & s) eqn:E. apply fill_inner in E as (E1 & (u & E2) & _ & _).
    injection H as _ <-. cbn [f_buffer f_inner f_inner_len f_consumed].
    split; [split; [exists (t ++ u); rewrite E2, !app_assoc; f_equal; exact I2|exact I3]|]. exists []. rewrite app_nil_r. cbn [app length]. rewrite E1. repeat split; lia.
  - unfold br_len in H.
    destruct (fill_buf (f_inner r)) as (i & s) eqn:E. apply fill_inner in E as (E1 & _ & _ & _).
    injection H as _ <-. cbn [f_buffer f_inner f_inner_len f_consumed].
    split; [split; [eexists; reflexivity|intros _; apply Nat.le_0_l]|]. exists []. rewrite app_nil_r. cbn [app length]. rewrite E1. repeat split; lia.
  - unfold br_buffer_len in H.
    destruct (fill_buf (f_inner r)) as (i & s) eqn:E. apply fill_inner in E as (E1 & (u & E2) & _ & _).
    injection H as _ <-. cbn [f_buffer f_inner f_inner_len f_consumed].
    split; [split; [exists (t ++ u); rewrite E2, !app_assoc; f_equal; exact I2|exact I3]|]. exists []. rewrite app_nil_r. cbn [app length]. rewrite E1. repeat split; lia.
  - unfold br_buffer_len in H.
    destruct (fill_buf (f_inner r)) as (i & s) eqn:E. apply fill_inner in E as (E1 & _ & _ & _).
    injection H as _ <-. cbn [f_buffer f_inner f_inner_len f_consumed].
    split; [split; [eexists; reflexivity|intros _; apply Nat.le_0_l]|]. exists []. rewrite app_nil_r. cbn [app length]. rewrite E1. repeat split; lia.
Qed.

Lemma br_calls_any os : forall c c', br_inv2 c -> br_calls br_any c os c' -> br_inv2 c'.
Proof.
  induction os as [|o os IH]; intros c c' I C; inversion C; subst; [exact I|].
  eapply IH; [|eassumption]. eapply br_call_any; eassumption.
Qed.

Lemma br_start_any evs : br_inv2 (br_start evs).
Proof. unfold br_inv2, br_start, br_new; cbn. split; [now exists []|congruence]. Qed.

(** ** [len], [is_empty], [buffer_len] *)
Lemma fill_twice s b s' : Forall (fun e => e <> Chunk []) (b_evs s) -> fill_buf s = (Ok b, s') ->
  fill_buf s' = (Ok b, s') /\ (exists t, b_view s = b ++ t) /\ (b = [] -> b_view s = []).
Proof.
  destruct s as [[|c cur] evs]; unfold fill_buf, b_view; cbn [b_cur b_evs]; intros F E.
  - destruct evs as [|[bs|k] r]; [| |discriminate E]; injection E as <- <-; cbn [b_cur b_evs map ev_bytes concat app].
    + split; [reflexivity|]. split; [now exists []|reflexivity].
    + apply Forall_inv in F. destruct bs as [|x bs]; [now destruct F|]. split; [reflexivity|]. split; [eexists; reflexivity|discriminate].
  - injection E as <- <-. cbn [b_cur b_evs]. split; [reflexivity|]. split; [eexists; reflexivity|discriminate].
Qed.
Lemma br_fill_full r b s' : Forall (fun e => e <> Chunk []) (b_evs (f_inner r)) -> fill_buf (f_inner r) = (Ok b, s') ->
  (exists r2, br_fill_buf (mk_bufrd s' (f_buffer r) (f_inner_len r) (f_consumed r)) = (Ok (f_buffer r ++ b), r2)) /\
  (exists t, f_buffer r ++ b_view (f_inner r) = (f_buffer r ++ b) ++ t) /\ (f_buffer r ++ b = [] <-> f_buffer r ++ b_view (f_inner r) = []).
Proof.
  intros F E. destruct (fill_twice _ _ _ F E) as (E1 & (t & E2) & E3). split; [|split].
  - unfold br_fill_buf. cbn [f_inner f_buffer]. rewrite E1. destruct (f_buffer r); eexists; reflexivity.
  - exists t. now rewrite E2, app_assoc.
  - rewrite E2. split; intros Q; apply app_eq_nil in Q as (Q1 & Q2); rewrite Q1; cbn [app].
    + rewrite <- E2. auto.
    + now apply app_eq_nil in Q2.
Qed.
