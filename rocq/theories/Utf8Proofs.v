(** * Lemmas about texts: which bytes are UTF-8 and what [from_utf8_lossy] makes of the others. *)
From Coq Require Import ZifyBool ZifyNat ZifyN.
From Verif Require Import Base Crc32 Io Block Payload Packet Spec BaseProofs CrcProofs BlockProofs PayloadProofs PayloadEnumProofs.
Ltac Zify.zify_post_hook ::= Z.div_mod_to_equations.
Open Scope list_scope.

(** ** Decoding *)
Lemma byte_of b n : b2n b = n -> n2b n = b.
Proof. intros <-. apply n2b_b2n. Qed.

Lemma width_cases b :
  (utf8_width b = 1%nat /\ b2n b < 128) \/ (utf8_width b = 2%nat /\ 194 <= b2n b <= 223) \/
  (utf8_width b = 3%nat /\ 224 <= b2n b <= 239) \/ (utf8_width b = 4%nat /\ 240 <= b2n b <= 244) \/
  (utf8_width b = 0%nat /\ (128 <= b2n b <= 193 \/ 245 <= b2n b)).
Proof.
  pose proof (b2n_bound b) as B. unfold utf8_width, in_range.
  destruct ((0 <=? b2n b) && (b2n b <=? 127)) eqn:E1; [lia|]. destruct ((194 <=? b2n b) && (b2n b <=? 223)) eqn:E2; [lia|].
  destruct ((224 <=? b2n b) && (b2n b <=? 239)) eqn:E3; [lia|]. destruct ((240 <=? b2n b) && (b2n b <=? 244)) eqn:E4; lia.
Qed.
Lemma cont_some o : cont o = true -> exists b, o = Some b /\ 128 <= b2n b <= 191.
Proof. destruct o as [b|]; cbn [cont]; [|discriminate]. unfold in_range. intros E. exists b. split; [reflexivity|lia]. Qed.
Lemma second_some b o : second_ok b o = true -> exists c, o = Some c /\ 128 <= b2n c <= 191 /\
  (b2n b = 224 -> 160 <= b2n c) /\ (b2n b = 237 -> b2n c <= 159) /\ (b2n b = 240 -> 144 <= b2n c) /\ (b2n b = 244 -> b2n c <= 143).
Proof.
  destruct o as [c|]; cbn [second_ok]; [|discriminate]. unfold in_range. intros E. exists c. split; [reflexivity|].
  destruct (b2n b =? 224) eqn:E1; [lia|]. destruct (b2n b =? 237) eqn:E2; [lia|]. destruct (b2n b =? 240) eqn:E3; [lia|]. destruct (b2n b =? 244) eqn:E4; lia.
Qed.

Lemma decode1 b : utf8_width b = 1%nat -> exists v, scalar v /\ utf8_of v = [b].
Proof.
  intros W. destruct (width_cases b) as [(_ & H)|[(E & _)|[(E & _)|[(E & _)|(E & _)]]]]; try congruence. exists (b2n b).
  split; [left; lia|]. unfold utf8_of. replace (b2n b <? 128) with true by lia. now rewrite n2b_b2n.
Qed.
Lemma decode2 b c : utf8_width b = 2%nat -> 128 <= b2n c <= 191 -> exists v, scalar v /\ utf8_of v = [b; c].
Proof.
  intros W C. destruct (width_cases b) as [(E & _)|[(_ & H)|[(E & _)|[(E & _)|(E & _)]]]]; try congruence.
  exists ((b2n b - 192) * 64 + (b2n c - 128)). set (v := (b2n b - 192) * 64 + (b2n c - 128)).
  assert (V : v = (b2n b - 192) * 64 + (b2n c - 128)) by reflexivity. clearbody v.
  split; [left; lia|]. unfold utf8_of. replace (v <? 128) with false by lia. replace (v <? 2048) with true by lia.
  rewrite (byte_of b (192 + v / 64)), (byte_of c (128 + v mod 64)) by lia. reflexivity.
Qed.
Lemma decode3 b c d : utf8_width b = 3%nat -> second_ok b (Some c) = true -> 128 <= b2n d <= 191 -> exists v, scalar v /\ utf8_of v = [b; c; d].
Proof.
  intros W S D. destruct (width_cases b) as [(E & _)|[(E & _)|[(_ & H)|[(E & _)|(E & _)]]]]; try congruence.
  destruct (second_some _ _ S) as (c' & Q & C & C1 & C2 & C3 & C4). injection Q as <-.
  set (v := (b2n b - 224) * 4096 + (b2n c - 128) * 64 + (b2n d - 128)).
  assert (V : v = (b2n b - 224) * 4096 + (b2n c - 128) * 64 + (b2n d - 128)) by reflexivity. exists v. clearbody v. clear S.
  split; [unfold scalar; lia|]. unfold utf8_of. replace (v <? 128) with false by lia. replace (v <? 2048) with false by lia. replace (v <? 65536) with true by lia.
  rewrite (byte_of b (224 + v / 4096)), (byte_of c (128 + (v / 64) mod 64)), (byte_of d (128 + v mod 64)) by lia. reflexivity.
Qed.
Lemma decode4 b c d e : utf8_width b = 4%nat -> second_ok b (Some c) = true -> 128 <= b2n d <= 191 -> 128 <= b2n e <= 191 ->
  exists v, scalar v /\ utf8_of v = [b; c; d; e].
Proof.
  intros W S D F. destruct (width_cases b) as [(E & _)|[(E & _)|[(E & _)|[(_ & H)|(E & _)]]]]; try congruence.
  destruct (second_some _ _ S) as (c' & Q & C & C1 & C2 & C3 & C4). injection Q as <-.
  set (v := (b2n b - 240) * 262144 + (b2n c - 128) * 4096 + (b2n d - 128) * 64 + (b2n e - 128)).
  assert (V : v = (b2n b - 240) * 262144 + (b2n c - 128) * 4096 + (b2n d - 128) * 64 + (b2n e - 128)) by reflexivity. exists v. clearbody v. clear S.
  split; [unfold scalar; lia|]. unfold utf8_of. replace (v <? 128) with false by lia. replace (v <? 2048) with false by lia. replace (v <? 65536) with false by lia.
  rewrite (byte_of b (240 + v / 262144)), (byte_of c (128 + (v / 4096) mod 64)), (byte_of d (128 + (v / 64) mod 64)), (byte_of e (128 + v mod 64)) by lia. reflexivity.
Qed.

(** ** The beginnings of encodings *)
Definition part (m : bytes) : bool :=
  match m with
  | [] => true
  | [b] => negb (utf8_width b =? 0)%nat
  | [b; c] => match utf8_width b with 2%nat => cont (Some c) | 3%nat | 4%nat => second_ok b (Some c) | _ => false end
  | [b; c; d] => match utf8_width b with 3%nat | 4%nat => second_ok b (Some c) && cont (Some d) | _ => false end
  | [b; c; d; e] => match utf8_width b with 4%nat => second_ok b (Some c) && cont (Some d) && cont (Some e) | _ => false end
  | _ => false
  end.

(** A second byte for a first one. *)
Definition second (b : byte) : byte := if b2n b =? 224 then n2b 160 else if b2n b =? 240 then n2b 144 else n2b 128.
Lemma second_fits b : second_ok b (Some (second b)) = true.
Proof.
  unfold second. destruct (b2n b =? 224) eqn:E1; [cbn [second_ok]; now rewrite E1|]. destruct (b2n b =? 240) eqn:E3.
  - cbn [second_ok]. rewrite E1, E3. replace (b2n b =? 237) with false by lia. reflexivity.
  - cbn [second_ok]. rewrite E1, E3. destruct (b2n b =? 237); [reflexivity|]. destruct (b2n b =? 244); reflexivity.
Qed.
Lemma c128 : 128 <= b2n (n2b 128) <= 191.
Proof. vm_compute. split; discriminate. Qed.

Lemma part_begins m : part m = true -> begins m.
Proof.
  intros E. unfold begins. destruct m as [|b [|c [|d [|e [|f m]]]]]; cbn [part] in E; try discriminate E.
  - exists 65, [n2b 65]. split; [now left|reflexivity].
  - destruct (width_cases b) as [(W & _)|[(W & _)|[(W & _)|[(W & _)|(W & _)]]]].
    + destruct (decode1 b W) as (v & S & Q). exists v, []. auto.
    + destruct (decode2 b _ W c128) as (v & S & Q). exists v. eexists. split; [exact S|]. rewrite Q. reflexivity.
    + destruct (decode3 b _ _ W (second_fits b) c128) as (v & S & Q). exists v. eexists. split; [exact S|]. rewrite Q. reflexivity.
    + destruct (decode4 b _ _ _ W (second_fits b) c128 c128) as (v & S & Q). exists v. eexists. split; [exact S|]. rewrite Q. reflexivity.
    + rewrite W in E. discriminate E.
  - destruct (width_cases b) as [(W & _)|[(W & _)|[(W & _)|[(W & _)|(W & _)]]]]; rewrite W in E; try discriminate E.
    + apply cont_some in E as (x & Q & C). injection Q as <-. destruct (decode2 b c W C) as (v & S & Q). exists v, []. auto.
    + destruct (decode3 b c _ W E c128) as (v & S & Q). exists v. eexists. split; [exact S|]. rewrite Q. reflexivity.
    + destruct (decode4 b c _ _ W E c128 c128) as (v & S & Q). exists v. eexists. split; [exact S|]. rewrite Q. reflexivity.
  - destruct (width_cases b) as [(W & _)|[(W & _)|[(W & _)|[(W & _)|(W & _)]]]]; rewrite W in E; try discriminate E;
      apply andb_prop in E as (E1 & E2); apply cont_some in E2 as (x & Q & C); injection Q as <-.
    + destruct (decode3 b c d W E1 C) as (v & S & Q). exists v, []. auto.
    + destruct (decode4 b c d _ W E1 C c128) as (v & S & Q). exists v. eexists. split; [exact S|]. rewrite Q. reflexivity.
  - destruct (width_cases b) as [(W & _)|[(W & _)|[(W & _)|[(W & _)|(W & _)]]]]; rewrite W in E; try discriminate E.
    apply andb_prop in E as (E1 & E3). apply andb_prop in E1 as (E1 & E2). apply cont_some in E2 as (x & Q & C2). injection Q as <-.
    apply cont_some in E3 as (x & Q & C3). injection Q as <-. destruct (decode4 b c d e W E1 C2 C3) as (v & S & Q). exists v, []. auto.
Qed.

Lemma begins_part m : begins m -> part m = true.
Proof.
  intros (v & x & S & E). destruct (utf8_step_of v [] S) as (b & r & Q & ST). rewrite app_nil_r, E in Q.
  assert (L : length (utf8_of v) = Datatypes.S (length r)) by (rewrite E, Q; reflexivity). rewrite L in ST. clear E L.
  unfold utf8_step in ST. destruct (width_cases b) as [(W & _)|[(W & _)|[(W & _)|[(W & _)|(W & _)]]]]; rewrite W in ST.
  - destruct r; [|discriminate ST]. destruct m as [|b' [|? ?]]; [reflexivity| |discriminate Q]. injection Q as -> ->. cbn [part]. now rewrite W.
  - destruct (cont (nth_error r 0)) eqn:C; [|discriminate ST]. destruct r as [|c [|? ?]]; try discriminate ST.
    destruct m as [|b' m]; [reflexivity|]. injection Q as -> Q. destruct m as [|c' m]; [cbn [part]; now rewrite W|]. injection Q as -> Q.
    destruct m; [|discriminate Q]. cbn [part]. rewrite W. exact C.
  - destruct (second_ok b (nth_error r 0)) eqn:C; [|discriminate ST]. destruct (cont (nth_error r 1)) eqn:C1; [|discriminate ST].
    destruct r as [|c [|d [|? ?]]]; try discriminate ST. cbn [nth_error] in C, C1.
    destruct m as [|b' m]; [reflexivity|]. injection Q as -> Q. destruct m as [|c' m]; [cbn [part]; now rewrite W|]. injection Q as -> Q.
    destruct m as [|d' m]; [cbn [part]; now rewrite W|]. injection Q as -> Q. destruct m; [|discriminate Q]. cbn [part]. now rewrite W, C, C1.
  - destruct (second_ok b (nth_error r 0)) eqn:C; [|discriminate ST]. destruct (cont (nth_error r 1)) eqn:C1; [|discriminate ST].
    destruct (cont (nth_error r 2)) eqn:C2; [|discriminate ST].
    destruct r as [|c [|d [|e [|? ?]]]]; try discriminate ST. cbn [nth_error] in C, C1, C2.
    destruct m as [|b' m]; [reflexivity|]. injection Q as -> Q. destruct m as [|c' m]; [cbn [part]; now rewrite W|]. injection Q as -> Q.
    destruct m as [|d' m]; [cbn [part]; now rewrite W|]. injection Q as -> Q. destruct m as [|e' m]; [cbn [part]; now rewrite W, C, C1|]. injection Q as -> Q.
    destruct m; [|discriminate Q]. cbn [part]. now rewrite W, C, C1, C2.
  - discriminate ST.
Qed.

(** No encoding is the beginning of another. *)
Lemma prefix_free v w x : scalar v -> scalar w -> utf8_of w = utf8_of v ++ x -> x = [].
Proof.
  intros V W E. destruct (utf8_step_of v x V) as (b & r & Q & ST). destruct (utf8_step_of w [] W) as (b' & r' & Q' & ST').
  rewrite app_nil_r, E, Q in Q'. injection Q' as <- <-. rewrite ST in ST'. injection ST' as ST'. rewrite E, app_length in ST'.
  destruct x; [reflexivity|cbn [length] in ST'; lia].
Qed.

(** ** One step *)
Definition bad_part (m bs : bytes) : Prop :=
  m <> [] /\ (begins m \/ length m = 1%nat) /\ (forall v, scalar v -> utf8_of v <> m) /\ (forall b r, bs = b :: r -> ~ begins (m ++ [b])).

Lemma incomplete m n : begins (m ++ [n]) -> forall v, scalar v -> utf8_of v <> m.
Proof. intros (w & x & W & E) v V Q. rewrite <- Q, <- app_assoc in E. apply (prefix_free v w _ V W) in E. discriminate E. Qed.

Lemma not_part_begins m : part m = false -> ~ begins m.
Proof. intros E B. apply begins_part in B. congruence. Qed.

Lemma step_spec b r : match utf8_step b r with
  | (true, n) => exists v, scalar v /\ utf8_of v = firstn n (b :: r) /\ (1 <= n <= length (b :: r))%nat
  | (false, n) => bad_part (firstn n (b :: r)) (skipn n (b :: r)) /\ (1 <= n <= length (b :: r))%nat
  end.
Proof.
  assert (NC : forall m n, part (m ++ [n]) = true -> forall v, scalar v -> utf8_of v <> m) by (intros m n H; exact (incomplete m n (part_begins _ H))).
  unfold utf8_step. destruct (width_cases b) as [(W & _)|[(W & _)|[(W & _)|[(W & _)|(W & B)]]]]; rewrite W.
  - destruct (decode1 b W) as (v & S & Q). exists v. split; [exact S|]. split; [exact Q|cbn [length]; lia].
  - destruct (cont (nth_error r 0)) eqn:C.
    + destruct (cont_some _ C) as (c & Q & H). destruct r as [|c' r]; [discriminate Q|]. injection Q as ->.
      destruct (decode2 b c W H) as (v & S & Q). exists v. split; [exact S|]. split; [exact Q|cbn [length]; lia].
    + split; [|cbn [length]; lia]. cbn [firstn skipn]. split; [discriminate|]. split; [now right|]. split.
      * apply (NC [b] (n2b 128)). cbn [app part]. rewrite W. reflexivity.
      * intros c r' ->. apply not_part_begins. cbn [app part]. rewrite W. exact C.
  - destruct (second_ok b (nth_error r 0)) eqn:C; [destruct (cont (nth_error r 1)) eqn:C1|].
    + destruct (second_some _ _ C) as (c & Q & _). destruct r as [|c' r]; [discriminate Q|]. injection Q as ->. cbn [nth_error] in C, C1.
      destruct (cont_some _ C1) as (d & Q & H). destruct r as [|d' r]; [discriminate Q|]. injection Q as ->.
      destruct (decode3 b c d W C H) as (v & S & Q). exists v. split; [exact S|]. split; [exact Q|cbn [length]; lia].
    + destruct (second_some _ _ C) as (c & Q & _). destruct r as [|c' r]; [discriminate Q|]. injection Q as ->. cbn [nth_error] in C, C1.
      split; [|cbn [length]; lia]. cbn [firstn skipn]. split; [discriminate|]. split; [left; apply part_begins; cbn [part]; now rewrite W|]. split.
      * apply (NC [b; c] (n2b 128)). cbn [app part]. rewrite W, C. reflexivity.
      * intros d r' ->. apply not_part_begins. cbn [app part]. rewrite W, C. exact C1.
    + split; [|cbn [length]; lia]. cbn [firstn skipn]. split; [discriminate|]. split; [now right|]. split.
      * apply (NC [b] (second b)). cbn [app part]. rewrite W. apply second_fits.
      * intros d r' ->. apply not_part_begins. cbn [app part]. rewrite W. exact C.
  - destruct (second_ok b (nth_error r 0)) eqn:C; [destruct (cont (nth_error r 1)) eqn:C1; [destruct (cont (nth_error r 2)) eqn:C2|]|].
    + destruct (second_some _ _ C) as (c & Q & _). destruct r as [|c' r]; [discriminate Q|]. injection Q as ->. cbn [nth_error] in C, C1, C2.
      destruct (cont_some _ C1) as (d & Q & H). destruct r as [|d' r]; [discriminate Q|]. injection Q as ->. cbn [nth_error] in C2.
      destruct (cont_some _ C2) as (e & Q & H2). destruct r as [|e' r]; [discriminate Q|]. injection Q as ->.
      destruct (decode4 b c d e W C H H2) as (v & S & Q). exists v. split; [exact S|]. split; [exact Q|cbn [length]; lia].
    + destruct (second_some _ _ C) as (c & Q & _). destruct r as [|c' r]; [discriminate Q|]. injection Q as ->. cbn [nth_error] in C, C1, C2.
      destruct (cont_some _ C1) as (d & Q & H). destruct r as [|d' r]; [discriminate Q|]. injection Q as ->. cbn [nth_error] in C2.
      split; [|cbn [length]; lia]. cbn [firstn skipn]. split; [discriminate|]. split; [left; apply part_begins; cbn [part]; now rewrite W, C, C1|]. split.
      * apply (NC [b; c; d] (n2b 128)). cbn [app part]. rewrite W, C, C1. reflexivity.
      * intros e r' ->. apply not_part_begins. cbn [app part]. rewrite W, C, C1. exact C2.
    + destruct (second_some _ _ C) as (c & Q & _). destruct r as [|c' r]; [discriminate Q|]. injection Q as ->. cbn [nth_error] in C, C1.
      split; [|cbn [length]; lia]. cbn [firstn skipn]. split; [discriminate|]. split; [left; apply part_begins; cbn [part]; now rewrite W|]. split.
      * apply (NC [b; c] (n2b 128)). cbn [app part]. rewrite W, C. reflexivity.
      * intros d r' ->. apply not_part_begins. cbn [app part]. rewrite W, C. exact C1.
    + split; [|cbn [length]; lia]. cbn [firstn skipn]. split; [discriminate|]. split; [now right|]. split.
      * apply (NC [b] (second b)). cbn [app part]. rewrite W. apply second_fits.
      * intros d r' ->. apply not_part_begins. cbn [app part]. rewrite W. exact C.
  - split; [|cbn [length]; lia]. cbn [firstn skipn]. split; [discriminate|]. split; [now right|]. split.
    + intros v V Q. destruct (utf8_step_of v [] V) as (b' & r' & E & ST). rewrite Q in E. injection E as <- <-.
      unfold utf8_step in ST. rewrite W in ST. discriminate ST.
    + intros d r' ->. apply not_part_begins. cbn [app part]. now rewrite W.
Qed.

(** ** The whole text *)
Lemma lossy_go_repaired fuel : forall bs, (length bs <= fuel)%nat -> repaired bs (lossy_go fuel bs).
Proof.
  induction fuel as [|fuel IH]; intros bs L; [destruct bs; [constructor|cbn [length] in L; lia]|].
  destruct bs as [|b r]; [constructor|]. cbn [lossy_go]. pose proof (step_spec b r) as ST. destruct (utf8_step b r) as [[|] n].
  - destruct ST as (v & V & Q & N). rewrite <- Q. rewrite <- (firstn_skipn n (b :: r)) at 1. rewrite <- Q. apply rep_char; [exact V|].
    apply IH. rewrite skipn_length. lia.
  - destruct ST as ((B1 & B2 & B3 & B4) & N). rewrite <- (firstn_skipn n (b :: r)) at 1. apply rep_bad; auto. apply IH. rewrite skipn_length. lia.
Qed.
Lemma lossy_repaired bs : repaired bs (lossy bs).
Proof. unfold lossy. now apply lossy_go_repaired. Qed.

Lemma repaired_utf8 bs out : repaired bs out -> utf8 out.
Proof.
  induction 1 as [|v bs out V _ (cs & F & ->)|m bs out _ _ _ _ _ (cs & F & ->)].
  - exists []. split; [constructor|reflexivity].
  - exists (v :: cs). split; [now constructor|reflexivity].
  - exists (65533 :: cs). split; [constructor; [right; lia|exact F]|reflexivity].
Qed.

Lemma app_compare {A} (a b c d : list A) : a ++ b = c ++ d ->
  (exists x r, c = a ++ x :: r /\ b = x :: r ++ d) \/ a = c /\ b = d \/ (exists x r, a = c ++ x :: r /\ d = x :: r ++ b).
Proof.
  revert c. induction a as [|x a IH]; intros [|y c] E; cbn [app] in *.
  - auto.
  - left. exists y, c. auto.
  - right. right. exists x, a. auto.
  - injection E as -> E. destruct (IH c E) as [(z & r & -> & ->)|[(-> & ->)|(z & r & -> & ->)]]; [left; exists z, r; auto|auto|right; right; exists z, r; auto].
Qed.

Lemma bad_part_step m bs b r : bad_part m bs -> m ++ bs = b :: r -> utf8_step b r = (false, length m).
Proof.
  intros (B1 & B2 & B3 & B4) E. pose proof (step_spec b r) as ST. rewrite <- E in ST. destruct (utf8_step b r) as [[|] n].
  - exfalso. destruct ST as (v & V & Q & N). pose proof (firstn_skipn n (m ++ bs)) as X. rewrite <- Q in X.
    destruct (app_compare _ _ _ _ X) as [(x & t & Y & _)|[(Y & _)|(x & t & Y & Z)]].
    + destruct B2 as [(w & z & W & F)|B2].
      * rewrite Y, <- app_assoc in F. apply (prefix_free v w _ V W) in F. discriminate F.
      * pose proof (utf8_of_length v). rewrite Y, app_length in B2. cbn [length] in B2. lia.
    + exact (B3 v V Y).
    + apply (B4 x _ Z). exists v, t. rewrite <- app_assoc. auto.
  - destruct ST as ((C1 & C2 & C3 & C4) & N). f_equal. pose proof (firstn_skipn n (m ++ bs)) as X.
    assert (LN : length (firstn n (m ++ bs)) = n) by (rewrite firstn_length, E; cbn [length]; rewrite E in N; cbn [length] in N; lia).
    set (m' := firstn n (m ++ bs)) in *. set (bs' := skipn n (m ++ bs)) in *. clearbody m' bs'.
    destruct (app_compare _ _ _ _ X) as [(x & t & Y & Z)|[(Y & _)|(x & t & Y & Z)]].
    + exfalso. apply (C4 x _ Z). destruct B2 as [(w & z & W & F)|B2].
      * exists w, (t ++ z). split; [exact W|]. rewrite F, Y, <- !app_assoc. reflexivity.
      * rewrite Y, app_length, LN in B2. cbn [length] in B2. lia.
    + rewrite <- LN, Y. reflexivity.
    + exfalso. apply (B4 x _ Z). destruct C2 as [(w & z & W & F)|C2].
      * exists w, (t ++ z). split; [exact W|]. rewrite F, Y, <- !app_assoc. reflexivity.
      * rewrite Y, app_length in C2. cbn [length] in C2. destruct m; [now elim B1|cbn [length] in C2; lia].
Qed.

Lemma repaired_lossy_go bs out : repaired bs out -> forall fuel, (length bs <= fuel)%nat -> lossy_go fuel bs = out.
Proof.
  induction 1 as [|v bs out V _ IH|m bs out B1 B2 B3 B4 _ IH]; intros fuel L.
  - now destruct fuel.
  - rewrite app_length in L. pose proof (utf8_of_length v). destruct (utf8_step_of v bs V) as (b & r & E & ST).
    destruct fuel as [|fuel]; [lia|]. rewrite E. cbn [lossy_go]. rewrite ST, <- E, firstn_app_exact, skipn_app_exact by reflexivity. rewrite IH by lia. reflexivity.
  - rewrite app_length in L. destruct (m ++ bs) as [|b r] eqn:E; [destruct m; [now elim B1|discriminate E]|].
    destruct fuel as [|fuel]; [destruct m; [now elim B1|cbn [length] in L; lia]|]. cbn [lossy_go].
    rewrite (bad_part_step m bs b r (conj B1 (conj B2 (conj B3 B4))) E), <- E, skipn_app_exact by reflexivity.
    rewrite IH by (destruct m; [now elim B1|cbn [length] in L; lia]). reflexivity.
Qed.
Lemma repaired_lossy bs out : repaired bs out -> out = lossy bs.
Proof. intros H. symmetry. now apply repaired_lossy_go. Qed.

Lemma lossy_same bs : lossy bs = bs <-> utf8 bs.
Proof. split; [intros E; rewrite <- E; exact (repaired_utf8 _ _ (lossy_repaired bs))|apply lossy_valid]. Qed.

(** ** Reading *)
Lemma text_read {S} (R : reader S) view okst (L : lawful R view okst) body crc s rest : okst s -> view s = body ++ rest ->
  exists s', pk_read R string_kind (mk_pheader (pk_sig string_kind) crc (blen body)) s =
      (if bytes_eqb crc (crc32_le (lossy body)) then Ok (lossy body) else Err ECrcDismatch, s') /\ view s' = rest /\ okst s'.
Proof.
  intros O W. unfold pk_read. cbn [ph_sig ph_len ph_crc]. rewrite bytes_eqb_refl. cbn [negb].
  destruct (lw_ok R view okst L (blen body) s body rest O W eq_refl) as (s1 & E & W1 & O1). rewrite E.
  cbn [sbind pk_decode string_kind io pk_crc default_crc]. exists s1. destruct (bytes_eqb crc _); auto.
Qed.
