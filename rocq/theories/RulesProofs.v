(** * Lemmas about the rule set. *)
From Coq Require Import ZifyBool ZifyNat ZifyN.
From Verif Require Import Base Crc32 Io Block Payload Packet Rules Spec BaseProofs.
Ltac Zify.zify_post_hook ::= Z.div_mod_to_equations.
Open Scope list_scope.

Section Rules.
Context {U : Type}.
Implicit Types (rs : rules U) (r : rule U).

Lemma id_eqb_eq a b : id_eqb a b = true <-> a = b.
Proof. destruct a, b; split; intros; try easy. Qed.
Lemma id_eqb_refl a : id_eqb a a = true.
Proof. now destruct a. Qed.

Definition has (i : rule_id) rs : bool := existsb (fun r => id_eqb (id_of r) i) rs.

Lemma add_rule_eq r rs : add_rule r rs = if has (id_of r) rs then (Err ERuleDuplicate, rs) else (Ok tt, rs ++ [r]).
Proof.
  assert (G : forall f i, (forall x, f x = id_eqb (id_of x) i) -> existsb f rs = has i rs).
  { intros f i H. unfold has. induction rs as [|x l IH]; [easy|]. cbn [existsb]. now rewrite IH, H. }
  destruct r; unfold add_rule; cbn [id_of]; erewrite G; try reflexivity; intros []; reflexivity.
Qed.

Lemma has_in i rs : has i rs = true <-> exists r, In r rs /\ id_of r = i.
Proof.
  unfold has. rewrite existsb_exists. split; intros (r & H & E); exists r; split; auto; now apply id_eqb_eq.
Qed.

Lemma NoDup_snoc {A} (l : list A) x : NoDup l -> ~ In x l -> NoDup (l ++ [x]).
Proof.
  intros H1 H2. induction H1 as [|y l HY ND IH]; cbn [app].
  - constructor; [easy|constructor].
  - constructor.
    + rewrite in_app_iff. intros [Q|[Q|[]]]; [easy|]. subst. apply H2. now left.
    + apply IH. intros Q. apply H2. now right.
Qed.

Lemma add_rule_nodup r rs : NoDup (map id_of rs) -> NoDup (map id_of (snd (add_rule r rs))).
Proof.
  intros H. rewrite add_rule_eq. destruct (has (id_of r) rs) eqn:E; cbn [snd]; [easy|].
  rewrite map_app. cbn [map]. apply NoDup_snoc; [easy|]. intros Q. apply in_map_iff in Q as (x & E1 & E2).
  assert (has (id_of r) rs = true) by (apply has_in; eauto). congruence.
Qed.

Lemma remove_rule_nodup i rs : NoDup (map id_of rs) -> NoDup (map id_of (remove_rule i rs)).
Proof.
  unfold remove_rule. induction rs as [|r rs IH]; [easy|]. cbn [map filter]. intros H. inversion H; subst.
  destruct (negb _); cbn [map]; [|auto]. constructor; [|auto].
  intros Q. apply H2. apply in_map_iff in Q as (x & E1 & E2). apply filter_In in E2 as [E2 _].
  apply in_map_iff. eauto.
Qed.

Lemma remove_rule_in i rs r : In r (remove_rule i rs) <-> In r rs /\ id_of r <> i.
Proof.
  unfold remove_rule. rewrite filter_In. split; intros [H1 H2]; split; auto.
  - intros E. subst i. now rewrite id_eqb_refl in H2.
  - destruct (id_eqb (id_of r) i) eqn:E; [|easy]. now apply id_eqb_eq in E.
Qed.

(** Verdicts *)
Lemma nodup_kind rs a b : NoDup (map id_of rs) -> In a rs -> In b rs -> id_of a = id_of b -> a = b.
Proof.
  induction rs as [|r rs IH]; [easy|]. cbn [map]. intros H. inversion H; subst. intros [-> | HA] [-> | HB] E; auto.
  - exfalso. apply H2. apply in_map_iff. exists b. now rewrite E.
  - exfalso. apply H2. apply in_map_iff. exists a. now rewrite <- E.
Qed.

Lemma filter_by_blocks_some rs f bs : NoDup (map id_of rs) -> In (RFilterByBlocks f) rs -> filter_by_blocks rs bs = f bs.
Proof.
  intros ND H. induction rs as [|r rs IH]; [easy|]. cbn [filter_by_blocks map] in *. inversion ND; subst.
  destruct H as [-> | H]; [easy|]. destruct r as [t|g|g|g]; auto.
  exfalso. apply H2. apply in_map_iff. exists (RFilterByBlocks f). auto.
Qed.
Lemma filter_by_blocks_none rs bs : (forall f, ~ In (RFilterByBlocks f) rs) -> filter_by_blocks rs bs = true.
Proof.
  induction rs as [|r rs IH]; intros H; [easy|]. cbn [filter_by_blocks].
  assert (G : forall f, ~ In (RFilterByBlocks f) rs) by (intros f Q; apply (H f); now right).
  destruct r as [t|g|g|g]; auto. exfalso. apply (H g). now left.
Qed.
Lemma filter_by_payload_some rs f bs : NoDup (map id_of rs) -> In (RFilterByPayload f) rs -> filter_by_payload rs bs = f bs.
Proof.
  intros ND H. induction rs as [|r rs IH]; [easy|]. cbn [filter_by_payload map] in *. inversion ND; subst.
  destruct H as [-> | H]; [easy|]. destruct r as [t|g|g|g]; auto.
  exfalso. apply H2. apply in_map_iff. exists (RFilterByPayload f). auto.
Qed.
Lemma filter_by_payload_none rs bs : (forall f, ~ In (RFilterByPayload f) rs) -> filter_by_payload rs bs = true.
Proof.
  induction rs as [|r rs IH]; intros H; [easy|]. cbn [filter_by_payload].
  assert (G : forall f, ~ In (RFilterByPayload f) rs) by (intros f Q; apply (H f); now right).
  destruct r as [t|g|g|g]; auto. exfalso. apply (H g). now left.
Qed.
Lemma filter_packet_some rs f p : NoDup (map id_of rs) -> In (RFilter f) rs -> filter_packet rs p = f p.
Proof.
  intros ND H. induction rs as [|r rs IH]; [easy|]. cbn [filter_packet map] in *. inversion ND; subst.
  destruct H as [-> | H]; [easy|]. destruct r as [t|g|g|g]; auto.
  exfalso. apply H2. apply in_map_iff. exists (RFilter f). auto.
Qed.
Lemma filter_packet_none rs p : (forall f, ~ In (RFilter f) rs) -> filter_packet rs p = true.
Proof.
  induction rs as [|r rs IH]; intros H; [easy|]. cbn [filter_packet].
  assert (G : forall f, ~ In (RFilter f) rs) by (intros f Q; apply (H f); now right).
  destruct r as [t|g|g|g]; auto. exfalso. apply (H g). now left.
Qed.
Lemma ignore_none rs buf l : (forall t, ~ In (RIgnored t) rs) -> ignore rs buf l = l.
Proof.
  revert l. induction rs as [|r rs IH]; intros l H; [easy|]. cbn [ignore].
  assert (G : forall t, ~ In (RIgnored t) rs) by (intros f Q; apply (H f); now right).
  destruct r as [t|g|g|g]; auto. exfalso. apply (H t). now left.
Qed.
Lemma ignore_some rs t buf l : NoDup (map id_of rs) -> In (RIgnored t) rs -> ignore rs buf l = l ++ [(t, buf)].
Proof.
  intros ND H. induction rs as [|r rs IH]; [easy|]. cbn [ignore map] in *. inversion ND; subst.
  destruct H as [-> | H].
  - rewrite ignore_none; [easy|]. intros t' Q. apply H2. apply in_map_iff. exists (RIgnored t'). auto.
  - destruct r as [t'|g|g|g]; auto. exfalso. apply H2. apply in_map_iff. exists (RIgnored t). auto.
Qed.
End Rules.
