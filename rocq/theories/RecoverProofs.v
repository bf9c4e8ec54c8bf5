(** * Storage files read by the streaming reader: where the packet signature can be. *)
From Coq Require Import ZifyBool ZifyNat ZifyN.
From Verif Require Import Base Crc32 Io File Block Payload Packet Rules Slot Storage StreamReader Spec SpecStorage BaseProofs CrcProofs BlockProofs PacketProofs WireProofs StreamProofs StreamItemProofs SlotProofs StorageProofs StorageReadProofs ReloadProofs ReadingProofs CrashProofs.
Ltac Zify.zify_post_hook ::= Z.div_mod_to_equations.
Open Scope list_scope.
Local Notation C := default_capacity.

Definition mark : bytes := map n2b [236; 37; 94; 136; 236; 37; 94; 136].

Lemma firstn_nth {A} (l : list A) n j : (j < n)%nat -> nth_error (firstn n l) j = nth_error l j.
Proof. revert l j. induction n as [|n IH]; intros l j L; [lia|]. destruct l as [|x l]; [now destruct j|]. destruct j as [|j]; [reflexivity|]. cbn. apply IH. lia. Qed.
Lemma skipn_nth {A} (l : list A) n j : nth_error (skipn n l) j = nth_error l (n + j).
Proof. revert l. induction n as [|n IH]; intros l; [reflexivity|]. destruct l as [|x l]; [now destruct j|]. cbn. apply IH. Qed.

(** One byte that differs is enough. *)
Lemma mismatch d i j x y : nth_error mark j = Some y -> nth_error d (i + j) = Some x -> x <> y -> firstn 8 (skipn i d) <> mark.
Proof.
  intros M N D E. assert (j < 8)%nat as L by (change 8%nat with (length mark); apply nth_error_Some; congruence).
  apply (f_equal (fun z => nth_error z j)) in E. rewrite firstn_nth, skipn_nth, M in E by exact L. congruence.
Qed.

(** Numbers below 2^32 in eight bytes: the last four are zero. *)
Lemma entry_zero ns : Forall (fun n => n < two32) ns -> forall k m, (k < length ns)%nat -> (4 <= m < 8)%nat ->
  nth_error (concat (map (le 8) ns)) (8 * k + m) = Some (n2b 0).
Proof.
  induction 1 as [|n ns H F IH]; intros k m LK LM; [cbn [length] in LK; lia|]. cbn [map concat]. destruct k as [|k].
  - rewrite nth_error_app1 by (rewrite le_length; lia). rewrite le8_small by exact H.
    rewrite nth_error_app2 by (rewrite le_length; lia). rewrite le_length. rewrite nth_error_repeat by lia. reflexivity.
  - rewrite nth_error_app2 by (rewrite le_length; lia). rewrite le_length. replace (8 * S k + m - 8)%nat with (8 * k + m)%nat by lia.
    apply IH; cbn [length] in LK; lia.
Qed.
Lemma entries_len ns : length (concat (map (le 8) ns)) = (8 * length ns)%nat.
Proof. induction ns as [|n ns IH]; [reflexivity|]. cbn [map concat length]. rewrite app_length, le_length, IH. lia. Qed.

(** What a table looks like, complete or partly overwritten. *)
Definition tabular (t : bytes) : Prop := exists ns x, t = slot_sig ++ concat (map (le 8) ns) ++ x /\ Forall (fun n => n < two32) ns /\ length x = 4%nat /\ x <> firstn 4 mark.

Lemma table_tabular lens : (length lens <= C)%nat -> Forall (fun n => n < two32) lens -> skipn 4016 (slot_table lens) <> firstn 4 mark -> tabular (slot_table lens).
Proof.
  intros L F X. rewrite table_crc in X by exact L. exists (N.of_nat C :: lens ++ repeat 0 (C - length lens)%nat), (sl_crc (lsl lens)). split; [|split; [|split; [apply crc32_le_length|exact X]]].
  - rewrite slot_table_eq. unfold slot_content, lsl, tab, with_crc. cbn [sl_capacity sl_lengths sl_crc map concat]. rewrite <- app_assoc. reflexivity.
  - constructor; [reflexivity|]. apply Forall_app. split; [exact F|]. clear. induction (C - length lens)%nat; cbn [repeat]; constructor; [reflexivity|assumption].
Qed.

Lemma tabular_clean t e : tabular t -> firstn 4 e = firstn 4 mark \/ e = [] -> no_signature t e.
Proof.
  intros (ns & x & -> & F & LX & NX) HE i LI. fold mark. rewrite !app_length, entries_len, LX in LI. change (length slot_sig) with 8%nat in LI.
  set (d := (slot_sig ++ concat (map (le 8) ns) ++ x) ++ e).
  destruct (Nat.lt_ge_cases i 8) as [H1|H1]; [|destruct (Nat.lt_ge_cases i (8 + 8 * length ns)) as [H2|H2]].
  - assert (exists y, nth_error slot_sig i = Some y /\ y <> n2b 236) as (y & NY & DY).
    { do 8 (destruct i as [|i]; [eexists; split; [reflexivity|]; vm_compute; discriminate|]). lia. }
    apply (mismatch d i 0 y (n2b 236) eq_refl); [|exact DY]. rewrite Nat.add_0_r. unfold d. rewrite <- app_assoc, nth_error_app1 by exact H1. exact NY.
  - pose proof (Nat.div_mod_eq (i - 8) 8) as DM. pose proof (Nat.mod_upper_bound (i - 8) 8 ltac:(discriminate)) as MU.
    set (q := ((i - 8) / 8)%nat) in *. set (r := ((i - 8) mod 8)%nat) in *. set (j := (if (r <=? 4)%nat then 4 - r else 0)%nat).
    assert (r + j < 8 /\ 4 <= r + j /\ j < 8)%nat as (J1 & J2 & J3) by (unfold j; destruct (Nat.leb_spec r 4); lia).
    destruct (nth_error mark j) as [y|] eqn:NM; [|apply nth_error_None in NM; change (length mark) with 8%nat in NM; lia].
    apply (mismatch d i j (n2b 0) y NM).
    + unfold d. rewrite <- !app_assoc, nth_error_app2 by (change (length slot_sig) with 8%nat; lia). change (length slot_sig) with 8%nat.
      rewrite nth_error_app1 by (rewrite entries_len; lia). replace (i + j - 8)%nat with (8 * q + (r + j))%nat by lia. apply entry_zero; [exact F|lia|lia].
    + intros <-. clear - NM. do 8 (destruct j as [|j]; [vm_compute in NM; discriminate NM|]). destruct j; discriminate NM.
  - assert (skipn i d = skipn (i - (8 + 8 * length ns)) x ++ e) as ->.
    { unfold d. rewrite !app_assoc. rewrite <- (app_assoc _ x e). set (a := slot_sig ++ _). assert (length a = 8 + 8 * length ns)%nat as LA by (unfold a; rewrite app_length, entries_len; reflexivity).
      rewrite skipn_app, skipn_all2 by lia. cbn [app]. rewrite LA, skipn_app. f_equal. rewrite LX. replace (i - (8 + 8 * length ns) - 4)%nat with O by lia. apply skipn_O. }
    assert (i - (8 + 8 * length ns) < 4)%nat as LK by lia. set (k := (i - (8 + 8 * length ns))%nat) in *. clearbody k. clear - LX NX HE LK.
    destruct x as [|x0 [|x1 [|x2 [|x3 [|]]]]]; try discriminate LX. destruct HE as [HE| ->].
    + destruct e as [|e0 [|e1 [|e2 [|e3 e]]]]; try discriminate HE. injection HE as -> -> -> ->.
      do 4 (destruct k as [|k]; [cbn [skipn app firstn]; intros Q; first [injection Q; intros; subst; discriminate | apply NX; injection Q; intros; subst; reflexivity | discriminate Q]|]). lia.
    + intros Q. apply (f_equal (@length byte)) in Q. rewrite firstn_length, app_length, skipn_length in Q. change (length mark) with 8%nat in Q. cbn [length] in Q. lia.
Qed.

Lemma enc_mark {U} (P : proto U) p e : packet_enc P p e -> firstn 4 e = firstn 4 mark.
Proof. intros (tail & _ & _ & _ & ->). reflexivity. Qed.

Lemma enc_mark8 {U} (P : proto U) p e : packet_enc P p e -> firstn 8 e = mark.
Proof. intros (tail & _ & _ & _ & ->). reflexivity. Qed.
(** Only the signature of the next packet matters. *)
Lemma before_packet t e : no_signature t mark -> firstn 8 e = mark -> no_signature t e.
Proof.
  intros H M i L Q. apply (H i L). rewrite <- Q, skipn_app, (skipn_app i t e). replace (i - length t)%nat with O by lia. rewrite !skipn_O.
  rewrite <- M, !firstn_app, firstn_firstn. do 2 f_equal. lia.
Qed.
Lemma tabular_mark t : tabular t -> no_signature t mark.
Proof. intros H. apply tabular_clean; auto. Qed.

(** ** The gaps of a storage *)
Definition gaps (gs : list (list bytes)) : list bytes := concat (map (fun g => slot_table (map blen g) :: repeat [] (length g - 1)) gs).
Lemma combine_gaps gs : Forall (fun g => g <> []) gs -> concat (map (fun ge => fst ge ++ snd ge) (combine (gaps gs) (concat gs))) = files gs.
Proof.
  induction 1 as [|g gs H F IH]; [reflexivity|]. unfold gaps. cbn [map concat]. fold (gaps gs). change (files (g :: gs)) with (gfile g ++ files gs). unfold gfile.
  destruct g as [|e g]; [contradiction|]. cbn [length]. rewrite Nat.sub_succ, Nat.sub_0_r. cbn [app combine map concat fst snd]. set (t := slot_table _). rewrite <- !app_assoc. f_equal. f_equal. clear t H.
  induction g as [|e' g IH2]; [exact IH|]. cbn [length repeat app combine map concat fst snd]. rewrite <- app_assoc. f_equal. exact IH2.
Qed.
Lemma concat_gaps gs : concat (gaps gs) = concat (map (fun g => slot_table (map blen g)) gs).
Proof.
  induction gs as [|g gs IH]; [reflexivity|]. unfold gaps. cbn [map concat]. fold (gaps gs). cbn [app concat]. f_equal. rewrite concat_app, IH.
  replace (concat (repeat [] (length g - 1))) with (@nil byte); [reflexivity|]. induction (length g - 1)%nat; cbn; auto.
Qed.
Lemma gaps_clean gs : Forall (fun g => g <> []) gs -> Forall (fun g => no_signature (slot_table (map blen g)) mark) gs -> Forall (fun e => firstn 8 e = mark) (concat gs) ->
  Forall2 (fun g e => no_signature g e) (gaps gs) (concat gs).
Proof.
  induction 1 as [|g gs H F IH]; intros T M; [constructor|]. inversion T as [|? ? Hg T']; subst. cbn [concat] in M. apply Forall_app in M as (M1 & M2).
  unfold gaps. cbn [map concat]. fold (gaps gs). destruct g as [|e g]; [contradiction|]. cbn [length]. rewrite Nat.sub_succ, Nat.sub_0_r. cbn [app].
  inversion M1 as [|? ? Me M1']; subst. constructor; [apply before_packet; auto|]. clear Hg H T Me M1. induction g as [|e' g IH2]; [now apply IH|].
  inversion M1'; subst. cbn [length repeat app]. constructor; [|now apply IH2]. intros i Li. cbn [length] in Li. lia.
Qed.

(** ** A table that was partly overwritten *)
Lemma mix_entry n k : n < two32 -> exists m, m < two32 /\ mix k (le 8 n) (zeros 8) = le 8 m.
Proof.
  intros H. rewrite le8_small by exact H. change (zeros 8) with (zeros 4 ++ zeros 4). rewrite mix_app by (rewrite le_length; reflexivity).
  change (repeat (n2b 0) 4) with (zeros 4). rewrite mix_same. set (x := mix k (le 4 n) (zeros 4)). assert (length x = 4%nat) as LX by (unfold x; rewrite mix_length; [reflexivity|apply le_length]).
  exists (unle (x ++ zeros 4)). pose proof (unle_bound x) as UB. unfold blen in UB. rewrite LX in UB. split.
  - rewrite unle_app. change (unle (zeros 4)) with 0. rewrite N.mul_0_r, N.add_0_r. exact UB.
  - rewrite <- (le_unle (x ++ zeros 4)) at 1. rewrite app_length, LX. reflexivity.
Qed.
Lemma mixed_tabular lens n k : (length lens < C)%nat -> Forall (fun n => n < two32) (lens ++ [n]) ->
  skipn 4016 (mix k (slot_table (lens ++ [n])) (slot_table lens)) <> firstn 4 mark -> tabular (mix k (slot_table (lens ++ [n])) (slot_table lens)).
Proof.
  intros L F X. apply Forall_app in F as (F & Fn). apply Forall_inv in Fn.
  destruct (table_new lens n L) as (x' & E' & LX'). destruct (table_old lens L) as (x & E & LX).
  assert (length (mix k (slot_table (lens ++ [n])) (slot_table lens)) = N.to_nat tsz) as LM.
  { rewrite mix_length; [apply table_len; lia|]. rewrite !table_len; [reflexivity|lia|rewrite app_length; cbn [length]; lia]. }
  rewrite E', E, mix_table in * by (rewrite le_length; reflexivity).
  match type of X with skipn _ (table_of _ (mix ?a _ _) ?xm) <> _ => destruct (mix_entry n a Fn) as (m & Bm & Em); rewrite Em in *; set (y := xm) in * end.
  assert (length y = 4%nat) as LY by (unfold y; rewrite mix_length; congruence). clearbody y. clear Em E E'.
  exists (N.of_nat C :: lens ++ m :: repeat 0 (C - length lens - 1)), y. split; [|split; [|split; [exact LY|]]].
  - unfold table_of. cbn [map concat]. rewrite map_app, concat_app. cbn [map concat]. rewrite le8_zeros, <- !app_assoc. reflexivity.
  - constructor; [reflexivity|]. apply Forall_app. split; [exact F|]. constructor; [exact Bm|]. clear. induction (C - length lens - 1)%nat; cbn [repeat]; constructor; [reflexivity|assumption].
  - intros Q. apply X. rewrite <- Q. unfold table_of in *. rewrite !app_assoc in *. apply skipn_app_exact. rewrite app_length in LM. change (N.to_nat tsz) with (4016 + 4)%nat in LM. lia.
Qed.

(** ** The groups of a storage *)
Lemma groups_nonempty {A} (fs : list (list A)) l : shaped fs l -> Forall (fun g => g <> []) (gro fs l).
Proof.
  intros (F & _). pose proof cap_pos. unfold gro. apply Forall_app. split; [|destruct l; repeat constructor; discriminate].
  eapply Forall_impl; [|exact F]. intros g Q ->. cbn [length] in Q. lia.
Qed.
Lemma groups_concat {A} (fs : list (list A)) l : concat (gro fs l) = concat fs ++ l.
Proof. unfold gro. rewrite concat_app. destruct l; cbn [concat]; now rewrite ?app_nil_r. Qed.
Lemma gaps_app a b : gaps (a ++ b) = gaps a ++ gaps b.
Proof. unfold gaps. now rewrite map_app, concat_app. Qed.
Lemma gaps_length gs : Forall (fun g => g <> []) gs -> length (gaps gs) = length (concat gs).
Proof.
  induction 1 as [|g gs H F IH]; [reflexivity|]. unfold gaps. cbn [map concat]. fold (gaps gs). rewrite !app_length, IH. cbn [length]. rewrite repeat_length.
  destruct g; [contradiction|]. cbn [length]. lia.
Qed.
Lemma combine_app {A B} (a a' : list A) (b b' : list B) : length a = length b -> combine (a ++ a') (b ++ b') = combine a b ++ combine a' b'.
Proof. revert b. induction a as [|x a IH]; intros [|y b] L; try discriminate; [reflexivity|]. cbn [app combine]. f_equal. apply IH. now injection L. Qed.
Lemma one_gap (t : bytes) l : l <> [] -> concat (map (fun ge => fst ge ++ snd ge) (combine (t :: repeat [] (length l - 1)) l)) = t ++ concat l.
Proof.
  destruct l as [|e l]; [contradiction|]. intros _. cbn [length]. rewrite Nat.sub_succ, Nat.sub_0_r. cbn [combine map concat fst snd]. rewrite <- app_assoc. do 2 f_equal.
  induction l as [|x l IH]; [reflexivity|]. cbn [length repeat combine map concat fst snd app]. now rewrite IH.
Qed.
Lemma one_gap_clean t l : l <> [] -> no_signature t mark -> Forall (fun e => firstn 8 e = mark) l -> Forall2 (fun g e => no_signature g e) (t :: repeat [] (length l - 1)) l.
Proof.
  destruct l as [|e l]; [contradiction|]. intros _ T M. cbn [length]. rewrite Nat.sub_succ, Nat.sub_0_r. inversion M as [|? ? Me M1]; subst.
  constructor; [apply before_packet; auto|]. clear M Me. induction M1 as [|x l H M1 IH]; cbn [length repeat]; constructor; [|exact IH]. intros i Li. cbn [length] in Li. lia.
Qed.
Lemma encs_mark {U} (P : proto U) ps es : Forall2 (packet_enc P) ps es -> Forall (fun e => firstn 8 e = mark) es.
Proof. induction 1; constructor; [eapply enc_mark8; eassumption|assumption]. Qed.

Lemma groups_go {A} n fuel : forall (l : list A) g, In g (in_groups_go fuel n l) -> (length g <= n)%nat /\ forall x, In x g -> In x l.
Proof.
  induction fuel as [|f IH]; intros l g I; [destruct I|]. cbn [in_groups_go] in I. destruct l as [|y l]; [destruct I|]. destruct I as [<-|I].
  - split; [rewrite firstn_length; lia|]. intros x Ix. rewrite <- (firstn_skipn n (y :: l)). apply in_or_app. now left.
  - destruct (IH _ _ I) as (L & H). split; [exact L|]. intros x Ix. rewrite <- (firstn_skipn n (y :: l)). apply in_or_app. right. auto.
Qed.
Lemma in_group_small {A} n (l : list A) g : In g (in_groups n l) -> (length g <= n)%nat.
Proof. intros I. exact (proj1 (groups_go _ _ _ _ I)). Qed.
Lemma in_group_in {A} n (l : list A) g x : In g (in_groups n l) -> In x g -> In x l.
Proof. intros I. exact (proj2 (groups_go _ _ _ _ I) x). Qed.
