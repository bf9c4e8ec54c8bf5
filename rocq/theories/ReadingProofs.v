(** * Readers in use: all the ways of reading, and what [reload] notices. *)
From Coq Require Import ZifyBool ZifyNat ZifyN.
From Verif Require Import Base Crc32 Io File Block Payload Packet Rules Slot Storage StreamReader Spec SpecStorage BaseProofs CrcProofs BlockProofs PayloadProofs PacketProofs PacketSafeProofs RulesProofs WireProofs StreamProofs StreamItemProofs SlotProofs StorageProofs StorageReadProofs ReloadProofs.
Ltac Zify.zify_post_hook ::= Z.div_mod_to_equations.
Open Scope list_scope.
Local Notation C := default_capacity.

Lemma with_rules {U} es (r : sreader U) rs : d_ok es r -> d_ok es (d_with_rules rs r).
Proof. intros [A B D]. split; auto. Qed.

Lemma reading_ok {U} (P : proto U) es (r : sreader U) : reading es r -> forall ps, Forall2 (packet_enc P) ps es -> blen (storage_file es) < two63 ->
  d_ok es r /\ NoDup (map id_of (d_rules r)).
Proof.
  induction 1 as [es J r LJ E|es r ops H IH|es r pos H IH|es es' r n r' H IH S E]; intros ps FE B.
  - destruct (@open_reader_tail U es J (encs_nonempty _ _ _ FE) B LJ) as (r0 & E0 & OK & RU). rewrite E in E0. injection E0 as <-.
    split; [exact OK|]. rewrite RU. constructor.
  - destruct (IH ps FE B) as (OK & _). split; [now apply with_rules|]. cbn [d_with_rules d_rules]. apply history_nodup.
  - destruct (IH ps FE B) as (OK & ND). split; [apply with_file; [exact OK|reflexivity]|exact ND].
  - pose proof (encs_nonempty _ _ _ FE) as NA. apply Forall_app in NA as (_ & NE'). apply Forall2_app_inv_r in FE as (ps1 & ps2 & F1 & F2 & ->).
    destruct (IH ps1 F1) as (OK & ND). { pose proof (storage_mono es es'). lia. }
    destruct (reload_fresh es es' r OK NE' B S) as (r1 & E1 & OK1 & RU). rewrite E in E1. injection E1 as _ <-. rewrite RU. auto.
Qed.

Lemma reading_exact {U} es (r : sreader U) : d_open (storage_file es) = Ok r -> reading es r.
Proof. intros E. apply (reading_open es []); [reflexivity|]. now rewrite app_nil_r. Qed.

(** The iterators start at the beginning. *)
Lemma start_ok {U} es (r : sreader U) : d_ok es r -> exists gs, it_ok [] gs (d_iter r) /\ concat gs = es.
Proof.
  intros [(fs & l & J & SH & EE & DS & DD & DL) NE B]. exists (gro fs l). split; [|rewrite concat_gro; now rewrite EE].
  unfold d_iter. split; cbn [t_slots t_off t_src t_buf].
  - exists []. rewrite app_nil_r. split; [now rewrite DS, anch_fst|auto].
  - right. exists [], J. split; [reflexivity|]. cbn [app]. rewrite <- DD. split; [reflexivity|]. now rewrite <- storage_shaped, <- EE by exact SH.
  - cbn [concat]. split; [|split; [apply cursor_start|constructor]]. apply cursor_start.
  - apply shaped_sound; [exact SH|]. now rewrite <- EE.
Qed.

(** ** [seek] *)
Section Seek.
Context {U : Type} (P : proto U) (HP : proto_ok P).

Lemma gives_app {I A} (next : I -> option A * I) i l i1 : gives next i l i1 -> forall l' i2, gives next i1 l' i2 -> gives next i (l ++ l') i2.
Proof. induction 1 as [|i a i1 l i' E G IH]; intros l' i2 G2; [exact G2|]. cbn [app]. econstructor; eauto. Qed.

(** The packets in the buffer come first, whatever is behind. *)
Lemma buffer_gives ps es : Forall2 (packet_enc P) ps es -> Forall few ps -> forall t, c_rest (t_buf t) = concat es -> c_ok (t_buf t) ->
  exists t', gives (t_next P) t (map Ok ps) t' /\ t_off t' = t_off t /\ t_slots t' = t_slots t /\ t_src t' = t_src t /\ c_rest (t_buf t') = [] /\ c_ok (t_buf t').
Proof.
  induction 1 as [|p e ps es H F IH]; intros FW t V O; cbn [map].
  - exists t. repeat split; auto. constructor.
  - inversion FW as [|? ? Hw FW']; subst. cbn [concat] in V.
    destruct (pkt_read_rt cursor_reader c_rest c_ok (lawful_okl _ _ _ cursor_lawful) P p e (t_buf t) (concat es) HP H Hw O V) as (b & EB & VB & OB).
    destruct (IH FW' (mk_siter (t_off t) (t_slots t) (t_src t) b) VB OB) as (t' & G & Q).
    exists t'. split; [|exact Q]. econstructor; [|exact G]. unfold t_next, t_ready. rewrite V.
    destruct (e ++ concat es) as [|x y] eqn:EE; [apply app_eq_nil in EE as (EE & _); exfalso; exact (packet_enc_nonempty _ _ _ H EE)|]. rewrite EB. reflexivity.
Qed.

Lemma forall2_skipn {A B} (R : A -> B -> Prop) n : forall l l', Forall2 R l l' -> Forall2 R (skipn n l) (skipn n l').
Proof. induction n as [|n IH]; intros l l' F; [exact F|]. inversion F; subst; cbn [skipn]; [constructor|now apply IH]. Qed.
Lemma forall2_firstn {A B} (R : A -> B -> Prop) n : forall l l', Forall2 R l l' -> Forall2 R (firstn n l) (firstn n l').
Proof. induction n as [|n IH]; intros l l' F; cbn [firstn]; [constructor|]. inversion F; subst; constructor; auto. Qed.
Lemma forall_skipn {A} (R : A -> Prop) n l : Forall R l -> Forall R (skipn n l).
Proof. revert l; induction n as [|n IH]; intros l F; [exact F|]. inversion F; subst; cbn [skipn]; [constructor|now apply IH]. Qed.
Lemma forall_firstn {A} (R : A -> Prop) n l : Forall R l -> Forall R (firstn n l).
Proof. revert l; induction n as [|n IH]; intros l F; cbn [firstn]; [constructor|]. inversion F; subst; constructor; auto. Qed.

Lemma group_bounds {A} (fs : list (list A)) l gs1 g gs2 : shaped fs l -> gro fs l = gs1 ++ g :: gs2 -> (0 < length g)%nat ->
  length (concat gs1) = (C * length gs1)%nat /\ (length g <= C)%nat /\ (gs2 <> [] -> length g = C).
Proof.
  intros (F & L) E LG.
  assert (forall x, In x (removelast (gro fs l)) -> length x = C) as RL.
  { intros x. unfold gro. destruct l as [|y l].
    - rewrite app_nil_r. intros I. rewrite Forall_forall in F. apply F. destruct fs as [|z fs _] using rev_ind; [contradiction I|]. rewrite removelast_last in I. apply in_app_iff. now left.
    - rewrite removelast_last. rewrite Forall_forall in F. apply F. }
  rewrite E in RL. rewrite removelast_app in RL by discriminate.
  assert (Forall (fun x => length x = C) gs1) as F1 by (apply Forall_forall; intros x I; apply RL, in_app_iff; now left).
  split; [rewrite length_concat_full by exact F1; apply Nat.mul_comm|]. split.
  - assert (In g (gro fs l)) as I by (rewrite E; apply in_app_iff; right; now left). unfold gro in I. apply in_app_iff in I as [I|I].
    + rewrite Forall_forall in F. apply F in I. lia.
    + destruct l; [contradiction I|]. destruct I as [<-|[]]. lia.
  - intros N. apply RL, in_app_iff. right. destruct gs2; [contradiction|]. now left.
Qed.

Lemma skip_groups {A} (gs1 : list (list A)) g gs2 j : (j <= length g)%nat -> skipn (length (concat gs1) + j) (concat (gs1 ++ g :: gs2)) = skipn j g ++ concat gs2.
Proof.
  intros L. rewrite concat_app. cbn [concat]. rewrite skipn_app, skipn_all2 by lia. cbn [app].
  replace (length (concat gs1) + j - length (concat gs1))%nat with j by lia. rewrite skipn_app. replace (j - length g)%nat with O by lia. reflexivity.
Qed.

Lemma seek_gives es (r : sreader U) ps n : d_ok es r -> Forall2 (packet_enc P) ps es -> Forall few ps -> (n < length ps)%nat ->
  exists t t', d_seek n r = Ok t /\ gives (t_next P) t (map Ok (firstn (500 - n mod 500) (skipn n ps))) t' /\
    ((length ps <= 500 * (n / 500 + 1))%nat -> exists t'', t_next P t' = (None, t'')).
Proof.
  intros OK FE FW LN. pose proof (encs_length P ps es FE) as LE. pose proof OK as [(fs & l & J & SH & EE & DS & DD & DL) NE B].
  destruct (locate_group (gro fs l) n) as (gs1 & g & gs2 & j & GG & EN & LJ). { rewrite concat_gro, <- EE. lia. }
  destruct (group_bounds fs l gs1 g gs2 SH GG ltac:(lia)) as (L1 & LG & FG).
  pose proof (shaped_filled fs l SH ltac:(now rewrite <- EE)) as FF. rewrite GG in FF.
  destruct (seek_ok r gs1 g gs2 j J) as (c & ES & DC); [now rewrite <- GG, <- storage_shaped, <- EE by exact SH|now rewrite DS, anch_fst, GG|now rewrite DD, GG|exact FF|exact LJ|]. rewrite <- EN in ES.
  assert (n mod C = j /\ n / C = length gs1)%nat as (MJ & DJ).
  { split; [|].
    - rewrite EN, L1, Nat.add_comm, Nat.mul_comm, Nat.mod_add by (pose proof cap_pos; lia). apply Nat.mod_small. lia.
    - rewrite EN, L1, Nat.mul_comm, Nat.div_add_l, Nat.div_small by (pose proof cap_pos; lia). lia. }
  rewrite <- !cap_eq, MJ, DJ.
  assert (firstn (C - j) (skipn n es) = skipn j g) as EG.
  { rewrite EE, <- concat_gro, GG, EN, skip_groups by lia. destruct gs2 as [|h gs2].
    - cbn [concat]. rewrite app_nil_r. apply firstn_all2. rewrite skipn_length. lia.
    - rewrite (FG ltac:(discriminate)) in *. rewrite firstn_app, firstn_all2 by (rewrite skipn_length; rewrite FG by discriminate; lia).
      rewrite skipn_length. replace (C - j - (length g - j))%nat with O by (rewrite FG by discriminate; lia). cbn [firstn]. apply app_nil_r. }
  pose proof (forall2_firstn _ (C - j) _ _ (forall2_skipn _ n _ _ FE)) as F2. rewrite EG in F2.
  set (t0 := mk_siter _ _ _ _) in ES. destruct (cursor_start (concat (skipn j g))) as (V & O).
  destruct (buffer_gives _ _ F2 (forall_firstn _ _ _ (forall_skipn _ _ _ FW)) t0 V O) as (t' & G & TO & TS & _ & TV & _).
  exists t0, t'. split; [exact ES|]. split; [exact G|]. intros LAST.
  assert (gs2 = []) as ->.
  { destruct gs2 as [|h gs2]; [reflexivity|]. exfalso. specialize (FG ltac:(discriminate)).
    assert (0 < length h)%nat as LH.
    { pose proof (shaped_sound fs l SH ltac:(now rewrite <- EE)) as SD. rewrite GG in SD. apply Forall_app in SD as (_ & SD). inversion SD as [|? ? _ SD2]; subst. inversion SD2 as [|? ? (_ & Hh) _]; subst. destruct h; [contradiction|cbn; lia]. }
    assert (length es = length (concat gs1) + (length g + (length h + length (concat gs2))))%nat as LL by (rewrite EE, <- concat_gro, GG, concat_app; cbn [concat]; rewrite !app_length; reflexivity). rewrite L1 in LL. lia. }
  exists t'. unfold t_next, t_ready. rewrite TV. unfold t_locate. rewrite TS. unfold t0. cbn [t_slots map]. reflexivity.
Qed.

Lemma gives_yields {I A} (next : I -> option A * I) i l i' : gives next i l i' -> forall i'', next i' = (None, i'') -> yields next i l.
Proof. induction 1 as [|i a i1 l i' E G IH]; intros i'' N; [econstructor; exact N|]. econstructor; eauto. Qed.

Lemma seek_last es (r : sreader U) ps n : d_ok es r -> Forall2 (packet_enc P) ps es -> Forall few ps -> (n < length ps)%nat -> (length ps <= 500 * (n / 500 + 1))%nat ->
  exists t, d_seek n r = Ok t /\ yields (t_next P) t (map Ok (skipn n ps)).
Proof.
  intros OK FE FW LN LAST. destruct (seek_gives es r ps n OK FE FW LN) as (t & t' & E & G & Q). destruct (Q LAST) as (t'' & N).
  exists t. split; [exact E|]. eapply gives_yields; [|exact N]. replace (skipn n ps) with (firstn (500 - n mod 500) (skipn n ps)); [exact G|].
  apply firstn_all2. rewrite skipn_length. pose proof (Nat.div_mod_eq n 500). lia.
Qed.
End Seek.

(** ** One new packet is always noticed *)
Lemma le8_small n : n < two32 -> le 8 n = le 4 n ++ repeat (n2b 0) 4.
Proof.
  intros H. set (bs := le 4 n ++ repeat (n2b 0) 4). assert (unle bs = n) as E.
  { unfold bs. rewrite unle_app, unle_le by exact H. change (unle (repeat (n2b 0) 4)) with 0. lia. }
  rewrite <- E at 1. apply (le_unle bs).
Qed.

Lemma lsl_crc lens : sl_crc (lsl lens) = crc32_le (le 8 (N.of_nat C) ++ concat (map (le 8) (lens ++ repeat 0 (C - length lens)%nat))).
Proof. reflexivity. Qed.
Lemma one_noticed es e : (length es mod 500 <> 0)%nat -> e <> [] -> blen e < two32 -> table_sum (length es) es <> table_sum (length es) (es ++ [e]).
Proof.
  intros M NE B. destruct (decompose es) as (fs & l & SH & EE). subst es. pose proof SH as (F & L). rewrite cap_eq in L.
  rewrite <- app_assoc. rewrite !table_sum_eq by exact SH. rewrite !table_crc by (rewrite map_length, ?app_length, cap_eq; cbn [length]; lia).
  rewrite !lsl_crc, map_app. set (a := map blen l).
  assert (length a = length l) as LA by apply map_length. cbn [map].
  assert (C - length a = S (C - length (a ++ [blen e])))%nat as LC by (rewrite app_length, LA; cbn [length]; rewrite cap_eq; lia).
  rewrite LC. cbn [repeat]. rewrite <- ?app_assoc. cbn [app]. rewrite !map_app, !concat_app. cbn [map concat].
  rewrite (le8_small (blen e)) by exact B. rewrite (le8_small 0) by reflexivity. rewrite <- !app_assoc.
  intros E. apply (f_equal unle) in E. unfold crc32_le in E. rewrite !unle_le in E by apply crc32_bound.
  rewrite !app_assoc in E. rewrite <- !(app_assoc (_ ++ concat _)) in E. rewrite <- !(app_assoc (le 4 _)) in E.
  apply crc32_burst in E; [|rewrite !le_length; reflexivity|rewrite le_length; lia].
  apply (f_equal unle) in E. rewrite !unle_le in E by (exact B || reflexivity). destruct e; [contradiction|]. rewrite blen_cons in E. lia.
Qed.
Lemma one_follows es e : e <> [] -> blen e < two32 -> reload_follows es [e].
Proof.
  intros NE B. unfold reload_follows. right. destruct (Nat.eq_dec (length es mod 500) 0) as [H|H]; [now left|right]. split; [|now apply one_noticed].
  rewrite app_length. cbn [length]. pose proof (Nat.div_mod_eq (length es) 500). pose proof (Nat.mod_upper_bound (length es) 500 ltac:(discriminate)). lia.
Qed.

(** ** Filters *)
Lemma kept_exists {U} (P : proto U) (rs : rules U) ps es : proto_ok P -> NoDup (map id_of rs) -> Forall2 (packet_enc P) ps es -> exists ks, kept P rs ps ks.
Proof.
  intros HP ND. induction 1 as [|p e ps es H F (ks & IH)]; [exists []; constructor|].
  destruct (cursor_start (e ++ [])) as (V & O).
  destruct (passes_spec P HP cursor_reader c_rest c_ok rs p e _ [] cursor_lawful ND H O V) as (s' & _ & _ & [(A & _)|(A & _)]); [exists (p :: ks); now constructor|exists ks; now apply kept_out].
Qed.

(** ** Everything a reader in use gives *)
Lemma forall_few {U} (ps : list (packet U)) : Forall (fun p => (length (p_blocks p) <= 256)%nat) ps -> Forall few ps.
Proof. apply Forall_impl. intros p H. exact H. Qed.
