(** * Iterators and ranges in a release build. *)
From Coq Require Import ZifyBool ZifyNat ZifyN.
From Verif Require Import Base Crc32 Io File Block Payload Packet Rules Slot Storage Release ReleaseRead ReleaseIter Spec SpecStorage SpecRelease BaseProofs PacketProofs PacketSafeProofs SlotProofs StorageProofs
  StorageReadProofs ReadingProofs HostileProofs ForeignProofs ReleaseReadProofs.
Ltac Zify.zify_post_hook ::= Z.div_mod_to_equations.
Open Scope list_scope.

(** ** Iterators *)

(** The sums over the tables to come do not wrap. *)
Definition it_small (t : siter) : Prop := t_off t + sum (map (fun s => slot_size s + slot_width s) (t_slots t)) < two64.

Lemma fetch_rel a b t : a <= b -> b < two64 -> rel_t_fetch (a, b) t = t_fetch (a, b) t.
Proof. intros L1 L2. unfold rel_t_fetch, t_fetch. cbv zeta. rewrite wsub_le by assumption. replace (b <? a) with false by lia. reflexivity. Qed.
Lemma fetch_slots range t : t_off (snd (t_fetch range t)) = t_off t /\ t_slots (snd (t_fetch range t)) = t_slots t.
Proof.
  destruct range as [a b]. unfold t_fetch. cbv zeta. destruct (b <? a); [now split|]. destruct (alloc (b - a)) as [x|e|w]; cbn [sbind]; [|now split..].
  destruct (cursor_read_exact _ _) as [[y|e|w] c]; now split.
Qed.

Lemma ready_rel t : it_small t -> rel_t_ready t = t_ready t /\ it_small (snd (t_ready t)).
Proof.
  intros S. unfold rel_t_ready, t_ready. destruct (c_rest (t_buf t)) as [|x l]; [|now split].
  unfold rel_t_locate, t_locate. unfold it_small in S. destruct (t_slots t) as [|s r] eqn:ES; [split; [reflexivity|unfold it_small; cbn [snd]; now rewrite ES]|].
  unfold sum in S. cbn [map fold_right] in S. cbv zeta. rewrite !N.mod_small by lia. destruct (slot_width s =? 0); [split; [reflexivity|]; unfold it_small, sum; cbn [snd t_off t_slots]; lia|].
  unfold wadd. rewrite !N.mod_small by (rewrite ?N.mod_small; lia). rewrite fetch_rel by lia.
  set (t1 := mk_siter _ _ _ _). set (range := (_, _)). pose proof (fetch_slots range t1) as (F1 & F2). destruct (t_fetch range t1) as [o t2]. cbn [snd] in *. split; [reflexivity|].
  unfold it_small. rewrite F1, F2. unfold t1, sum. cbn [t_off t_slots]. lia.
Qed.

Section Iter.
Context {U : Type}.
Implicit Types (P : proto U).

Lemma next_rel P t : it_small t -> rel_t_next P t = t_next P t /\ it_small (snd (t_next P t)).
Proof.
  intros S. destruct (ready_rel t S) as (E & S1). unfold rel_t_next, t_next. rewrite E. destruct (t_ready t) as [[[x|e|w]|] t1]; cbn [snd] in *; try (now split).
  destruct (pkt_read _ P _) as [o b]. split; [reflexivity|exact S1].
Qed.

Lemma next_filtered_rel P rs : forall fuel t, it_small t -> rel_t_next_filtered_go fuel P rs t = t_next_filtered_go fuel P rs t /\ it_small (snd (t_next_filtered_go fuel P rs t)).
Proof.
  induction fuel as [|fuel IH]; intros t S; cbn [rel_t_next_filtered_go t_next_filtered_go]; [now split|].
  destruct (ready_rel t S) as (E & S1). rewrite E. destruct (t_ready t) as [[[x|e|w]|] t1]; cbn [snd] in *; try (now split).
  destruct (filtered _ P rs _) as [[[n p|n]|e|w] b]; cbn [snd]; [now split|apply IH; exact S1|now split..].
Qed.

Lemma gives_rel {A} (f g : siter -> option A * siter) : (forall t, it_small t -> f t = g t /\ it_small (snd (g t))) ->
  forall t l t', gives g t l t' -> it_small t -> gives f t l t' /\ f t' = g t'.
Proof.
  intros H. induction 1 as [t|t a t1 l t' E G IH]; intros S; destruct (H t S) as (E1 & S1); [split; [constructor|exact E1]|].
  rewrite E in *. cbn [snd] in S1. destruct (IH S1) as (I1 & I2). split; [econstructor; eassumption|exact I2].
Qed.
Lemma yields_rel {A} (f g : siter -> option A * siter) : (forall t, it_small t -> f t = g t /\ it_small (snd (g t))) ->
  forall t l, yields g t l -> it_small t -> yields f t l.
Proof.
  intros H. induction 1 as [t t' E|t a t1 l E G IH]; intros S; destruct (H t S) as (E1 & S1); [eapply yields_end; rewrite E1; exact E|].
  eapply yields_next; [rewrite E1; exact E|]. apply IH. now rewrite E in S1.
Qed.

Lemma iter_small ls (r : sreader U) : map fst (d_slots r) = map slot_with ls -> table_place ls (length ls) < two64 -> it_small (d_iter r).
Proof.
  intros E L. unfold it_small, d_iter. cbn [t_off t_slots]. rewrite E. unfold table_place in L. rewrite firstn_all in L. rewrite map_map.
  assert (Q : map (fun x => slot_size (slot_with x) + slot_width (slot_with x)) ls = map (fun lens => table_len lens + announced lens) ls).
  { apply map_ext. intros x. change (slot_with x) with (slot_of x). now rewrite slot_of_size, slot_of_width. }
  rewrite Q, sum_total. lia.
Qed.

Lemma from_small slots : forall off idx target packet o off' r, t_from_go slots off idx target packet = (o, (off', r)) ->
  off' + sum (map (fun s => slot_size s + slot_width s) r) <= off + sum (map (fun s => slot_size s + slot_width s) slots).
Proof.
  unfold sum. induction slots as [|s slots IH]; intros off idx target packet o off' r; cbn [t_from_go map fold_right].
  - intros E. injection E as <- <- <-. cbn [map fold_right]. lia.
  - destruct (slot_count s <=? target)%nat; [intros E; apply IH in E; lia|]. destruct (negb _); [intros E; injection E as <- <- <-; lia|].
    destruct (slot_offset_of target s); intros E; injection E as <- <- <-; lia.
Qed.
Lemma seek_small ls (r : sreader U) n t : map fst (d_slots r) = map slot_with ls -> table_place ls (length ls) < two64 -> d_seek n r = Ok t -> it_small t.
Proof.
  intros E L. pose proof (iter_small ls r E L) as S. unfold it_small, d_iter in S. cbn [t_off t_slots] in S. unfold d_seek.
  destruct (t_from_go _ 0 0 n n) as [o [off slots]] eqn:EF. apply from_small in EF. destruct o as [range|e|w]; cbn [rbind]; try discriminate.
  pose proof (fetch_slots range (mk_siter off slots (d_file r) (mk_cursor [] 0))) as (F1 & F2). destruct (t_fetch range _) as [o t1]. cbn [snd t_off t_slots] in *.
  destruct o as [x|e|w]; cbn [rbind]; try discriminate. intros H. apply (f_equal (fun x => match x with Ok y => y | _ => t end)) in H. subst t1. unfold it_small. rewrite F1, F2. lia.
Qed.

(** ** Ranges *)

Lemma rel_try_read_still P c : c_pos c < two64 -> c_len c < two64 -> still c (rel_pkt_try_read P c).
Proof.
  intros L1 L2. destruct (N.le_gt_cases (c_pos c) (c_len c)) as [L|L]; [rewrite try_read_same by assumption; apply try_read_still|].
  unfold rel_pkt_try_read, rel_pkt_hdr_try_read. cbv zeta. destruct (_ <? N.of_nat hdr_size); [reflexivity|].
  unfold hdr_read, cursor_reader, cursor_read_exact. cbn [rd_exact].
  assert (R : c_rest c = []). { unfold c_rest. change (blen (c_data c)) with (c_len c). now replace (c_pos c <=? c_len c) with false by lia. }
  rewrite R. reflexivity.
Qed.
Lemma rel_place_small n (r : sreader U) x : rel_d_place n r = Ok (Some x) -> x < two64.
Proof.
  unfold rel_d_place. destruct (nth_error _ _) as [[s o]|]; [|discriminate]. destruct (slot_is_empty _ s) as [[|]|e|w]; cbn [rbind]; try discriminate.
  destruct (slot_offset _ s); [|discriminate]. intros E. apply (f_equal (fun x => match x with Ok (Some y) => y | _ => 0 end)) in E. subst x. unfold wadd. apply N.mod_lt. discriminate.
Qed.
Lemma rel_nth_moved P n r : c_len (d_file r) < two64 -> moved r (snd (rel_d_nth P n r)).
Proof.
  intros L. unfold rel_d_nth, moved. pose proof (rel_place_small n r) as PS. destruct (rel_d_place n r) as [[x|]|e|w]; cbn [sbind snd]; auto.
  pose proof (rel_try_read_still P (c_seek x (d_file r)) (PS x eq_refl) L) as H. unfold still in H. destruct (rel_pkt_try_read P _) as [o c]. cbn [snd d_with_file d_slots d_file d_rules] in *. auto.
Qed.
Lemma rel_nth_filtered_moved P n r : moved r (snd (rel_d_nth_filtered P n r)).
Proof.
  unfold rel_d_nth_filtered, moved. destruct (rel_d_place n r) as [[x|]|e|w]; cbn [sbind snd]; auto.
  pose proof (filtered_still P (d_rules r) (c_seek x (d_file r))) as H. unfold still in H. destruct (filtered _ P _ _) as [o c]. cbn [snd d_with_file d_slots d_file d_rules] in *. auto.
Qed.
Lemma rel_place_moved n (r r' : sreader U) : moved r r' -> rel_d_place n r' = rel_d_place n r.
Proof. intros (E & _). unfold rel_d_place. now rewrite E. Qed.
Lemma rel_nth_same P n r r' : moved r r' -> fst (rel_d_nth P n r') = fst (rel_d_nth P n r).
Proof.
  intros M. unfold rel_d_nth. rewrite (rel_place_moved n r r' M). destruct (rel_d_place n r) as [[x|]|e|w]; cbn [sbind]; try reflexivity.
  rewrite (seek_moved x r r' M). destruct (rel_pkt_try_read P _) as [o c]. reflexivity.
Qed.
Lemma rel_nth_filtered_same P n r r' : moved r r' -> fst (rel_d_nth_filtered P n r') = fst (rel_d_nth_filtered P n r).
Proof.
  intros M. unfold rel_d_nth_filtered. rewrite (rel_place_moved n r r' M). destruct (rel_d_place n r) as [[x|]|e|w]; cbn [sbind]; try reflexivity.
  rewrite (seek_moved x r r' M). destruct M as (_ & _ & ->). destruct (filtered _ P _ _) as [o c]. reflexivity.
Qed.

Lemma rel_range_any P r : c_len (d_file r) < two64 -> forall len from r1, moved r r1 ->
  yields (rel_g_next P) (mk_ranged r1 len from) (until_none (map (fun n => fst (rel_d_nth P n r)) (seq from len))).
Proof.
  intros SM. induction len as [|len IH]; intros from r1 M; cbn [seq map until_none]; [eapply yields_end; reflexivity|].
  rewrite <- (rel_nth_same P from r r1 M). pose proof (rel_nth_moved P from r1 ltac:(unfold c_len in *; now rewrite (proj1 (proj2 M)))) as M1.
  destruct (rel_d_nth P from r1) as [o r2] eqn:E. cbn [fst snd] in *. pose proof (IH (S from) r2 (moved_trans _ _ _ M M1)) as Y.
  assert (G : rel_g_next P (mk_ranged r1 (S len) from) = (match o with Ok None => None | Ok (Some p) => Some (Ok p) | Err e => Some (Err e) | Panic w => Some (Panic w) end, mk_ranged r2 len (S from))).
  { unfold rel_g_next. cbn [g_len g_from g_reader]. rewrite E. reflexivity. }
  destruct o as [[p|]|e|w]; [eapply yields_next; eassumption|eapply yields_end; exact G|eapply yields_next; eassumption|eapply yields_next; eassumption].
Qed.

Lemma rel_nth_none P r n : (length (d_slots r) * 500 <= n)%nat -> fst (rel_d_nth_filtered P n r) = Ok None.
Proof.
  intros L. unfold rel_d_nth_filtered, rel_d_place. change default_capacity with 500%nat. replace (nth_error (d_slots r) (n / 500)) with (@None (slot * N)); [reflexivity|].
  symmetry. apply nth_error_None. apply Nat.div_le_lower_bound; lia.
Qed.

Lemma rel_next_filtered_any P r : forall m fuel len from r1, moved r r1 -> m = (length (d_slots r) * 500 - from)%nat -> (m < fuel)%nat ->
  match picks len (map (fun n => fst (rel_d_nth_filtered P n r)) (seq from m)) with
  | [] => exists g, rel_g_next_filtered_go fuel P (mk_ranged r1 len from) = (None, g)
  | a :: l => exists r2 len' from', rel_g_next_filtered_go fuel P (mk_ranged r1 len from) = (Some a, mk_ranged r2 len' from') /\ moved r r2 /\ (from < from')%nat /\
      l = picks len' (map (fun n => fst (rel_d_nth_filtered P n r)) (seq from' (length (d_slots r) * 500 - from')))
  end.
Proof.
  induction m as [|m IH]; intros fuel len from r1 M EM LF; (destruct fuel as [|fuel]; [lia|]); cbn [rel_g_next_filtered_go g_len g_from g_reader seq map].
  - destruct len as [|len]; [cbn [picks]; eauto|]. cbn [picks]. pose proof (rel_nth_none P r from ltac:(lia)) as N. rewrite <- (rel_nth_filtered_same P from r r1 M) in N.
    destruct (rel_d_nth_filtered P from r1) as [o r2]. cbn [fst] in N. subst o. eauto.
  - destruct len as [|len]; [cbn [picks]; eauto|].
    rewrite <- (rel_nth_filtered_same P from r r1 M). pose proof (rel_nth_filtered_moved P from r1) as M1.
    destruct (rel_d_nth_filtered P from r1) as [o r2] eqn:E. cbn [fst snd] in *. pose proof (moved_trans _ _ _ M M1) as M2.
    assert (EM' : m = (length (d_slots r) * 500 - S from)%nat) by lia.
    destruct o as [[[n p|n]|]|e|w]; cbn [picks].
    + exists r2, len, (S from). rewrite <- EM'. repeat split; auto; apply M2.
    + specialize (IH fuel (S len) (S from) r2 M2 EM' ltac:(lia)). destruct (picks (S len) _); [exact IH|].
      destruct IH as (r3 & len' & from' & I1 & I2 & I3 & I4). exists r3, len', from'. repeat split; auto; try apply I2; lia.
    + eauto.
    + exists r2, (S len), (S from). rewrite <- EM'. repeat split; auto; apply M2.
    + exists r2, (S len), (S from). rewrite <- EM'. repeat split; auto; apply M2.
Qed.

Lemma rel_range_filtered_any P r : forall k len from r1, moved r r1 -> (length (d_slots r) * 500 - from <= k)%nat ->
  yields (rel_g_next_filtered P) (mk_ranged r1 len from) (picks len (map (fun n => fst (rel_d_nth_filtered P n r)) (seq from (length (d_slots r) * 500 - from)))).
Proof.
  induction k as [|k IH]; intros len from r1 M L;
  (pose proof (rel_next_filtered_any P r _ (length (d_slots r1) * default_capacity + 1) len from r1 M eq_refl) as Q;
   change default_capacity with 500%nat in Q at 1; rewrite (proj1 M) in Q; specialize (Q ltac:(lia));
   destruct (picks len _) as [|a l] eqn:EP;
   [destruct Q as (g & E); eapply yields_end; unfold rel_g_next_filtered; cbn [g_reader]; rewrite (proj1 M); exact E|]).
  - exfalso. replace (length (d_slots r) * 500 - from)%nat with 0%nat in EP by lia. destruct len; discriminate.
  - destruct Q as (r2 & len' & from' & E & M2 & LT & ->). eapply yields_next.
    + unfold rel_g_next_filtered. cbn [g_reader]. rewrite (proj1 M). exact E.
    + destruct (Nat.le_gt_cases (length (d_slots r) * 500) from') as [H|H]; [|apply IH; [exact M2|lia]].
      replace (length (d_slots r) * 500 - from')%nat with 0%nat by lia.
      pose proof (rel_next_filtered_any P r 0%nat (length (d_slots r2) * default_capacity + 1) len' from' r2 M2 ltac:(lia) ltac:(lia)) as Q.
      cbn [seq map] in *. assert (EN : picks len' ([] : list (res (option (look U)))) = []) by (now destruct len'). rewrite EN in *. destruct Q as (g & E2). eapply yields_end. exact E2.
Qed.
End Iter.

(** ** Iterators over any tables *)

Lemma wrapped_size off w s : wsub (wadd (wadd off (w mod two64)) (s mod two64)) (wadd off (s mod two64)) = w mod two64.
Proof.
  unfold wsub, wadd. pose proof (N.mod_lt w two64 ltac:(discriminate)) as L. generalize dependent (w mod two64). intros a L. generalize (s mod two64). intros b.
  unfold two64 in *. lia.
Qed.

Lemma wrapped_next off w s : wadd off (wadd (w mod two64) (s mod two64)) = ((off + s) mod two64 + w mod two64) mod two64.
Proof.
  unfold wadd. rewrite N.add_mod_idemp_r, N.add_mod_idemp_l by discriminate.
  replace (off + s + w mod two64) with (off + w mod two64 + s) by lia. rewrite N.add_assoc, N.add_mod_idemp_r by discriminate. reflexivity.
Qed.

Lemma rel_fetch_any start end_ len t : wsub end_ start = len -> len < two63 -> start + len <= blen (c_data (t_src t)) ->
  exists c, rel_t_fetch (start, end_) t = (Ok tt, mk_siter (t_off t) (t_slots t) c (mk_cursor (firstn (N.to_nat len) (skipn (N.to_nat start) (c_data (t_src t)))) 0)) /\
    c_data c = c_data (t_src t).
Proof.
  intros E B L. unfold rel_t_fetch. cbv zeta. rewrite E.
  unfold alloc. replace (len <? two63) with true by lia. cbn [sbind]. unfold cursor_read_exact.
  assert (O : c_ok (c_seek start (t_src t))) by (unfold c_ok, c_len, c_seek; cbn [c_pos c_data]; lia).
  pose proof (c_rest_len _ O) as RL. unfold c_len, c_seek in RL. cbn [c_pos c_data] in RL. unfold c_seek.
  replace (len <=? _) with true by lia. rewrite rest_skipn. cbn [c_pos c_data]. eexists. split; [reflexivity|]. reflexivity.
Qed.

Lemma rel_fetch_beyond start end_ len t : wsub end_ start = len -> len < two63 -> 0 < len -> blen (c_data (t_src t)) < start + len ->
  fst (rel_t_fetch (start, end_) t) = Panic PUnwrap.
Proof.
  intros E B Z L. unfold rel_t_fetch. cbv zeta. rewrite E.
  unfold alloc. replace (len <? two63) with true by lia. cbn [sbind]. unfold cursor_read_exact, c_seek.
  assert (Q : (len <=? blen (c_rest (mk_cursor (c_data (t_src t)) start))) = false).
  { rewrite rest_skipn. cbn [c_pos c_data]. unfold blen in *. rewrite skipn_length. lia. }
  rewrite Q. reflexivity.
Qed.

Lemma rel_ready_any lens r t : c_rest (t_buf t) = [] -> t_slots t = slot_with lens :: r ->
  let width := announced lens mod two64 in
  let place := (t_off t + table_len lens) mod two64 in
  if width =? 0 then exists t', rel_t_ready t = (None, t')
  else if two63 <=? width then fst (rel_t_ready t) = Some (Panic PCapacity)
  else if blen (c_data (t_src t)) <? place + width then fst (rel_t_ready t) = Some (Panic PUnwrap)
  else exists t', rel_t_ready t = (Some (Ok tt), t') /\ t_slots t' = r /\ c_data (t_src t') = c_data (t_src t) /\
    t_buf t' = mk_cursor (firstn (N.to_nat width) (skipn (N.to_nat place) (c_data (t_src t)))) 0 /\ t_off t' = (place + width) mod two64.
Proof.
  intros R ES. cbv zeta. unfold rel_t_ready. rewrite R. unfold rel_t_locate. rewrite ES. change (slot_with lens) with (slot_of lens). rewrite slot_of_width, slot_of_size.
  destruct (announced lens mod two64 =? 0) eqn:Z; [eauto|].
  set (t1 := mk_siter _ _ _ _). pose proof (wrapped_size (t_off t) (announced lens) (table_len lens)) as WS.
  assert (PL : wadd (t_off t) (table_len lens mod two64) = (t_off t + table_len lens) mod two64) by (unfold wadd; apply N.add_mod_idemp_r; discriminate).
  assert (NX : t_off t1 = ((t_off t + table_len lens) mod two64 + announced lens mod two64) mod two64).
  { unfold t1. cbn [t_off]. apply wrapped_next. }
  rewrite PL in *. set (e := wadd (wadd (t_off t) _) _) in *. set (start := (t_off t + table_len lens) mod two64) in *. set (w := announced lens mod two64) in *.
  destruct (two63 <=? w) eqn:C.
  - unfold rel_t_fetch. cbv zeta. rewrite WS. unfold alloc. replace (w <? two63) with false by lia. reflexivity.
  - destruct (blen (c_data (t_src t)) <? start + w) eqn:Q.
    + pose proof (rel_fetch_beyond start e w t1 WS ltac:(lia) ltac:(lia) ltac:(unfold t1; cbn [t_src]; lia)) as F. destruct (rel_t_fetch _ t1) as [o t2]. cbn [fst] in *. now rewrite F.
    + destruct (rel_fetch_any start e w t1 WS ltac:(lia) ltac:(unfold t1; cbn [t_src]; lia)) as (c & F & D). rewrite F. eexists. split; [reflexivity|].
      cbn [t_slots t_src t_buf t_off]. split; [reflexivity|]. split; [exact D|]. split; [reflexivity|exact NX].
Qed.

Lemma yields_det {I A} (next : I -> option A * I) i l : yields next i l -> forall l', yields next i l' -> l = l'.
Proof.
  induction 1 as [i i' E|i a i' l E Y IH]; intros l' Y'; inversion Y' as [? ? E2|? ? ? ? E2 Y2]; subst; rewrite E in E2; try discriminate; [reflexivity|].
  apply pair_equal_spec in E2 as (E2 & <-). apply (f_equal (fun x => match x with Some y => y | None => a end)) in E2. subst. f_equal. now apply IH.
Qed.
Lemma Forall2_yields_det {B I A} (next : I -> option A * I) (f : B -> I) : forall cs l1 l2,
  Forall2 (fun c l => yields next (f c) l) cs l1 -> Forall2 (fun c l => yields next (f c) l) cs l2 -> l1 = l2.
Proof.
  induction cs as [|c cs IH]; intros l1 l2 F1 F2; inversion F1; inversion F2; subst; [reflexivity|]. f_equal; [eapply yields_det; eassumption|now apply IH].
Qed.

Section AnyTables.
Context {U : Type} (P : proto U) (data : bytes) (small : blen data < two63).

Lemma ends_app {I A} (next : I -> option (res A) * I) e i a l : forall i1, next i = (Some a, i1) -> ends_with e next i1 l -> ends_with e next i (a :: l).
Proof.
  intros i1 E H. destruct e as [w|]; cbn [ends_with] in *; [|eapply yields_next; eassumption].
  destruct H as (i' & G & F). exists i'. split; [eapply gives_next; eassumption|exact F].
Qed.

Lemma rel_buffer_ends e l2 : forall c l, yields (by_packet (pkt_read cursor_reader P)) c l -> forall t, t_buf t = c ->
  (forall t', t_slots t' = t_slots t -> c_data (t_src t') = c_data (t_src t) -> t_off t' = t_off t -> c_rest (t_buf t') = [] -> ends_with e (rel_t_next P) t' l2) ->
  ends_with e (rel_t_next P) t (l ++ l2).
Proof.
  induction 1 as [c c' E|c o c' l E Y IH]; intros t EB T; unfold by_packet in E.
  - destruct (c_rest c) as [|x r] eqn:R; [|destruct (pkt_read _ P c); discriminate]. cbn [app]. apply T; try reflexivity. now rewrite EB.
  - destruct (c_rest c) as [|x r] eqn:R; [discriminate|]. destruct (pkt_read cursor_reader P c) as [o1 c1] eqn:ER.
    apply pair_equal_spec in E as (E1 & <-). apply (f_equal (fun x => match x with Some y => y | None => o end)) in E1. subst o1. cbn [app].
    apply (ends_app _ _ _ _ _ (mk_siter (t_off t) (t_slots t) (t_src t) c1)).
    + unfold rel_t_next, rel_t_ready. rewrite EB, R, EB, ER. reflexivity.
    + apply IH; [reflexivity|exact T].
Qed.

Lemma rel_slots_end ls : forall off t, map slot_with ls = t_slots t -> c_data (t_src t) = data -> t_off t = off -> c_rest (t_buf t) = [] ->
  exists lss, Forall2 (fun region l => yields (by_packet (pkt_read cursor_reader P)) (mk_cursor region 0) l) (fst (rel_contents data off ls)) lss /\
    ends_with (snd (rel_contents data off ls)) (rel_t_next P) t (concat lss) /\ Forall (harmless data) (concat lss).
Proof.
  induction ls as [|lens ls IH]; intros off t ES ED EO R; cbn [map] in ES.
  - exists []. split; [constructor|]. split; [|constructor]. cbn. eapply yields_end. unfold rel_t_next, rel_t_ready. rewrite R. unfold rel_t_locate. rewrite <- ES. reflexivity.
  - pose proof (rel_ready_any lens _ t R (eq_sym ES)) as Q. cbv zeta in Q. rewrite ED, EO in Q. cbn [rel_contents]. cbv zeta.
    change (2 ^ 64) with two64. change (2 ^ 63) with two63.
    set (w := announced lens mod two64) in *. set (place := (off + table_len lens) mod two64) in *.
    destruct (w =? 0) eqn:W0.
    { destruct Q as (t' & Q). exists []. split; [constructor|]. split; [|constructor]. cbn. eapply yields_end. unfold rel_t_next. rewrite Q. reflexivity. }
    destruct (two63 <=? w) eqn:C; [|destruct (blen data <? place + w) eqn:F].
    1, 2: exists []; split; [constructor|]; split; [|constructor]; cbn; exists t; split; [constructor|]; unfold rel_t_next; destruct (rel_t_ready t) as [o t1]; cbn [fst] in Q; rewrite Q; reflexivity.
    destruct Q as (t' & Q & Q1 & Q2 & Q3 & Q4). rewrite N.mod_small in Q4 by (unfold two63, two64 in *; lia).
    set (ct := firstn (N.to_nat w) (skipn (N.to_nat place) data)) in *.
    assert (R0 : c_rest (mk_cursor ct 0) = ct) by (rewrite rest_skipn; cbn [c_pos c_data]; apply skipn_O).
    destruct (packets_end (pkt_read cursor_reader P) ct (read_forward P) (N.to_nat (blen ct)) (mk_cursor ct 0)) as (l & Y & LL & HL).
    { unfold c_ok, c_len. cbn [c_pos]. lia. } { reflexivity. } { rewrite R0. lia. }
    destruct (IH (place + w) (mk_siter (place + w) (map slot_with ls) (mk_cursor data 0) (mk_cursor [] 0)) eq_refl eq_refl eq_refl eq_refl) as (lss & I1 & _ & I3).
    destruct (rel_contents data (place + w) ls) as [cs e] eqn:EC. cbn [fst snd] in *. exists (l :: lss). split; [now constructor|]. cbn [concat]. split.
    + assert (G : ends_with e (rel_t_next P) t' (l ++ concat lss)).
      { eapply rel_buffer_ends; [exact Y|exact Q3|]. intros t2 T1 T2 T3 T4.
        destruct (IH (place + w) t2 ltac:(congruence) ltac:(congruence) ltac:(congruence) T4) as (lss2 & J1 & J2 & _). rewrite EC in *. cbn [fst snd] in *.
        assert (lss2 = lss) as -> by exact (Forall2_yields_det _ (fun region => mk_cursor region 0) _ _ _ J1 I1). exact J2. }
      assert (SN : rel_t_next P t = rel_t_next P t').
      { assert (K : exists b ct', ct = b :: ct').
        { assert (length ct = N.to_nat w) as K by (unfold ct; rewrite firstn_length, skipn_length; unfold blen in *; lia). destruct ct as [|b ct']; [cbn [length] in K; lia|eauto]. }
        destruct K as (b & ct' & K). assert (Q5 : rel_t_ready t' = (Some (Ok tt), t')) by (unfold rel_t_ready; rewrite Q3, R0, K; reflexivity).
        unfold rel_t_next. rewrite Q, Q5. reflexivity. }
      destruct e as [x|]; cbn [ends_with] in *; [|exact (yields_same _ _ _ _ SN G)].
      destruct G as (i' & G & F2). inversion G; subst; [exists t; split; [constructor|rewrite SN; exact F2]|].
      exists i'. split; [|exact F2]. eapply gives_next; [rewrite SN; eassumption|assumption].
    + apply Forall_app. split; [|exact I3]. eapply Forall_impl; [|exact HL]. intros o H. unfold ct in H.
      rewrite <- (firstn_skipn (N.to_nat place) data), <- (firstn_skipn (N.to_nat w) (skipn (N.to_nat place) data)). now apply harmless_part.
Qed.
End AnyTables.

Section AnyFiltered.
Context {U : Type} (P : proto U) (rs : rules U) (data : bytes) (small : blen data < two63).
Notation rd := (filtered cursor_reader P rs).

Definition it_inv (ls : list (list N)) (t : siter) : Prop :=
  t_slots t = map slot_with ls /\ Forall (fun lens => table_len lens < two63) ls /\ c_data (t_src t) = data /\ c_ok (t_buf t) /\ t_off t <= blen data.
Definition mu (t : siter) : nat := length (c_rest (t_buf t)) + N.to_nat (blen data - t_off t).

Lemma inv_ready ls t t' : it_inv ls t -> rel_t_ready t = (Some (Ok tt), t') ->
  (exists ls', it_inv ls' t') /\ c_rest (t_buf t') <> [] /\ (mu t' <= mu t)%nat /\ rel_t_ready t' = (Some (Ok tt), t').
Proof.
  intros I E. pose proof I as (I1 & I2 & I3 & I4 & I5). destruct (c_rest (t_buf t)) as [|x l] eqn:R.
  - destruct ls as [|lens ls]; [unfold rel_t_ready in E; rewrite R in E; unfold rel_t_locate in E; rewrite I1 in E; discriminate|].
    cbn [map] in I1. pose proof (rel_ready_any lens _ t R I1) as Q. cbv zeta in Q. rewrite I3 in Q. pose proof (Forall_inv I2) as J1. pose proof (Forall_inv_tail I2) as J2. cbv beta in J1.
    set (w := announced lens mod two64) in *. rewrite (N.mod_small (t_off t + table_len lens)) in Q by (unfold two63, two64 in *; lia).
    destruct (w =? 0) eqn:W0; [destruct Q as (t1 & Q); rewrite Q in E; discriminate|].
    destruct (two63 <=? w) eqn:C; [rewrite E in Q; discriminate|]. destruct (_ <? _) eqn:F; [rewrite E in Q; discriminate|].
    destruct Q as (t1 & Q & Q1 & Q2 & Q3 & Q4). rewrite E in Q. apply pair_equal_spec in Q as (_ & <-).
    rewrite N.mod_small in Q4 by (unfold two63, two64 in *; lia).
    set (ct := firstn _ _) in Q3. assert (R0 : c_rest (t_buf t') = ct) by (rewrite Q3, rest_skipn; cbn [c_pos c_data]; apply skipn_O).
    assert (CL : length ct = N.to_nat w) by (unfold ct; rewrite firstn_length, skipn_length; unfold blen in *; lia).
    assert (NE : c_rest (t_buf t') <> []) by (rewrite R0; intros K; rewrite K in CL; cbn [length] in CL; lia).
    split; [exists ls; split; [exact Q1|split; [exact J2|split; [exact Q2|split; [rewrite Q3; unfold c_ok, c_len; cbn [c_pos]; lia|lia]]]]|].
    split; [exact NE|]. split; [unfold mu; rewrite R, R0, CL, Q4; cbn [length]; lia|].
    unfold rel_t_ready. destruct (c_rest (t_buf t')); [contradiction|reflexivity].
  - unfold rel_t_ready in E. rewrite R in E. apply pair_equal_spec in E as (_ & <-). split; [eauto|]. split; [congruence|]. split; [lia|]. unfold rel_t_ready. now rewrite R.
Qed.

Lemma inv_read ls t o b : it_inv ls t -> c_rest (t_buf t) <> [] -> rd (t_buf t) = (o, b) -> it_inv ls (with_buf b t) /\ (mu (with_buf b t) < mu t)%nat.
Proof.
  intros (I1 & I2 & I3 & I4 & I5) NE E. destruct (filtered_forward P rs (t_buf t) o b I4 NE E) as (D & O & L & _). split; [now repeat split|].
  unfold mu. cbn [with_buf t_buf t_off]. pose proof (c_rest_len _ I4) as L1. pose proof (c_rest_len _ O) as L2.
  assert (c_len b = c_len (t_buf t)) as LL by (unfold c_len; now rewrite D). unfold blen, c_ok in *. lia.
Qed.

Lemma go_fuel : forall f f' ls t, it_inv ls t -> (mu t < f)%nat -> (mu t < f')%nat -> rel_t_next_filtered_go f P rs t = rel_t_next_filtered_go f' P rs t.
Proof.
  induction f as [|f IH]; intros [|f'] ls t I L L'; try lia. cbn [rel_t_next_filtered_go].
  destruct (rel_t_ready t) as [[[[]|e|w]|] t1] eqn:E; try reflexivity. destruct (inv_ready ls t t1 I E) as ((ls' & I') & NE & M & _).
  destruct (rd (t_buf t1)) as [o b] eqn:ER. destruct (inv_read ls' t1 o b I' NE ER) as (I2 & M2). unfold with_buf in *.
  destruct o as [[n p|n]|e|w]; try reflexivity. apply (IH _ ls'); [exact I2|lia|lia].
Qed.
Lemma filtered_go f ls t : it_inv ls t -> (mu t < f)%nat -> rel_t_next_filtered P rs t = rel_t_next_filtered_go f P rs t.
Proof.
  intros I L. unfold rel_t_next_filtered. apply (go_fuel _ _ ls); [exact I| |exact L]. destruct I as (_ & _ & I3 & I4 & _). unfold mu. rewrite I3, rest_skipn, skipn_length.
  unfold blen. lia.
Qed.

Lemma filtered_end ls t o t' : it_inv ls t -> rel_t_ready t = (o, t') -> o <> Some (Ok tt) ->
  match o with None => rel_t_next_filtered P rs t = (None, t') | Some (Panic w) => fst (rel_t_next_filtered P rs t) = Some (Panic w) | _ => True end.
Proof.
  intros I E N. rewrite (filtered_go (S (mu t)) ls t I) by lia. cbn [rel_t_next_filtered_go]. rewrite E. destruct o as [[[]|e|w]|]; [congruence|exact Logic.I|reflexivity|reflexivity].
Qed.
Lemma filtered_ready ls t t' : it_inv ls t -> rel_t_ready t = (Some (Ok tt), t') -> rel_t_next_filtered P rs t = rel_t_next_filtered P rs t'.
Proof.
  intros I E. destruct (inv_ready ls t t' I E) as ((ls' & I') & NE & M & E').
  rewrite (filtered_go (S (mu t)) ls t I), (filtered_go (S (mu t)) ls' t' I') by lia. cbn [rel_t_next_filtered_go]. rewrite E, E'. reflexivity.
Qed.
Lemma filtered_read ls t o b : it_inv ls t -> c_rest (t_buf t) <> [] -> rd (t_buf t) = (o, b) ->
  match shown o with [] => rel_t_next_filtered P rs t = rel_t_next_filtered P rs (with_buf b t) | [x] => rel_t_next_filtered P rs t = (Some x, with_buf b t) | _ => False end.
Proof.
  intros I NE ER. destruct (inv_read ls t o b I NE ER) as (I2 & M2).
  assert (E : rel_t_ready t = (Some (Ok tt), t)) by (unfold rel_t_ready; destruct (c_rest (t_buf t)); [contradiction|reflexivity]).
  rewrite (filtered_go (S (mu t)) ls t I) by lia. rewrite (filtered_go (mu t) ls (with_buf b t) I2) by lia. cbn [rel_t_next_filtered_go]. rewrite E, ER.
  destruct o as [[n p|n]|e|w]; reflexivity.
Qed.

Lemma ends_same {I A} (next : I -> option (res A) * I) e i i' l : next i = next i' -> ends_with e next i' l -> ends_with e next i l.
Proof.
  intros E G. destruct e as [x|]; cbn [ends_with] in *; [|exact (yields_same _ _ _ _ E G)]. destruct G as (j & G & F).
  inversion G as [|? a i1 l1 ? G1 G2]; subst; [exists i; split; [constructor|rewrite E; exact F]|]. exists j. split; [|exact F]. eapply gives_next; [rewrite E; exact G1|exact G2].
Qed.

Lemma filt_buffer_ends ls e l2 : forall c l, yields (by_packet rd) c l -> forall t, it_inv ls t -> t_buf t = c ->
  (forall t', it_inv ls t' -> t_off t' = t_off t -> c_rest (t_buf t') = [] -> ends_with e (rel_t_next_filtered P rs) t' l2) ->
  ends_with e (rel_t_next_filtered P rs) t (flat_map shown l ++ l2).
Proof.
  induction 1 as [c c' E|c o c' l E Y IH]; intros t I EB T; unfold by_packet in E.
  - destruct (c_rest c) as [|x r] eqn:R; [|destruct (rd c); discriminate]. cbn [flat_map app]. apply T; [exact I|reflexivity|now rewrite EB].
  - destruct (c_rest c) as [|x r] eqn:R; [discriminate|]. destruct (rd c) as [o1 c1] eqn:ER.
    apply pair_equal_spec in E as (E1 & <-). apply (f_equal (fun x => match x with Some y => y | None => o end)) in E1. subst o1. rewrite <- EB in ER, R.
    destruct (inv_read ls t o c1 I ltac:(congruence) ER) as (I2 & _). specialize (IH (with_buf c1 t) I2 eq_refl T).
    pose proof (filtered_read ls t o c1 I ltac:(congruence) ER) as Q. cbn [flat_map]. destruct (shown o) as [|x1 [|? ?]]; [|cbn [app]; exact (ends_app _ _ _ _ _ _ Q IH)|contradiction].
    cbn [app]. exact (ends_same _ _ _ _ _ Q IH).
Qed.

Lemma filt_slots_end ls : forall off lss, Forall2 (fun region l => yields (by_packet rd) (mk_cursor region 0) l) (fst (rel_contents data off ls)) lss ->
  forall t, it_inv ls t -> t_off t = off -> c_rest (t_buf t) = [] -> ends_with (snd (rel_contents data off ls)) (rel_t_next_filtered P rs) t (flat_map shown (concat lss)).
Proof.
  induction ls as [|lens ls IH]; intros off lss FF t I EO R; pose proof I as (I1 & I2 & I3 & I4 & I5); cbn [map] in I1.
  - inversion FF; subst lss. cbn. eapply yields_end. refine (filtered_end [] t None t I _ ltac:(discriminate)). unfold rel_t_ready. rewrite R. unfold rel_t_locate. now rewrite I1.
  - pose proof (rel_ready_any lens _ t R I1) as Q. cbv zeta in Q. rewrite I3, EO in Q. cbn [rel_contents] in *. cbv zeta in *.
    change (2 ^ 64) with two64 in *. change (2 ^ 63) with two63 in *.
    set (w := announced lens mod two64) in *. set (place := (off + table_len lens) mod two64) in *.
    destruct (w =? 0) eqn:W0.
    { destruct Q as (t' & Q). inversion FF; subst lss. cbn. eapply yields_end. exact (filtered_end _ t None t' I Q ltac:(discriminate)). }
    destruct (two63 <=? w) eqn:C; [|destruct (blen data <? place + w) eqn:F].
    1, 2: inversion FF; subst lss; cbn; exists t; split; [constructor|]; destruct (rel_t_ready t) as [o t1] eqn:ER; cbn [fst] in Q; subst o; exact (filtered_end _ t _ t1 I ER ltac:(discriminate)).
    destruct Q as (t' & Q & Q1 & Q2 & Q3 & Q4). rewrite N.mod_small in Q4 by (unfold two63, two64 in *; lia).
    destruct (rel_contents data (place + w) ls) as [cs e] eqn:EC. cbn [fst snd] in *. inversion FF as [|region l regions lss' Y F' E1 E2]; subst region regions lss.
    cbn [concat]. rewrite flat_map_app. apply (ends_same _ _ _ _ _ (filtered_ready _ _ _ I Q)).
    assert (I' : it_inv ls t').
    { split; [exact Q1|]. split; [now inversion I2|]. split; [congruence|]. split; [rewrite Q3; unfold c_ok, c_len; cbn [c_pos]; lia|lia]. }
    eapply filt_buffer_ends; [exact Y|exact I'|exact Q3|]. intros t2 J1 J2 J3. specialize (IH (place + w) lss'). rewrite EC in IH. cbn [fst snd] in IH. apply IH; [exact F'|exact J1|congruence|exact J3].
Qed.

Lemma filt_regions ls : forall off, exists lss, Forall2 (fun region l => yields (by_packet rd) (mk_cursor region 0) l) (fst (rel_contents data off ls)) lss /\ Forall (harmless data) (concat lss).
Proof.
  induction ls as [|lens ls IH]; intros off; cbn [rel_contents]; cbv zeta; [exists []; split; constructor|].
  destruct (_ =? 0); [exists []; split; constructor|]. destruct (_ <=? _); [exists []; split; constructor|]. destruct (_ <? _); [exists []; split; constructor|].
  set (w := announced lens mod 2 ^ 64). set (place := (off + table_len lens) mod 2 ^ 64). destruct (IH (place + w)) as (lss & I1 & I3).
  destruct (rel_contents data (place + w) ls) as [cs e]. cbn [fst] in *. set (ct := firstn (N.to_nat w) (skipn (N.to_nat place) data)).
  assert (R0 : c_rest (mk_cursor ct 0) = ct) by (rewrite rest_skipn; cbn [c_pos c_data]; apply skipn_O).
  destruct (packets_end rd ct (filtered_forward P rs) (N.to_nat (blen ct)) (mk_cursor ct 0)) as (l & Y & LL & HL).
  { unfold c_ok, c_len. cbn [c_pos]. lia. } { reflexivity. } { rewrite R0. lia. }
  exists (l :: lss). split; [now constructor|]. cbn [concat]. apply Forall_app. split; [|exact I3]. eapply Forall_impl; [|exact HL]. intros o H. unfold ct in H.
  rewrite <- (firstn_skipn (N.to_nat place) data), <- (firstn_skipn (N.to_nat w) (skipn (N.to_nat place) data)). now apply harmless_part.
Qed.
End AnyFiltered.
