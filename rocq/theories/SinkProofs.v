(** * Lemmas about sinks that refuse bytes, payloads that cannot be written, and headers in buffers (C07, C66-C68). *)
From Coq Require Import ZifyBool ZifyNat ZifyN.
From Verif Require Import Base Crc32 Io Block Payload Packet Spec BaseProofs IoProofs BlockProofs DispatchProofs PayloadProofs PayloadEnumProofs
  PacketProofs PacketSafeProofs WireProofs.
Ltac Zify.zify_post_hook ::= Z.div_mod_to_equations.
Open Scope list_scope.

(** ** Faults *)
Lemma accepted_app a b : accepted (a ++ b) = accepted a + accepted b.
Proof. induction a as [|x a IH]; [reflexivity|]. cbn [app accepted fold_right]. fold (accepted (a ++ b)). fold (accepted a). rewrite IH. destruct x; lia. Qed.

Lemma heeds_same {A} (r : res A) o : heeds o r o.
Proof. exists []. split; [reflexivity|]. split; [easy|]. cbn [accepted fold_right]. lia. Qed.

Lemma heeds_bind {A B} (m : res A * sink) (f : A -> sink -> res B * sink) o :
  heeds o (fst m) (snd m) -> (forall a o1, m = (Ok a, o1) -> heeds o1 (fst (f a o1)) (snd (f a o1))) ->
  heeds o (fst (sbind m f)) (snd (sbind m f)).
Proof.
  destruct m as [[a|e|w] o1]; cbn [sbind fst snd]; intros H G.
  - specialize (G a o1 eq_refl). destruct (f a o1) as [r o2]. cbn [fst snd] in *. destruct H as (u1 & E1 & F1 & A1), G as (u2 & E2 & F2 & A2).
    exists (u1 ++ u2). split; [now rewrite E1, E2, app_assoc|]. split.
    + intros k I. apply in_app_or in I as [I|I]; [|auto]. destruct (F1 k I) as [Q|Q]; [auto|discriminate].
    + intros N. rewrite accepted_app. specialize (A2 N).
      assert (k_sched o1 <> []) as N1. { rewrite E2. destruct u2; [exact N|discriminate]. } specialize (A1 N1). lia.
  - destruct H as (u & E & F & A1). exists u. split; [exact E|]. split; [|exact A1]. intros k I. destruct (F k I) as [Q|Q]; [auto|right]. injection Q as ->. reflexivity.
  - destruct H as (u & E & F & A1). exists u. split; [exact E|]. split; [|exact A1]. intros k I. destruct (F k I) as [Q|Q]; [auto|discriminate].
Qed.

Lemma heeds_pure {A B} (x : res A) o (f : A -> sink -> res B * sink) :
  (forall a, x = Ok a -> heeds o (fst (f a o)) (snd (f a o))) ->
  heeds o (fst (sbind (x, o) f)) (snd (sbind (x, o) f)).
Proof. intros H. apply heeds_bind; [apply heeds_same|]. intros a o1 E. injection E as -> <-. now apply H. Qed.

Lemma heeds_write bs o : heeds o (fst (sink_write bs o)) (snd (sink_write bs o)).
Proof.
  destruct o as [got [|[n|k] r]]; unfold sink_write; cbn [k_sched k_got fst snd].
  - exists []. split; [reflexivity|]. split; [easy|]. now intros [].
  - exists [Accept n]. split; [reflexivity|]. split; [intros k [I|[]]; discriminate|]. intros _. cbn [k_got accepted fold_right].
    rewrite blen_app. unfold blen. rewrite firstn_length. lia.
  - exists [WFail k]. split; [reflexivity|]. split; [intros k' [I|[]]; injection I as ->; now right|]. cbn [k_got accepted fold_right]. lia.
Qed.

Lemma heeds_write_all_go sched : forall bs got, 
  heeds (mk_sink got sched) (fst (sink_write_all_go sched bs got)) (snd (sink_write_all_go sched bs got)).
Proof.
  induction sched as [|[n|k] r IH]; intros [|b bs] got; cbn [sink_write_all_go]; try apply heeds_same.
  - exists []. split; [reflexivity|]. split; [easy|]. now intros [].
  - set (m := N.to_nat (N.min n (blen (b :: bs)))). destruct m as [|m'] eqn:EM.
    + cbn [fst snd]. exists [Accept n]. split; [reflexivity|]. split; [intros k [I|[]]; discriminate|]. cbn [k_got accepted fold_right]. lia.
    + rewrite <- EM. destruct (IH (skipn m (b :: bs)) (got ++ firstn m (b :: bs))) as (u & E & F & A). destruct (sink_write_all_go _ _ _) as [x o']. cbn [fst snd k_sched k_got] in *.
      exists (Accept n :: u). split; [cbn [app]; now rewrite E|]. split; [intros k [I|I]; [discriminate|auto]|].
      intros N. specialize (A N). cbn [accepted fold_right]. fold (accepted u). rewrite blen_app in A. unfold blen in *. rewrite firstn_length in A. assert (N.of_nat m <= n) as LM by (clear; unfold m; lia). cbn [k_got]. lia.
  - assert (k = Interrupted \/ k <> Interrupted) as [->|NE] by (destruct k; auto; right; discriminate).
    + destruct (IH (b :: bs) got) as (u & E & F & A). destruct (sink_write_all_go _ _ _) as [x o']. cbn [fst snd k_sched k_got] in *.
      exists (WFail Interrupted :: u). split; [cbn [app]; now rewrite E|]. split; [intros k [I|I]; [injection I as <-; now left|auto]|].
      cbn [accepted fold_right]. exact A.
    + assert (forall (X Y : res unit * sink), match k with Interrupted => X | _ => Y end = Y) as -> by (destruct k; congruence).
      cbn [fst snd]. exists [WFail k]. split; [reflexivity|]. split; [intros k' [I|[]]; injection I as ->; now right|]. cbn [k_got accepted fold_right]. lia.
Qed.
Lemma heeds_write_all bs o : heeds o (fst (sink_write_all bs o)) (snd (sink_write_all bs o)).
Proof. destruct o as [got sched]. apply heeds_write_all_go. Qed.

Lemma heeds_pk_write {V} (k : pkind V) v o : heeds o (fst (pk_write k v o)) (snd (pk_write k v o)).
Proof.
  unfold pk_write. apply heeds_pure. intros h _. apply heeds_bind; [apply heeds_write_all|]. intros [] o1 _. apply heeds_pure. intros body _.
  apply heeds_bind; [apply heeds_write|]. intros n o2 _. apply heeds_same.
Qed.
Lemma heeds_pk_write_all {V} (k : pkind V) v o : heeds o (fst (pk_write_all k v o)) (snd (pk_write_all k v o)).
Proof.
  unfold pk_write_all. apply heeds_pure. intros h _. apply heeds_bind; [apply heeds_write_all|]. intros [] o1 _. apply heeds_pure. intros body _.
  apply heeds_write_all.
Qed.
Lemma heeds_blocks bs : forall total o, heeds o (fst (write_blocks bs total o)) (snd (write_blocks bs total o)).
Proof.
  induction bs as [|b bs IH]; intros total o; cbn [write_blocks]; [apply heeds_same|].
  apply heeds_bind; [apply heeds_write|]. intros n o1 _. destruct (_ <? _); [apply heeds_same|apply IH].
Qed.
Lemma heeds_blocks_all bs : forall o, heeds o (fst (write_all_blocks bs o)) (snd (write_all_blocks bs o)).
Proof.
  induction bs as [|b bs IH]; intros o; cbn [write_all_blocks]; [apply heeds_same|].
  apply heeds_bind; [apply heeds_write_all|]. intros [] o1 _. apply IH.
Qed.
Section P.
Context {U : Type}.
Lemma heeds_pl_write (pl : payload U) o : heeds o (fst (pl_write pl o)) (snd (pl_write pl o)).
Proof. destruct pl; apply heeds_pk_write. Qed.
Lemma heeds_pl_write_all (pl : payload U) o : heeds o (fst (pl_write_all pl o)) (snd (pl_write_all pl o)).
Proof. destruct pl; apply heeds_pk_write_all. Qed.

Lemma heeds_pkt_write (p : packet U) o : heeds o (fst (pkt_write p o)) (snd (pkt_write p o)).
Proof.
  unfold pkt_write. apply heeds_pure. intros h _. apply heeds_bind; [apply heeds_write|]. intros t o1 _. destruct (_ <? _); [apply heeds_same|].
  apply heeds_bind; [apply heeds_blocks|]. intros [c t2] o2 _. destruct (negb c); [apply heeds_same|].
  destruct (p_payload p) as [pl|]; [|apply heeds_same]. apply heeds_bind; [apply heeds_pl_write|]. intros w o3 _.
  apply heeds_pure. intros sz _. destruct (_ <? _); apply heeds_same.
Qed.
Lemma heeds_pkt_write_all (p : packet U) o : heeds o (fst (pkt_write_all p o)) (snd (pkt_write_all p o)).
Proof.
  unfold pkt_write_all. apply heeds_pure. intros h _. apply heeds_bind; [apply heeds_write_all|]. intros [] o1 _.
  apply heeds_bind; [apply heeds_blocks_all|]. intros [] o2 _. destruct (p_payload p) as [pl|]; [apply heeds_pl_write_all|apply heeds_same].
Qed.
End P.

(** ** Payloads that cannot be written *)
Lemma too_large {V} (k : pkind V) v n : pk_size k v = IOk n -> u32_max < n -> ph_new k v = Err (EIo OtherIo).
Proof. intros E L. unfold ph_new. rewrite E. cbn [io rbind]. now replace (u32_max <? n) with true by lia. Qed.

Lemma ph_new_inv {V} (k : pkind V) v h : ph_new k v = Ok h ->
  pk_size k v = IOk (ph_len h) /\ ph_len h <= u32_max /\ pk_crc k v = IOk (ph_crc h) /\ ph_sig h = pk_sig k.
Proof.
  unfold ph_new. destruct (pk_size k v) as [n|i]; cbn [io rbind]; [|discriminate]. destruct (u32_max <? n) eqn:E; [discriminate|].
  destruct (pk_crc k v) as [c|i]; cbn [io rbind]; [|discriminate]. intros H. injection H as <-. cbn [ph_len ph_crc ph_sig]. repeat split. lia.
Qed.

Section Q.
Context {U : Type}.
Lemma pl_too_large (pl : payload U) n : pl_size pl = Ok n -> u32_max < n -> forall o,
  pl_write pl o = (Err (EIo OtherIo), o) /\ pl_write_all pl o = (Err (EIo OtherIo), o) /\ pl_slices pl = Err (EIo OtherIo).
Proof.
  intros E L o.
  assert (G : forall V (k : pkind V) v, io (pk_size k v) = Ok n ->
    pk_write k v o = (Err (EIo OtherIo), o) /\ pk_write_all k v o = (Err (EIo OtherIo), o) /\ pk_slices k v = Err (EIo OtherIo)).
  { intros V k v Q. destruct (pk_size k v) as [m|i] eqn:Q2; cbn [io] in Q; [|discriminate]. injection Q as ->.
    unfold pk_write, pk_write_all, pk_slices. now rewrite (too_large k v n Q2 L). }
  destruct pl; cbn [pl_write pl_write_all pl_slices pl_size] in *; now apply G.
Qed.

Lemma pl_delivered (pl : payload U) o' : pl_write_all pl (mk_sink [] []) = (Ok tt, o') ->
  exists n crc body, pl_size pl = Ok n /\ n <= u32_max /\ k_got o' = ph_bytes (mk_pheader (pl_sig pl) crc n) ++ body.
Proof.
  assert (G : forall V (k : pkind V) v, pk_write_all k v (mk_sink [] []) = (Ok tt, o') ->
    exists n crc body, io (pk_size k v) = Ok n /\ n <= u32_max /\ k_got o' = ph_bytes (mk_pheader (pk_sig k) crc n) ++ body).
  { intros V k v. unfold pk_write_all. destruct (ph_new k v) as [h|e|w] eqn:E; cbn [sbind]; [|discriminate|discriminate].
    destruct (ph_new_inv k v h E) as (E1 & L & E2 & E3). rewrite sink_write_all_nil. cbn [sbind].
    destruct (pk_body k v) as [b|i]; cbn [io sbind]; [|discriminate]. rewrite sink_write_all_nil. intros H. injection H as <-.
    exists (ph_len h), (ph_crc h), b. rewrite E1. split; [reflexivity|]. split; [exact L|]. cbn [k_got app]. rewrite <- E3. now destruct h. }
  destruct pl; apply G.
Qed.

Lemma blocks_all_nil bs : forall got, write_all_blocks bs (mk_sink got []) = (Ok tt, mk_sink (got ++ concat (map bk_encode bs)) []).
Proof.
  induction bs as [|b bs IH]; intros got; cbn [write_all_blocks map concat]; [now rewrite app_nil_r|].
  unfold bk_write_all, blk_write_all. fold (bk_encode b). rewrite sink_write_all_nil. cbn [sbind]. rewrite IH. now rewrite <- app_assoc.
Qed.

Lemma blocks_size scs bs : Forall (block_ok scs) bs -> fold_right (fun b a => bk_size b + a) 0 bs = blen (concat (map bk_encode bs)).
Proof.
  induction 1 as [|b bs H F IH]; [reflexivity|]. cbn [fold_right map concat]. rewrite blen_app, IH, (bk_size_len _ _ H). reflexivity.
Qed.

Lemma pl_cannot (pl : payload U) e : pl_slices pl = Err e -> forall got,
  exists d, pl_write_all pl (mk_sink got []) = (Err e, mk_sink (got ++ d) []) /\
  (d = [] \/ exists n crc, pl_size pl = Ok n /\ d = ph_bytes (mk_pheader (pl_sig pl) crc n)).
Proof.
  assert (G : forall V (k : pkind V) v, pk_slices k v = Err e -> forall got,
    exists d, pk_write_all k v (mk_sink got []) = (Err e, mk_sink (got ++ d) []) /\
    (d = [] \/ exists n crc, io (pk_size k v) = Ok n /\ d = ph_bytes (mk_pheader (pk_sig k) crc n))).
  { intros V k v. unfold pk_slices, pk_write_all. destruct (ph_new k v) as [h|i|w] eqn:E; cbn [sbind rbind]; try discriminate.
    2:{ intros Q got. injection Q as ->. exists []. rewrite app_nil_r. auto. }
    destruct (ph_new_inv k v h E) as (E1 & L & E2 & E3).
    destruct (pk_body k v) as [b|i]; cbn [io rbind]; [discriminate|]. intros Q got. rewrite sink_write_all_nil. cbn [sbind]. injection Q as <-.
    exists (ph_bytes h). split; [reflexivity|]. right. exists (ph_len h), (ph_crc h). rewrite E1, <- E3. split; [reflexivity|]. now destruct h. }
  destruct pl; apply G.
Qed.

(** What a packet whose payload cannot be written leaves in the sink. *)
Lemma packet_cannot (P : proto U) (p : packet U) pl n e : p_payload p = Some pl -> Forall (block_ok (pr_blocks P)) (p_blocks p) -> pl_size pl = Ok n -> pl_slices pl = Err e ->
  let blocks := concat (map bk_encode (p_blocks p)) in let h := layout_header (blen blocks + (n + pl_header_ssize pl)) (blen blocks) true in
  pkt_slices p = Err e /\
  exists d, pkt_write_all p (mk_sink [] []) = (Err e, mk_sink (h ++ blocks ++ d) []) /\
  (d = [] \/ exists crc, d = ph_bytes (mk_pheader (pl_sig pl) crc n)).
Proof.
  intros EP HB ES EE blocks h.
  assert (EH : exists hd, hdr_new p = Ok hd /\ hdr_bytes hd = h).
  { unfold hdr_new. rewrite EP. unfold payload_size. rewrite ES. cbn [rbind]. eexists. split; [reflexivity|].
    unfold hdr_bytes, h, layout_header, crc32_le. cbn [h_size h_blocks_len h_payload h_crc flag_byte]. rewrite (blocks_size _ _ HB). fold blocks.
    rewrite <- !app_assoc. reflexivity. }
  destruct EH as (hd & EH & EB). split.
  - unfold pkt_slices. rewrite EH, EP, EE. reflexivity.
  - destruct (pl_cannot pl e EE (h ++ blocks)) as (d & ED & HD). exists d. split.
    + unfold pkt_write_all. rewrite EH. cbn [sbind]. rewrite sink_write_all_nil. cbn [sbind]. rewrite EB, blocks_all_nil. cbn [sbind app]. rewrite EP. fold blocks.
      rewrite ED. now rewrite <- app_assoc.
    + destruct HD as [->|(m & crc & E1 & ->)]; [auto|right]. exists crc. rewrite ES in E1. injection E1 as ->. reflexivity.
Qed.
End Q.

(** ** Headers in buffers *)
Lemma buf_in n cur evs : n <=? blen cur = true -> buf_read_exact n (mk_bufsrc cur evs) = (Ok (firstn (N.to_nat n) cur), mk_bufsrc (skipn (N.to_nat n) cur) evs).
Proof. intros H. unfold buf_read_exact. cbn [b_evs b_cur]. destruct evs; cbn [buf_read_exact_go]; rewrite H; reflexivity. Qed.

Lemma hdr_in_buffer cur evs h s : (29 <= length cur)%nat -> hdr_read buf_reader (mk_bufsrc cur evs) = (Ok h, s) -> s = mk_bufsrc (skipn 29 cur) evs.
Proof.
  intros L. unfold hdr_read, buf_reader. cbn [rd_exact].
  rewrite buf_in by (unfold blen; lia). cbn [sbind]. destruct (negb _); [discriminate|].
  do 4 (rewrite buf_in by (unfold blen; rewrite ?skipn_length; lia); cbn [sbind]).
  destruct (bytes_eqb _ _); [|discriminate]. intros H. apply (f_equal snd) in H. cbn [snd] in H. rewrite <- H. f_equal. change (N.to_nat 8) with 8%nat. change (N.to_nat 1) with 1%nat. change (N.to_nat 4) with 4%nat. now rewrite !skipn_skipn.
Qed.

Lemma header_buffered s buf s0 : fill_buf s = (Ok buf, s0) ->
  b_view s0 = b_view s /\ b_cur s0 = buf /\
  ((length buf < 29)%nat -> hdr_try_read_buf s = (Ok (NotEnough (29 - blen buf)), s0)) /\
  ((29 <= length buf)%nat -> forall h s', hdr_try_read_buf s = (Ok (Success h), s') -> s' = mk_bufsrc (skipn 58 buf) (b_evs s0)).
Proof.
  intros E. assert (b_view s0 = b_view s /\ b_cur s0 = buf) as (E1 & E2).
  { destruct s as [[|b cur] evs]; unfold fill_buf in E; cbn [b_cur b_evs] in E.
    - destruct evs as [|[bs|k] evs]; [injection E as <- <-; auto|injection E as <- <-; auto|discriminate].
    - injection E as <- <-. auto. }
  split; [exact E1|]. split; [exact E2|]. unfold hdr_try_read_buf, hdr_size. rewrite E. cbn [sbind]. split; intros L.
  - now replace (length buf <? 29)%nat with true by lia.
  - intros h s'. replace (length buf <? 29)%nat with false by lia. destruct s0 as [c evs]. cbn [b_cur b_evs] in *. subst c.
    destruct (hdr_read buf_reader (mk_bufsrc buf evs)) as [[h1|x|w] s1] eqn:ER; cbn [sbind]; try discriminate.
    rewrite (hdr_in_buffer _ _ _ _ L ER). unfold consume. cbn [b_cur b_evs]. rewrite skipn_skipn. intros H. apply (f_equal snd) in H. cbn [snd] in H. now rewrite <- H.
Qed.

Lemma header_buffered_full s buf s0 : b_ok s -> fill_buf s = (Ok buf, s0) ->
  b_view s0 = b_view s /\ b_cur s0 = buf /\
  ((length buf < 29)%nat -> hdr_try_read_buf s = (Ok (NotEnough (29 - blen buf)), s0)) /\
  ((29 <= length buf)%nat ->
     fst (hdr_try_read_buf s) = rmap Success (hdr_read_from_slice buf) /\
     forall h s', hdr_try_read_buf s = (Ok (Success h), s') -> s' = mk_bufsrc (skipn 58 buf) (b_evs s0)).
Proof.
  intros O E. destruct (header_buffered s buf s0 E) as (E1 & E2 & E3 & E4). split; [exact E1|]. split; [exact E2|]. split; [exact E3|]. intros L. split; [|now apply E4].
  unfold hdr_try_read_buf, hdr_size. rewrite E. cbn [sbind]. replace (length buf <? 29)%nat with false by lia.
  assert (b_ok s0 /\ exists r, b_view s0 = buf ++ r) as (O0 & r & V).
  { split; [|exists (concat (map ev_bytes (b_evs s0))); unfold b_view; now rewrite E2].
    destruct s as [[|b cur] evs]; unfold fill_buf in E; cbn [b_cur b_evs] in E.
    - destruct evs as [|[bs|k] evs]; [injection E as <- <-; exact O|injection E as <- <-; now inversion O|discriminate].
    - injection E as <- <-. exact O. }
  assert (fst (hdr_read buf_reader s0) = hdr_read_from_slice buf) as Q.
  { rewrite (hdr_read_slice buf_reader b_view b_ok buf_lawful s0 O0) by (rewrite V, app_length; lia). rewrite V.
    unfold hdr_read_from_slice, hdr_size. rewrite app_length. replace (length buf + length r <? 29)%nat with false by lia.
    replace (length buf <? 29)%nat with false by lia.
    rewrite !starts_with_firstn. change (length packet_sig) with 8%nat. rewrite firstn_app. replace (8 - length buf)%nat with 0%nat by lia. cbn [firstn]. rewrite app_nil_r.
    destruct (negb _); [reflexivity|]. unfold slice. rewrite !skipn_app, !firstn_app, !skipn_length.
    replace (8 - (length buf - 8))%nat with 0%nat by lia. replace (8 - (length buf - 16))%nat with 0%nat by lia.
    replace (1 - (length buf - 24))%nat with 0%nat by lia. replace (4 - (length buf - 25))%nat with 0%nat by lia. cbn [firstn]. rewrite !app_nil_r. reflexivity. }
  destruct (hdr_read buf_reader s0) as [[h|x|w] s1]; cbn [fst sbind] in *; rewrite <- Q; reflexivity.
Qed.

Lemma get_pos_go_spec buf : forall off n, get_pos_go buf off = Some n <->
  exists i, n = (off + i)%nat /\ (i + 8 < length buf)%nat /\ starts_with packet_sig (skipn i buf) = true /\
    forall j, (j < i)%nat -> starts_with packet_sig (skipn j buf) = false.
Proof.
  induction buf as [|b buf IH]; intros off n; cbn [get_pos_go].
  - split; [discriminate|]. intros (i & _ & H & _). cbn [length] in H. lia.
  - destruct (8 <? length (b :: buf))%nat eqn:L.
    2:{ split; [discriminate|]. intros (i & _ & H & _). lia. }
    destruct (starts_with packet_sig (b :: buf)) eqn:E.
    + split.
      * intros H. injection H as <-. exists 0%nat. repeat split; [lia|lia|exact E|lia].
      * intros (i & -> & _ & _ & F). destruct i as [|i]; [now rewrite Nat.add_0_r|]. specialize (F 0%nat ltac:(lia)). cbn [skipn] in F. congruence.
    + rewrite IH. split.
      * intros (i & -> & H & S & F). exists (Datatypes.S i). cbn [length skipn]. repeat split; [lia|lia|exact S|].
        intros [|j] J; [exact E|]. cbn [skipn]. apply F. lia.
      * intros (i & -> & H & S & F). destruct i as [|i]; [cbn [skipn] in S; congruence|]. exists i. cbn [length] in H. cbn [skipn] in S.
        repeat split; [lia|lia|exact S|]. intros j J. apply (F (Datatypes.S j)). lia.
Qed.

(** [write_all] of bytes through any sink. *)
Lemma sink_all_outcome bs o r o' : sink_write_all bs o = (r, o') ->
  exists sent rest, bs = sent ++ rest /\ k_got o' = k_got o ++ sent /\
    match r with Ok _ => rest = [] | Err _ => rest <> [] | Panic _ => False end.
Proof.
  unfold sink_write_all. generalize (k_got o) as got. revert bs.
  induction (k_sched o) as [|a sch IH]; intros [|b bs] got; cbn [sink_write_all_go]; intros E.
  - apply pair_equal_spec in E as (<- & <-). exists [], []. cbn [k_got app]. rewrite ?app_nil_r. auto.
  - apply pair_equal_spec in E as (<- & <-). exists (b :: bs), []. cbn [k_got app]. rewrite ?app_nil_r. auto.
  - apply pair_equal_spec in E as (<- & <-). exists [], []. cbn [k_got app]. rewrite ?app_nil_r. auto.
  - destruct a as [n|k].
    + destruct (N.to_nat (N.min n (blen (b :: bs)))) as [|m] eqn:EN.
      * apply pair_equal_spec in E as (<- & <-). exists [], (b :: bs). cbn [k_got app]. rewrite ?app_nil_r. split; [reflexivity|split; [reflexivity|discriminate]].
      * apply IH in E as (d & t & E1 & E2 & E3). exists (firstn (S m) (b :: bs) ++ d), t.
        split; [rewrite <- app_assoc, <- E1; symmetry; apply firstn_skipn|]. split; [now rewrite app_assoc|exact E3].
    + destruct k; try (apply pair_equal_spec in E as (<- & <-); exists [], (b :: bs); cbn [k_got app]; rewrite ?app_nil_r; split; [reflexivity|split; [reflexivity|discriminate]]).
      apply IH in E. exact E.
Qed.
