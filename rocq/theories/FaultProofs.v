(** * Storages after inserts that failed: what the next successful insert makes of them. *)
From Coq Require Import ZifyBool ZifyNat ZifyN.
From Verif Require Import Base Crc32 Io File Block Payload Packet Rules Slot Storage Spec SpecStorage BaseProofs BlockProofs PayloadEnumProofs PacketProofs WireProofs StorageProofs SlotProofs StorageReadProofs CrashProofs.
Open Scope list_scope.
Ltac Zify.zify_post_hook ::= Z.div_mod_to_equations.

Notation C := default_capacity.

Lemma hole_length e d : hole e d -> length d = length e.
Proof. intros (k & L & ->). rewrite app_length, firstn_length, repeat_length. lia. Qed.
Lemma hole_self e : hole e e.
Proof. exists (length e). split; [lia|]. rewrite Nat.sub_diag, firstn_all. symmetry. apply app_nil_r. Qed.
Lemma hole_blen e d : hole e d -> blen d = blen e.
Proof. intros H. unfold blen. now rewrite (hole_length e d H). Qed.

Lemma zeros_app a b : zeros a ++ zeros b = zeros (a + b).
Proof. unfold zeros. symmetry. apply repeat_app. Qed.

(** The file of a writer, up to the table of the last slot and zeros at the end. *)
Record dirty (fs : list (list bytes)) (l : list bytes) (w : writer) : Prop := {
  dt_mem : w_mem (map (map blen) fs) (map blen l) (w_slots w) (w_loc w);
  dt_file : exists X k, w_data w = files fs ++ X /\ concat l = skipn (N.to_nat tsz) X ++ zeros k }.

Lemma files_start fs l : shaped fs l -> length (files fs) = N.to_nat (gszs (map (map blen) fs)).
Proof.
  intros (F & L). assert (blen (files fs) = gszs (map (map blen) fs)) as LA.
  { apply files_blen. eapply Forall_impl; [|exact F]. intros g Eg. cbv beta in Eg. unfold small. lia. }
  rewrite <- LA, to_nat_blen. reflexivity.
Qed.

Lemma ok_dirty fs l w sched flushes : w_ok fs l w -> dirty fs l (w_faults sched flushes w).
Proof.
  intros OK. pose proof (ok_shaped _ _ _ OK) as (F & L). destruct OK as [M (c & FI & D)]. split; [exact M|].
  exists (files match l with [] => [] | _ => [l] end), O. unfold w_data, w_faults, fl_data. cbn [w_file fl_cur]. rewrite FI. cbn [fl_cur]. rewrite D. unfold gro. rewrite files_app. split; [reflexivity|].
  unfold zeros. cbn [repeat]. rewrite app_nil_r. destruct l as [|x l]; [symmetry; apply skipn_nil|]. rewrite files_one. unfold gfile. rewrite skipn_app_exact; [reflexivity|].
  rewrite table_len; [reflexivity|]. rewrite map_length. lia.
Qed.

(** A part of the table over what was there. *)
Lemma over_table A X T k : (k <= length T)%nat -> exists X', overwrite (N.of_nat (length A)) (firstn k T) (A ++ X) = A ++ X' /\
  skipn (length T) X' = skipn (length T) X /\ (k = length T -> T <> [] -> X' = T ++ skipn (length T) X).
Proof.
  intros L. destruct (list_eq_dec Byte.byte_eq_dec (firstn k T) []) as [E|E].
  - exists X. rewrite E. split; [reflexivity|]. split; [reflexivity|]. intros -> NE. rewrite firstn_all in E. contradiction.
  - exists (firstn k T ++ skipn k X). assert (length (firstn k T) = k) as LF by (rewrite firstn_length; lia). split; [|split].
    + rewrite overwrite_at; [|now rewrite Nnat.Nat2N.id|exact E]. now rewrite LF.
    + rewrite skipn_app, LF. rewrite skipn_all2 by lia. cbn [app]. rewrite CrashProofs.skipn_plus. f_equal. lia.
    + intros -> _. now rewrite firstn_all.
Qed.

Lemma over_packet A B k e n : e <> [] -> (n <= length e)%nat ->
  exists j, overwrite (N.of_nat (length (A ++ B) + k)) (firstn n e) (A ++ B) = A ++ (B ++ zeros j) ++ firstn n e /\ (j <= k)%nat /\ (n <> O -> j = k).
Proof.
  intros NE L. destruct n as [|n].
  - exists O. cbn [firstn]. unfold overwrite, zeros. cbn [repeat]. rewrite !app_nil_r. split; [reflexivity|]. split; [lia|]. intros Q. now elim Q.
  - exists k. rewrite overwrite_past; [|destruct e; [contradiction|discriminate]|rewrite Nnat.Nat2N.id; lia]. rewrite Nnat.Nat2N.id, Nat.add_comm, Nat.add_sub, <- !app_assoc. auto.
Qed.

Section Faults.
Context {U : Type} (P : proto U).

Lemma insert_dirty fs l w (p : packet U) e o w' : dirty fs l w -> packet_enc P p e -> w_insert p w = (o, w') ->
  (o = Ok tt -> w_data w' = storage_file ((concat fs ++ l) ++ [e]) /\ dirty (fst (push fs l e)) (snd (push fs l e)) w') /\
  ((length l + 1 < C)%nat -> exists d, hole e d /\ (o = Ok tt -> d = e) /\ dirty fs (l ++ [d]) w').
Proof.
  intros [M (X & k & DX & CX)] HE E. pose proof (mem_shaped _ _ _ _ M) as SH. pose proof SH as (F & L). pose proof (packet_enc_nonempty _ _ _ HE) as NE.
  rewrite (insert_ok _ _ _ _ _ M (pkt_write_all_ok P p e [] HE)) in E. change ([] ++ e) with e in E.
  set (T := slot_table (map blen l ++ [blen e])) in *.
  assert (length (map blen l ++ [blen e]) <= C)%nat as LS by (rewrite app_length, map_length; cbn [length]; lia).
  destruct (w_store _ _ _ _ _) as (o1 & f1) eqn:ST. injection E as <- <-. cbn [w_slots w_loc].
  destruct (store_crash _ _ _ _ _ _ _ _ (lsl_bytes _ LS) ST) as (k1 & k2 & L1 & L2 & K & D & OUT). fold T in L1, K, D, OUT.
  assert (length T = N.to_nat tsz) as LT by (apply table_len; exact LS).
  assert (T <> []) as NT by (intros Q; rewrite Q in LT; discriminate LT).
  fold (w_data w) in D. rewrite DX in D. pose proof (files_start _ _ SH) as LA.
  destruct (over_table (files fs) X T k1 L1) as (X1 & E1 & S1 & F1). rewrite LA, N2Nat.id in E1. rewrite E1 in D.
  assert (0 < blen e) as PE by (destruct e; [contradiction|rewrite blen_cons; lia]).
  pose proof (mem_push _ _ (blen e) _ _ M PE) as MP. rewrite push_map in MP. cbn [fst snd] in MP.
  set (B := skipn (N.to_nat tsz) X) in *.
  assert (N.to_nat (sum (map blen l)) = length B + k)%nat as LB.
  { rewrite <- concat_blen, to_nat_blen, CX, app_length. unfold zeros. now rewrite repeat_length. }
  assert (exists j, fl_data f1 = files fs ++ X1 ++ zeros j ++ firstn k2 e /\ (k2 <> O -> X1 = T ++ B /\ j = k) /\ (k2 = O -> j = O)) as (j & D1 & J1 & J0).
  { destruct k2 as [|k2].
    - exists O. rewrite D. cbn [firstn]. unfold overwrite, zeros. cbn [repeat]. rewrite !app_nil_r. split; [reflexivity|]. split; [intros Q; now elim Q|reflexivity].
    - specialize (F1 (K ltac:(discriminate)) NT). rewrite LT in F1. fold B in F1. rewrite F1 in D |- *.
      destruct (over_packet (files fs ++ T) B k e (S k2) NE L2) as (j & EJ & _ & JK).
      assert (gszs (map (map blen) fs) + (sum (map blen l) + tsz) = N.of_nat (length ((files fs ++ T) ++ B) + k)) as OFF by (rewrite !app_length, LA, LT; unfold tsz in *; lia).
      rewrite OFF, (app_assoc (files fs) T B), EJ in D. exists j. split; [|split; [intros _; split; [reflexivity|now apply JK]|discriminate]].
      rewrite D. now rewrite <- !app_assoc. }
  assert (skipn (N.to_nat tsz) X1 = B) as S1' by (rewrite <- LT, S1, LT; reflexivity).
  split.
  - intros ->. destruct OUT as [(_ & -> & ->)|(x & Q)]; [|discriminate Q].
    destruct (J1 ltac:(destruct e; [contradiction|discriminate])) as (EX & ->). rewrite firstn_all in D1.
    assert (w_data (mk_writer (map lsl (map (map blen) fs) ++ [lsl (map blen l ++ [blen e])]) f1 (at_loc (map (map blen) fs))) = files (fs ++ [l ++ [e]])) as DW.
    { unfold w_data. cbn [w_file]. rewrite D1, EX, files_app, files_one. unfold gfile. rewrite map_app, concat_app. cbn [map concat]. fold T. rewrite app_nil_r, CX, <- !app_assoc. reflexivity. }
    split.
    + rewrite DW, <- concat_push, storage_shaped by now apply shaped_push. now rewrite gro_push.
    + split; [exact MP|]. unfold push. destruct (Nat.eqb_spec (length l + 1) C) as [EC|EC]; cbn [fst snd].
      * exists [], O. rewrite app_nil_r, skipn_nil. split; [exact DW|reflexivity].
      * exists (gfile (l ++ [e])), O. rewrite DW, files_app, files_one. split; [reflexivity|]. unfold gfile. rewrite map_app. cbn [map]. fold T. rewrite skipn_app_exact by (rewrite LT; reflexivity). unfold zeros. cbn [repeat]. now rewrite app_nil_r.
  - intros LC. unfold push in MP. replace (length l + 1 =? C)%nat with false in MP by lia. cbn [fst snd] in MP.
    exists (firstn k2 e ++ zeros (length e - k2)). split; [exists k2; split; [exact L2|reflexivity]|]. split.
    { intros ->. destruct OUT as [(_ & _ & ->)|(x & Q)]; [|discriminate Q]. rewrite Nat.sub_diag, firstn_all. apply app_nil_r. }
    split.
    + cbn [w_slots w_loc]. rewrite map_app in MP |- *. cbn [map] in MP |- *. replace (blen (firstn k2 e ++ zeros (length e - k2))) with (blen e); [exact MP|].
      symmetry. apply hole_blen. exists k2. split; [exact L2|reflexivity].
    + unfold w_data. cbn [w_file]. rewrite D1. exists (X1 ++ zeros j ++ firstn k2 e). rewrite concat_app, CX. cbn [concat]. rewrite app_nil_r.
      destruct k2 as [|k2].
      * exists (k + length e)%nat. split; [reflexivity|]. rewrite J0 by reflexivity. change (firstn 0 e) with (@nil byte). unfold zeros at 3. cbn [repeat app]. rewrite app_nil_r, S1', Nat.sub_0_r, <- app_assoc, zeros_app. reflexivity.
      * destruct (J1 ltac:(discriminate)) as (EX & ->). exists (length e - S k2)%nat. split; [reflexivity|]. rewrite EX, <- (app_assoc T), skipn_app_exact by (rewrite LT; reflexivity). now rewrite <- !app_assoc.
Qed.

(** Any number of inserts with any answers of the system. *)
Lemma tries_dirty ps : forall es' fs l w rs w', dirty fs l w -> Forall2 (packet_enc P) ps es' -> w_tries ps w = (rs, w') ->
  (forall i k, nth_error rs i = Some (Err k) -> (length (concat fs ++ l) + i) mod 500 <> 499)%nat ->
  exists ds, stored es' rs ds /\ (exists fs' l', dirty fs' l' w' /\ concat fs' ++ l' = (concat fs ++ l) ++ ds) /\
    (forall rs0, rs = rs0 ++ [Ok tt] -> w_data w' = storage_file ((concat fs ++ l) ++ ds)).
Proof.
  induction ps as [|p ps IH]; intros es' fs l w rs w' DI FE E NL; inversion FE as [|? e ? es2 HE FE2]; subst; cbn [w_tries] in E.
  - injection E as <- <-. exists []. split; [constructor|]. rewrite app_nil_r. split; [exists fs, l; split; [exact DI|reflexivity]|]. intros [|? ?] Q; discriminate Q.
  - destruct (w_insert p w) as (o & w1) eqn:EI. destruct (w_tries ps w1) as (os2 & w2) eqn:ET. injection E as <- <-.
    destruct (insert_dirty fs l w p e o w1 DI HE EI) as (OKC & ERR). pose proof (mem_shaped _ _ _ _ (dt_mem _ _ _ DI)) as SH.
    assert (exists fs1 l1 d, dirty fs1 l1 w1 /\ concat fs1 ++ l1 = (concat fs ++ l) ++ [d] /\ hole e d /\ (o = Ok tt -> d = e)) as (fs1 & l1 & d & D1 & C1 & H1 & O1).
    { destruct o as [[]|x|x].
      - destruct (OKC eq_refl) as (_ & D1). exists (fst (push fs l e)), (snd (push fs l e)), e. split; [exact D1|]. split; [apply concat_push|]. split; [apply hole_self|reflexivity].
      - assert (length l + 1 < C)%nat as LC.
        { specialize (NL O x eq_refl). destruct SH as (F & L). rewrite <- cap_eq in NL at 1. rewrite Nat.add_0_r, app_length, length_concat_full, Nat.add_comm, Nat.mod_add, Nat.mod_small in NL by (exact F || lia). rewrite cap_eq in *. lia. }
        destruct (ERR LC) as (d & H1 & O1 & D1). exists fs, (l ++ [d]), d. split; [exact D1|]. split; [apply app_assoc|]. split; [exact H1|exact O1].
      - exfalso. destruct (insert_holds P fs l w p e (Panic x) w1 (dt_mem _ _ _ DI) HE EI) as (_ & _ & [(Q & _)|(k & Q)]); discriminate Q. }
    destruct (IH es2 fs1 l1 w1 os2 w2 D1 FE2 ET) as (ds & ST & (fs' & l' & D' & C') & LAST).
    { intros i k N. specialize (NL (S i) k N). rewrite C1, app_length. cbn [length]. replace (length (concat fs ++ l) + 1 + i)%nat with (length (concat fs ++ l) + S i)%nat by lia. exact NL. }
    exists (d :: ds). split; [constructor; assumption|]. split.
    + exists fs', l'. split; [exact D'|]. rewrite C', C1, <- app_assoc. reflexivity.
    + intros rs0 Q. destruct rs0 as [|r rs0]; cbn [app] in Q; injection Q as Q1 Q2.
      * subst o os2. destruct ps as [|p2 ps]; [|cbn [w_tries] in ET; destruct (w_insert p2 w1); destruct (w_tries ps _); discriminate ET]. cbn [w_tries] in ET. injection ET as <-.
        inversion ST; subst. destruct (OKC eq_refl) as (DW & _). rewrite (O1 eq_refl). exact DW.
      * rewrite (LAST rs0 Q2), C1, <- app_assoc. reflexivity.
Qed.

(** A failure at the last place of a slot. *)
Lemma fail_last fs l w (p q : packet U) e e' : w_ok fs l w -> nonempty_all (concat fs ++ l) -> packet_enc P p e -> packet_enc P q e' ->
  (length l + 1 = C)%nat -> blen (storage_file (concat fs ++ l)) < two63 ->
  exists w1 w2, w_insert p (w_faults [] [Some OtherIo] w) = (Err (EIo OtherIo), w1) /\ w_insert q w1 = (Ok tt, w2) /\
    w_data w2 = storage_file (concat fs ++ l) ++ zeros (length e) ++ storage_file [e'] /\
    exists c, load (mk_cursor (w_data w2) 0) = (Err (EDamagedSlot ESignatureDismatch), c).
Proof.
  intros OK NE HE HE' LC B. pose proof (ok_shaped _ _ _ OK) as SH. pose proof SH as (F & L). destruct OK as [M (c0 & FI & D0)].
  rewrite (insert_ok (map (map blen) fs) (map blen l) (w_faults _ _ w) p e M (pkt_write_all_ok P p e [] HE)).
  unfold w_store at 1. unfold w_faults. cbn [w_file]. cbn [file_flush fl_flushes sbind fl_cur fl_sched]. rewrite FI. cbn [fl_cur].
  eexists. assert (0 < blen e) as PE by (pose proof (packet_enc_big _ _ _ HE); lia). assert (0 < blen e') as PE' by (pose proof (packet_enc_big _ _ _ HE'); lia).
  pose proof (mem_push _ _ (blen e) _ _ M PE) as Q. unfold push in Q. rewrite map_length in Q. replace (length l + 1 =? C)%nat with true in Q by lia. cbn [fst snd] in Q.
  set (w1 := mk_writer _ _ _).
  pose proof (insert_ok _ [] w1 q e' Q (pkt_write_all_ok P q e' [] HE')) as I2. cbn [w_file w1 app] in I2.
  assert (length [blen e'] <= C)%nat as LS by (rewrite cap_eq; cbn [length]; lia).
  match type of I2 with context [w_store _ ?so ?off _ _] => destruct (store_ok (lsl [blen e']) so off _ e' c0 (lsl_bytes _ LS)) as (c' & ST & D') end.
  rewrite ST in I2. eexists. split; [reflexivity|]. split; [exact I2|]. clear I2.
  set (G := map (map blen) fs ++ [map blen l ++ [blen e]]) in *.
  assert (N.to_nat (gszs G) = length (files (gro fs l)) + length e)%nat as LG.
  { unfold G. rewrite gszs_app. unfold gszs at 2. cbn [map sum fold_right]. unfold gsz. rewrite sum_app. cbn [sum fold_right].
    pose proof (files_start _ _ SH) as LA. unfold gro. rewrite files_app, app_length, LA. destruct l as [|x l]; [cbn [length] in LC; rewrite cap_eq in LC; lia|].
    rewrite files_one. pose proof (gfile_blen (x :: l)) as GB. unfold gsz in GB. specialize (GB ltac:(lia)).
    assert (blen e = N.of_nat (length e)) as BE by reflexivity. revert GB. generalize (sum (map blen (x :: l))). unfold blen at 1. intros n GB. lia. }
  assert (length (slot_table [blen e']) = N.to_nat tsz) as LT by (apply table_len; exact LS).
  assert (storage_file [e'] = slot_table [blen e'] ++ e') as SF.
  { change [e'] with (concat [] ++ [e']). rewrite storage_shaped by (split; [constructor|rewrite cap_eq; cbn [length]; lia]). cbn [gro app]. rewrite files_one. unfold gfile. cbn [map concat]. now rewrite app_nil_r. }
  assert (w_data (mk_writer (map lsl G ++ [lsl [blen e']]) (mk_file c' [] []) (at_loc G)) = storage_file (concat fs ++ l) ++ zeros (length e) ++ storage_file [e']) as DW.
  { unfold w_data, fl_data. cbn [w_file fl_cur]. rewrite D', D0, storage_shaped by exact SH. rewrite SF.
    rewrite (overwrite_past _ (slot_table [blen e'])); [|intros Z; rewrite Z in LT; discriminate LT|lia]. rewrite LG, Nat.add_comm, Nat.add_sub.
    rewrite overwrite_past; [|intros ->; discriminate PE'|rewrite !app_length, LT; unfold zeros; rewrite repeat_length; lia].
    replace (N.to_nat (gszs G + (sum [] + tsz)) - length (files (gro fs l) ++ zeros (length e) ++ slot_table [blen e']))%nat with O; [unfold zeros at 2; cbn [repeat app]; now rewrite <- !app_assoc|].
    rewrite !app_length, LT. unfold zeros. rewrite repeat_length. cbn [sum fold_right]. lia. }
  split; [exact DW|]. rewrite DW.
  pose proof (shaped_filled _ _ SH NE) as FG. rewrite storage_shaped in B |- * by exact SH. set (gs := gro fs l) in *. set (J := zeros (length e) ++ storage_file [e']).
  unfold load. pose proof (files_fuel gs FG) as FU. cbn [c_data]. set (c := mk_cursor (files gs ++ J) 0).
  replace (length (files gs ++ J) + 1)%nat with (length gs + S (length (files gs ++ J) - length gs))%nat by (rewrite app_length; lia).
  destruct (load_skip J gs (S (length (files gs ++ J) - length gs)) [] [] c eq_refl FG B) as (c2 & E2 & D2). change (blen []) with 0 in E2. rewrite E2.
  cbn [load_go app].
  assert (exists c3, slot_try_read (c_seek (blen (files gs)) c2) = (Err ESignatureDismatch, c3)) as (c3 & E3).
  { destruct (c_at (files gs) J (files gs ++ J) (blen (files gs)) eq_refl eq_refl c2 D2) as (V & O & _). revert V O. generalize (c_seek (blen (files gs)) c2). intros d V O.
    assert (16 <= length J)%nat as LJ by (unfold J; rewrite app_length; unfold zeros; rewrite repeat_length; pose proof (packet_enc_big _ _ _ HE); unfold blen in *; lia).
    assert (exists r, J = zeros 8 ++ r) as (r & EJ).
    { exists (zeros (length e - 8) ++ storage_file [e']). unfold J. rewrite app_assoc, zeros_app. do 2 f_equal. pose proof (packet_enc_big _ _ _ HE). unfold blen in *. lia. }
    rewrite EJ in *. unfold slot_try_read, slot_hdr_try_read. rewrite c_available_ok by exact O. cbn [sbind].
    rewrite c_available_ok by exact O. cbn [sbind]. unfold slot_hdr_size. rewrite V. replace (blen (zeros 8 ++ r) <? 16) with false by (unfold blen; lia).
    destruct (lw_ok _ _ _ cursor_lawful 8 d (zeros 8) r O V eq_refl) as (d1 & E1 & _). rewrite E1. cbn [sbind].
    replace (negb (bytes_eqb (zeros 8) slot_sig)) with true by reflexivity. cbn [stbind sbind]. eexists. reflexivity. }
  rewrite E3. eexists. reflexivity.
Qed.
End Faults.

(** One packet of a storage in which others may be broken. *)
Lemma nth_one {U} (P : proto U) (HP : proto_ok P) es r n e (p : packet U) : d_ok es r -> nth_error es n = Some e -> packet_enc P p e -> few p ->
  exists r', d_nth P n r = (Ok (Some p), r').
Proof.
  intros OK EE HE Hw. pose proof (place_ok es r n OK) as PL. rewrite EE in PL. destruct PL as (A & B & E1 & D). unfold d_nth. rewrite E1. cbn [sbind].
  destruct (c_at A (e ++ B) _ (blen A) D eq_refl _ eq_refl) as (V & O & D').
  destruct (pkt_try_read_rt P p e _ B HP HE Hw O V) as (E2 & _ & _). rewrite E2. cbn [rbind]. eauto.
Qed.

Lemma stored_nonempty es rs ds : stored es rs ds -> nonempty_all es -> nonempty_all ds.
Proof.
  induction 1 as [|e es r rs d ds H _ S IH]; intros N; [constructor|]. inversion N as [|? ? NE N']; subst. constructor; [|exact (IH N')].
  intros ->. apply hole_length in H. destruct e; [contradiction|discriminate H].
Qed.
Lemma stored_sizes es rs ds : stored es rs ds -> map blen ds = map blen es.
Proof. induction 1 as [|e es r rs d ds H _ S IH]; [reflexivity|]. cbn [map]. rewrite IH. f_equal. now apply hole_blen. Qed.
Lemma stored_ok es rs ds : stored es rs ds -> forall i e, nth_error rs i = Some (Ok tt) -> nth_error es i = Some e -> nth_error ds i = Some e.
Proof.
  induction 1 as [|e es r rs d ds H O S IH]; intros [|i] x R N; cbn [nth_error] in *; try discriminate R; [|now apply IH].
  injection R as ->. injection N as ->. now rewrite O.
Qed.
