(** * Properties of the storage (C33-C39, C71). *)
From Coq Require Import ZifyBool ZifyNat ZifyN.
From Verif Require Import Base Crc32 Io File Block Payload Packet Rules Slot Storage Spec SpecStorage BaseProofs BlockProofs PayloadEnumProofs StorageProofs StorageReadProofs ReloadProofs ReadingProofs SpareProofs WireProofs CrossProofs Samples.
Open Scope list_scope.

(** In all theorems [es] are the encodings of the packets and the storage is smaller than 2^63 bytes, the largest file.
    [256] is the limit of [Packet::read] (C19). *)

(** ** C33, C34 *)

(** The file has the documented layout, whatever the points at which the writer was closed and opened again. *)
Theorem C33_layout : forall U (P : proto U) (os : list (w_op U)) es,
  Forall2 (packet_enc P) (w_inserted os) es -> blen (storage_file es) < two63 ->
  exists w, w_history os = Ok w /\ w_data w = storage_file es.
Proof.
  intros U P os es FE B. destruct (history_ok P os es FE B) as (fs & l & w & E & OK & EE).
  exists w. split; [exact E|]. rewrite <- EE. now apply history_data.
Qed.
Print Assumptions C33_layout.

Theorem C33_reader_in_use : forall U (P : proto U) ps es (r : sreader U), proto_ok P ->
  reading es r -> Forall2 (packet_enc P) ps es -> Forall (fun p => length (p_blocks p) <= 256)%nat ps -> blen (storage_file es) < two63 ->
  d_count r = length ps /\ yields (t_next P) (d_iter r) (map Ok ps).
Proof.
  intros U P ps es r HP RD FE FW B. destruct (reading_ok P es r RD ps FE B) as (OK & _). split.
  - rewrite (count_ok _ _ OK). symmetry. eapply encs_length. exact FE.
  - destruct (start_ok es r OK) as (gs & IT & EE). apply (iter_yields P HP ps [] gs (d_iter r) es IT EE FE). now apply forall_few.
Qed.
Print Assumptions C33_reader_in_use.

Theorem C33_append_only_list : forall U (P : proto U) (os : list (w_op U)) es, proto_ok P ->
  let ps := w_inserted os in
  Forall2 (packet_enc P) ps es -> Forall (fun p => length (p_blocks p) <= 256)%nat ps -> blen (storage_file es) < two63 ->
  exists w (r : sreader U), w_history os = Ok w /\ d_open (w_data w) = Ok r /\ d_count r = length ps /\ yields (t_next P) (d_iter r) (map Ok ps).
Proof.
  intros U P os es HP ps FE FW B. destruct (C33_layout U P os es FE B) as (w & E & D).
  destruct (@open_reader U es _ eq_refl (encs_nonempty _ _ _ FE) B) as (r & ER & _). exists w, r. split; [exact E|]. rewrite D. split; [exact ER|].
  apply (C33_reader_in_use U P ps es r HP); auto. now apply reading_exact.
Qed.
Print Assumptions C33_append_only_list.

Theorem C34_reopening_changes_nothing : forall U (P : proto U) (os : list (w_op U)) es,
  Forall2 (packet_enc P) (w_inserted os) es -> blen (storage_file es) < two63 ->
  exists w w', w_history os = Ok w /\ w_history (map WInsert (w_inserted os)) = Ok w' /\ w_data w = w_data w'.
Proof.
  intros U P os es FE B. destruct (C33_layout U P os es FE B) as (w & E & D).
  assert (w_inserted (map WInsert (w_inserted os)) = w_inserted os) as EI.
  { generalize (w_inserted os). intros l. unfold w_inserted. rewrite map_map. induction l as [|p l IH]; [reflexivity|]. cbn [map concat app]. now rewrite IH. }
  destruct (C33_layout U P (map WInsert (w_inserted os)) es) as (w' & E' & D'); [now rewrite EI|exact B|].
  exists w, w'. rewrite D, D'. auto.
Qed.
Print Assumptions C34_reopening_changes_nothing.

Lemma enc_repeat p e k : packet_enc P0 p e -> Forall2 (packet_enc P0) (repeat p k) (repeat e k).
Proof. intros H. induction k; cbn [repeat]; constructor; auto. Qed.

(** Packets in three slots, with reopening on both sides of a slot boundary. *)
Definition long_history : list (w_op N) :=
  WReopen :: map WInsert (repeat p_num 499) ++ [WReopen; WInsert p_txt; WReopen; WInsert p_raw] ++ map WInsert (repeat p_void 600) ++ [WReopen].
Definition long_packets : list (packet N) := repeat p_num 499 ++ [p_txt; p_raw] ++ repeat p_void 600.
Definition long_encoded : list bytes := repeat (wire p_num) 499 ++ [wire p_txt; wire p_raw] ++ repeat (wire p_void) 600.
Lemma long_inserted : w_inserted long_history = long_packets.
Proof. reflexivity. Qed.
Lemma long_enc : Forall2 (packet_enc P0) long_packets long_encoded.
Proof.
  apply Forall2_app; [apply enc_repeat, p_num_enc|]. apply Forall2_app; [|apply enc_repeat, p_void_enc].
  repeat constructor; [apply p_txt_enc|apply p_raw_enc].
Qed.
Lemma forall_repeat {A} (Q : A -> Prop) x k : Q x -> Forall Q (repeat x k).
Proof. intros H. induction k; cbn [repeat]; constructor; auto. Qed.
Lemma long_few : Forall (fun p => length (p_blocks p) <= 256)%nat long_packets.
Proof. repeat (apply Forall_app; split); try (apply forall_repeat; cbn; lia). repeat constructor; cbn; lia. Qed.
Lemma long_size : blen (storage_file long_encoded) < two63.
Proof. vm_compute. reflexivity. Qed.
Example C33_example : exists w (r : sreader N), w_history long_history = Ok w /\ d_open (w_data w) = Ok r /\ d_count r = 1101%nat /\
  yields (t_next P0) (d_iter r) (map Ok long_packets).
Proof.
  pose proof (C33_append_only_list N P0 long_history long_encoded P0_ok) as T. cbv zeta in T. rewrite long_inserted in T.
  exact (T long_enc long_few long_size).
Qed.
Example C34_example : exists w w', w_history long_history = Ok w /\ w_history (map WInsert long_packets) = Ok w' /\ w_data w = w_data w'.
Proof. rewrite <- long_inserted. apply (C34_reopening_changes_nothing N P0 long_history long_encoded); [rewrite long_inserted; exact long_enc|exact long_size]. Qed.

(** ** C35, C36 *)
Theorem C35_nth_is_indexing : forall U (P : proto U) ps es (r : sreader U) n, proto_ok P ->
  reading es r -> Forall2 (packet_enc P) ps es -> Forall (fun p => length (p_blocks p) <= 256)%nat ps -> blen (storage_file es) < two63 ->
  exists r', d_nth P n r = (Ok (nth_error ps n), r') /\
    (** the reader can be used as before *)
    (forall m, exists r'', d_nth P m r' = (Ok (nth_error ps m), r'')) /\ d_count r' = length ps /\ yields (t_next P) (d_iter r') (map Ok ps).
Proof.
  intros U P ps es r n HP RD FE FW B. destruct (reading_ok P es r RD ps FE B) as (OK & _). apply forall_few in FW.
  destruct (nth_ok P HP ps es r n OK FE FW) as (r' & E & OK' & _). exists r'. split; [exact E|]. split; [|split].
  - intros m. destruct (nth_ok P HP ps es r' m OK' FE FW) as (r'' & E' & _). eauto.
  - rewrite (count_ok _ _ OK'). symmetry. eapply encs_length. exact FE.
  - destruct (start_ok es r' OK') as (gs & IT & EE). exact (iter_yields P HP ps [] gs (d_iter r') es IT EE FE FW).
Qed.
Print Assumptions C35_nth_is_indexing.

Theorem C36_range_is_slicing : forall U (P : proto U) ps es (r : sreader U) from len, proto_ok P ->
  reading es r -> Forall2 (packet_enc P) ps es -> Forall (fun p => length (p_blocks p) <= 256)%nat ps -> blen (storage_file es) < two63 ->
  yields (g_next P) (mk_ranged r len from) (map Ok (firstn len (skipn from ps))).
Proof.
  intros U P ps es r from len HP RD FE FW B. destruct (reading_ok P es r RD ps FE B) as (OK & _).
  apply (range_yields P HP ps es len r from OK FE). now apply forall_few.
Qed.
Print Assumptions C36_range_is_slicing.

(** A reader that was opened on an empty file, reloaded, given rules, reloaded again, with its file position moved. *)
Definition keep_texts : rule_op N := OpAdd (RFilter (fun p => match p_payload p with Some (PString _) => true | _ => false end)).
Definition long_first : list bytes := repeat (wire p_num) 499 ++ [wire p_txt].
Definition long_second : list bytes := wire p_raw :: repeat (wire p_void) 600.
Lemma used_reader : exists r : sreader N, reading long_encoded r /\ map id_of (d_rules r) = [IdFilter] /\ c_pos (d_file r) = 12.
Proof.
  assert (long_encoded = ([] ++ long_first) ++ long_second) as -> by reflexivity.
  assert (nonempty_all (([] ++ long_first) ++ long_second)) as NE by exact (encs_nonempty _ _ _ long_enc).
  pose proof NE as NE'. apply Forall_app in NE' as (NE1 & NE2). apply Forall_app in NE1 as (_ & NE1).
  assert (blen (storage_file (([] ++ long_first) ++ long_second)) < two63) as B by exact long_size.
  assert (blen (storage_file ([] ++ long_first)) < two63) as B1 by (pose proof (storage_mono ([] ++ long_first) long_second); lia).
  destruct (@open_reader N [] _ eq_refl ltac:(constructor) ltac:(reflexivity)) as (r0 & E0 & OK0 & RU0).
  destruct (reload_fresh [] long_first r0 OK0 NE1 B1) as (r1 & E1 & OK1 & RU1). { right. left. reflexivity. }
  set (r2 := d_with_rules (rule_history [keep_texts]) r1).
  destruct (reload_fresh ([] ++ long_first) long_second r2 ltac:(now apply with_rules) NE2 B) as (r3 & E3 & OK3 & RU3). { right. left. reflexivity. }
  exists (d_with_file (c_seek 12 (d_file r3)) r3). split; [|split; [cbn [d_with_file d_rules]; now rewrite RU3|reflexivity]].
  apply reading_moved. eapply reading_reload; [|right; left; reflexivity|exact E3]. apply reading_rules.
  eapply reading_reload; [|right; left; reflexivity|exact E1]. now apply reading_exact.
Qed.
Example C35_example : exists (r r1 r2 r3 : sreader N), reading long_encoded r /\ d_nth P0 499 r = (Ok (Some p_txt), r1) /\ d_nth P0 500 r1 = (Ok (Some p_raw), r2) /\
  d_nth P0 1101 r2 = (Ok None, r3).
Proof.
  destruct used_reader as (r & RD & _). destruct (reading_ok P0 _ r RD _ long_enc long_size) as (OK & _).
  destruct (nth_ok P0 P0_ok _ _ r 499 OK long_enc (forall_few _ long_few)) as (r1 & E1 & OK1 & _).
  destruct (nth_ok P0 P0_ok _ _ r1 500 OK1 long_enc (forall_few _ long_few)) as (r2 & E2 & OK2 & _).
  destruct (nth_ok P0 P0_ok _ _ r2 1101 OK2 long_enc (forall_few _ long_few)) as (r3 & E3 & _).
  exists r, r1, r2, r3. split; [exact RD|]. rewrite E1, E2, E3. repeat split.
Qed.
Example C36_example : exists r : sreader N, reading long_encoded r /\ yields (g_next P0) (mk_ranged r 4 498) (map Ok [p_num; p_txt; p_raw; p_void]).
Proof.
  destruct used_reader as (r & RD & _). exists r. split; [exact RD|].
  exact (C36_range_is_slicing N P0 long_packets long_encoded r 498 4 P0_ok RD long_enc long_few long_size).
Qed.

(** ** C37 *)

(** Past the end. *)
Theorem C37_seek_out_of_bounds : forall U (P : proto U) ps es (r : sreader U) n,
  reading es r -> Forall2 (packet_enc P) ps es -> blen (storage_file es) < two63 -> (length ps <= n)%nat ->
  d_seek n r = Err (match ps with [] => EEmptySource | _ => EOutOfBounds (N.of_nat ((length ps + 499) / 500 * 500)) (N.of_nat n) end).
Proof.
  intros U P ps es r n RD FE B L. destruct (reading_ok P es r RD ps FE B) as (OK & _). rewrite (encs_length P ps es FE) in *.
  rewrite (seek_out es r n OK L). destruct FE; reflexivity.
Qed.
Print Assumptions C37_seek_out_of_bounds.

(** Missing: packets of the slots after the one sought (refuted below). *)
Theorem C37_seek_partial : forall U (P : proto U) ps es (r : sreader U) n, proto_ok P ->
  reading es r -> Forall2 (packet_enc P) ps es -> Forall (fun p => length (p_blocks p) <= 256)%nat ps -> blen (storage_file es) < two63 ->
  (n < length ps)%nat ->
  exists t t', d_seek n r = Ok t /\
    (** the packets up to the end of the slot come first *)
    gives (t_next P) t (map Ok (firstn (500 - n mod 500) (skipn n ps))) t' /\
    (** in the last slot these are all *)
    ((length ps <= 500 * (n / 500 + 1))%nat -> yields (t_next P) t (map Ok (skipn n ps))).
Proof.
  intros U P ps es r n HP RD FE FW B L. destruct (reading_ok P es r RD ps FE B) as (OK & _). apply forall_few in FW.
  destruct (seek_gives P HP es r ps n OK FE FW L) as (t & t' & E & G & _). exists t, t'. split; [exact E|]. split; [exact G|].
  intros LAST. destruct (seek_last P HP es r ps n OK FE FW L LAST) as (t2 & E2 & Y). rewrite E in E2. injection E2 as <-. exact Y.
Qed.
Print Assumptions C37_seek_partial.

(** The first items of an iterator. *)
Fixpoint take {I A} (next : I -> option A * I) (k : nat) (i : I) : list (option A) :=
  match k with O => [] | S k => let (o, i) := next i in o :: take next k i end.
Lemma yields_take {I A} (next : I -> option A * I) i l : yields next i l -> forall k, (k <= length l)%nat -> take next k i = map Some (firstn k l).
Proof.
  induction 1 as [i i' E|i a i' l E Y IH]; intros [|k] L; cbn [length] in L; try reflexivity; [lia|].
  cbn [take firstn map]. rewrite E, IH by lia. reflexivity.
Qed.

(** What comes behind the slot sought when it is not the last: its first packet again, the wrong packet without any error.
    Only when that packet has more bytes than all the packets of the next slot together there is something else. *)
Theorem C37_behind_the_slot : forall U (P : proto U) ps es (r : sreader U) n p0 e0, proto_ok P ->
  reading es r -> Forall2 (packet_enc P) ps es -> Forall (fun p => length (p_blocks p) <= 256)%nat ps -> blen (storage_file es) < two63 ->
  (500 * (n / 500 + 1) < length ps)%nat -> nth_error ps (500 * (n / 500)) = Some p0 -> nth_error es (500 * (n / 500)) = Some e0 ->
  blen e0 <= blen (concat (firstn 500 (skipn (500 * (n / 500 + 1)) es))) ->
  exists t t' t'', d_seek n r = Ok t /\ gives (t_next P) t (map Ok (firstn (500 - n mod 500) (skipn n ps))) t' /\ t_next P t' = (Some (Ok p0), t'').
Proof.
  intros U P ps es r n p0 e0 HP RD FE FW B L NP NE SZ. destruct (reading_ok P es r RD ps FE B) as (OK & _). apply forall_few in FW.
  exact (seek_wrong P HP es r ps n p0 e0 OK FE FW L NP NE SZ).
Qed.
Print Assumptions C37_behind_the_slot.

Lemma gives_take {I A} (next : I -> option A * I) i l i' : gives next i l i' -> forall k, take next (length l + k) i = map Some l ++ take next k i'.
Proof. induction 1 as [|i a i1 l i' E G IH]; intros k; [reflexivity|]. cbn [length map app take Nat.add]. rewrite E, IH. reflexivity. Qed.

(** 501 packets of the same size; seeking the last one of the first slot gives it, and then the packet at index 0 instead
    of the one at index 500. *)
Definition same_size : list (packet N) := p_one :: repeat p_two 499 ++ [p_three].
Theorem C37_seek_refuted : exists ps es (r : sreader N) n t,
  Forall2 (packet_enc P0) ps es /\ Forall (fun p => length (p_blocks p) <= 256)%nat ps /\ blen (storage_file es) < two63 /\
  d_open (storage_file es) = Ok r /\ (n < length ps)%nat /\ d_seek n r = Ok t /\ take (t_next P0) 2 t = [Some (Ok p_two); Some (Ok p_one)] /\
  skipn n ps = [p_two; p_three] /\ ~ yields (t_next P0) t (map Ok (skipn n ps)).
Proof.
  set (es := wire p_one :: repeat (wire p_two) 499 ++ [wire p_three]).
  assert (Forall2 (packet_enc P0) same_size es) as FE.
  { unfold es, same_size. constructor; [apply p_one_enc|]. apply Forall2_app; [|repeat constructor; apply p_three_enc]. apply enc_repeat, p_two_enc. }
  assert (Forall (fun p => length (p_blocks p) <= 256)%nat same_size) as FW.
  { constructor; [cbn; lia|]. apply Forall_app. split; [apply forall_repeat; cbn; lia|repeat constructor; cbn; lia]. }
  assert (blen (storage_file es) < two63) as B by (vm_compute; reflexivity).
  destruct (@open_reader N es _ eq_refl (encs_nonempty _ _ _ FE) B) as (r & E & _).
  assert (length same_size = 501)%nat as L by reflexivity.
  destruct (C37_behind_the_slot N P0 same_size es r 499 p_one (wire p_one) P0_ok (reading_exact _ _ E) FE FW B) as (t & t' & t'' & ES & G & NX).
  { rewrite L. vm_compute. lia. } { reflexivity. } { reflexivity. } { vm_compute. discriminate. }
  change (skipn 499 same_size) with [p_two; p_three] in G. change (firstn (500 - 499 mod 500) [p_two; p_three]) with [p_two] in G.
  assert (take (t_next P0) 2 t = [Some (Ok p_two); Some (Ok p_one)]) as T.
  { pose proof (gives_take _ _ _ _ G 1) as T. cbn [length Nat.add map] in T. rewrite T. cbn [take app]. rewrite NX. reflexivity. }
  exists same_size, es, r, 499%nat, t. split; [exact FE|]. split; [exact FW|]. split; [exact B|]. split; [exact E|]. split; [rewrite L; lia|].
  split; [exact ES|]. split; [exact T|]. split; [reflexivity|]. change (skipn 499 same_size) with [p_two; p_three].
  intros Y. apply yields_take with (k := 2%nat) in Y; [|cbn; lia]. rewrite T in Y. apply (f_equal (map (option_map (rmap obs)))) in Y. vm_compute in Y. discriminate Y.
Qed.
Print Assumptions C37_seek_refuted.
Example C37_example : exists (r : sreader N) t, reading long_encoded r /\ d_seek 1099 r = Ok t /\ yields (t_next P0) t (map Ok [p_void; p_void]).
Proof.
  destruct used_reader as (r & RD & _). exists r.
  destruct (C37_seek_partial N P0 long_packets long_encoded r 1099 P0_ok RD long_enc long_few long_size ltac:(vm_compute; lia)) as (t & t' & E & _ & Y).
  exists t. split; [exact RD|]. split; [exact E|]. apply Y. vm_compute. lia.
Qed.

(** ** C38 *)
Theorem C38_filtered_iteration : forall U (P : proto U) ps es (r : sreader U), proto_ok P ->
  reading es r -> Forall2 (packet_enc P) ps es -> blen (storage_file es) < two63 ->
  exists ks, kept P (d_rules r) ps ks /\ yields (t_next_filtered P (d_rules r)) (d_iter r) (map Ok ks).
Proof.
  intros U P ps es r HP RD FE B. destruct (reading_ok P es r RD ps FE B) as (OK & ND). destruct (start_ok es r OK) as (gs & IT & EE).
  destruct (kept_exists P (d_rules r) ps es HP ND FE) as (ks & K). exists ks. split; [exact K|].
  apply (filtered_yields P HP (d_rules r) ks ND ps [] gs (d_iter r) K IT). cbn [app]. now rewrite EE.
Qed.
Print Assumptions C38_filtered_iteration.

Theorem C38_range_filtered : forall U (P : proto U) ps es (r : sreader U) from len, proto_ok P ->
  reading es r -> Forall2 (packet_enc P) ps es -> blen (storage_file es) < two63 ->
  exists ks, kept P (d_rules r) (skipn from ps) ks /\ yields (g_next_filtered P) (mk_ranged r len from) (map Ok (firstn len ks)).
Proof.
  intros U P ps es r from len HP RD FE B. destruct (reading_ok P es r RD ps FE B) as (OK & ND).
  destruct (kept_exists P (d_rules r) (skipn from ps) (skipn from es) HP ND (forall2_skipn _ _ _ _ FE)) as (ks & K). exists ks. split; [exact K|].
  exact (range_filtered_yields P HP ps es FE len r from ks OK ND K).
Qed.
Print Assumptions C38_range_filtered.

(** The rules of [used_reader] keep the only packet with a text, whose index is 499. *)
Example C38_example : exists r : sreader N, reading long_encoded r /\ map id_of (d_rules r) = [IdFilter] /\
  exists ks, kept P0 (d_rules r) long_packets ks /\ yields (t_next_filtered P0 (d_rules r)) (d_iter r) (map Ok ks).
Proof.
  destruct used_reader as (r & RD & RU & _). exists r. split; [exact RD|]. split; [exact RU|].
  exact (C38_filtered_iteration N P0 long_packets long_encoded r P0_ok RD long_enc long_size).
Qed.
(** ** C39 *)

(** Missing: new packets in several slots when the last slot was partly filled, and the number reported when the new
    last slot is full (both refuted below); checksums of tables that collide (also refuted). *)
Theorem C39_reload_partial : forall U (P : proto U) es ps es' ps' (r : sreader U),
  reading es r -> Forall2 (packet_enc P) ps es -> Forall2 (packet_enc P) ps' es' -> blen (storage_file (es ++ es')) < two63 -> reload_follows es es' ->
  exists r', d_reload (d_refresh (storage_file (es ++ es')) r) = (Ok (reload_number es es'), r') /\
    (** hence all of the theorems above for the packets of before and after *)
    reading (es ++ es') r' /\ d_rules r' = d_rules r.
Proof.
  intros U P es ps es' ps' r RD FE FE' B S. destruct (reading_ok P es r RD ps FE) as (OK & _). { pose proof (storage_mono es es'). lia. }
  destruct (reload_fresh es es' r OK (encs_nonempty _ _ _ FE') B S) as (r' & E & _ & RU). exists r'. split; [exact E|]. split; [|exact RU].
  eapply reading_reload; eauto.
Qed.
Print Assumptions C39_reload_partial.

(** Reloading after every packet always works; a packet has less than 2^32 bytes here. *)
Theorem C39_reload_each_packet_partial : forall U (P : proto U) es ps e p (r : sreader U),
  reading es r -> Forall2 (packet_enc P) ps es -> packet_enc P p e -> blen e < two32 -> blen (storage_file (es ++ [e])) < two63 ->
  exists r', d_reload (d_refresh (storage_file (es ++ [e])) r) = (Ok 1%nat, r') /\ reading (es ++ [e]) r' /\ d_rules r' = d_rules r.
Proof.
  intros U P es ps e p r RD FE HE L B.
  destruct (C39_reload_partial U P es ps [e] [p] r RD FE ltac:(repeat constructor; exact HE) B (one_follows es e (packet_enc_nonempty _ _ _ HE) L)) as (r' & E & Q).
  exists r'. split; [|exact Q]. rewrite E. do 2 f_equal. unfold reload_number. rewrite app_length. cbn [length].
  destruct (Nat.eqb_spec (length es mod 500) 0) as [H|H]; cbn [andb]; [|reflexivity].
  rewrite Nat.add_mod, H by discriminate. reflexivity.
Qed.
Print Assumptions C39_reload_each_packet_partial.

(** The reverse of the first restriction: new packets that go beyond a partly filled last slot are never all reported, and
    the reader is wrong afterwards. *)
Theorem C39_crossing_loses : forall U (P : proto U) es ps es' ps' (r : sreader U),
  reading es r -> Forall2 (packet_enc P) ps es -> Forall2 (packet_enc P) ps' es' -> blen (storage_file (es ++ es')) < two63 ->
  (length ps mod 500 <> 0)%nat -> (500 * (length ps / 500 + 1) < length (ps ++ ps'))%nat ->
  exists n r', d_reload (d_refresh (storage_file (es ++ es')) r) = (Ok n, r') /\ (n < length ps')%nat /\ (d_count r' < length (ps ++ ps'))%nat.
Proof.
  intros U P es ps es' ps' r RD FE FE' B M X. destruct (reading_ok P es r RD ps FE) as (OK & _). { pose proof (storage_mono es es'). lia. }
  rewrite app_length, (encs_length P ps es FE), (encs_length P ps' es' FE') in *. rewrite <- app_length in *.
  exact (reload_misses es es' r OK (encs_nonempty _ _ _ FE') B M X).
Qed.
Print Assumptions C39_crossing_loses.

Theorem C39_two_slots_refuted : exists ps es ps' es' (r r' : sreader N) n,
  Forall2 (packet_enc P0) ps es /\ Forall2 (packet_enc P0) ps' es' /\ length ps = 499%nat /\ length ps' = 2%nat /\
  d_open (storage_file es) = Ok r /\ d_reload (d_refresh (storage_file (es ++ es')) r) = (Ok n, r') /\ (n < 2)%nat /\ (d_count r' < 501)%nat.
Proof.
  assert (Forall2 (packet_enc P0) (repeat p_void 499) (repeat (wire p_void) 499)) as FE by apply enc_repeat, p_void_enc.
  assert (Forall2 (packet_enc P0) [p_void; p_void] [wire p_void; wire p_void]) as FE' by (repeat constructor; apply p_void_enc).
  assert (blen (storage_file (repeat (wire p_void) 499 ++ [wire p_void; wire p_void])) < two63) as B by (vm_compute; reflexivity).
  destruct (@open_reader N (repeat (wire p_void) 499) _ eq_refl (encs_nonempty _ _ _ FE)) as (r & E & _).
  { pose proof (storage_mono (repeat (wire p_void) 499) [wire p_void; wire p_void]). lia. }
  destruct (C39_crossing_loses N P0 _ _ _ _ r (reading_exact _ _ E) FE FE' B) as (n & r' & ER & L & LC).
  { rewrite repeat_length. discriminate. } { rewrite app_length, repeat_length. vm_compute. lia. }
  exists (repeat p_void 499), (repeat (wire p_void) 499), [p_void; p_void], [wire p_void; wire p_void], r, r', n.
  rewrite app_length, repeat_length in LC. repeat (split; [first [assumption | reflexivity]|]). exact LC.
Qed.
Print Assumptions C39_two_slots_refuted.

(** 500 new packets fill a slot exactly: the reader is right afterwards, but reports no new packet. *)
Theorem C39_full_slot_refuted : exists ps' es' (r r' : sreader N),
  Forall2 (packet_enc P0) ps' es' /\ length ps' = 500%nat /\ d_open (storage_file []) = Ok r /\
  d_reload (d_refresh (storage_file es') r) = (Ok 0%nat, r') /\ d_count r = 0%nat /\ d_count r' = 500%nat.
Proof.
  assert (Forall2 (packet_enc P0) (repeat p_void 500) (repeat (wire p_void) 500)) as FE by apply enc_repeat, p_void_enc.
  assert (blen (storage_file ([] ++ repeat (wire p_void) 500)) < two63) as B by (vm_compute; reflexivity).
  destruct (@open_reader N [] _ eq_refl ltac:(constructor) ltac:(reflexivity)) as (r & E & OK & _).
  destruct (C39_reload_partial N P0 [] [] _ _ r (reading_exact _ _ E) ltac:(constructor) FE B) as (r' & ER & RD & _). { right. left. reflexivity. }
  destruct (reading_ok P0 _ r' RD _ FE B) as (OK' & _).
  exists (repeat p_void 500), (repeat (wire p_void) 500), r, r'. split; [exact FE|]. split; [reflexivity|]. split; [exact E|].
  split; [exact ER|]. split; [exact (count_ok _ _ OK)|]. rewrite (count_ok _ _ OK'). apply repeat_length.
Qed.
Print Assumptions C39_full_slot_refuted.

(** The change is detected by comparing checksums of tables; four packets of 324, 81, 77 and 247 bytes leave it as it was,
    and the reader does not notice them. *)
Definition p_zeros (k : nat) : packet N := mk_packet [] (Some (PBytes (repeat (n2b 0) k))).
Definition unnoticed : list (packet N) := [p_zeros 281; p_zeros 38; p_zeros 34; p_zeros 204].
Ltac zeros_enc k :=
  exists (ph_bytes (mk_pheader (pk_sig bytes_kind) (crc32_le (repeat (n2b 0) k)) (N.of_nat k)) ++ repeat (n2b 0) k);
  split; [constructor|]; split; [|split; [vm_compute; reflexivity|vm_compute; reflexivity]];
  exists (repeat (n2b 0) k), (crc32_le (repeat (n2b 0) k)); split; [|split; reflexivity];
  split; [reflexivity|]; apply encodes_bytes; vm_compute; discriminate.
Lemma unnoticed_enc : Forall2 (packet_enc P0) unnoticed (map wire unnoticed).
Proof.
  constructor; [zeros_enc 281%nat|]. constructor; [zeros_enc 38%nat|]. constructor; [zeros_enc 34%nat|]. constructor; [zeros_enc 204%nat|constructor].
Qed.

(** They do so wherever they fit into the slot. *)
Theorem C39_checksum_blind : forall U (P : proto U) es ps es' ps' (r : sreader U),
  reading es r -> Forall2 (packet_enc P) ps es -> Forall2 (packet_enc P) ps' es' -> blen (storage_file (es ++ es')) < two63 ->
  (1 <= length ps mod 500 <= 496)%nat -> map blen es' = [324; 81; 77; 247] ->
  exists r', d_reload (d_refresh (storage_file (es ++ es')) r) = (Ok 0%nat, r') /\ d_count r' = length ps.
Proof.
  intros U P es ps es' ps' r RD FE FE' B M E. destruct (reading_ok P es r RD ps FE) as (OK & _). { pose proof (storage_mono es es'). lia. }
  rewrite (encs_length P ps es FE) in *. apply (reload_blind es es' r OK (encs_nonempty _ _ _ FE') B); [lia| |now apply table_blind].
  rewrite app_length, <- (map_length blen es'), E. cbn [length]. pose proof (Nat.div_mod_eq (length es) 500). lia.
Qed.
Print Assumptions C39_checksum_blind.
Theorem C39_checksum_refuted : exists ps es ps' es' (r r' : sreader N),
  Forall2 (packet_enc P0) ps es /\ Forall2 (packet_enc P0) ps' es' /\ length ps = 1%nat /\ length ps' = 4%nat /\
  d_open (storage_file es) = Ok r /\ d_reload (d_refresh (storage_file (es ++ es')) r) = (Ok 0%nat, r') /\ d_count r' = 1%nat.
Proof.
  assert (Forall2 (packet_enc P0) [p_num] [wire p_num]) as FE by (repeat constructor; apply p_num_enc).
  assert (blen (storage_file ([wire p_num] ++ map wire unnoticed)) < two63) as B by (vm_compute; reflexivity).
  destruct (@open_reader N [wire p_num] _ eq_refl (encs_nonempty _ _ _ FE)) as (r & E & _).
  { pose proof (storage_mono [wire p_num] (map wire unnoticed)). lia. }
  destruct (C39_checksum_blind N P0 _ _ _ _ r (reading_exact _ _ E) FE unnoticed_enc B) as (r' & ER & CR).
  { vm_compute. lia. } { vm_compute. reflexivity. }
  exists [p_num], [wire p_num], unnoticed, (map wire unnoticed), r, r'. split; [exact FE|]. split; [exact unnoticed_enc|].
  repeat (split; [first [assumption | reflexivity]|]). exact CR.
Qed.
Print Assumptions C39_checksum_refuted.

(** The hypotheses of the partial theorems, one case each. *)
Lemma reload_case es es' ps ps' : Forall2 (packet_enc P0) ps es -> Forall2 (packet_enc P0) ps' es' -> blen (storage_file (es ++ es')) < two63 -> reload_follows es es' ->
  exists r r' : sreader N, d_open (storage_file es) = Ok r /\ d_reload (d_refresh (storage_file (es ++ es')) r) = (Ok (reload_number es es'), r') /\ d_count r' = length (es ++ es').
Proof.
  intros FE FE' B S. destruct (@open_reader N es _ eq_refl (encs_nonempty _ _ _ FE)) as (r & E & _). { pose proof (storage_mono es es'). lia. }
  destruct (C39_reload_partial N P0 es ps es' ps' r (reading_exact _ _ E) FE FE' B S) as (r' & ER & RD & _).
  destruct (reading_ok P0 _ r' RD _ (Forall2_app FE FE') B) as (OK & _). exists r, r'. split; [exact E|]. split; [exact ER|]. now apply count_ok.
Qed.
Example C39_example_fits : exists r r' : sreader N, d_open (storage_file [wire p_num]) = Ok r /\
  d_reload (d_refresh (storage_file ([wire p_num] ++ [wire p_txt; wire p_void])) r) = (Ok 2%nat, r') /\ d_count r' = 3%nat.
Proof.
  apply (reload_case [wire p_num] [wire p_txt; wire p_void] [p_num] [p_txt; p_void]).
  - repeat constructor. apply p_num_enc. - repeat constructor; [apply p_txt_enc|apply p_void_enc]. - vm_compute. reflexivity.
  - right. right. split; [vm_compute; lia|]. vm_compute. discriminate.
Qed.
Example C39_example_after_full : exists r r' : sreader N, d_open (storage_file (repeat (wire p_void) 500)) = Ok r /\
  d_reload (d_refresh (storage_file (repeat (wire p_void) 500 ++ [wire p_txt; wire p_void])) r) = (Ok 2%nat, r') /\ d_count r' = 502%nat.
Proof.
  apply (reload_case (repeat (wire p_void) 500) [wire p_txt; wire p_void] (repeat p_void 500) [p_txt; p_void]).
  - apply enc_repeat, p_void_enc. - repeat constructor; [apply p_txt_enc|apply p_void_enc]. - vm_compute. reflexivity. - right. left. reflexivity.
Qed.
Example C39_example_each : exists r r' : sreader N, d_open (storage_file (repeat (wire p_void) 499)) = Ok r /\
  d_reload (d_refresh (storage_file (repeat (wire p_void) 499 ++ [wire p_txt])) r) = (Ok 1%nat, r') /\ d_count r' = 500%nat.
Proof.
  apply (reload_case (repeat (wire p_void) 499) [wire p_txt] (repeat p_void 499) [p_txt]).
  - apply enc_repeat, p_void_enc. - repeat constructor. apply p_txt_enc. - vm_compute. reflexivity.
  - apply one_follows; [vm_compute; discriminate|vm_compute; reflexivity].
Qed.

(** ** C71 *)
(** A storage whose last slot is empty, as written with [Slot::default()]: the reader sees the packets before it and ends. *)
Theorem C71_empty_slot_read : forall U (P : proto U) (ops : list (rule_op U)) ps es, proto_ok P ->
  (length ps mod 500 = 0)%nat -> Forall2 (packet_enc P) ps es -> Forall (fun p => length (p_blocks p) <= 256)%nat ps ->
  blen (storage_file es ++ slot_table []) < two63 ->
  exists r : sreader U, d_open (storage_file es ++ slot_table []) = Ok r /\ d_count r = length ps /\
    yields (t_next P) (d_iter r) (map Ok ps) /\
    (forall ks, kept P (rule_history ops) ps ks -> yields (t_next_filtered P (rule_history ops)) (d_iter r) (map Ok ks)) /\
    (forall n, exists r', d_nth P n r = (Ok (nth_error ps n), r')).
Proof.
  intros U P ops ps es HP M FE FW B. rewrite (encs_length P ps es FE) in M. apply forall_few in FW.
  exact (spare_reader P HP ps es (rule_history ops) M FE FW (history_nodup ops) B).
Qed.
Print Assumptions C71_empty_slot_read.

(** The writer puts the next packet into that slot. *)
Theorem C71_empty_slot_filled : forall U (P : proto U) ps es (p : packet U) e,
  (length ps mod 500 = 0)%nat -> Forall2 (packet_enc P) ps es -> packet_enc P p e ->
  blen (storage_file es ++ slot_table []) < two63 ->
  exists w w', w_open (healthy (storage_file es ++ slot_table [])) = Ok w /\ w_insert p w = (Ok tt, w') /\ w_data w' = storage_file (es ++ [e]).
Proof.
  intros U P ps es p e M FE HE B. rewrite (encs_length P ps es FE) in M. exact (spare_writer P es p e M (encs_nonempty _ _ _ FE) HE B).
Qed.
Print Assumptions C71_empty_slot_filled.

(** The empty slot is what [Slot::default()] writes; a file with only it, and one with 500 packets before it. *)
Example C71_example : written (slot_write_all default_slot) (slot_table []) /\
  (exists r : sreader N, d_open (slot_table []) = Ok r /\ d_count r = 0%nat /\ yields (t_next P0) (d_iter r) []) /\
  exists w w', w_open (healthy (storage_file (repeat (wire p_void) 500) ++ slot_table [])) = Ok w /\
    w_insert p_txt w = (Ok tt, w') /\ w_data w' = storage_file (repeat (wire p_void) 500 ++ [wire p_txt]).
Proof.
  split; [vm_compute; reflexivity|]. split.
  - destruct (C71_empty_slot_read N P0 [] [] [] P0_ok eq_refl) as (r & E & K & Y & _); [constructor|constructor|vm_compute; reflexivity|].
    exists r. split; [exact E|]. split; [exact K|exact Y].
  - apply (C71_empty_slot_filled N P0 (repeat p_void 500)); [rewrite repeat_length; reflexivity|apply enc_repeat, p_void_enc|apply p_txt_enc|].
    vm_compute. reflexivity.
Qed.
