(** * Inserting into storages in a release build (C96). *)
From Coq Require Import ZifyBool ZifyNat ZifyN.
From Verif Require Import Base Crc32 Io File Block Payload Packet Slot Storage Release ReleaseRead ReleaseWrite Spec SpecStorage SpecRelease BaseProofs PacketProofs SlotProofs StorageProofs
  StorageReadProofs ReadingProofs CrashProofs HostileProofs ForeignProofs ReleaseProofs ReleaseReadProofs ReleaseWriteProofs PropsStorage PropsHostile Samples.
Ltac Zify.zify_post_hook ::= Z.div_mod_to_equations.
Open Scope list_scope.

(** ** C96 *)

(** One insert, whatever the file answers: the same result, bytes and state as with overflow checks, if the place where the
    writer stands, what the tables from there on take and a new table are together below 2^64. *)
Theorem C96_insert : forall U (p : packet U) w ls, w_slots w = map slot_with ls ->
  lc_off (w_loc w) + total (map (fun lens => SpecStorage.table_len lens + announced lens) (skipn (lc_next (w_loc w)) ls)) + 4020 < two64 ->
  rel_w_insert p w = w_insert p w.
Proof. intros U p w ls E L. apply insert_rel. rewrite E, skipn_map, step_with, sum_total. exact L. Qed.
Print Assumptions C96_insert.

(** So it is for every file that can be opened with overflow checks, of whatever origin: opening in the release build gives the
    same writer, and its insert the same as the other, whatever the file answers. *)
Theorem C96_opened : forall U (p : packet U) data w n sched flushes, blen data < two63 -> (length data < n)%nat -> w_open (healthy data) = Ok w ->
  rel_w_open n (healthy data) = Ok w /\ rel_w_insert p (w_faults sched flushes w) = w_insert p (w_faults sched flushes w).
Proof.
  intros U p data w n sched flushes B L O. split.
  - rewrite <- O. apply w_open_same; [exact B|exact L|rewrite O; discriminate].
  - destruct (all_tables_exist data B) as (ls & next & T). destruct (opened_writer (U := U) data ls next w B T O) as (E1 & _ & E2 & ST).
    apply insert_rel. cbn [w_faults w_loc w_slots]. rewrite E1, E2. pose proof (opened_sum (map slot_of ls)) as S. cbv zeta in S. rewrite S.
    change (map slot_of ls) with (map slot_with ls). rewrite step_with, sum_total. pose proof (tables_place _ _ _ _ (proj1 T)) as TP. unfold table_place in TP. rewrite firstn_all in TP.
    destruct ST as (ST & _). unfold two63, two64 in *. lia.
Qed.
Print Assumptions C96_opened.

(** Histories of inserts and reopenings in a release build; [n] is the fuel for opening. *)
Definition rel_w_step {U} (n : nat) (o : w_op U) (w : writer) : res writer :=
  match o with
  | WInsert p => let (r, w) := rel_w_insert p w in let! _ := r in Ok w
  | WReopen => rel_w_open n (healthy (fl_data (w_file w)))
  end.
Fixpoint rel_w_steps {U} (n : nat) (os : list (w_op U)) (w : writer) : res writer :=
  match os with
  | [] => Ok w
  | o :: os => let! w := rel_w_step n o w in rel_w_steps n os w
  end.
Definition rel_w_history {U} (n : nat) (os : list (w_op U)) : res writer := let! w := rel_w_open n (healthy []) in rel_w_steps n os w.

Lemma steps_rel {U} (P : proto U) n os : forall fs l w es',
  w_ok fs l w -> nonempty_all (concat fs ++ l) -> Forall2 (packet_enc P) (w_inserted os) es' ->
  blen (storage_file ((concat fs ++ l) ++ es')) < two63 -> (length (storage_file ((concat fs ++ l) ++ es')) < n)%nat ->
  rel_w_steps n os w = w_steps os w.
Proof.
  induction os as [|o os IH]; intros fs l w es' OK NE FE B LN; cbn [rel_w_steps w_steps]; [reflexivity|].
  pose proof (ok_shaped _ _ _ OK) as SH. pose proof (storage_mono (concat fs ++ l) es') as MO.
  destruct o as [p|]; cbn [rel_w_step w_step]; change (w_inserted (?o :: os)) with ((match o with WInsert p => [p] | WReopen => [] end) ++ w_inserted os) in FE; cbn [app] in FE.
  - inversion FE as [|? e ? es2 Hp FE2]; subst.
    rewrite (insert_rel p w).
    + destruct (ok_insert fs l w p e OK (pkt_write_all_ok P p e [] Hp) (packet_enc_nonempty _ _ _ Hp)) as (w1 & E & OK1). rewrite E. cbn [rbind].
      apply (IH (fst (push fs l e)) (snd (push fs l e)) w1 es2 OK1); [|exact FE2|rewrite concat_push, <- app_assoc; assumption..].
      rewrite concat_push. apply Forall_app. split; [exact NE|]. repeat constructor. now apply (packet_enc_nonempty _ _ _ Hp).
    + pose proof (mem_sum _ _ _ _ (wo_mem _ _ _ OK)) as MS. pose proof (files_sum fs l SH) as FS. rewrite <- storage_shaped in FS by exact SH. unfold tsz, two63, two64 in *. lia.
  - destruct OK as [M (c & FI & D)]. rewrite FI. cbn [fl_data fl_cur]. unfold fl_data. cbn [fl_cur].
    assert (BD : blen (c_data c) < two63) by (rewrite D, <- storage_shaped by exact SH; lia).
    destruct (open_ok fs l (c_data c) SH NE D BD) as (w1 & E & OK1).
    assert (LD : (length (fl_data (healthy (c_data c))) < n)%nat).
    { change (fl_data (healthy (c_data c))) with (c_data c). rewrite D, <- storage_shaped by exact SH. unfold blen in MO. lia. }
    rewrite (w_open_same n (healthy (c_data c)) BD LD) by (rewrite E; discriminate).
    rewrite E. cbn [rbind]. exact (IH fs l w1 es' OK1 NE FE B LN).
Qed.

(** Every history of a storage below 2^63 bytes is the same in both builds. *)
Theorem C96_history : forall U (P : proto U) os es n, Forall2 (packet_enc P) (w_inserted os) es -> blen (storage_file es) < two63 -> (length (storage_file es) < n)%nat ->
  exists w, w_history os = Ok w /\ rel_w_history n os = Ok w /\ w_data w = storage_file es.
Proof.
  intros U P os es n FE B LN. destruct (history_ok P os es FE B) as (fs & l & w & E & OK & CC). exists w. split; [exact E|].
  split; [|rewrite (history_data _ _ _ OK), CC; reflexivity]. rewrite <- E. unfold rel_w_history, w_history.
  destruct (open_ok [] [] [] ltac:(split; [constructor|apply cap_pos]) ltac:(constructor) eq_refl ltac:(reflexivity)) as (w0 & E0 & OK0).
  rewrite (w_open_same n (healthy []) ltac:(reflexivity) ltac:(cbn; lia)) by (rewrite E0; discriminate). rewrite E0. cbn [rbind].
  apply (steps_rel P n os [] [] w0 es OK0); [constructor|exact FE|exact B|exact LN].
Qed.
Print Assumptions C96_history.

(** A file that opens only in a release build: the lengths wrap around, so that the free entry is taken to begin inside the first
    packet.  The insert reports success and overwrites the end of a packet that could be read before. *)
Definition overlap_file : bytes := table [105; two64 - 10; 0] ++ wire p_num.
Theorem C96_overwrites_refuted : exists data w w' (r r' : sreader N), w_open (healthy data) = Panic POverflow /\ rel_w_open 300 (healthy data) = Ok w /\
  rel_d_open 300 data = Ok r /\ rmap (option_map obs) (fst (rel_d_nth P0 0 r)) = Ok (Some (obs p_num)) /\
  rel_w_insert p_one w = (Ok tt, w') /\ w_data w' = table [105; two64 - 10; 47] ++ firstn 95 (wire p_num) ++ wire p_one /\
  rel_d_open 300 (w_data w') = Ok r' /\ rmap (option_map obs) (fst (rel_d_nth P0 0 r')) <> Ok (Some (obs p_num)).
Proof.
  set (o := rel_w_open 300 (healthy overlap_file)). set (w := match o with Ok w => w | _ => mk_writer [] (healthy []) new_locator end).
  set (w' := snd (rel_w_insert p_one w)).
  set (op := fun d => match rel_d_open (U := N) 300 d with Ok r => r | _ => mk_sreader [] (mk_cursor [] 0) new_locator [] end).
  exists overlap_file, w, w', (op overlap_file), (op (w_data w')). split; [vm_compute; reflexivity|]. split; [vm_compute; reflexivity|]. split; [vm_compute; reflexivity|].
  split; [vm_compute; reflexivity|]. split; [vm_compute; reflexivity|]. split; [vm_compute; reflexivity|]. split; [vm_compute; reflexivity|]. vm_compute. discriminate.
Qed.
Print Assumptions C96_overwrites_refuted.

(** A long history in a release build (more than two tables), and inserts into files of other origin: the writer is the one of
    the other build, the free entry of the last table is used, and a full table is followed by a new one. *)
Example C96_example : exists w, w_history long_history = Ok w /\ rel_w_history (S (length (storage_file long_encoded))) long_history = Ok w /\ w_data w = storage_file long_encoded.
Proof. apply (C96_history N P0); [rewrite long_inserted; exact long_enc|exact long_size|apply Nat.lt_succ_diag_r]. Qed.
Example C96_foreign_example :
  let data := table [33; 37; 7] ++ repeat (n2b 7) 77 ++ table [105; 0] ++ wire p_num ++ str "end" in
  let full := table [33; 37; 7] ++ repeat (n2b 7) 77 ++ table [105] ++ wire p_num ++ str "end" in
  rmap (fun w => let (o, w') := rel_w_insert p_one w in (o, w_data w')) (rel_w_open 400 (healthy data)) =
    Ok (Ok tt, table [33; 37; 7] ++ repeat (n2b 7) 77 ++ table [105; 47] ++ wire p_num ++ wire p_one) /\
  rmap (fun w => let (o, w') := rel_w_insert p_one w in (o, w_data w')) (rel_w_open 400 (healthy full)) =
    Ok (Ok tt, table [33; 37; 7] ++ repeat (n2b 7) 77 ++ table [105] ++ wire p_num ++ table (47 :: repeat 0 499) ++ wire p_one).
Proof. split; vm_compute; reflexivity. Qed.
