(** * Properties of a storage in which inserts failed and others succeeded after them (C44). *)
From Coq Require Import ZifyBool ZifyNat ZifyN.
From Verif Require Import Base Crc32 Io File Block Payload Packet Rules Slot Storage Spec SpecStorage BaseProofs BlockProofs PayloadEnumProofs PacketProofs WireProofs StorageProofs StorageReadProofs ReloadProofs ReadingProofs CrashProofs FaultProofs Samples PropsStorage PropsCrash.
Open Scope list_scope.

(** Inserts of [ps] with any answers of the system; the last one succeeds, no one fails that was to fill a slot. The file is
    then that of a storage that has all packets, with what is left of them in the places of those that failed. Readers open
    it, count them all and find every packet that was stored. *)
Theorem C44_recovery : forall U (P : proto U) os es ps es' w sched flushes rs w',
  proto_ok P -> Forall2 (packet_enc P) (w_inserted os) es -> Forall2 (packet_enc P) ps es' -> blen (storage_file (es ++ es')) < two63 ->
  w_history os = Ok w -> w_tries ps (w_faults sched flushes w) = (rs ++ [Ok tt], w') ->
  (forall i k, nth_error rs i = Some (Err k) -> (length es + i) mod 500 <> 499)%nat ->
  exists ds (r : sreader U), stored es' (rs ++ [Ok tt]) ds /\ w_data w' = storage_file (es ++ ds) /\
    d_open (w_data w') = Ok r /\ d_count r = (length es + length es')%nat /\
    (forall i p, nth_error (w_inserted os) i = Some p -> (length (p_blocks p) <= 256)%nat -> exists r', d_nth P i r = (Ok (Some p), r')) /\
    (forall i p, nth_error (rs ++ [Ok tt]) i = Some (Ok tt) -> nth_error ps i = Some p -> (length (p_blocks p) <= 256)%nat ->
       exists r', d_nth P (length es + i) r = (Ok (Some p), r')).
Proof.
  intros U P os es ps es' w sched flushes rs w' HP FE FE' B E T NL.
  destruct (history_state P os es w FE) as (fs & l & OK & EE); [pose proof (storage_mono es es'); lia|exact E|].
  pose proof (encs_nonempty _ _ _ FE) as NE. subst es. set (es := concat fs ++ l) in *.
  destruct (tries_dirty P ps es' fs l _ _ _ (ok_dirty fs l w sched flushes OK) FE' T) as (ds & ST & _ & LAST).
  { intros i k N. destruct (Nat.lt_ge_cases i (length rs)) as [H|H].
    - rewrite nth_error_app1 in N by exact H. now apply (NL i k).
    - rewrite nth_error_app2 in N by exact H. destruct (i - length rs)%nat as [|j]; [discriminate N|]. destruct j; discriminate N. }
  specialize (LAST rs eq_refl). fold es in LAST.
  assert (map blen (es ++ ds) = map blen (es ++ es')) as SZ by (rewrite !map_app, (stored_sizes _ _ _ ST); reflexivity).
  assert (nonempty_all (es ++ ds)) as NA.
  { apply Forall_app. split; [exact NE|]. exact (stored_nonempty _ _ _ ST (encs_nonempty _ _ _ FE')). }
  assert (blen (storage_file (es ++ ds)) < two63) as BZ by (rewrite (storage_size _ _ SZ); exact B).
  destruct (@open_reader U _ _ eq_refl NA BZ) as (r & ER & OKR & _). exists ds, r. split; [exact ST|]. split; [exact LAST|]. rewrite LAST. split; [exact ER|].
  split; [|split].
  - rewrite (count_ok _ _ OKR). apply (f_equal (@length N)) in SZ. rewrite !map_length, app_length, (app_length es es') in SZ. rewrite app_length. exact SZ.
  - intros i p N W. pose proof (enc_nth P (w_inserted os) es i FE) as EN. rewrite N in EN. destruct EN as (e & Ne & HE).
    apply (nth_one P HP (es ++ ds) r i e p OKR); [|exact HE|exact W]. rewrite nth_error_app1; [exact Ne|]. apply nth_error_Some. congruence.
  - intros i p R N W. pose proof (enc_nth P ps es' i FE') as EN. rewrite N in EN. destruct EN as (e & Ne & HE).
    apply (nth_one P HP (es ++ ds) r _ e p OKR); [|exact HE|exact W]. rewrite nth_error_app2 by lia. rewrite Nat.add_comm, Nat.add_sub. exact (stored_ok _ _ _ ST i e R Ne).
Qed.
Print Assumptions C44_recovery.

(** The table of the first insert is cut off, then the flush after the table fails, then the packet is cut off after seven
    bytes; the last insert succeeds. *)
Definition failing_writes : list answer := [Accept 10; WFail OtherIo; Accept 4020; Accept 1000; Accept 3020; Accept 7; WFail OtherIo].
Definition failing_flushes : list (option iokind) := [None; None; Some OtherIo; None; None].
Example C44_recovery_example :
  match w_history [WInsert p_num; WReopen; WInsert p_raw] with
  | Ok w =>
      let (rs, w') := w_tries [p_txt; p_num; p_raw; p_num] (w_faults failing_writes failing_flushes w) in
      rs = [Err (EIo OtherIo); Err (EIo OtherIo); Err (EIo OtherIo)] ++ [Ok tt] /\
      w_data w' = storage_file ([wire p_num; wire p_raw] ++ [repeat (n2b 0) (length (wire p_txt)); repeat (n2b 0) (length (wire p_num));
        firstn 7 (wire p_raw) ++ repeat (n2b 0) (length (wire p_raw) - 7); wire p_num])
  | _ => False
  end.
Proof. vm_compute. split; reflexivity. Qed.

(** When the insert fails that was to fill a slot, before its table is written, the next insert starts a new slot behind a
    gap that no table knows of: the file cannot be opened any more, by readers or writers. *)
Theorem C44_slot_end : forall U (P : proto U) os es p e q e' w,
  Forall2 (packet_enc P) (w_inserted os) es -> packet_enc P p e -> packet_enc P q e' ->
  blen (storage_file es) < two63 -> w_history os = Ok w -> (length es mod 500 = 499)%nat ->
  exists w1 w2, w_insert p (w_faults [] [Some OtherIo] w) = (Err (EIo OtherIo), w1) /\ w_insert q w1 = (Ok tt, w2) /\
    w_data w2 = storage_file es ++ repeat (n2b 0) (length e) ++ storage_file [e'] /\
    @d_open U (w_data w2) = Err (EDamagedSlot ESignatureDismatch) /\ w_open (healthy (w_data w2)) = Err (EDamagedSlot ESignatureDismatch).
Proof.
  intros U P os es p e q e' w FE HE HE' B E M. destruct (history_state P os es w FE B E) as (fs & l & OK & EE).
  pose proof (encs_nonempty _ _ _ FE) as NE. subst es.
  assert (length l + 1 = default_capacity)%nat as LC.
  { destruct (ok_shaped _ _ _ OK) as (F & L). rewrite <- cap_eq in M at 1. rewrite app_length, length_concat_full, Nat.add_comm, Nat.mod_add, Nat.mod_small in M by (exact F || lia). rewrite cap_eq in *. lia. }
  destruct (fail_last P fs l w p q e e' OK NE HE HE' LC B) as (w1 & w2 & I1 & I2 & D & c & L).
  exists w1, w2. split; [exact I1|]. split; [exact I2|]. split; [exact D|]. unfold d_open, w_open, healthy. cbn [fl_cur]. rewrite L. auto.
Qed.
Print Assumptions C44_slot_end.

Definition nearly_full : list (w_op N) := repeat (WInsert p_void) 250 ++ WReopen :: repeat (WInsert p_num) 249.
Definition nearly_full_encoded : list bytes := repeat (wire p_void) 250 ++ repeat (wire p_num) 249.
Lemma nearly_full_inserted : w_inserted nearly_full = repeat p_void 250 ++ repeat p_num 249.
Proof. reflexivity. Qed.
Lemma nearly_full_enc : Forall2 (packet_enc P0) (w_inserted nearly_full) nearly_full_encoded.
Proof. rewrite nearly_full_inserted. apply Forall2_app; apply enc_repeat; [exact p_void_enc|exact p_num_enc]. Qed.
Theorem C44_slot_end_refuted : exists os es p q w w1 w2,
  Forall2 (packet_enc P0) (w_inserted os) es /\ length es = 499%nat /\ packet_enc P0 p (wire p) /\ packet_enc P0 q (wire q) /\ w_history os = Ok w /\
  w_insert p (w_faults [] [Some OtherIo] w) = (Err (EIo OtherIo), w1) /\ w_insert q w1 = (Ok tt, w2) /\
  @d_open N (w_data w2) = Err (EDamagedSlot ESignatureDismatch) /\ w_open (healthy (w_data w2)) = Err (EDamagedSlot ESignatureDismatch).
Proof.
  assert (blen (storage_file nearly_full_encoded) < two63) as B by (vm_compute; reflexivity).
  destruct (history_ok P0 nearly_full nearly_full_encoded nearly_full_enc B) as (fs & l & w & E & _).
  destruct (C44_slot_end N P0 nearly_full nearly_full_encoded p_txt (wire p_txt) p_num (wire p_num) w nearly_full_enc p_txt_enc p_num_enc B E eq_refl) as (w1 & w2 & I1 & I2 & _ & D1 & D2).
  exists nearly_full, nearly_full_encoded, p_txt, p_num, w, w1, w2. split; [exact nearly_full_enc|]. split; [reflexivity|]. split; [exact p_txt_enc|]. split; [exact p_num_enc|]. auto.
Qed.
Print Assumptions C44_slot_end_refuted.
