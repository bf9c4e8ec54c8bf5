(** * Theorems about vectored writes (C06) and [BufferedReader] (C51, C72), each followed by a
      concrete case. *)
From Coq Require Import ZifyBool ZifyNat ZifyN.
From Verif Require Import Base Crc32 Io Slices BufReader Block Payload Packet Rules StreamReader Spec BaseProofs PacketProofs
  IoProofs Samples.
Ltac Zify.zify_post_hook ::= Z.div_mod_to_equations.
Open Scope list_scope.

(** ** C06 *)
(** Whatever the sink answers: it gets a prefix, all of it exactly when the call succeeds; the only failures
    are the sink's own last answer: an error it reported, or [WriteZero] after it took nothing.
    [used] are the answers the sink gave, one for each call of [write_vectored]. *)
Theorem C06_vectored_write : forall src s o s',
  write_vectored_all src s = (o, s') ->
  exists sent rest used,
    concat src = sent ++ rest /\ k_got s' = k_got s ++ sent /\
    k_sched s = used ++ k_sched s' /\ (length used <= length (concat src))%nat /\
    match o with
    | Ok _ => rest = []
    | Err e => rest <> [] /\ exists us a, used = us ++ [a] /\
        match a with Accept n => n = 0 /\ e = EIo WriteZero | WFail k => e = EIo k end
    | Panic _ => False
    end.
Proof. exact vectored_all. Qed.
Print Assumptions C06_vectored_write.

(** A sink that takes at least one byte each time gets everything. *)
Theorem C06_vectored_write_succeeds : forall src s,
  Forall (fun a => match a with Accept n => 0 < n | WFail _ => False end) (k_sched s) ->
  exists s', write_vectored_all src s = (Ok tt, s') /\ k_got s' = k_got s ++ concat src.
Proof.
  intros src s F. destruct (write_vectored_all src s) as (o, s') eqn:E. exists s'.
  destruct (vectored_all _ _ _ _ E) as (sent & rest & used & E1 & E2 & E3 & _ & E4). destruct o as [[]|e|w]; [|exfalso|contradiction].
  - subst rest. rewrite app_nil_r in E1. rewrite E1. auto.
  - destruct E4 as (_ & us & a & -> & R). rewrite E3 in F. rewrite Forall_forall in F. specialize (F a).
    assert (In a ((us ++ [a]) ++ k_sched s')) as I. { apply in_or_app. left. apply in_or_app. right. now left. }
    specialize (F I). destruct a; [destruct R; subst; lia|exact F].
Qed.
Print Assumptions C06_vectored_write_succeeds.

(** Collections of slices: what is added later comes later. *)
Theorem C06_collected : forall a x b s,
  Forall (fun a => match a with Accept n => 0 < n | WFail _ => False end) (k_sched s) ->
  exists s', write_vectored_all (append (add_slice x a) b) s = (Ok tt, s') /\ k_got s' = k_got s ++ concat a ++ x ++ concat b.
Proof.
  intros a x b s F. destruct (C06_vectored_write_succeeds (append (add_slice x a) b) s F) as (s' & E & G). exists s'. split; [exact E|].
  rewrite G. unfold append, add_slice. rewrite !concat_app. cbn [concat]. now rewrite app_nil_r, <- !app_assoc.
Qed.
Print Assumptions C06_collected.
Example C06_collected_example :
  write_vectored_all (append (add_slice (str "c") [str "a"; str "b"]) [str "d"]) (mk_sink [] [Accept 3]) = (Ok tt, mk_sink (str "abcd") []).
Proof. vm_compute. reflexivity. Qed.

(** The documented use: the vectored form of a packet through such a sink is its encoding. *)
Theorem C06_packet_vectored : forall U (P : proto U) (p : packet U) e s, packet_enc P p e ->
  Forall (fun a => match a with Accept n => 0 < n | WFail _ => False end) (k_sched s) ->
  exists l s', pkt_slices p = Ok l /\ write_vectored_all l s = (Ok tt, s') /\ k_got s' = k_got s ++ e.
Proof.
  intros U P p e s H F. destruct (pkt_slices_ok P p e H) as (l & L1 & L2). exists l.
  destruct (C06_vectored_write_succeeds l s F) as (s' & S1 & S2). exists s'. rewrite <- L2. auto.
Qed.
Print Assumptions C06_packet_vectored.

(** Empty slices, writes ending inside a slice and at its border, a stall, an error. *)
Example C06_example :
  let sl := [str "ab"; []; str "cdef"; []; str "g"] in
  write_vectored_all sl (mk_sink [] [Accept 1; Accept 1; Accept 3; Accept 9]) = (Ok tt, mk_sink (str "abcdefg") []) /\
  write_vectored_all sl (mk_sink (str "x") [Accept 3; Accept 0; Accept 5]) = (Err (EIo WriteZero), mk_sink (str "xabc") [Accept 5]) /\
  write_vectored_all sl (mk_sink [] [Accept 4; WFail Interrupted; Accept 5]) = (Err (EIo Interrupted), mk_sink (str "abcd") [Accept 5]) /\
  write_vectored_all [[]; []] (mk_sink [] [Accept 0]) = (Ok tt, mk_sink [] [Accept 0]).
Proof. vm_compute. auto. Qed.
Example C06_packet_example :
  match pkt_slices p_num with
  | Ok l => write_vectored_all l (mk_sink [] [Accept 5; Accept 40; Accept 1]) = (Ok tt, mk_sink (wire p_num) [])
  | _ => False
  end.
Proof. vm_compute. reflexivity. Qed.

(** ** C51 *)
(** Calling [refill] as documented, when [buffer_len] is below 4, loses bytes: the preload is not counted by
    [buffer_len] and [refill] overwrites it. *)
Theorem C51_refill_refuted : exists evs os c,
  br_calls br_documented (br_start evs) os c /\
  ~ (exists t, b_view (mk_bufsrc [] evs) = bc_got c ++ t).
Proof.
  exists [Chunk (str "abc"); Chunk (str "de")], [BRefill; BRefill; BRead 5]. eexists. split.
  - apply calls_cons with (c1 := mk_client (mk_bufrd (mk_bufsrc [] [Chunk (str "de")]) (str "abc") 0 0) [] []).
    + intros _. eexists _, _. split; [reflexivity|]. vm_compute. lia.
    + apply call_refill. reflexivity.
    + apply calls_cons with (c1 := mk_client (mk_bufrd (mk_bufsrc [] []) (str "de") 0 0) [] []).
      * intros _. eexists _, _. split; [reflexivity|]. vm_compute. lia.
      * apply call_refill. reflexivity.
      * eapply calls_cons; [discriminate| |apply calls_nil]. apply call_read. reflexivity.
  - cbn [bc_got]. intros (t & T). vm_compute in T. discriminate.
Qed.
Print Assumptions C51_refill_refuted.

(** [consumed] is wrong after consuming past the end of the preloaded bytes: it leaves those out. *)
Theorem C51_consumed_refuted : exists evs os c,
  br_calls (br_polite false) (br_start evs) os c /\ bc_got c = b_view (mk_bufsrc [] evs) /\
  f_consumed (bc_reader c) <> length (bc_got c).
Proof.
  exists [Chunk (str "abc"); Chunk (str "de")], [BRefill; BFill; BConsume 5]. eexists. split.
  - apply calls_cons with (c1 := mk_client (mk_bufrd (mk_bufsrc [] [Chunk (str "de")]) (str "abc") 0 0) [] []).
    + reflexivity.
    + apply call_refill. reflexivity.
    + apply calls_cons with (c1 := mk_client (mk_bufrd (mk_bufsrc (str "de") []) (str "abc") 2 0) (str "abcde") []); [exact I| |].
      * apply call_fill. reflexivity.
      * eapply calls_cons; [discriminate| |apply calls_nil]. apply call_consume. vm_compute. lia.
  - split; [vm_compute; reflexivity|]. vm_compute. lia.
Qed.
Print Assumptions C51_consumed_refuted.

(** A [read] that fails has already dropped the preloaded bytes. *)
Theorem C51_read_error_refuted : exists evs os c,
  br_calls (fun c o => o = BRefill -> f_buffer (bc_reader c) = []) (br_start evs) os c /\
  ~ (exists t, b_view (mk_bufsrc [] evs) = bc_got c ++ t).
Proof.
  exists [Chunk (str "abc"); Fail Interrupted; Chunk (str "de")], [BRefill; BRead 5; BRead 5]. eexists. split.
  - apply calls_cons with (c1 := mk_client (mk_bufrd (mk_bufsrc [] [Fail Interrupted; Chunk (str "de")]) (str "abc") 0 0) [] []).
    + reflexivity.
    + apply call_refill. reflexivity.
    + apply calls_cons with (c1 := mk_client (mk_bufrd (mk_bufsrc [] [Chunk (str "de")]) [] 0 0) [] []); [discriminate| |].
      * apply call_read_err with (e := EIo Interrupted). reflexivity.
      * eapply calls_cons; [discriminate| |apply calls_nil]. apply call_read. reflexivity.
  - cbn [bc_got]. intros (t & T). vm_compute in T. discriminate.
Qed.
Print Assumptions C51_read_error_refuted.

(** Missing: call sequences with [refill] over preloaded bytes or a [read] that fails over them (both lose
    them), and [consumed] after a [consume] crossing the end of the preloaded bytes.  For all others, whatever
    the chunking and errors: the bytes delivered and the bytes still to come are the source. *)
Theorem C51_buffered_reader_partial : forall strict evs os c,
  br_calls (br_polite strict) (br_start evs) os c ->
  bc_got c ++ f_buffer (bc_reader c) ++ b_view (f_inner (bc_reader c)) = b_view (mk_bufsrc [] evs) /\
  (strict = true -> f_consumed (bc_reader c) = length (bc_got c)).
Proof.
  intros strict evs os c C. destruct (br_calls_inv _ _ _ _ _ (br_start_inv strict evs) C) as (I1 & _ & _ & I4). auto.
Qed.
Print Assumptions C51_buffered_reader_partial.

(** What any legal call does, whatever was called before it: it delivers the next bytes, but throws the preloaded ones away
    where [br_lost] says so, and counts what it delivered but for [br_uncounted]. *)
Theorem C51_each_call : forall evs os c o c',
  br_calls br_any (br_start evs) os c -> br_call c o c' ->
  exists del, bc_got c' = bc_got c ++ del /\
    f_buffer (bc_reader c) ++ b_view (f_inner (bc_reader c))
      = del ++ br_lost c o ++ f_buffer (bc_reader c') ++ b_view (f_inner (bc_reader c')) /\
    (f_consumed (bc_reader c') + br_uncounted c o = f_consumed (bc_reader c) + length del)%nat.
Proof.
  intros evs os c o c' C CA. exact (proj2 (br_call_any c o c' (br_calls_any os _ _ (br_start_any evs) C) CA)).
Qed.
Print Assumptions C51_each_call.

(** A [consume] that crosses the end of the preloaded bytes and a [refill] over preloaded bytes. *)
Example C51_example_each : exists c c1 c2 c3,
  br_calls br_any (br_start [Chunk (str "abc"); Chunk (str "de"); Chunk (str "fgh"); Chunk (str "ij")]) [BRefill; BFill] c /\
  br_call c (BConsume 4) c1 /\ bc_got c1 = str "abcd" /\ f_consumed (bc_reader c1) = 1%nat /\ br_uncounted c (BConsume 4) = 3%nat /\
  br_call c1 BRefill c2 /\ br_call c2 BRefill c3 /\ br_lost c1 BRefill = [] /\ br_lost c2 BRefill = str "e" /\
  f_buffer (bc_reader c3) = str "fgh".
Proof.
  do 4 eexists. split.
  - eapply calls_cons; [exact I|apply call_refill; vm_compute; reflexivity|].
    eapply calls_cons; [exact I|eapply call_fill; vm_compute; reflexivity|apply calls_nil].
  - split; [eapply call_consume; vm_compute; lia|]. split; [vm_compute; reflexivity|]. split; [vm_compute; reflexivity|].
    split; [vm_compute; reflexivity|]. split; [eapply call_refill; vm_compute; reflexivity|].
    split; [eapply call_refill; vm_compute; reflexivity|]. repeat split; vm_compute; reflexivity.
Qed.

(** [fill_buf] after the preload joins the two buffers; reads cross the border. *)
Example C51_example : exists c,
  br_calls (br_polite true) (br_start [Chunk (str "abc"); Fail WouldBlock; Chunk (str "de"); Chunk (str "fgh")])
    [BRefill; BFill; BFill; BConsume 2; BLen; BRead 2; BBufferLen; BFill; BConsume 1; BRead 7] c /\
  bc_got c = str "abcdefgh" /\ f_consumed (bc_reader c) = 8%nat.
Proof.
  eexists. split.
  - eapply calls_cons; [reflexivity|apply call_refill; vm_compute; reflexivity|].
    eapply calls_cons; [exact I|eapply call_fill_err; vm_compute; reflexivity|].
    eapply calls_cons; [exact I|eapply call_fill; vm_compute; reflexivity|].
    eapply calls_cons; [vm_compute; intros _; right; lia|eapply call_consume; vm_compute; lia|].
    eapply calls_cons; [exact I|eapply call_len; vm_compute; reflexivity|].
    eapply calls_cons; [right; eexists _, _; vm_compute; reflexivity|eapply call_read; vm_compute; reflexivity|].
    eapply calls_cons; [exact I|eapply call_buffer_len; vm_compute; reflexivity|].
    eapply calls_cons; [exact I|eapply call_fill; vm_compute; reflexivity|].
    eapply calls_cons; [vm_compute; intros _; left; reflexivity|eapply call_consume; vm_compute; lia|].
    eapply calls_cons; [left; vm_compute; reflexivity|eapply call_read; vm_compute; reflexivity|]. apply calls_nil.
  - vm_compute. auto.
Qed.

(** ** C72 *)
(** A source never gives an empty buffer before its end.  What the three calls say is what [fill_buf] then shows; [is_empty] means the end
    of the data; a call that fails has the error of the source and loses nothing. *)
Theorem C72_lengths : forall r, Forall (fun e => e <> Chunk []) (b_evs (f_inner r)) ->
  let ahead (r : bufrd) := f_buffer r ++ b_view (f_inner r) in
  let shows (r1 : bufrd) (n : nat) := exists b r2 t, br_fill_buf r1 = (Ok b, r2) /\ length b = n /\ ahead r = b ++ t in
  let failed (e : err) (r1 : bufrd) := ahead r1 = ahead r /\ exists k rest, e = EIo k /\ b_evs (f_inner r) = Fail k :: rest in
  match br_len r with (Ok n, r1) => shows r1 n | (Err e, r1) => failed e r1 | (Panic _, _) => False end /\
  match br_is_empty r with
  | (Ok b, r1) => (b = true <-> ahead r = []) /\ exists n, shows r1 n /\ (b = true <-> n = O)
  | (Err e, r1) => failed e r1
  | (Panic _, _) => False
  end /\
  match br_buffer_len r with
  | (Ok n, r1) => shows r1 (length (f_buffer r) + n)%nat
  | (Err e, r1) => failed e r1
  | (Panic _, _) => False
  end.
Proof.
  intros r F ahead shows failed. unfold br_is_empty, br_len, br_buffer_len. destruct (fill_buf (f_inner r)) as ([b|e|w] & s') eqn:E; cbn [rbind sbind].
  - destruct (br_fill_full r b s' F E) as ((r2 & E1) & (t & E2) & E3).
    assert (SH : shows (mk_bufrd s' (f_buffer r) (f_inner_len r) (f_consumed r)) (length b + length (f_buffer r))%nat).
    { exists (f_buffer r ++ b), r2, t. split; [exact E1|]. split; [rewrite app_length; lia|exact E2]. }
    split; [exact SH|]. split.
    + split.
      * unfold ahead. rewrite <- E3. rewrite Nat.eqb_eq. destruct b, (f_buffer r); cbn [length app]; split; intros Q; (reflexivity || discriminate Q || lia).
      * eexists. split; [exact SH|]. apply Nat.eqb_eq.
    + rewrite (Nat.add_comm (length (f_buffer r))). exact SH.
  - assert (failed e (mk_bufrd s' (f_buffer r) (f_inner_len r) (f_consumed r))) as FA.
    { destruct (fill_inner _ _ _ E) as (V & _). split; [unfold ahead; cbn [f_buffer f_inner]; now rewrite V|].
      unfold fill_buf in E. destruct (b_cur (f_inner r)); [|discriminate E]. destruct (b_evs (f_inner r)) as [|[bs|k] q]; try discriminate E.
      injection E as <- _. exists k, q. auto. }
    auto.
  - destruct (fill_inner _ _ _ E) as (_ & _ & _ & NP). now destruct (NP w).
Qed.
Print Assumptions C72_lengths.

(** Three bytes preloaded, two behind them; then an error; then the end. *)
Example C72_example :
  let r := mk_bufrd (mk_bufsrc [] [Chunk (str "de"); Fail WouldBlock]) (str "abc") 0 0 in
  let r1 := br_consume 5 (snd (br_fill_buf r)) in
  fst (br_len r) = Ok 5%nat /\ fst (br_buffer_len r) = Ok 2%nat /\ fst (br_is_empty r) = Ok false /\
  fst (br_fill_buf (snd (br_len r))) = Ok (str "abcde") /\
  fst (br_is_empty r1) = Err (EIo WouldBlock) /\ fst (br_is_empty (snd (br_is_empty r1))) = Ok true.
Proof. vm_compute. repeat split. Qed.
