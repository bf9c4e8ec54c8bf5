(** * Theorems about the streaming reader (C26-C32 and its part in C19 and C22), each
      followed by a concrete case. *)
From Coq Require Import ZifyBool ZifyNat ZifyN.
From Verif Require Import Base Crc32 Io Block Payload Packet Rules StreamReader Spec BaseProofs CrcProofs BlockProofs
  DispatchProofs PayloadProofs PayloadEnumProofs PacketProofs PacketSafeProofs RulesProofs WireProofs
  LayoutProofs NegProofs CanonProofs StreamProofs StreamItemProofs SessionProofs StreamFaultProofs StreamCutProofs StreamSoundProofs StreamSafeProofs StuckProofs Samples.
Ltac Zify.zify_post_hook ::= Z.div_mod_to_equations.
Open Scope list_scope.

(** ** Observations for the examples *)
Inductive seen := SWait (n : N) | SNoData | SNotFound | SSkipped | SFound (p : list (bytes * bytes) * option (bytes * bytes)).
Definition obs_next (n : next N) : seen :=
  match n with
  | NNotEnough n => SWait n | NNoData => SNoData | NNotFound => SNotFound | NSkipped => SSkipped
  | NFound p => SFound (obs p)
  end.
Definition watch (n : nat) (r : preader N) : list (res seen) * log :=
  let (os, r) := pr_reads P0 n r in (map (rmap obs_next) os, r_log r).
(** What is not [NotEnoughData]/[NotFound]. *)
Definition loud (o : res seen) : bool := match o with Ok (SWait _) | Ok SNotFound => false | _ => true end.
(** Chunks of [n] bytes. *)
Fixpoint chop (fuel n : nat) (bs : bytes) : list bytes :=
  match fuel, bs with S f, _ :: _ => firstn n bs :: chop f n (skipn n bs) | _, _ => [] end.

(** ** C26 *)
Lemma pure_bytes es : concat es = stream_bytes (combine (map (fun _ => []) es) es) [].
Proof.
  unfold stream_bytes. rewrite app_nil_r. induction es as [|e es IH]; [reflexivity|]. cbn [map combine concat fst snd app]. now rewrite <- IH.
Qed.
Lemma pure_gaps (es : list bytes) : Forall2 (fun g e => no_signature g e) (map (fun _ => []) es) es.
Proof. induction es as [|e es IH]; cbn [map]; constructor; [|exact IH]. intros i L. cbn [length] in L. lia. Qed.

(** Any rule history, any chunking: the reports are exactly the verdicts on the packets, in order. *)
Theorem C27_filtered_stream : forall U (P : proto U) (ops : list (rule_op U)) ps es cs,
  proto_ok P -> Forall2 (packet_enc P) ps es -> Forall few_blocks ps -> cut_into cs (concat es) ->
  let rs := rule_history ops in
  exists outs r',
    pr_reads P (length outs + 1) (fresh rs (map Chunk cs)) = (outs ++ [Ok NNoData], r') /\
    Forall2 (verdict P rs) ps (reports outs) /\ r_log r' = [].
Proof.
  intros U P ops ps es cs HP HE HB HC rs.
  destruct (mixed_stream P HP ops (map (fun _ => []) es) ps es [] cs HE HB (pure_gaps es)) as (outs & r' & R1 & _ & R3 & R4 & R5).
  - intros i L. cbn [length] in L. lia.
  - rewrite <- pure_bytes. exact HC.
  - left. apply Forall_map, Forall_forall. intros e _. cbn [length]. lia.
  - exists outs, r'. split; [exact R1|]. split; [exact R3|]. fold rs in R4, R5.
    destruct (existsb (fun x => match x with RIgnored _ => true | _ => false end) rs) eqn:EX.
    + apply existsb_exists in EX as ([t|f|f|f] & HI & Q); try discriminate.
      destruct (R4 t HI) as (bufs & -> & NE & CO). rewrite app_nil_r in CO.
      replace (concat (map (fun _ : bytes => []) es)) with (@nil byte) in CO by (clear; induction es; cbn; auto).
      apply concat_nonnil in CO; [|exact NE]. subst bufs. reflexivity.
    + apply R5. intros t HI. assert (Q : existsb (fun x => match x with RIgnored _ => true | _ => false end) rs = true).
      { apply existsb_exists. exists (RIgnored t). auto. } congruence.
Qed.
Print Assumptions C27_filtered_stream.

(** Without filter rules every packet is returned. *)
Theorem C26_pure_stream : forall U (P : proto U) (ops : list (rule_op U)) ps es cs,
  proto_ok P -> Forall2 (packet_enc P) ps es -> Forall few_blocks ps -> cut_into cs (concat es) ->
  let rs := rule_history ops in
  (forall x, In x rs -> exists t, x = RIgnored t) ->
  exists outs r',
    pr_reads P (length outs + 1) (fresh rs (map Chunk cs)) = (outs ++ [Ok NNoData], r') /\
    reports outs = map (fun p => Ok (NFound p)) ps /\ r_log r' = [].
Proof.
  intros U P ops ps es cs HP HE HB HC rs NF.
  destruct (C27_filtered_stream U P ops ps es cs HP HE HB HC) as (outs & r' & R1 & R2 & R3). fold rs in R1, R2.
  exists outs, r'. split; [exact R1|]. split; [|exact R3].
  assert (AC : forall p, accepts P rs p).
  { intros p. split; [|split]; intros f; intros; match goal with H : In _ rs |- _ => destruct (NF _ H); discriminate end. }
  clear - R2 AC. induction R2 as [|p o ps os V F IH]; [reflexivity|]. cbn [map]. rewrite IH. f_equal.
  destruct V as [A|A]; [reflexivity|]. now specialize (AC p).
Qed.
Print Assumptions C26_pure_stream.

Definition demo_stream : bytes := concat (map wire [p_num; p_void; p_txt; p_bare]).
Example C26_example : let cs := chop 1000 7 demo_stream in
  cut_into cs demo_stream /\
  let (os, l) := watch 100 (fresh [RIgnored 5] (map Chunk cs)) in
  filter loud os = map (fun p => Ok (SFound (obs p))) [p_num; p_void; p_txt; p_bare] ++ repeat (Ok SNoData) (length (filter loud os) - 4)
  /\ (4 < length (filter loud os))%nat /\ l = [].
Proof.
  split.
  - split; [vm_compute; reflexivity|]. apply Forall_forall. intros c H.
    assert (Q : forallb (fun c => match c with [] => false | _ => blen c <? two63 end) (chop 1000 7 demo_stream) = true) by (vm_compute; reflexivity).
    rewrite forallb_forall in Q. specialize (Q c H). destruct c; [discriminate|]. split; [discriminate|lia].
  - vm_compute. split; [reflexivity|]. split; [repeat constructor|reflexivity].
Qed.
Example C26_hypotheses : Forall2 (packet_enc P0) [p_num; p_void; p_txt; p_bare] (map wire [p_num; p_void; p_txt; p_bare]) /\
  Forall few_blocks [p_num; p_void; p_txt; p_bare].
Proof.
  split.
  - constructor; [exact p_num_enc|]. constructor; [exact p_void_enc|]. constructor; [exact p_txt_enc|]. constructor; [exact p_bare_enc|constructor].
  - repeat (constructor; [unfold few_blocks; cbn; lia|]). constructor.
Qed.

(** ** C27 *)
Example C27_example : let rs := rule_history [OpAdd (RFilterByBlocks (fun bs => Nat.leb 2 (length bs))); OpAdd (RFilter (fun p => match p_payload p with None => false | _ => true end))] in
  let (os, l) := watch 100 (fresh rs (map Chunk (chop 1000 11 demo_stream))) in
  firstn 5 (filter loud os) = [Ok (SFound (obs p_num)); Ok SSkipped; Ok (SFound (obs p_txt)); Ok SSkipped; Ok SNoData].
Proof. vm_compute. reflexivity. Qed.

(** ** C28 *)
Lemma no_signature_check g nx :
  forallb (fun i => negb (bytes_eqb (firstn 8 (skipn i (g ++ nx))) (map n2b [236; 37; 94; 136; 236; 37; 94; 136]))) (seq 0 (length g)) = true ->
  no_signature g nx.
Proof.
  intros H i L E. rewrite forallb_forall in H. specialize (H i). rewrite E, bytes_eqb_refl in H.
  assert (false = true) by (apply H, in_seq; lia). discriminate.
Qed.
Lemma cut_check cs D : concat cs = D -> forallb (fun c => match c with [] => false | _ => blen c <? two63 end) cs = true -> cut_into cs D.
Proof.
  intros E H. split; [exact E|]. apply Forall_forall. intros c HI. rewrite forallb_forall in H. specialize (H c HI).
  destruct c; [discriminate|]. split; [discriminate|lia].
Qed.

(** The subtraction [sgmt.end() - buffered] underflows. *)
Theorem C28_underflow_refuted : exists gs ps es cs n,
  Forall2 (packet_enc P0) ps es /\ Forall few_blocks ps /\ Forall2 (fun g e => no_signature g e) gs es /\
  cut_into cs (concat (map (fun ge => fst ge ++ snd ge) (combine gs es))) /\
  nth_error (fst (pr_reads P0 (S n) (fresh [] (map Chunk cs)))) n = Some (Panic POverflow).
Proof.
  set (g := repeat (n2b 7) 21). set (D := g ++ wire p_bare).
  exists [g], [p_bare], [wire p_bare], [firstn 29 D; firstn 22 (skipn 29 D); skipn 51 D], 2%nat.
  split; [constructor; [exact p_bare_enc|constructor]|]. split; [constructor; [unfold few_blocks; cbn; lia|constructor]|].
  split; [constructor; [apply no_signature_check; vm_compute; reflexivity|constructor]|].
  split; [apply cut_check; vm_compute; reflexivity|]. vm_compute. reflexivity.
Qed.
Print Assumptions C28_underflow_refuted.

(** A packet at the end of the stream is thrown away: the reader says [NoData] without having returned it,
    and hands its bytes to the ignore callback as foreign bytes. *)
Theorem C28_lost_packet_refuted : exists g p e cs n r,
  packet_enc P0 p e /\ few_blocks p /\ no_signature g e /\ cut_into cs (g ++ e) /\
  pr_reads P0 n (fresh [RIgnored 3] (map Chunk cs)) = ([Ok NNotFound; Ok (NNotEnough 8); Ok NNoData], r) /\
  r_log r = [(3, g ++ e)] /\
  forall k, fst (pr_reads P0 k r) = repeat (Ok NNoData) k.
Proof.
  set (g := repeat (n2b 7) 21). set (D := g ++ wire p_void).
  exists g, p_void, (wire p_void), [firstn 29 D; skipn 29 D], 3%nat.
  exists (mk_preader (mk_bufsrc [] []) [RIgnored 3] HEmpty [] [(3, D)]).
  split; [exact p_void_enc|]. split; [unfold few_blocks; cbn; lia|].
  split; [apply no_signature_check; vm_compute; reflexivity|].
  split; [apply cut_check; vm_compute; reflexivity|].
  split; [vm_compute; reflexivity|]. split; [reflexivity|].
  intros k. rewrite (stuck_forever P0 _ (Ok NNoData)); reflexivity.
Qed.
Print Assumptions C28_lost_packet_refuted.

(** Missing for the full statement: streams with 21 or more foreign bytes before a packet in chunks shorter than a packet header
    (29 bytes), for which it is false; see [C28_any_chunks] for them. *)
Theorem C28_mixed_stream_partial : forall U (P : proto U) (ops : list (rule_op U)) gs ps es last cs,
  proto_ok P -> Forall2 (packet_enc P) ps es -> Forall few_blocks ps ->
  Forall2 (fun g e => no_signature g e) gs es -> no_signature last [] ->
  cut_into cs (concat (map (fun ge => fst ge ++ snd ge) (combine gs es)) ++ last) ->
  Forall (fun g => (length g < 21)%nat) gs \/ Forall (fun c => (29 <= length c)%nat) cs ->
  let rs := rule_history ops in
  exists outs r',
    pr_reads P (length outs + 1) (fresh rs (map Chunk cs)) = (outs ++ [Ok NNoData], r') /\
    (forall k, fst (pr_reads P (length outs + 1 + k) (fresh rs (map Chunk cs))) = outs ++ repeat (Ok NNoData) (k + 1)) /\
    Forall2 (verdict P rs) ps (reports outs) /\
    (forall t, In (RIgnored t) rs -> exists bufs, r_log r' = map (pair t) bufs /\ Forall (fun b => b <> []) bufs /\
       concat bufs = concat gs ++ last) /\
    ((forall t, ~ In (RIgnored t) rs) -> r_log r' = []).
Proof. intros U P ops gs ps es last cs HP HE HB HG HL HC H29 rs. exact (mixed_stream P HP ops gs ps es last cs HE HB HG HL HC H29). Qed.
Print Assumptions C28_mixed_stream_partial.

(** Chunks of any length.  Either everything is as it should be; or some chunk is shorter than 29 bytes and the reader stops at a packet
    behind 21 foreign bytes or more, having reported all packets before it: it panics there, or this is the last packet, not longer than
    36 bytes, and goes to the ignore callback with the foreign bytes around it. *)
Theorem C28_any_chunks : forall U (P : proto U) (ops : list (rule_op U)) gs ps es last cs,
  proto_ok P -> Forall2 (packet_enc P) ps es -> Forall few_blocks ps ->
  Forall2 (fun g e => no_signature g e) gs es -> no_signature last [] ->
  cut_into cs (concat (map (fun ge => fst ge ++ snd ge) (combine gs es)) ++ last) ->
  let rs := rule_history ops in
  exists outs o r' ps1 ps2 told,
    pr_reads P (length outs + 1) (fresh rs (map Chunk cs)) = (outs ++ [o], r') /\
    ps = ps1 ++ ps2 /\ Forall2 (verdict P rs) ps1 (reports outs) /\
    (forall t, In (RIgnored t) rs -> exists bufs, r_log r' = map (pair t) bufs /\ Forall (fun b => b <> []) bufs /\ concat bufs = told) /\
    ((forall t, ~ In (RIgnored t) rs) -> r_log r' = []) /\
    (o = Ok NNoData -> forall k, fst (pr_reads P (length outs + 1 + k) (fresh rs (map Chunk cs))) = outs ++ repeat (Ok NNoData) (k + 1)) /\
    ((ps2 = [] /\ o = Ok NNoData /\ told = concat gs ++ last) \/
     (Exists (fun c => (length c < 29)%nat) cs /\
      exists p ps3 g e, ps2 = p :: ps3 /\ nth_error gs (length ps1) = Some g /\ nth_error es (length ps1) = Some e /\ (21 <= length g)%nat /\
       (o = Panic POverflow /\ told = concat (firstn (length ps1 + 1) gs) \/
        o = Ok NNoData /\ ps3 = [] /\ (length e + length last <= 36)%nat /\ told = concat gs ++ e ++ last))).
Proof.
  intros U P ops gs ps es last cs HP HE HB HG HL HC rs. pose proof (history_nodup ops) as ND. fold rs in ND.
  assert (DEC : Forall (fun c => (29 <= length c)%nat) cs \/ Exists (fun c => (length c < 29)%nat) cs).
  { clear. induction cs as [|c cs [IH|IH]]; [left; constructor| |right; now constructor 2].
    destruct (Nat.le_gt_cases 29 (length c)); [left; now constructor|right; now constructor 1]. }
  destruct DEC as [L29|EX].
  { destruct (mixed_stream P HP ops gs ps es last cs HE HB HG HL HC (or_intror L29)) as (outs & r' & R1 & R2 & R3 & R4 & R5). fold rs in R1, R2, R3, R4, R5.
    exists outs, (Ok NNoData), r', ps, [], (concat gs ++ last). split; [exact R1|]. split; [now rewrite app_nil_r|]. split; [exact R3|].
    split; [exact R4|]. split; [exact R5|]. split; [intros _; exact R2|]. left. auto. }
  destruct (any_stream P HP ops gs ps es last cs HE HB HG HL HC) as (outs & o & r' & ps1 & ps2 & bufs & R1 & R2 & R3 & R4 & R5 & R6 & R7).
  fold rs in R1, R3, R4, R6. exists outs, o, r', ps1, ps2, (concat bufs). split; [exact R1|]. split; [exact R2|]. split; [exact R3|].
  split. { intros t IT. exists bufs. rewrite R4, (logs_some rs t) by easy. auto. }
  split. { intros NI. rewrite R4. now apply logs_none. }
  split; [exact R6|]. destruct R7 as [R7|R7]; [left; exact R7|right; split; [exact EX|exact R7]].
Qed.
Print Assumptions C28_any_chunks.

Definition demo_gaps : list bytes := [str "leading noise"; []; repeat (n2b 236) 61].
Definition demo_mixed : bytes :=
  concat (map (fun ge => fst ge ++ snd ge) (combine demo_gaps (map wire [p_num; p_void; p_txt]))) ++ str "tail".
Example C28_example : let cs := [firstn 47 demo_mixed; firstn 60 (skipn 47 demo_mixed); firstn 70 (skipn 107 demo_mixed); skipn 177 demo_mixed] in
  cut_into cs demo_mixed /\ Forall (fun c => (29 <= length c)%nat) cs /\
  Forall2 (fun g e => no_signature g e) demo_gaps (map wire [p_num; p_void; p_txt]) /\ no_signature (str "tail") [] /\
  let (os, l) := watch 30 (fresh [RIgnored 5] (map Chunk cs)) in
  firstn 4 (filter loud os) = [Ok (SFound (obs p_num)); Ok (SFound (obs p_void)); Ok (SFound (obs p_txt)); Ok SNoData] /\
  concat (map snd l) = str "leading noise" ++ repeat (n2b 236) 61 ++ str "tail".
Proof.
  split; [apply cut_check; vm_compute; reflexivity|].
  split. { apply Forall_forall. intros c H. apply Nat.leb_le. revert c H. apply forallb_forall. vm_compute. reflexivity. }
  split. { repeat (constructor; [apply no_signature_check; vm_compute; reflexivity|]). constructor. }
  split; [apply no_signature_check; vm_compute; reflexivity|]. vm_compute. split; reflexivity.
Qed.

(** Few foreign bytes: one byte at a time. *)
Definition thin_gaps : list bytes := [str "leading noise"; []; repeat (n2b 236) 20].
Definition thin_stream : bytes :=
  concat (map (fun ge => fst ge ++ snd ge) (combine thin_gaps (map wire [p_num; p_void; p_txt]))) ++ str "a tail may have any length, like this one".
Example C28_thin_example : let cs := chop 1000 1 thin_stream in
  cut_into cs thin_stream /\ Forall (fun g => (length g < 21)%nat) thin_gaps /\
  Forall2 (fun g e => no_signature g e) thin_gaps (map wire [p_num; p_void; p_txt]) /\
  let (os, l) := watch 600 (fresh [RIgnored 5] (map Chunk cs)) in
  firstn 4 (filter loud os) = [Ok (SFound (obs p_num)); Ok (SFound (obs p_void)); Ok (SFound (obs p_txt)); Ok SNoData] /\
  concat (map snd l) = str "leading noise" ++ repeat (n2b 236) 20 ++ str "a tail may have any length, like this one".
Proof.
  split; [apply cut_check; vm_compute; reflexivity|].
  split. { apply Forall_forall. intros c H. apply Nat.ltb_lt. revert c H. apply forallb_forall. vm_compute. reflexivity. }
  split. { repeat (constructor; [apply no_signature_check; vm_compute; reflexivity|]). constructor. }
  vm_compute. split; reflexivity.
Qed.

(** ** C29 *)
(** For arbitrary bytes, any chunking, any errors of the source in between and any rules. *)
Theorem C29_no_invented_packets : forall U (P : proto U) (rs : rules U) evs n,
  let D := concat (map ev_bytes evs) in blen D < two63 ->
  sections P D (found_packets (fst (pr_reads P n (fresh rs evs)))).
Proof. intros U P rs evs n D L. exact (no_invention P rs evs n L). Qed.
Print Assumptions C29_no_invented_packets.

(** Not vacuous: on a stream with noise, an error in the middle of a packet and two more packets, two are found. *)
Example C29_example :
  let evs := [Chunk (str "noise noise noise noise noise noise" ++ wire p_void); Chunk (firstn 50 (wire p_num)); Fail Interrupted;
              Chunk (skipn 50 (wire p_num) ++ wire p_txt)] in
  map obs (found_packets (fst (pr_reads P0 20 (fresh [] evs)))) = [obs p_void; obs p_txt].
Proof. vm_compute. reflexivity. Qed.

(** ** C30 *)
(** A truncated packet at the end of the stream: [NotEnoughData] for ever, never [NoData]. *)
Theorem C30_termination_refuted : exists D k, 0 < k /\ forall n,
  fst (pr_reads P0 n (fresh [] [Chunk D])) = repeat (Ok (NNotEnough k)) n.
Proof.
  exists (firstn 60 (wire p_num)), 45. split; [lia|]. intros [|n]; [reflexivity|]. cbn [pr_reads repeat].
  assert (E : pr_read P0 (fresh [] [Chunk (firstn 60 (wire p_num))]) = (Ok (NNotEnough 45), snd (pr_read P0 (fresh [] [Chunk (firstn 60 (wire p_num))])))) by (vm_compute; reflexivity).
  rewrite E. set (r2 := snd (pr_read P0 _)).
  assert (E2 : pr_read P0 r2 = (Ok (NNotEnough 45), r2)) by (unfold r2; vm_compute; reflexivity).
  rewrite (stuck_forever P0 r2 _ E2). reflexivity.
Qed.
Print Assumptions C30_termination_refuted.

(** The loop ends (with [NoData], an error or a panic) after at most three calls per byte, or it comes to wait for ever
    for the rest of a packet. *)
Theorem C30_termination_partial : forall U (P : proto U) (rs : rules U) cs,
  Forall (fun c => c <> []) cs ->
  exists m outs r', (m <= 3 * length (concat cs))%nat /\ pr_reads P m (fresh rs (map Chunk cs)) = (outs, r') /\
    Forall (fun o => goes_on o = true) outs /\
    (goes_on (fst (pr_read P r')) = false \/
     exists k, 0 < k /\ forall j, pr_reads P j r' = (repeat (Ok (NNotEnough k)) j, r')).
Proof.
  intros U P rs cs F. apply ends_or_waits.
  - exists cs. auto.
  - unfold mu, fresh, b_view. cbn [r_src r_state weight b_cur b_evs app]. rewrite map_map, map_ext with (g := fun x => x) by reflexivity. rewrite map_id. lia.
Qed.
Print Assumptions C30_termination_partial.

Example C30_example : exists m, (m <= 3 * length demo_stream)%nat /\
  nth_error (fst (watch (S m) (fresh [] (map Chunk (chop 1000 13 demo_stream))))) m = Some (Ok SNoData).
Proof. exists 60%nat. split; [apply Nat.leb_le; vm_compute; reflexivity|vm_compute; reflexivity]. Qed.

(** ** C31 *)
(** An interrupted system read in the middle of a packet loses the packet for good. *)
Theorem C31_transient_error_refuted : exists p e a b,
  packet_enc P0 p e /\ few_blocks p /\ a ++ b = e /\
  forall n, found_packets (fst (pr_reads P0 n (fresh [] [Chunk a; Fail Interrupted; Chunk b]))) = [].
Proof.
  exists p_num, (wire p_num), (firstn 40 (wire p_num)), (skipn 40 (wire p_num)).
  split; [exact p_num_enc|]. split; [unfold few_blocks; cbn; lia|]. split; [apply firstn_skipn|].
  set (evs := [Chunk (firstn 40 (wire p_num)); Fail Interrupted; Chunk (skipn 40 (wire p_num))]).
  assert (E : pr_reads P0 4 (fresh [] evs) = ([Ok (NNotEnough 65); Err (EIo Interrupted); Ok NNotFound; Ok NNoData], snd (pr_reads P0 4 (fresh [] evs)))) by (vm_compute; reflexivity).
  set (r4 := snd (pr_reads P0 4 (fresh [] evs))) in *.
  assert (E2 : pr_read P0 r4 = (Ok NNoData, r4)) by (unfold r4; vm_compute; reflexivity).
  intros n. destruct (Nat.lt_ge_cases n 4) as [L|L].
  - destruct n as [|[|[|[|n]]]]; [| | | |lia]; vm_compute; reflexivity.
  - replace n with (4 + (n - 4))%nat by lia. rewrite reads_app, E, (stuck_forever P0 r4 _ E2). cbn [fst].
    unfold found_packets. rewrite map_app, concat_app. cbn [map concat app]. induction (n - 4)%nat as [|k IH]; [reflexivity|exact IH].
Qed.
Print Assumptions C31_transient_error_refuted.

(** Even a packet that had arrived completely, when it has neither blocks nor payload and its header came in two pieces. *)
Theorem C31_complete_packet_refuted : exists p e a b,
  packet_enc P0 p e /\ few_blocks p /\ a ++ b = e /\
  forall n, found_packets (fst (pr_reads P0 n (fresh [] [Chunk a; Chunk b; Fail Interrupted]))) = [].
Proof.
  exists p_void, (wire p_void), (firstn 20 (wire p_void)), (skipn 20 (wire p_void)).
  split; [exact p_void_enc|]. split; [unfold few_blocks; cbn; lia|]. split; [apply firstn_skipn|].
  set (evs := [Chunk (firstn 20 (wire p_void)); Chunk (skipn 20 (wire p_void)); Fail Interrupted]).
  assert (E : pr_reads P0 4 (fresh [] evs) = ([Ok (NNotEnough 9); Ok (NNotEnough 0); Err (EIo Interrupted); Ok NNoData], snd (pr_reads P0 4 (fresh [] evs)))) by (vm_compute; reflexivity).
  set (r4 := snd (pr_reads P0 4 (fresh [] evs))) in *.
  assert (E2 : pr_read P0 r4 = (Ok NNoData, r4)) by (unfold r4; vm_compute; reflexivity).
  intros n. destruct (Nat.lt_ge_cases n 4) as [L|L].
  - destruct n as [|[|[|[|n]]]]; [| | | |lia]; vm_compute; reflexivity.
  - replace n with (4 + (n - 4))%nat by lia. rewrite reads_app, E, (stuck_forever P0 r4 _ E2). cbn [fst].
    unfold found_packets. rewrite map_app, concat_app. cbn [map concat app]. induction (n - 4)%nat as [|k IH]; [reflexivity|exact IH].
Qed.
Print Assumptions C31_complete_packet_refuted.

(** Whatever the reader was doing, the error is reported and afterwards it does what a new reader with these rules would do:
    nothing received of a packet before the error is used. *)
Theorem C31_after_error : forall U (P : proto U) (r : preader U) k rest,
  b_cur (r_src r) = [] -> b_evs (r_src r) = Fail k :: rest ->
  exists r', pr_read P r = (Err (EIo k), r') /\
    forall n, pr_reads P (S n) r' = pr_reads P (S n) (mk_preader (mk_bufsrc [] rest) (r_rules r) HEmpty [] (r_log r)).
Proof. intros U P r k rest HC HE. exact (after_error P r k rest HC HE). Qed.
Print Assumptions C31_after_error.

(** An error at any place of a stream of packets, in any chunking: the packets before it are all reported, those before the
    error and no others, the one in which it falls is lost, and the reader goes on as new.  Missing: errors inside a packet
    lose it (false as stated), and after a last packet without blocks and payload the error may cost that one too (above). *)
Theorem C31_transient_error_partial : forall U (P : proto U) (ops : list (rule_op U)) ps es a cs k rest,
  proto_ok P -> Forall2 (packet_enc P) ps es -> Forall few_blocks ps ->
  (a = [] /\ (forall es' e, es = es' ++ [e] -> (29 < length e)%nat)) \/
  (a <> [] /\ exists p b, packet_enc P p (a ++ b) /\ few_blocks p /\ b <> [] /\ blen (a ++ b) < two63) ->
  cut_into cs (concat es ++ a) ->
  let rs := rule_history ops in
  exists outs r', pr_reads P (length outs + 1) (fresh rs (map Chunk cs ++ Fail k :: rest)) = (outs ++ [Err (EIo k)], r') /\
    Forall2 (verdict P rs) ps (reports outs) /\
    forall n, pr_reads P (S n) r' = pr_reads P (S n) (fresh rs rest).
Proof. intros U P ops ps es a cs k rest HP HE HB HA HC rs. exact (cut_stream P HP ops ps es a cs k rest HE HB HA HC). Qed.
Print Assumptions C31_transient_error_partial.

Example C31_example :
  let evs := map Chunk (chop 100 40 (wire p_num ++ wire p_bare)) ++ [Fail WouldBlock; Chunk (wire p_txt)] in
  firstn 5 (filter loud (fst (watch 40 (fresh [] evs)))) =
    [Ok (SFound (obs p_num)); Ok (SFound (obs p_bare)); Err (EIo WouldBlock); Ok (SFound (obs p_txt)); Ok SNoData].
Proof. vm_compute. reflexivity. Qed.

(** The error comes 40 bytes into the second packet; what follows it is reported as from a new reader. *)
Example C31_example_inside :
  let evs := map Chunk (chop 100 40 (wire p_num ++ firstn 40 (wire p_num))) ++ [Fail Interrupted; Chunk (wire p_txt)] in
  firstn 4 (filter loud (fst (watch 40 (fresh [] evs)))) =
    [Ok (SFound (obs p_num)); Err (EIo Interrupted); Ok (SFound (obs p_txt)); Ok SNoData].
Proof. vm_compute. reflexivity. Qed.

Example C31_hypotheses : packet_enc P0 p_num (firstn 40 (wire p_num) ++ skipn 40 (wire p_num)) /\
  few_blocks p_num /\ skipn 40 (wire p_num) <> [] /\ blen (firstn 40 (wire p_num) ++ skipn 40 (wire p_num)) < two63.
Proof.
  rewrite firstn_skipn. split; [exact p_num_enc|]. split; [unfold few_blocks; cbn; lia|].
  split; [intros Q; apply (f_equal (@length byte)) in Q; vm_compute in Q; discriminate|vm_compute; reflexivity].
Qed.

(** ** C32 *)
Definition spoil (n : nat) (bs : bytes) : bytes := firstn n bs ++ n2b (b2n (nth n bs (n2b 0)) + 1) :: skipn (n + 1) bs.

(** One wrong byte in a packet header: the same error for ever, the next packet is never reached. *)
Theorem C32_header_damage_refuted : exists e i p2 e2,
  packet_enc P0 p2 e2 /\ (i < 29)%nat /\ packet_enc P0 p_num e /\
  forall n, fst (pr_reads P0 n (fresh [] [Chunk (spoil i e ++ e2)])) = repeat (Err ECrcDismatch) n.
Proof.
  exists (wire p_num), 9%nat, p_bare, (wire p_bare). split; [exact p_bare_enc|]. split; [lia|]. split; [exact p_num_enc|].
  intros [|n]; [reflexivity|]. cbn [pr_reads repeat].
  set (r1 := fresh [] [Chunk (spoil 9 (wire p_num) ++ wire p_bare)]).
  assert (E : pr_read P0 r1 = (Err ECrcDismatch, snd (pr_read P0 r1))) by (vm_compute; reflexivity).
  rewrite E. set (r2 := snd (pr_read P0 r1)).
  assert (E2 : pr_read P0 r2 = (Err ECrcDismatch, r2)) by (unfold r2, r1; vm_compute; reflexivity).
  rewrite (stuck_forever P0 r2 _ E2). reflexivity.
Qed.
Print Assumptions C32_header_damage_refuted.

(** One wrong byte in the payload: the same. *)
Theorem C32_payload_damage_refuted : exists e i p2 e2,
  packet_enc P0 p2 e2 /\ (i < length e)%nat /\ packet_enc P0 p_num e /\
  forall n, fst (pr_reads P0 n (fresh [] [Chunk (spoil i e ++ e2)])) = repeat (Err ECrcDismatch) n.
Proof.
  exists (wire p_num), 101%nat, p_bare, (wire p_bare). split; [exact p_bare_enc|]. split; [vm_compute; lia|]. split; [exact p_num_enc|].
  intros [|n]; [reflexivity|]. cbn [pr_reads repeat].
  set (r1 := fresh [] [Chunk (spoil 101 (wire p_num) ++ wire p_bare)]).
  assert (E : pr_read P0 r1 = (Err ECrcDismatch, snd (pr_read P0 r1))) by (vm_compute; reflexivity).
  rewrite E. set (r2 := snd (pr_read P0 r1)).
  assert (E2 : pr_read P0 r2 = (Err ECrcDismatch, r2)) by (unfold r2, r1; vm_compute; reflexivity).
  rewrite (stuck_forever P0 r2 _ E2). reflexivity.
Qed.
Print Assumptions C32_payload_damage_refuted.

(** In general: a header whose checksum is wrong blocks the reader for ever when it comes in one piece with anything before
    and after it; nothing is handed to the ignore callback. *)
Theorem C32_header_stuck : forall U (P : proto U) (ops : list (rule_op U)) g e more evs n,
  no_signature g e -> wrong_header e ->
  let r := pr_reads P n (fresh (rule_history ops) (Chunk (g ++ e ++ more) :: evs)) in
  fst r = repeat (Err ECrcDismatch) n /\ r_log (snd r) = [].
Proof. intros U P ops g e more evs n NS W. apply clean_spec in NS. exact (header_stuck P (rule_history ops) g e more evs NS W n). Qed.
Print Assumptions C32_header_stuck.

(** When it comes in pieces there is one error; the pieces before the last are forgotten (the ignore callback does not get
    them), and the reader goes on at the beginning of the last piece. *)
Theorem C32_header_pieces : forall U (P : proto U) (ops : list (rule_op U)) a cs b more evs,
  a <> [] -> Forall (fun x => x <> []) cs -> b <> [] -> wrong_header (a ++ concat cs ++ b) ->
  let rs := rule_history ops in
  exists ns, length ns = (length cs + 1)%nat /\ forall n,
    let (os, r) := pr_reads P n (mk_preader (mk_bufsrc (b ++ more) evs) rs HEmpty [] []) in
    pr_reads P (length cs + 2 + n) (fresh rs (Chunk a :: map Chunk cs ++ Chunk (b ++ more) :: evs))
    = (map (fun n => Ok (NNotEnough n)) ns ++ Err ECrcDismatch :: os, r).
Proof. intros U P ops a cs b more evs NA FC NB W rs. exact (header_pieces P rs a cs b more evs NA FC NB W). Qed.
Print Assumptions C32_header_pieces.

(** A packet with valid header, blocks and payload header in which no payload is found (its bytes or its checksum are damaged,
    its type is not known): the reader reports the same error for ever when the packet comes in one piece, unless a rule
    skips it before. *)
Theorem C32_payload_stuck : forall U (P : proto U) (ops : list (rule_op U)) bs body e g more evs,
  proto_ok P -> payload_refused P bs body e -> no_signature g e -> blen (g ++ e ++ more) < two63 ->
  let rs := rule_history ops in
  (forall f, In (RFilterByBlocks f) rs -> f bs = true) -> (forall f, In (RFilterByPayload f) rs -> f body = true) ->
  exists er, forall n,
    let r := pr_reads P n (fresh rs (Chunk (g ++ e ++ more) :: evs)) in
    fst r = repeat (Err er) n /\
    forall t, In (RIgnored t) rs -> r_log (snd r) = match g with [] => [] | _ => repeat (t, g) n end.
Proof.
  intros U P ops bs body e g more evs HP PR NS LC rs F1 F2. pose proof (history_nodup ops) as ND. fold rs in ND.
  destruct (held_refused P HP rs bs body e ND PR F1 F2) as (er & H). exists er. intros n r.
  destruct (held_stuck P rs g e more evs _ _ H ltac:(discriminate) NS LC n) as (A & B).
  split; [exact A|]. intros t I. unfold r. rewrite B. now apply logs_repeat.
Qed.
Print Assumptions C32_payload_stuck.

(** In pieces: one error, and the reader goes on after the packet. *)
Theorem C32_payload_pieces : forall U (P : proto U) (ops : list (rule_op U)) bs body e a cs c more evs,
  proto_ok P -> payload_refused P bs body e ->
  a ++ concat cs ++ c = e -> (29 <= length a)%nat -> Forall (fun x => x <> []) cs -> c <> [] ->
  let rs := rule_history ops in
  (forall f, In (RFilterByBlocks f) rs -> f bs = true) -> (forall f, In (RFilterByPayload f) rs -> f body = true) ->
  exists er ns, length ns = (length cs + 1)%nat /\ forall n,
    let (os, r) := pr_reads P (S n) (mk_preader (mk_bufsrc more evs) rs HEmpty [] []) in
    pr_reads P (length cs + 2 + S n) (fresh rs (Chunk a :: map Chunk cs ++ Chunk (c ++ more) :: evs))
    = (map (fun n => Ok (NNotEnough n)) ns ++ Err er :: os, r).
Proof.
  intros U P ops bs body e a cs c more evs HP PR EE LA FC NC rs F1 F2. pose proof (history_nodup ops) as ND. fold rs in ND.
  destruct (held_refused P HP rs bs body e ND PR F1 F2) as (er & H). exists er.
  exact (held_pieces P rs e _ _ a cs c more evs H EE LA FC NC).
Qed.
Print Assumptions C32_payload_pieces.

(** A packet with a payload of bytes, of which one is wrong. *)
Definition raw_at : nat := 29 + length (concat (map bk_encode (p_blocks p_raw))) + 14.
Lemma spoiled_raw : payload_refused P0 (p_blocks p_raw) (skipn raw_at (spoil (raw_at + 2) (wire p_raw))) (spoil (raw_at + 2) (wire p_raw)).
Proof.
  exists (crc32_le (str "Vec<u8>")), (crc32_le (map n2b [10; 20; 30; 40; 50; 60])), 6.
  split; [cbn; lia|]. split; [constructor; [exact b_b_ok|constructor]|]. split; [vm_compute; auto|]. split; [vm_compute; auto|].
  split; [vm_compute; discriminate|]. cbv zeta. split; [|split; [vm_compute; reflexivity|vm_compute; reflexivity]].
  intros pl taken rest E T. pose proof (payload_taken_rt (pr_kinds P0) pl taken rest (proj2 P0_ok) T) as Q. rewrite <- E in Q.
  apply (f_equal (rmap (fun _ => tt))) in Q. vm_compute in Q. discriminate.
Qed.
Lemma spoiled_header : wrong_header (firstn 29 (spoil 9 (wire p_num))).
Proof.
  set (e := spoil 9 (wire p_num)).
  exists (firstn 8 (skipn 8 e)), (firstn 8 (skipn 16 e)), (nth 24 e (n2b 0)), (firstn 4 (skipn 25 e)).
  split; [vm_compute; reflexivity|]. repeat (split; [vm_compute; reflexivity|]). vm_compute. discriminate.
Qed.

Example C32_stuck_example :
  no_signature (str "noise") (firstn 29 (spoil 9 (wire p_num))) /\
  watch 3 (fresh [RIgnored 5] [Chunk (str "noise" ++ spoil 9 (wire p_num) ++ wire p_raw); Chunk (wire p_txt)]) = (repeat (Err ECrcDismatch) 3, []) /\
  watch 5 (fresh [RIgnored 5] [Chunk (firstn 20 (spoil 9 (wire p_num))); Chunk (skipn 20 (spoil 9 (wire p_num)) ++ wire p_raw)]) =
    ([Ok (SWait 9); Err ECrcDismatch; Ok (SFound (obs p_raw)); Ok SNoData; Ok SNoData], [(5, skipn 20 (spoil 9 (wire p_num)))]) /\
  no_signature (str "noise") (spoil (raw_at + 2) (wire p_raw)) /\
  watch 3 (fresh [RIgnored 5] [Chunk (str "noise" ++ spoil (raw_at + 2) (wire p_raw) ++ wire p_num)]) =
    (repeat (Err ECrcDismatch) 3, repeat (5, str "noise") 3) /\
  watch 5 (fresh [RIgnored 5] [Chunk (firstn 40 (spoil (raw_at + 2) (wire p_raw))); Chunk (skipn 40 (spoil (raw_at + 2) (wire p_raw)) ++ wire p_num)]) =
    ([Ok (SWait 29); Err ECrcDismatch; Ok (SFound (obs p_num)); Ok SNoData; Ok SNoData], []).
Proof.
  split; [apply no_signature_check; vm_compute; reflexivity|]. split; [vm_compute; reflexivity|]. split; [vm_compute; reflexivity|].
  split; [apply no_signature_check; vm_compute; reflexivity|]. split; [vm_compute; reflexivity|]. vm_compute. reflexivity.
Qed.

(** Damage inside a checksummed block: exactly one report for every packet, an error only for a damaged one, and the
    others as if nothing had happened.  Missing: damage in headers and payloads (false). *)
Theorem C32_block_damage_partial : forall U (P : proto U) (ops : list (rule_op U)) pes cs,
  proto_ok P -> Forall (fun pe => sound_or_damaged P (fst pe) (snd pe) /\ few_blocks (fst pe)) pes ->
  cut_into cs (concat (map snd pes)) ->
  let rs := rule_history ops in
  exists outs r', pr_reads P (length outs + 1) (fresh rs (map Chunk cs)) = (outs ++ [Ok NNoData], r') /\
    Forall2 (report_ok P rs) pes (reports outs) /\ r_log r' = [].
Proof. intros U P ops pes cs HP HE HC rs. exact (damaged_stream P HP ops pes cs HE HC). Qed.
Print Assumptions C32_block_damage_partial.

Example C32_example : let D := wire p_bare ++ spoil 35 (wire p_num) ++ wire p_txt in
  firstn 4 (filter loud (fst (watch 60 (fresh [] (map Chunk (chop 1000 17 D)))))) =
    [Ok (SFound (obs p_bare)); Err ECrcDismatch; Ok (SFound (obs p_txt)); Ok SNoData] /\
  firstn 4 (filter loud (fst (watch 60 (fresh [] [Chunk D])))) =
    [Ok (SFound (obs p_bare)); Err ECrcDismatch; Ok (SFound (obs p_txt)); Ok SNoData].
Proof. vm_compute. split; reflexivity. Qed.

Example C32_hypotheses : block_damaged P0 p_num (spoil 35 (wire p_num)).
Proof.
  set (full := fields_bytes (s_tys sc_a) (bk_vals b_a) ++ blk_crc sc_a (bk_vals b_a)).
  exists [], b_a, [b_b; b_e; b_a], (spoil 2 full), (ph_bytes (mk_pheader (pk_sig k_num) (crc32_le (le 4 77)) 4) ++ le 4 77).
  split; [reflexivity|]. split; [reflexivity|].
  split. { exists (firstn 2 full), [nth 2 full (n2b 0)], [n2b (b2n (nth 2 full (n2b 0)) + 1)], (skipn 3 full).
    split; [vm_compute; reflexivity|]. split; [reflexivity|]. split; [reflexivity|cbn [length]; lia]. }
  split; [repeat (constructor; [first [exact b_a_ok | exact b_b_ok | exact b_e_ok]|]); constructor|].
  split. { exists (le 4 77), (crc32_le (le 4 77)). split; [|split; reflexivity]. split; [now left|]. apply num_encodes. reflexivity. }
  split; vm_compute; reflexivity.
Qed.

(** ** C19, streaming part *)
(** 256 blocks: written, read by [Packet::read], refused for ever by the streaming reader. *)
Theorem C19_stream_limit_refuted : exists p : packet N, exists e,
  packet_enc P0 p e /\ length (p_blocks p) = 256%nat /\
  (exists q, pkt_read stream_reader P0 e = (Ok q, [])) /\
  forall n, fst (pr_reads P0 n (fresh [] [Chunk e])) = repeat (Err EMaxBlocksCount) n.
Proof.
  set (p := mk_packet (repeat b_e 256) (None : option (payload N))). exists p, (wire p).
  assert (HE : packet_enc P0 p (wire p)).
  { exists []. split; [apply Forall_forall; intros b HI; apply repeat_spec in HI; subst b; exact b_e_ok|].
    split; [reflexivity|]. split; vm_compute; reflexivity. }
  split; [exact HE|]. split; [reflexivity|]. split.
  - destruct (pkt_read_rt stream_reader (fun s => s) (fun _ => True) (lawful_okl _ _ _ stream_lawful) P0 p (wire p) (wire p) [] P0_ok HE) as (s' & E & V & _).
    + cbn [p p_blocks]. rewrite repeat_length. lia.
    + exact I.
    + now rewrite app_nil_r.
    + cbv beta in V. subst s'. exists p. exact E.
  - intros [|n]; [reflexivity|]. cbn [pr_reads repeat]. set (r1 := fresh [] [Chunk (wire p)]).
    assert (E : pr_read P0 r1 = (Err EMaxBlocksCount, snd (pr_read P0 r1))) by (vm_compute; reflexivity).
    rewrite E. set (r2 := snd (pr_read P0 r1)).
    assert (E2 : pr_read P0 r2 = (Err EMaxBlocksCount, r2)) by (unfold r2, r1; vm_compute; reflexivity).
    rewrite (stuck_forever P0 r2 _ E2). reflexivity.
Qed.
Print Assumptions C19_stream_limit_refuted.

(** From 256 blocks on: the error is final when the packet comes in one piece, whatever follows it, and the foreign bytes
    before it are handed to the ignore callback at every call. *)
Theorem C19_stream_stuck : forall U (P : proto U) (ops : list (rule_op U)) p e g more evs n,
  proto_ok P -> packet_enc P p e -> (255 < length (p_blocks p))%nat -> no_signature g e -> blen (g ++ e ++ more) < two63 ->
  let rs := rule_history ops in
  let r := pr_reads P n (fresh rs (Chunk (g ++ e ++ more) :: evs)) in
  fst r = repeat (Err EMaxBlocksCount) n /\
  forall t, In (RIgnored t) rs -> r_log (snd r) = match g with [] => [] | _ => repeat (t, g) n end.
Proof.
  intros U P ops p e g more evs n HP HE L NS LC rs r. pose proof (history_nodup ops) as ND. fold rs in ND.
  destruct (held_stuck P rs g e more evs _ _ (held_over P HP rs p e HE L) ltac:(discriminate) NS LC n) as (A & B).
  split; [exact A|]. intros t I. unfold r. rewrite B. now apply logs_repeat.
Qed.
Print Assumptions C19_stream_stuck.

(** In pieces: one error, and the reader goes on after the packet. *)
Theorem C19_stream_pieces : forall U (P : proto U) (ops : list (rule_op U)) p e a cs c more evs,
  proto_ok P -> packet_enc P p e -> (255 < length (p_blocks p))%nat ->
  a ++ concat cs ++ c = e -> (29 <= length a)%nat -> Forall (fun x => x <> []) cs -> c <> [] ->
  let rs := rule_history ops in
  exists ns, length ns = (length cs + 1)%nat /\ forall n,
    let (os, r) := pr_reads P (S n) (mk_preader (mk_bufsrc more evs) rs HEmpty [] []) in
    pr_reads P (length cs + 2 + S n) (fresh rs (Chunk a :: map Chunk cs ++ Chunk (c ++ more) :: evs))
    = (map (fun n => Ok (NNotEnough n)) ns ++ Err EMaxBlocksCount :: os, r).
Proof.
  intros U P ops p e a cs c more evs HP HE L EE LA FC NC rs.
  exact (held_pieces P rs e _ _ a cs c more evs (held_over P HP rs p e HE L) EE LA FC NC).
Qed.
Print Assumptions C19_stream_pieces.

Definition p_256 : packet N := mk_packet (repeat b_e 256) None.
Example C19_stream_example :
  packet_enc P0 p_256 (wire p_256) /\ no_signature (str "noise") (wire p_256) /\
  watch 3 (fresh [RIgnored 5] [Chunk (str "noise" ++ wire p_256 ++ wire p_num)]) =
    (repeat (Err EMaxBlocksCount) 3, repeat (5, str "noise") 3) /\
  watch 4 (fresh [] [Chunk (firstn 1000 (wire p_256)); Chunk (skipn 1000 (wire p_256) ++ wire p_num)]) =
    ([Ok (SWait 1077); Err EMaxBlocksCount; Ok (SFound (obs p_num)); Ok SNoData], []).
Proof.
  split.
  { exists []. split; [apply Forall_forall; intros b HI; apply repeat_spec in HI; subst b; exact b_e_ok|].
    split; [reflexivity|]. split; vm_compute; reflexivity. }
  split; [apply no_signature_check; vm_compute; reflexivity|]. split; vm_compute; reflexivity.
Qed.

(** ** C22, streaming part *)
(** A checksummed header whose blocks are longer than the packet, then: one whose size overflows. *)
Theorem C22_stream_panic_refuted :
  (exists D, fst (pr_read P0 (fresh [] [Chunk D])) = Panic PIndex /\ length D = 29%nat) /\
  (exists D, fst (pr_read P0 (fresh [] [Chunk D])) = Panic POverflow /\ length D = 29%nat).
Proof.
  split.
  - exists (layout_header 0 1 false). split; vm_compute; reflexivity.
  - exists (layout_header (two64 - 1) 0 false). split; vm_compute; reflexivity.
Qed.
Print Assumptions C22_stream_panic_refuted.

(** Apart from such headers and from system reads shorter than a header the streaming reader never panics,
    whatever the bytes, the errors of the source and the rules. *)
Theorem C22_stream_no_panic_partial : forall U (P : proto U) (rs : rules U) evs n,
  let D := concat (map ev_bytes evs) in blen D < two63 -> honest_headers D -> roomy evs ->
  Forall no_panic (fst (pr_reads P n (fresh rs evs))).
Proof. intros U P rs evs n D L H R. exact (stream_no_panic P rs evs n L H R). Qed.
Print Assumptions C22_stream_no_panic_partial.

Lemma honest_check D : forallb (fun i => match hdr_read_from_slice (firstn 29 (skipn i D)) with
    | Ok h => (h_blocks_len h <=? h_size h) && (h_size h <? two63) | _ => true end) (seq 0 (length D)) = true -> honest_headers D.
Proof.
  intros H i h E. rewrite forallb_forall in H. destruct (Nat.lt_ge_cases i (length D)) as [L|L].
  - specialize (H i). rewrite E in H. assert (Q := H ltac:(apply in_seq; lia)). lia.
  - rewrite skipn_all2 in E by lia. discriminate.
Qed.
Example C22_stream_example : let evs := [Chunk demo_mixed; Fail Interrupted; Chunk (skipn 40 demo_mixed)] in
  honest_headers (concat (map ev_bytes evs)) /\ roomy evs.
Proof.
  split; [apply honest_check; vm_compute; reflexivity|].
  repeat (constructor; [first [exact I | right; apply Nat.leb_le; vm_compute; reflexivity]|]). constructor.
Qed.

(** ** C69 *)
(** Rules are added and removed between the reads in any way: every packet is judged exactly once, by the rules in force at the
    call that reports it. *)
Theorem C69_rules_between_reads : forall U (P : proto U) (ms : list (move U)) gs ps es last cs,
  proto_ok P -> Forall2 (packet_enc P) ps es -> Forall few_blocks ps ->
  Forall2 (fun g e => no_signature g e) gs es -> no_signature last [] ->
  cut_into cs (concat (map (fun ge => fst ge ++ snd ge) (combine gs es)) ++ last) ->
  (Forall (fun g => (length g < 21)%nat) gs \/ Forall (fun c => (29 <= length c)%nat) cs) ->
  let outs := fst (session P ms [] (pr_new (mk_bufsrc [] (map Chunk cs)))) in
  exists rest, served P ps outs rest /\ ((length (concat cs) + length ps <= length outs)%nat -> rest = []).
Proof. intros U P ms gs ps es last cs HP HE HB HG HL HC HK. exact (session_stream P HP [] gs ps es last cs ms HE HB HG HL HC HK). Qed.
Print Assumptions C69_rules_between_reads.

(** Three reads into the second packet a filter is installed, later it is removed again. *)
Definition only_two : rule N := RFilterByBlocks (fun bs => Nat.leb 2 (length bs)).
Definition demo_moves : list (move N) :=
  repeat MRead 14 ++ [MRule (OpAdd only_two)] ++ repeat MRead 10 ++ [MRule (OpRemove IdFilterByBlocks)] ++ repeat MRead 60.
Example C69_example :
  let outs := fst (session P0 demo_moves [] (pr_new (mk_bufsrc [] (map Chunk (chop 1000 11 demo_stream))))) in
  map (fun x => (length (fst x), rmap obs_next (snd x))) (firstn 5 (filter (fun x => loud (rmap obs_next (snd x))) outs)) =
  [(0%nat, Ok (SFound (obs p_num))); (1%nat, Ok SSkipped); (1%nat, Ok (SFound (obs p_txt))); (0%nat, Ok (SFound (obs p_bare))); (0%nat, Ok SNoData)].
Proof. vm_compute. reflexivity. Qed.
