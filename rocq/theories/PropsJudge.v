(** * Theorems about every single packet the streaming reader meets (C87) and about what it says while it waits (C88), each followed
      by a concrete case. *)
From Coq Require Import ZifyBool ZifyNat ZifyN.
From Verif Require Import Base Crc32 Io Block Payload Packet Rules StreamReader Spec SpecJudge BaseProofs RulesProofs WireProofs
  PacketProofs StreamProofs StreamItemProofs StuckProofs JudgeProofs Samples PropsStream.
Ltac Zify.zify_post_hook ::= Z.div_mod_to_equations.
Open Scope list_scope.

(** ** C87 *)
(** Whatever the bytes after a readable header are and however they are divided: there is a judgement, and it is the only one, up to
    what an error says. *)
Theorem C87_determined : forall U (P : proto U) (ops : list (rule_op U)) x,
  proto_ok P -> Forall schema_ok (pr_blocks P) -> let rs := rule_history ops in
  (exists o f, judged_frame P rs x o f) /\
  (forall o f o' f', judged_frame P rs x o f -> judged_frame P rs x o' f' ->
     f = f' /\ match o with Err _ => exists e, o' = Err e | _ => o' = o end).
Proof.
  intros U P ops [[bl flag] body] HP HS rs. split; [exact (judged_total P HP HS rs (history_nodup ops) bl flag body)|].
  intros o f o' f' J J'. exact (judged_same P HP HS rs (history_nodup ops) bl flag body o f o' f' J J').
Qed.
Print Assumptions C87_determined.

(** The packet is wholly in the buffer, after foreign bytes: the call gives the judgement, and the packet is gone or nothing is. *)
Theorem C87_whole : forall U (P : proto U) (ops : list (rule_op U)) g x more evs,
  proto_ok P -> Forall schema_ok (pr_blocks P) -> frame_ok x -> no_signature g (framed x) ->
  blen (g ++ framed x ++ more) < two63 ->
  let rs := rule_history ops in
  exists o f, judged_frame P rs x o f /\
  forall b l, exists l',
  pr_read P (mk_preader (mk_bufsrc (g ++ framed x ++ more) evs) rs HEmpty b l) =
  (o, mk_preader (mk_bufsrc (match f with Drop => more | _ => g ++ framed x ++ more end) evs) rs HEmpty [] (l ++ l')) /\
  (forall t, In (RIgnored t) rs -> l' = match g with [] => [] | _ => [(t, g)] end) /\
  ((forall t, ~ In (RIgnored t) rs) -> l' = []).
Proof.
  intros U P ops g [[bl flag] body] more evs HP HS (H1 & H2) C L rs. pose proof (history_nodup ops) as ND. fold rs in ND.
  destruct (judged_parse P HP HS rs ND (blen body) bl flag body) as (o & f & E & J). exists o, f. split; [exact J|]. intros b l.
  apply clean_spec in C. cbn [framed] in *. rewrite <- app_assoc in *.
  pose proof (whole_step P rs g (blen body) bl flag body more evs o f b l E eq_refl H1 C L) as Q.
  destruct (has IdIgnored rs) eqn:EH.
  - apply has_in in EH as (r & I & EI). destruct r as [t| | |]; try discriminate.
    exists (map (pair t) (noted (0 <? length g)%nat g)). rewrite Q, (logs_some rs t) by easy. split; [reflexivity|]. split.
    + intros t' I'. pose proof (logs_some rs t (noted (0 <? length g)%nat g) [] ND I) as W1.
      rewrite (logs_some rs t' _ [] ND I') in W1. cbn [app] in W1. rewrite <- W1. now destruct g.
    + intros N. now apply N in I.
  - assert (N : forall t, ~ In (RIgnored t) rs).
    { intros t I. assert (W : has IdIgnored rs = true) by (apply has_in; eauto). congruence. }
    exists []. rewrite Q, logs_none by exact N. split; [now rewrite app_nil_r|]. split; [intros t I; now apply N in I|easy].
Qed.
Print Assumptions C87_whole.

(** The packet comes in pieces, its header in the first: the call that has the last piece gives the judgement, and the packet is gone
    in every case. *)
Theorem C87_pieces : forall U (P : proto U) (ops : list (rule_op U)) x a cs c more evs,
  proto_ok P -> Forall schema_ok (pr_blocks P) -> frame_ok x ->
  a ++ concat cs ++ c = framed x -> (29 <= length a)%nat -> Forall (fun y => y <> []) cs -> c <> [] ->
  let rs := rule_history ops in
  exists o f ns, judged_frame P rs x o f /\ length ns = (length cs + 1)%nat /\ forall n,
    let (os, r) := pr_reads P (S n) (mk_preader (mk_bufsrc more evs) rs HEmpty [] []) in
    pr_reads P (length cs + 2 + S n) (fresh rs (Chunk a :: map Chunk cs ++ Chunk (c ++ more) :: evs))
    = (map (fun n => Ok (NNotEnough n)) ns ++ o :: os, r).
Proof.
  intros U P ops [[bl flag] body] a cs c more evs HP HS (H1 & H2) E LA FC NC rs. pose proof (history_nodup ops) as ND. fold rs in ND.
  destruct (judged_parse P HP HS rs ND (blen body) bl flag body) as (o & f & EP & J). exists o, f.
  destruct (held_pieces P rs (framed (bl, flag, body)) o f a cs c more evs) as (ns & L & K); auto.
  - exists (blen body), bl, flag, body. auto.
  - exists ns. auto.
Qed.
Print Assumptions C87_pieces.

(** A stream of packets that are dropped with their report, sound or not, with foreign bytes between them, in chunks: exactly one
    report for each, and it is the judgement. *)
Theorem C87_stream : forall U (P : proto U) (ops : list (rule_op U)) gs xs last cs,
  proto_ok P -> Forall schema_ok (pr_blocks P) -> let rs := rule_history ops in
  Forall frame_ok xs -> Forall (fun x => exists o, judged_frame P rs x o Drop) xs ->
  Forall2 (fun g x => no_signature g (framed x)) gs xs -> no_signature last [] ->
  cut_into cs (concat (map (fun gx => fst gx ++ framed (snd gx)) (combine gs xs)) ++ last) ->
  (Forall (fun g => (length g < 21)%nat) gs \/ Forall (fun c => (29 <= length c)%nat) cs) ->
  exists outs r',
    pr_reads P (length outs + 1) (fresh rs (map Chunk cs)) = (outs ++ [Ok NNoData], r') /\
    Forall2 (fun x o => judged_frame P rs x o Drop) xs (reports outs) /\
    (forall t, In (RIgnored t) rs -> exists bufs, r_log r' = map (pair t) bufs /\ Forall (fun b => b <> []) bufs /\ concat bufs = concat gs ++ last).
Proof.
  intros U P ops gs xs last cs HP HS rs F1 F2 FS FL CU PC.
  apply (judged_stream P HP HS rs (history_nodup ops) gs xs last cs); auto.
  replace (stream_bytes (combine gs (map framed xs)) last) with (concat (map (fun gx => fst gx ++ framed (snd gx)) (combine gs xs)) ++ last); [exact CU|].
  unfold stream_bytes. f_equal. f_equal. clear. revert gs. induction xs as [|x xs IH]; intros [|g gs]; cbn [combine map fst snd]; try reflexivity.
  now rewrite IH.
Qed.
Print Assumptions C87_stream.

(** The packet [p_num] with bytes changed behind its header. *)
Definition body_num : bytes := skipn 29 (wire p_num).
Definition x_good : frame := (58, true, body_num).
Definition x_block : frame := (58, true, spoil 20 body_num).
Definition x_header : frame := (58, true, spoil 58 body_num).
Definition x_payload : frame := (58, true, spoil 75 body_num).
Definition x_bare : frame := (58, false, body_num).
Definition x_long : frame := (77, true, body_num).

Lemma P0_schemas : Forall schema_ok (pr_blocks P0).
Proof. repeat (constructor; [first [exact sc_a_ok | exact sc_b_ok | exact sc_e_ok]|]). constructor. Qed.
Lemma judged_by_run (rs : rules N) x : NoDup (map id_of rs) ->
  snd (let '(bl, flag, body) := x in parse_body P0 rs (mkh (blen body) bl flag) body) = Drop -> exists o, judged_frame P0 rs x o Drop.
Proof.
  destruct x as [[bl flag] body]. intros ND E. destruct (judged_parse P0 P0_ok P0_schemas rs ND (blen body) bl flag body) as (o & f & EP & J).
  rewrite EP in E. cbn [snd] in E. subst f. exists o. exact J.
Qed.

(** Six packets that differ in the bytes behind the header: each whole in a chunk and followed by a sound packet. *)
Example C87_example :
  framed x_good = wire p_num /\
  map (fun x => fst (watch 3 (fresh [] [Chunk (str "zz" ++ framed x ++ wire p_txt)]))) [x_good; x_block; x_header; x_payload; x_bare; x_long] =
  [[Ok (SFound (obs p_num)); Ok (SFound (obs p_txt)); Ok SNoData];
   [Err ECrcDismatch; Ok (SFound (obs p_txt)); Ok SNoData];
   [Err (EInvalidCapacity 5); Ok (SFound (obs p_txt)); Ok SNoData];
   [Err ECrcDismatch; Err ECrcDismatch; Err ECrcDismatch];
   [Ok (SFound (obs (mk_packet (p_blocks p_num) None))); Ok (SFound (obs p_txt)); Ok SNoData];
   [Panic PIndex; Panic PIndex; Panic PIndex]].
Proof. split; vm_compute; reflexivity. Qed.

Example C87_hypotheses : let xs := [x_good; x_block; x_header; x_bare] in
  Forall frame_ok xs /\ Forall (fun x => exists o, judged_frame P0 [] x o Drop) xs /\
  map (fun o => match o with Ok (SFound p) => Some p | _ => None end)
    (firstn 5 (filter loud (fst (watch 100 (fresh [] (map Chunk (chop 1000 11 (concat (map framed xs))))))))) =
  [Some (obs p_num); None; None; Some (obs (mk_packet (p_blocks p_num) None)); None].
Proof.
  split; [repeat (constructor; [split; vm_compute; reflexivity|]); constructor|]. split.
  - repeat (constructor; [apply judged_by_run; [constructor|vm_compute; reflexivity]|]). constructor.
  - vm_compute. reflexivity.
Qed.

(** ** C88 *)
(** A stream of such packets without foreign bytes, in any chunks.  Take any call that is not a report: it says [NotEnoughData], and the number
    is that of the bytes missing of the header or, after it, of the packet; only when the header has just become complete it may be 0.
    The packet meant is the one that comes after as many packets as there were reports. *)
Theorem C88_waiting : forall U (P : proto U) (ops : list (rule_op U)) xs cs k outs o r',
  proto_ok P -> Forall schema_ok (pr_blocks P) -> let rs := rule_history ops in
  Forall frame_ok xs -> Forall (fun x => exists o, judged_frame P rs x o Drop) xs -> cut_into cs (concat (map framed xs)) ->
  pr_reads P (S k) (fresh rs (map Chunk cs)) = (outs ++ [o], r') -> quiet o = true ->
  exists n past e rest j, o = Ok (NNotEnough n) /\ map framed xs = past ++ e :: rest /\
    length (reports outs) = length past /\ missing e j n /\ concat (e :: rest) = firstn j e ++ b_view (r_src r').
Proof.
  intros U P ops xs cs k outs o r' HP HS rs F1 F2 CU E Q.
  exact (judged_waits P HP HS rs (history_nodup ops) xs cs k outs o r' F1 F2 CU E Q).
Qed.
Print Assumptions C88_waiting.

Example C88_example : let xs := [x_good; x_bare] in
  fst (watch 13 (fresh [] (map Chunk (chop 1000 20 (concat (map framed xs)))))) =
  [Ok (SWait 9); Ok (SWait 0); Ok (SWait 65); Ok (SWait 45); Ok (SWait 25); Ok (SWait 5); Ok (SFound (obs p_num));
   Ok (SWait 14); Ok (SWait 0); Ok (SWait 70); Ok (SWait 50); Ok (SWait 30); Ok (SWait 10)].
Proof. vm_compute. reflexivity. Qed.
