(** * When the streaming reader cannot panic. *)
From Coq Require Import ZifyBool ZifyNat ZifyN.
From Verif Require Import Base Crc32 Io Block Payload Packet Rules StreamReader Spec BaseProofs CrcProofs BlockProofs
  DispatchProofs PayloadProofs PayloadEnumProofs PacketProofs PacketSafeProofs RulesProofs WireProofs StreamProofs StreamSoundProofs.
Ltac Zify.zify_post_hook ::= Z.div_mod_to_equations.
Open Scope list_scope.

Lemma read_header_nopanic buf w : read_header buf <> Panic w.
Proof.
  unfold read_header. destruct (get_pos buf) as [off|]; [|discriminate]. destruct (_ <? _)%nat; [discriminate|].
  destruct (hdr_read_from_slice _) as [h|e|w1] eqn:E; cbn [rbind]; try discriminate. now apply hdr_slice_nopanic in E.
Qed.

Section Safe.
Context {U : Type}.
Variable P : proto U.

Lemma reader_blocks_nopanic scs buf : forall left rd acc w f, reader_blocks left scs buf rd acc <> (Panic w, f).
Proof.
  induction left as [|left IH]; intros rd acc w f; cbn [reader_blocks]; [discriminate|].
  destruct (bk_read_from_slice scs (skipn rd buf) false) as [b|e|w1] eqn:E; [|discriminate|now apply bk_slice_nopanic in E].
  destruct (_ =? 0); [discriminate|]. destruct (_ =? _)%nat; [discriminate|]. apply IH.
Qed.

Lemma parse_body_nopanic rs h body : h_blocks_len h <= blen body -> no_panic (fst (parse_body P rs h body)).
Proof.
  intros L. unfold parse_body. replace (blen body <? h_blocks_len h) with false by lia.
  destruct (match firstn _ body with [] => _ | _ => _ end) as [[bs|e|w] f] eqn:EB; [|exact I|].
  2: { destruct (firstn _ body); [discriminate|]. now apply reader_blocks_nopanic in EB. }
  destruct (negb (filter_by_blocks rs bs)); [exact I|].
  destruct (h_payload h); [|now destruct (negb _)].
  unfold ph_try_read_buf.
  destruct (fst (do (buf, s) <- fill_buf (of_slice (skipn (N.to_nat (h_blocks_len h)) body)); (ph_peek buf, s))) as [[ph|n]|e|w] eqn:EK;
    [|exact I|exact I|].
  2: { exfalso. unfold of_slice, fill_buf in EK. cbn [b_cur b_evs] in EK. destruct (skipn _ body); cbn [sbind fst] in EK; now apply ph_peek_nopanic in EK. }
  destruct (negb (filter_by_payload rs _)); [exact I|].
  pose proof (pl_try_buf_pres (pr_kinds P) ph (of_slice (skipn (N.to_nat (h_blocks_len h) + ph_size ph) body))) as Q.
  destruct (pl_try_read_buf _ _ _) as [[[pl|n]|e|w6] s6]; cbn [fst pres] in *; [|exact I|exact I|contradiction].
  now destruct (negb _).
Qed.

Lemma finish_nopanic h body n r : h_blocks_len h <= blen body -> no_panic (fst (finish P h body n r)).
Proof.
  intros L. unfold finish. pose proof (parse_body_nopanic (r_rules r) h body L) as Q. destruct (parse_body P (r_rules r) h body). exact Q.
Qed.

(** What the [Refill] state looks like when no system read is short. *)
Definition tight (r : preader U) : Prop :=
  roomy (b_evs (r_src r)) /\
  match r_state r with
  | HRefill buf needed => b_cur (r_src r) = [] /\ (length buf <= 29)%nat /\ (needed <= 29)%nat
  | _ => True
  end.

Lemma fill_roomy (r : preader U) o r1 : roomy (b_evs (r_src r)) -> pr_fill r = (o, r1) -> roomy (b_evs (r_src r1)) /\
  (b_cur (r_src r) = [] -> forall buf, o = Ok buf -> buf = [] \/ (29 <= length buf)%nat).
Proof.
  unfold roomy, pr_fill, fill_buf. destruct r as [[cur evs] rl sta bf lg]. cbn [r_src b_cur b_evs]. intros F.
  destruct cur as [|c cur]; [destruct F as [|[bs|k] evs H F]|]; intros E; injection E as <- <-; cbn [set_src r_src b_cur b_evs].
  - split; [constructor|]. intros _ buf Q. injection Q as <-. now left.
  - split; [exact F|]. intros _ buf Q. injection Q as <-. exact H.
  - split; [exact F|]. discriminate.
  - split; [exact F|]. discriminate.
Qed.

Lemma honest_at D pre hdr rest h : honest_headers D -> D = pre ++ hdr ++ rest -> length hdr = 29%nat -> hdr_read_from_slice hdr = Ok h ->
  h_blocks_len h <= h_size h /\ h_size h < two63.
Proof.
  intros H E L Q. apply (H (length pre)). rewrite E, skipn_app_exact by reflexivity. now rewrite firstn_app_exact by easy.
Qed.

Lemma safe_read D r ps : blen D < two63 -> honest_headers D -> sound P D r ps -> tight r ->
  no_panic (fst (pr_read P r)) /\ tight (snd (pr_read P r)).
Proof.
  intros L63 HN S (RO & TI). destruct (pr_read P r) as [o r'] eqn:E. cbn [fst snd]. unfold pr_read in E.
  assert (EV0 : roomy (b_evs (r_src (set_state HEmpty r)))) by exact RO.
  assert (FE : forall h body n q, finish P h body n q = (o, r') -> roomy (b_evs (r_src q)) -> r_state q = HEmpty -> h_blocks_len h <= blen body ->
    no_panic o /\ tight r').
  { intros h body n q EF RQ SQ LB. pose proof (finish_nopanic h body n q LB) as NP. rewrite EF in NP. split; [exact NP|].
    unfold finish in EF. destruct (parse_body P (r_rules q) h body) as [o1 f]. injection EF as _ <-.
    split; [destruct f; [destruct n|..]; exact RQ|]. destruct f; cbn [r_state]; rewrite SQ; exact I. }
  destruct S as (pre & pend & ED & SE & ST).
  destruct (r_state r) as [h|buf needed|] eqn:SR.
  - destruct ST as (hdr & -> & HH & LH). rewrite <- app_assoc in ED. destruct (honest_at _ _ _ _ _ HN ED LH HH) as (B1 & B2).
    unfold resolve_ready in E. destruct (pr_fill (set_state HEmpty r)) as [[buf|e|w] r1] eqn:EF; pose proof (fill_roomy _ _ _ EV0 EF) as (RO1 & _);
      apply fill_view in EF as (VW & RU & S1 & BF & CU & NP); cbn [sbind] in E; [| |contradiction].
    2: { injection E as <- <-. split; [exact I|]. split; [exact RO1|]. rewrite S1. exact I. }
    destruct (_ <? h_size h) eqn:EA.
    { injection E as <- <-. split; [exact I|]. split; [exact RO1|exact I]. }
    destruct (h_size h <? blen (r_buffered r1)) eqn:EB.
    { injection E as <- <-. split; [exact I|]. split; [exact RO1|]. rewrite S1. exact I. }
    eapply FE; [exact E|exact RO1|exact S1|]. unfold eat. cbn [set_src set_buffered r_buffered].
    unfold blen in *. rewrite app_length, firstn_length. lia.
  - destruct TI as (CE & TI). destruct ST as (-> & BE).
    unfold resolve_refill in E. destruct (pr_fill (set_state HEmpty r)) as [[ext|e|w] r1] eqn:EF; pose proof (fill_roomy _ _ _ EV0 EF) as (RO1 & SZ);
      apply fill_view in EF as (VW & RU & S1 & BF & CU & NP); cbn [sbind] in E; [| |contradiction].
    2: { injection E as <- <-. split; [exact I|]. split; [exact RO1|]. rewrite S1. exact I. }
    cbn [set_state r_src r_state] in *. specialize (CU ext eq_refl). specialize (SZ CE ext eq_refl).
    assert (NT : forall c b, tight (note c b r1)).
    { intros c b. destruct (note_fields c b r1) as (N1 & N2 & N3 & N4). unfold tight. rewrite N1, N2, S1. auto. }
    destruct ext as [|x ext']; [injection E as <- <-; split; [exact I|]; apply (NT true buf)|].
    set (ext := x :: ext') in *. destruct SZ as [SZ|SZ]; [discriminate|].
    replace (length ext <? needed)%nat with false in E by lia.
    assert (FD : forall h from to k, read_header (buf ++ firstn k ext) = Ok (FFound h from to) ->
       refill_found h from to (buf ++ firstn k ext) (length buf) r1 = (o, r') -> no_panic o /\ tight r').
    { intros h from to k RH EE. apply read_header_found in RH as (RT & _).
      unfold refill_found, usub in EE. replace (length buf <=? to)%nat with true in EE by lia. cbn [sbind] in EE. injection EE as <- <-.
      split; [exact I|]. unfold tight, eat. cbn [set_state set_src r_src r_state]. split; [|exact I].
      destruct (note_fields (0 <? from)%nat (firstn from (buf ++ firstn k ext)) r1) as (N1 & _). rewrite N1. exact RO1. }
    assert (TR : forall c b buf' n', (length buf' <= 29)%nat -> (n' <= 29)%nat -> tight (set_state (HRefill buf' n') (eat (length ext) (note c b r1)))).
    { intros c b buf' n' L1 L2. unfold tight, eat. cbn [set_state set_src r_src r_state]. destruct (note_fields c b r1) as (N1 & _). rewrite N1.
      unfold consume. cbn [b_evs b_cur]. rewrite CU, skipn_all. auto. }
    assert (LO : (do (f, r) <- (read_header (buf ++ ext), r1);
            match f with
            | FFound h from to => refill_found h from to (buf ++ ext) (length buf) r
            | FNotEnough from needed =>
                let r := note (0 <? from)%nat (firstn from (buf ++ ext)) r in
                (Ok (NNotEnough (N.of_nat needed)), set_state (HRefill (skipn from (buf ++ ext)) needed) (eat (length ext) r))
            | FNotFound =>
                let cut := (length (buf ++ ext) - hdr_size)%nat in
                let r := note (hdr_size <? length (buf ++ ext))%nat (firstn cut (buf ++ ext)) r in
                (Ok NNotFound, set_state (HRefill (skipn cut (buf ++ ext)) hdr_size) (eat (length ext) r))
            end) = (o, r') -> no_panic o /\ tight r').
    { destruct (read_header (buf ++ ext)) as [[|from nd|h from to]|e|w] eqn:RH; cbn [sbind]; intros EE.
      - injection EE as <- <-. split; [exact I|]. unfold hdr_size. apply TR; [rewrite skipn_length; lia|lia].
      - injection EE as <- <-. split; [exact I|].
        unfold read_header in RH. destruct (get_pos (buf ++ ext)) as [o1|] eqn:GP; [|discriminate].
        destruct (_ <? hdr_size)%nat eqn:L1; [|destruct (hdr_read_from_slice _); discriminate]. assert (from = o1 /\ nd = (hdr_size - length (skipn o1 (buf ++ ext)))%nat) as (-> & ->) by (split; congruence). unfold hdr_size in *. apply TR; lia.
      - rewrite <- (firstn_all ext) in RH, EE. eapply FD; [exact RH|exact EE].
      - injection EE as <- <-. split; [exact I|]. apply (NT false []).
      - now apply read_header_nopanic in RH. }
    destruct (read_header (buf ++ firstn needed ext)) as [[|from nd|h from to]|e|w] eqn:RH; cbn [sbind] in E; try (now apply LO).
    + eapply FD; [exact RH|exact E].
    + injection E as <- <-. split; [exact I|]. apply (NT false []).
    + now apply read_header_nopanic in RH.
  - unfold resolve_empty in E. destruct (pr_fill (set_buffered [] (set_state HEmpty r))) as [[buf|e|w] r1] eqn:EF;
      pose proof (fill_roomy (set_buffered [] (set_state HEmpty r)) _ _ RO EF) as (RO1 & _);
      apply fill_view in EF as (VW & RU & S1 & BF & CU & NP); cbn [sbind] in E; [| |contradiction].
    2: { injection E as <- <-. split; [exact I|]. split; [exact RO1|]. rewrite S1. exact I. }
    cbn [set_state set_buffered r_src r_state] in *. specialize (CU buf eq_refl).
    assert (NT : forall c b, tight (note c b r1)).
    { intros c b. destruct (note_fields c b r1) as (N1 & N2 & N3 & N4). unfold tight. rewrite N1, N2, S1. auto. }
    destruct buf as [|x buf']; [injection E as <- <-; split; [exact I|]; apply (NT false [])|].
    set (buf := x :: buf') in *.
    assert (TR : forall c b buf' n', (length buf' <= 29)%nat -> (n' <= 29)%nat -> tight (eat (length buf) (set_state (HRefill buf' n') (note c b r1)))).
    { intros c b buf1 n' L1 L2. unfold tight, eat. cbn [set_state set_src r_src r_state]. destruct (note_fields c b r1) as (N1 & _). rewrite N1.
      unfold consume. cbn [b_evs b_cur]. rewrite CU, skipn_all. auto. }
    destruct (length buf <? hdr_size)%nat eqn:LB.
    { apply pair_equal_spec in E as (<- & <-). split; [exact I|]. unfold hdr_size in *. apply (TR false []); lia. }
    destruct (read_header buf) as [[|from nd|h from to]|e|w] eqn:RH; cbn [sbind] in E.
    + apply pair_equal_spec in E as (<- & <-). split; [exact I|]. unfold hdr_size in *. apply TR; [rewrite skipn_length; lia|lia].
    + injection E as <- <-. split; [exact I|].
      unfold read_header in RH. destruct (get_pos buf) as [o1|] eqn:GP; [|discriminate].
      destruct (length (skipn o1 buf) <? hdr_size)%nat eqn:L1; [|destruct (hdr_read_from_slice _); discriminate]. assert (from = o1 /\ nd = (hdr_size - length (skipn o1 buf))%nat) as (-> & ->) by (split; congruence). unfold hdr_size in *. apply TR; lia.
    + apply read_header_found in RH as (-> & LT & HH).
      assert (LHD : length (firstn 29 (skipn from buf)) = 29%nat) by (rewrite firstn_length, skipn_length; lia).
      assert (SP : buf = firstn from buf ++ firstn 29 (skipn from buf) ++ skipn (from + 29) buf).
      { rewrite <- (firstn_skipn from buf) at 1. f_equal. rewrite <- (firstn_skipn 29 (skipn from buf)) at 1. f_equal.
        rewrite skipn_skipn. f_equal. lia. }
      assert (VC : b_view (r_src r1) = buf ++ b_view (consume (length buf) (r_src r1))).
      { rewrite (view_consume (length buf) (r_src r1)) at 1. rewrite CU, firstn_all. reflexivity. }
      assert (ED' : D = (pre ++ pend ++ firstn from buf) ++ firstn 29 (skipn from buf) ++ skipn (from + 29) buf ++ b_view (consume (length buf) (r_src r1))).
      { rewrite ED, <- VW, VC. rewrite SP at 1. now rewrite <- !app_assoc. }
      destruct (honest_at _ _ _ _ _ HN ED' LHD HH) as (B1 & B2).
      destruct (note_fields (0 <? from)%nat (firstn from buf) r1) as (N1 & N2 & N3 & N4).
      replace (two64 <=? h_size h + N.of_nat (from + 29)) with false in E.
      2: { assert (two63 + two63 = two64) by reflexivity. rewrite ED, blen_app, blen_app in L63. rewrite <- VW, VC, blen_app in L63. unfold blen in L63. lia. }
      destruct (blen buf <? _) eqn:EN.
      * injection E as <- <-. split; [exact I|]. unfold tight, eat. cbn [set_state set_src set_buffered r_src r_state]. rewrite N1. split; [exact RO1|exact I].
      * eapply FE; [exact E|rewrite N1; exact RO1|now rewrite N2|]. unfold blen in *. rewrite firstn_length, skipn_length. lia.
    + injection E as <- <-. split; [exact I|]. apply (NT false []).
    + now apply read_header_nopanic in RH.
Qed.

Lemma safe_reads D n : blen D < two63 -> honest_headers D -> forall r ps, sound P D r ps -> tight r ->
  Forall no_panic (fst (pr_reads P n r)).
Proof.
  intros L63 HN. induction n as [|n IH]; intros r ps S T; cbn [pr_reads]; [constructor|].
  pose proof (safe_read D r ps L63 HN S T) as (NP & T1). pose proof (sound_read P D r ps L63 S) as S1.
  destruct (pr_read P r) as [o r1]. cbn [fst snd] in *. specialize (IH r1 _ S1 T1). destruct (pr_reads P n r1) as [os r2]. now constructor.
Qed.

Lemma stream_no_panic rs evs n : let D := concat (map ev_bytes evs) in blen D < two63 -> honest_headers D -> roomy evs ->
  Forall no_panic (fst (pr_reads P n (fresh rs evs))).
Proof.
  intros D L63 HN RO. eapply (safe_reads D n L63 HN (fresh rs evs) []).
  - exists [], []. cbn [app fresh r_src r_state]. split; [reflexivity|]. split; [constructor|exact I].
  - split; [exact RO|exact I].
Qed.
End Safe.
