(** * Lemmas about partial writes, hostile bytes and filtered reading of packets. *)
From Coq Require Import ZifyBool ZifyNat ZifyN.
From Verif Require Import Base Crc32 Io Block Payload Packet Rules Spec BaseProofs CrcProofs BlockProofs DispatchProofs PayloadProofs PayloadEnumProofs PacketProofs.
Ltac Zify.zify_post_hook ::= Z.div_mod_to_equations.
Open Scope list_scope.

Lemma ok_inj {A} (a b : A) : Ok a = Ok b -> a = b.
Proof. now inversion 1. Qed.

(** ** Sinks with any behaviour *)
Lemma sink_write_any bs o r o' : sink_write bs o = (r, o') ->
  exists d t, bs = d ++ t /\ k_got o' = k_got o ++ d /\ (forall n, r = Ok n -> blen d = n).
Proof.
  unfold sink_write. destruct (k_sched o) as [|[n|k] sch]; intros E; inversion E; subst; clear E; cbn [k_got].
  - exists bs, []. rewrite app_nil_r. repeat split; auto. intros n H. now inversion H.
  - exists (firstn (N.to_nat (N.min n (blen bs))) bs), (skipn (N.to_nat (N.min n (blen bs))) bs).
    rewrite firstn_skipn. repeat split; auto. intros m H. inversion H; subst.
    unfold blen. rewrite firstn_length. lia.
  - exists [], bs. rewrite app_nil_r. repeat split; auto. discriminate.
Qed.

Lemma sink_write_all_any bs o r o' : sink_write_all bs o = (r, o') ->
  exists d t, bs = d ++ t /\ k_got o' = k_got o ++ d /\ (r = Ok tt -> t = []).
Proof.
  unfold sink_write_all. generalize (k_got o) as got. revert bs.
  induction (k_sched o) as [|a sch IH]; intros bs got.
  - destruct bs as [|b bs]; cbn [sink_write_all_go]; intros E; inversion E; subst; cbn [k_got].
    + exists [], []. repeat split; now rewrite ?app_nil_r.
    + exists (b :: bs), []. repeat split; now rewrite ?app_nil_r.
  - destruct bs as [|b bs]; cbn [sink_write_all_go].
    + intros E; inversion E; subst. exists [], []. repeat split; now rewrite ?app_nil_r.
    + destruct a as [n|k].
      * destruct (N.to_nat (N.min n (blen (b :: bs)))) as [|m] eqn:EN; intros E.
        -- inversion E; subst. exists [], (b :: bs). repeat split; now rewrite ?app_nil_r.
        -- apply IH in E as (d & t & E1 & E2 & E3).
           exists (firstn (S m) (b :: bs) ++ d), t. rewrite <- app_assoc, <- E1, firstn_skipn, app_assoc. auto.
      * destruct k; intros E; try (inversion E; subst; exists [], (b :: bs); repeat split; now rewrite ?app_nil_r).
        apply IH in E. exact E.
Qed.

Section Packets.
Context {U : Type}.
Implicit Types (P : proto U) (p : packet U).

Lemma write_blocks_any bs : forall total o r o', write_blocks bs total o = (r, o') ->
  (forall b, In b bs -> bk_size b = blen (bk_encode b)) ->
  exists d t, concat (map bk_encode bs) = d ++ t /\ k_got o' = k_got o ++ d /\
    (forall c n, r = Ok (c, n) -> n = total + blen d /\ (c = true -> t = [])).
Proof.
  induction bs as [|b bs IH]; intros total o r o' E HS; cbn [write_blocks map concat] in *.
  - inversion E; subst. exists [], []. repeat split; auto.
    { now rewrite app_nil_r. } { inversion H; subst. rewrite blen_nil. lia. }
  - unfold bk_write, blk_write in E. fold (bk_encode b) in E.
    destruct (sink_write (bk_encode b) o) as [[n|e|w] o1] eqn:E1; cbn [sbind] in E;
      apply sink_write_any in E1 as (d & t & D1 & D2 & D3).
    + specialize (D3 n eq_refl). destruct (n <? bk_size b) eqn:EL.
      * inversion E; subst. exists d, (t ++ concat (map bk_encode bs)). rewrite D1, <- app_assoc.
        repeat split; auto; inversion H; subst; [lia|easy].
      * assert (T : t = []).
        { rewrite HS in EL by now left. rewrite D1, blen_app in EL. destruct t; [easy|]. unfold blen in *; cbn [length] in *. lia. }
        subst t. rewrite app_nil_r in D1. apply IH in E as (d' & t' & F1 & F2 & F3); [|intros; apply HS; now right].
        exists (d ++ d'), t'. rewrite F1, D1, F2, D2. rewrite <- !app_assoc. repeat split; auto.
        intros. destruct (F3 _ _ H) as (-> & ?). rewrite blen_app. lia. apply F3 in H. tauto.
    + inversion E; subst. exists d, (t ++ concat (map bk_encode bs)). rewrite D1, <- app_assoc. repeat split; auto; discriminate.
    + inversion E; subst. exists d, (t ++ concat (map bk_encode bs)). rewrite D1, <- app_assoc. repeat split; auto; discriminate.
Qed.

Lemma pk_write_any {V} (k : pkind V) v body crc o r o' : encodes k v body crc -> pk_write k v o = (r, o') ->
  exists d t, ph_bytes (mk_pheader (pk_sig k) crc (blen body)) ++ body = d ++ t /\ k_got o' = k_got o ++ d
    /\ (forall n, r = Ok n -> blen d = n).
Proof.
  intros H E. unfold pk_write in E. rewrite (proj1 (ph_new_ok _ _ _ _ H)) in E. cbn [sbind] in E. unfold hdr_of in E.
  set (hb := ph_bytes _) in *.
  destruct (sink_write_all hb o) as [[[]|e|w] o1] eqn:E1; cbn [sbind] in E;
    apply sink_write_all_any in E1 as (d & t & D1 & D2 & D3).
  - rewrite (D3 eq_refl), app_nil_r in D1. subst d.
    destruct H as (HB & HS & _). rewrite HB in E. cbn [io sbind] in E.
    destruct (sink_write body o1) as [[n|e|w] o2] eqn:E2; cbn [sbind] in E; inversion E; subst; clear E;
      apply sink_write_any in E2 as (d & t2 & F1 & F2 & F3); exists (hb ++ d), t2;
      (split; [now rewrite <- app_assoc, <- F1|split; [now rewrite F2, D2, <- app_assoc|]]); try discriminate.
    intros m Q. inversion Q; subst. rewrite blen_app, (F3 n eq_refl). lia.
  - inversion E; subst. exists d, (t ++ body). rewrite D1, <- app_assoc. repeat split; auto; discriminate.
  - inversion E; subst. exists d, (t ++ body). rewrite D1, <- app_assoc. repeat split; auto; discriminate.
Qed.

Lemma pl_write_any ks (pl : payload U) body crc o r o' : payload_ok ks pl body crc -> pl_write pl o = (r, o') ->
  exists d t, ph_bytes (mk_pheader (pl_sig pl) crc (blen body)) ++ body = d ++ t /\ k_got o' = k_got o ++ d
    /\ (forall n, r = Ok n -> blen d = n).
Proof.
  destruct pl; cbn [payload_ok pl_write pl_sig]; intros H; [destruct H as (_ & H)|destruct H as (_ & H)|destruct H as (_ & _ & H)];
    intros E; exact (pk_write_any _ _ _ _ _ _ _ H E).
Qed.

Lemma pkt_write_any P p e o r o' : packet_enc P p e -> pkt_write p o = (r, o') ->
  exists d t, e = d ++ t /\ k_got o' = k_got o ++ d /\ (forall n, r = Ok n -> blen d = n).
Proof.
  intros (tail & HB & HT & HL & ->) E. unfold pkt_write in E. rewrite (hdr_new_ok P p tail HB HT) in E. cbn [sbind] in E.
  rewrite mkh_bytes in E. set (blocks := concat (map bk_encode (p_blocks p))) in *. fold (flag_of p) in E |- *.
  set (hb := layout_header _ _ _) in *. assert (LH : blen hb = 29) by (unfold blen, hb; now rewrite layout_length).
  destruct (sink_write hb o) as [[n|e|w] o1] eqn:E1; cbn [sbind] in E; apply sink_write_any in E1 as (d & t & D1 & D2 & D3);
    [|inversion E; subst; exists d, (t ++ blocks ++ tail); rewrite D1, <- app_assoc; repeat split; auto; discriminate
     |inversion E; subst; exists d, (t ++ blocks ++ tail); rewrite D1, <- app_assoc; repeat split; auto; discriminate].
  specialize (D3 n eq_refl). unfold hdr_size in E.
  destruct (n <? N.of_nat 29) eqn:EL.
  { inversion E; subst. exists d, (t ++ blocks ++ tail). rewrite D1, <- app_assoc. repeat split; auto. now inversion 1. }
  assert (T : t = []). { rewrite D1, blen_app in LH. destruct t; [easy|]. unfold blen in *; cbn [length] in *. lia. }
  subst t. rewrite app_nil_r in D1. subst d.
  destruct (write_blocks (p_blocks p) n o1) as [[[c m]|e|w] o2] eqn:E2; cbn [sbind] in E;
    (apply write_blocks_any in E2 as (d & t & F1 & F2 & F3); [|intros b Hb; apply (bk_size_len (pr_blocks P)); rewrite Forall_forall in HB; auto]);
    fold blocks in F1;
    [|inversion E; subst; exists (hb ++ d), (t ++ tail); rewrite F1, F2, D2, <- !app_assoc; repeat split; auto; discriminate
     |inversion E; subst; exists (hb ++ d), (t ++ tail); rewrite F1, F2, D2, <- !app_assoc; repeat split; auto; discriminate].
  destruct (F3 _ _ eq_refl) as (FM & FT). destruct c; cbn [negb] in E.
  2: { inversion E; subst; exists (hb ++ d), (t ++ tail); rewrite F1, F2, D2, <- !app_assoc; repeat split; auto.
       intros k0 Q0; apply ok_inj in Q0; rewrite blen_app; lia. }
  rewrite (FT eq_refl), app_nil_r in F1. subst d.
  destruct (p_payload p) as [pl|]; cbn [payload_part] in HT.
  - destruct HT as (body & crc & HP & L4 & ->).
    destruct (pl_write pl o2) as [[k|e|w] o3] eqn:E3; cbn [sbind] in E;
      pose proof (pl_write_any _ _ _ _ _ _ _ HP E3) as (d3 & t3 & G1 & G2 & G3).
    + rewrite (pl_size_ok _ _ _ _ HP) in E. cbn [sbind] in E.
      exists (hb ++ blocks ++ d3), t3. rewrite G1, <- !app_assoc. split; [easy|].
      assert (E' : r = Ok (m + k) /\ o' = o3) by (clear - E; destruct (_ <? _) in E; split; congruence). destruct E' as (-> & ->).
      split; [rewrite G2, F2, D2, <- !app_assoc; easy|].
      intros k0 Q0; apply ok_inj in Q0. rewrite !blen_app, (G3 k eq_refl). lia.
    + inversion E; subst. exists (hb ++ blocks ++ d3), t3. rewrite G1, G2, F2, D2, <- !app_assoc. repeat split; discriminate.
    + inversion E; subst. exists (hb ++ blocks ++ d3), t3. rewrite G1, G2, F2, D2, <- !app_assoc. repeat split; discriminate.
  - subst tail. inversion E; subst. exists (hb ++ blocks), []. rewrite F2, D2, <- !app_assoc, !app_nil_r. repeat split; auto.
    intros k0 Q0; apply ok_inj in Q0; rewrite blen_app; lia.
Qed.

Lemma write_all_blocks_any bs : forall o r o', write_all_blocks bs o = (r, o') ->
  exists d t, concat (map bk_encode bs) = d ++ t /\ k_got o' = k_got o ++ d /\ (r = Ok tt -> t = []).
Proof.
  induction bs as [|b bs IH]; intros o r o' E; cbn [write_all_blocks map concat] in *.
  - inversion E; subst. exists [], []. repeat split; now rewrite ?app_nil_r.
  - unfold bk_write_all, blk_write_all in E. fold (bk_encode b) in E.
    destruct (sink_write_all (bk_encode b) o) as [[[]|e|w] o1] eqn:E1; cbn [sbind] in E;
      apply sink_write_all_any in E1 as (d & t & D1 & D2 & D3).
    + rewrite (D3 eq_refl), app_nil_r in D1. apply IH in E as (d' & t' & F1 & F2 & F3).
      exists (d ++ d'), t'. rewrite F1, D1, F2, D2, <- !app_assoc. auto.
    + inversion E; subst. exists d, (t ++ concat (map bk_encode bs)). rewrite D1, <- app_assoc. repeat split; auto; discriminate.
    + inversion E; subst. exists d, (t ++ concat (map bk_encode bs)). rewrite D1, <- app_assoc. repeat split; auto; discriminate.
Qed.

Lemma pl_write_all_any ks (pl : payload U) body crc o r o' : payload_ok ks pl body crc -> pl_write_all pl o = (r, o') ->
  exists d t, ph_bytes (mk_pheader (pl_sig pl) crc (blen body)) ++ body = d ++ t /\ k_got o' = k_got o ++ d
    /\ (r = Ok tt -> t = []).
Proof.
  assert (G : forall V (k : pkind V) v, encodes k v body crc -> pk_write_all k v o = (r, o') ->
    exists d t, ph_bytes (mk_pheader (pk_sig k) crc (blen body)) ++ body = d ++ t /\ k_got o' = k_got o ++ d /\ (r = Ok tt -> t = [])).
  { intros V k v H E. unfold pk_write_all in E. rewrite (proj1 (ph_new_ok _ _ _ _ H)) in E. cbn [sbind] in E. unfold hdr_of in E.
    set (hb := ph_bytes _) in *.
    destruct (sink_write_all hb o) as [[[]|e|w] o1] eqn:E1; cbn [sbind] in E;
      apply sink_write_all_any in E1 as (d & t & D1 & D2 & D3).
    - rewrite (D3 eq_refl), app_nil_r in D1. subst d.
      destruct H as (HB & HS & _). rewrite HB in E. cbn [io sbind] in E.
      apply sink_write_all_any in E as (d & t2 & F1 & F2 & F3). exists (hb ++ d), t2.
      split; [now rewrite <- app_assoc, <- F1|split; [now rewrite F2, D2, <- app_assoc|easy]].
    - inversion E; subst. exists d, (t ++ body). rewrite D1, <- app_assoc. repeat split; auto; discriminate.
    - inversion E; subst. exists d, (t ++ body). rewrite D1, <- app_assoc. repeat split; auto; discriminate. }
  destruct pl; cbn [payload_ok pl_write_all pl_sig]; intros H; [destruct H as (_ & H)|destruct H as (_ & H)|destruct H as (_ & _ & H)];
    intros E; exact (G _ _ _ H E).
Qed.

Lemma pkt_write_all_any P p e o r o' : packet_enc P p e -> pkt_write_all p o = (r, o') ->
  exists d t, e = d ++ t /\ k_got o' = k_got o ++ d /\ (r = Ok tt -> t = []).
Proof.
  intros (tail & HB & HT & HL & ->) E. unfold pkt_write_all in E. rewrite (hdr_new_ok P p tail HB HT) in E. cbn [sbind] in E.
  rewrite mkh_bytes in E. set (blocks := concat (map bk_encode (p_blocks p))) in *. fold (flag_of p) in E |- *.
  set (hb := layout_header _ _ _) in *.
  destruct (sink_write_all hb o) as [[[]|e|w] o1] eqn:E1; cbn [sbind] in E; apply sink_write_all_any in E1 as (d & t & D1 & D2 & D3);
    [|inversion E; subst; exists d, (t ++ blocks ++ tail); rewrite D1, <- app_assoc; repeat split; auto; discriminate
     |inversion E; subst; exists d, (t ++ blocks ++ tail); rewrite D1, <- app_assoc; repeat split; auto; discriminate].
  rewrite (D3 eq_refl), app_nil_r in D1. subst d. clear t D3.
  destruct (write_all_blocks (p_blocks p) o1) as [[[]|e|w] o2] eqn:E2; cbn [sbind] in E;
    apply write_all_blocks_any in E2 as (d & t & F1 & F2 & F3); fold blocks in F1;
    [|inversion E; subst; exists (hb ++ d), (t ++ tail); rewrite F1, F2, D2, <- !app_assoc; repeat split; auto; discriminate
     |inversion E; subst; exists (hb ++ d), (t ++ tail); rewrite F1, F2, D2, <- !app_assoc; repeat split; auto; discriminate].
  rewrite (F3 eq_refl), app_nil_r in F1. subst d.
  destruct (p_payload p) as [pl|]; cbn [payload_part] in HT.
  - destruct HT as (body & crc & HP & L4 & ->).
    pose proof (pl_write_all_any _ _ _ _ _ _ _ HP E) as (d3 & t3 & G1 & G2 & G3).
    exists (hb ++ blocks ++ d3), t3. rewrite G1, G2, F2, D2, <- !app_assoc. auto.
  - subst tail. inversion E; subst. exists (hb ++ blocks), []. rewrite F2, D2, <- !app_assoc, !app_nil_r. auto.
Qed.
End Packets.

(** ** No panics: [pres ok m] says that [m] is not a panic and leaves the state [ok]. *)
Definition pres {A S} (ok : S -> Prop) (m : res A * S) : Prop :=
  match m with (Panic _, _) => False | (_, s) => ok s end.
Definition rok {S} (R : reader S) (ok : S -> Prop) : Prop := forall n s, ok s -> pres ok (rd_exact R n s).

Lemma pres_bind {A B S} (ok : S -> Prop) (m : res A * S) (k : A -> S -> res B * S) :
  pres ok m -> (forall a s, ok s -> pres ok (k a s)) -> pres ok (sbind m k).
Proof. destruct m as [[a|e|w] s]; cbn; auto. Qed.
Lemma pres_stbind {A B S} (ok : S -> Prop) (m : res (status A) * S) (k : A -> S -> res (status B) * S) :
  pres ok m -> (forall a s, ok s -> pres ok (k a s)) -> pres ok (stbind m k).
Proof. destruct m as [[[a|n]|e|w] s]; cbn; auto. Qed.
Lemma pres_nopanic {A S} ok (m : res A * S) w s : pres ok m -> m <> (Panic w, s).
Proof. intros H ->. exact H. Qed.

Lemma buf_rok : rok buf_reader (fun _ => True).
Proof.
  intros n s _. simpl. unfold buf_read_exact. generalize (@nil byte) as acc. generalize n, (b_cur s).
  induction (b_evs s) as [|ev evs IH]; intros m cur acc; cbn [buf_read_exact_go];
    destruct (m <=? blen cur); try easy.
  destruct ev as [[|b bs]|k]; [easy|apply IH|]. destruct k; easy || apply IH.
Qed.
Lemma cursor_rok : rok cursor_reader c_ok.
Proof.
  intros n c H. simpl. unfold cursor_read_exact. pose proof (c_rest_len c H) as L. unfold c_ok in *.
  destruct (n <=? blen (c_rest c)) eqn:E; unfold pres, c_ok, c_seek, c_len in *; cbn [c_pos c_data]; lia.
Qed.
Lemma stream_rok : rok stream_reader (fun _ => True).
Proof. intros n s _. simpl. unfold stream_read_exact. destruct (_ <=? _); easy. Qed.

Section Safe.
Context {S : Type} {R : reader S} {ok : S -> Prop} (HR : rok R ok).

Lemma read_fields_pres ts : forall s, ok s -> pres ok (read_fields R ts s).
Proof.
  induction ts as [|t ts IH]; intros s H; cbn [read_fields]; [easy|].
  apply pres_bind; [now apply HR|]. intros raw s1 H1.
  destruct (dec_stream t raw) eqn:ED; [|easy|exact (gd_nopanic _ good_stream _ _ _ ED)].
  apply pres_bind; [auto|]. easy.
Qed.
Lemma blk_read_pres sc skip s : ok s -> pres ok (blk_read R sc skip s).
Proof.
  intros H. unfold blk_read. apply pres_bind.
  - destruct skip; [easy|]. apply pres_bind; [now apply HR|]. intros a s1 H1. now destruct (bytes_eqb _ _).
  - intros _ s1 H1. apply pres_bind; [now apply read_fields_pres|]. intros vs s2 H2.
    apply pres_bind; [now apply HR|]. intros a s3 H3. now destruct (bytes_eqb _ _).
Qed.
Lemma hdr_read_pres s : ok s -> pres ok (hdr_read R s).
Proof.
  intros H. unfold hdr_read. apply pres_bind; [now apply HR|]. intros sg s1 H1. destruct (negb _); [easy|].
  apply pres_bind; [now apply HR|]. intros sz s2 H2. apply pres_bind; [now apply HR|]. intros bl s3 H3.
  apply pres_bind; [now apply HR|]. intros fl s4 H4. apply pres_bind; [now apply HR|]. intros crc s5 H5.
  now destruct (bytes_eqb _ _).
Qed.
Lemma ph_read_pres s : ok s -> pres ok (ph_read R s).
Proof.
  intros H. unfold ph_read.
  assert (CC : forall n (s : S), ok s -> pres ok (check_capacity n, s)) by (intros n v; unfold check_capacity; destruct (valid_capacity n); easy).
  assert (BB : forall n (s : S), ok s -> pres ok (to_byte_block n, s)) by (intros n v; unfold to_byte_block; destruct (valid_capacity _); easy).
  repeat (first [apply pres_bind; [first [now apply HR | now apply CC | now apply BB]|intros ? ? ?] | easy]).
Qed.
Lemma pk_read_pres {V} (k : pkind V) h s : ok s -> pres ok (pk_read R k h s).
Proof.
  intros H. unfold pk_read. destruct (negb _); [easy|]. apply pres_bind; [now apply HR|]. intros body s1 H1.
  apply pres_bind; [now destruct (pk_decode k body)|]. intros v s2 H2.
  apply pres_bind; [now destruct (pk_crc k v)|]. intros crc s3 H3. now destruct (bytes_eqb _ _).
Qed.
Lemma or_next_pres {A B} (m : res A * S) (inj : A -> B) next :
  pres ok m -> (forall s, ok s -> pres ok (next s)) -> pres ok (or_next m inj next).
Proof. intros H G. destruct m as [[a|e|w] s]; cbn in *; auto. destruct (sig_dismatch e); auto. Qed.
Lemma pl_read_pres {U} (ks : list (pkind U)) h : forall s, ok s -> pres ok (pl_read R ks h s).
Proof.
  induction ks as [|k ks IH]; intros s H; cbn [pl_read]; apply or_next_pres; auto using pk_read_pres.
  intros s1 H1. apply or_next_pres; auto using pk_read_pres.
Qed.
End Safe.

Lemma c_seek_ok n c : n <= c_len c -> c_ok (c_seek n c).
Proof. easy. Qed.

(** Cursor functions: no panic, the position stays within the source, the data is the same. *)
Definition cgood (d : bytes) (c : cursor) : Prop := c_ok c /\ c_data c = d.
Lemma cursor_rok_data d : rok cursor_reader (cgood d).
Proof.
  intros n c [H D]. pose proof (cursor_rok n c H) as Q. simpl in *. unfold cursor_read_exact in *.
  destruct (n <=? blen (c_rest c)); cbn [pres] in *; split; auto.
Qed.

Lemma c_available_pres d c : cgood d c -> pres (cgood d) (c_available c, c).
Proof. intros [H D]. rewrite c_available_ok by easy. now split. Qed.

Lemma safe_next_pres d n f c : sf_spos f <= blen d -> cgood d c ->
  match safe_next n f c with
  | (Panic _, _) => False
  | (Ok (Success (_, f')), c') => cgood d c' /\ sf_spos f' <= blen d
  | (_, c') => cgood d c'
  end.
Proof.
  intros HF HC. unfold safe_next. destruct (_ <? _).
  - destruct HC as [H D]. split; [|easy]. unfold c_ok, c_seek, c_len in *. cbn [c_pos c_data]. now rewrite D.
  - pose proof (cursor_rok_data d n c HC) as Q. cbn [rd_exact cursor_reader] in Q.
    destruct (cursor_read_exact n c) as [[a|e|w] c1]; cbn [sbind pres] in *; auto.
Qed.

Lemma ph_try_read_pres d c : cgood d c -> pres (cgood d) (ph_try_read c).
Proof.
  intros H. unfold ph_try_read.
  assert (CC : forall n (c : cursor), cgood d c -> pres (cgood d) (check_capacity n, c)) by (intros n v; unfold check_capacity; destruct (valid_capacity n); easy).
  assert (BB : forall n (c : cursor), cgood d c -> pres (cgood d) (to_byte_block n, c)) by (intros n v; unfold to_byte_block; destruct (valid_capacity _); easy).
  unfold safe_new. rewrite c_available_ok by apply H. cbn [rbind].
  match goal with |- pres _ (sbind (Ok ?a, ?s) ?k) => change (pres (cgood d) (k a s)) end. cbv beta.
  assert (NX : forall {B} n f c (k : bytes * safe -> cursor -> res (status B) * cursor), sf_spos f <= blen d -> cgood d c ->
    (forall bs f' c', sf_spos f' <= blen d -> cgood d c' -> pres (cgood d) (k (bs, f') c')) -> pres (cgood d) (stbind (safe_next n f c) k)).
  { intros B n f c0 k HF HC HK. pose proof (safe_next_pres d n f c0 HF HC) as Q.
    destruct (safe_next n f c0) as [[[[bs f']|m]|e|w] c1]; cbn [stbind pres] in *; auto. now apply HK. }
  apply NX; auto. { cbn [sf_spos]. destruct H as [H D]. unfold c_ok, c_len in H. now rewrite <- D. }
  intros sl f1 c1 F1 H1. apply pres_bind; [now apply CC|]. intros _ c2 H2. apply NX; auto.
  intros sg f3 c3 F3 H3. apply NX; auto. intros cl f4 c4 F4 H4. apply pres_bind; [now apply CC|]. intros _ c5 H5. apply NX; auto.
  intros crc f6 c6 F6 H6. apply NX; auto. intros ln f7 c7 F7 H7. apply pres_bind; [now apply BB|]. intros x c8 H8.
  apply pres_bind; [now apply BB|]. easy.
Qed.

Lemma bk_try_pres d scs : forall c, cgood d c -> pres (cgood d) (bk_try_read scs c).
Proof.
  induction scs as [|sc scs IH]; intros c H; cbn [bk_try_read]; [easy|].
  assert (G : pres (cgood d) (blk_try_read sc c)).
  { unfold blk_try_read. rewrite c_available_ok by apply H. destruct (_ <? 4); [easy|].
    apply pres_bind; [exact (cursor_rok_data d 4 c H)|]. intros sg c1 H1.
    destruct (negb _).
    - destruct H as [H D], H1 as [H1 D1]. cbn [pres]. split; [|easy]. unfold c_ok, c_seek, c_len in *. cbn [c_pos c_data]. now rewrite D1, <- D.
    - destruct (_ <? _); [easy|]. apply pres_bind; [apply blk_read_pres; [apply cursor_rok_data|easy]|]. easy. }
  destruct (blk_try_read sc c) as [[[vs|n]|e|w] c1]; cbn [pres] in *; auto. destruct (is_sig_dismatch e); auto.
Qed.

Lemma bk_buf_pres scs : forall s, pres (fun _ => True) (bk_try_read_buf scs s).
Proof.
  induction scs as [|sc scs IH]; intros s; cbn [bk_try_read_buf]; [easy|].
  assert (G : pres (fun _ => True) (blk_try_read_buf sc s)).
  { unfold blk_try_read_buf. apply pres_bind.
    - unfold fill_buf. destruct (b_cur s); [destruct (b_evs s) as [|[]]|]; easy.
    - intros buf s1 _. destruct (_ <? _)%nat; [easy|]. destruct (negb _); [easy|].
      apply pres_bind; [apply blk_read_pres; [apply buf_rok|easy]|easy]. }
  destruct (blk_try_read_buf sc s) as [[[vs|n]|e|w] s1]; cbn [pres] in *; auto. destruct (is_sig_dismatch e); auto.
Qed.

Lemma loop_buf_pres scs total : forall fuel rd acc s, pres (fun _ => True) (blocks_loop_buf fuel scs total rd acc s).
Proof.
  induction fuel as [|fuel IH]; intros rd acc s; cbn [blocks_loop_buf]; [easy|].
  apply pres_stbind; [apply bk_buf_pres|]. intros b s1 _. destruct (_ =? _); [easy|apply IH].
Qed.
Lemma loop_try_pres d scs total : forall fuel rd acc c, cgood d c -> pres (cgood d) (blocks_loop_try fuel scs total rd acc c).
Proof.
  induction fuel as [|fuel IH]; intros rd acc c H; cbn [blocks_loop_try]; [easy|].
  apply pres_stbind; [now apply bk_try_pres|]. intros b s1 H1. destruct (_ =? _); [easy|now apply IH].
Qed.

Section Hostile.
Context {U : Type}.
Implicit Types (P : proto U).

Lemma fill_buf_pres s : pres (fun _ => True) (fill_buf s).
Proof. unfold fill_buf. destruct (b_cur s); [destruct (b_evs s) as [|[]]|]; easy. Qed.

Lemma hdr_slice_nopanic buf w : hdr_read_from_slice buf <> Panic w.
Proof. unfold hdr_read_from_slice. destruct (_ <? _)%nat; [easy|]. destruct (negb _); [easy|]. destruct (bytes_eqb _ _); easy. Qed.

Lemma pl_try_buf_pres (ks : list (pkind U)) h : forall s, pres (fun _ => True) (pl_try_read_buf ks h s).
Proof.
  induction ks as [|k ks IH]; intros s; cbn [pl_try_read_buf]; apply or_next_pres; auto;
    try (unfold pk_try_read_buf; apply pres_bind; [apply pk_read_pres; [apply buf_rok|easy]|easy]).
  intros s1 H1. apply or_next_pres; auto; try (unfold pk_try_read_buf; apply pres_bind; [apply pk_read_pres; [apply buf_rok|easy]|easy]).
Qed.

Lemma pl_try_pres d (ks : list (pkind U)) h : forall c, cgood d c -> pres (cgood d) (pl_try_read ks h c).
Proof.
  assert (G : forall V (k : pkind V) c, cgood d c -> pres (cgood d) (pk_try_read k h c)).
  { intros V k c H. unfold pk_try_read. apply pres_bind; [now apply c_available_pres|]. intros len c1 H1.
    destruct (_ <? _); [easy|]. apply pres_bind; [apply pk_read_pres; [apply cursor_rok_data|easy]|easy]. }
  induction ks as [|k ks IH]; intros s H; cbn [pl_try_read]; apply or_next_pres; auto.
  intros s1 H1. apply or_next_pres; auto.
Qed.

Lemma pkt_try_read_pres P c : c_ok c -> pres (cgood (c_data c)) (pkt_try_read P c).
Proof.
  intros H. set (d := c_data c). assert (HC : cgood d c) by now split.
  assert (SK : forall c1, cgood d c1 -> cgood d (c_seek (c_pos c) c1)).
  { intros c1 [H1 D1]. split; [|easy]. unfold c_ok, c_seek, c_len in *. cbn [c_pos c_data]. rewrite D1. exact H. }
  unfold pkt_try_read. apply pres_bind; [now apply c_available_pres|]. intros av c1 H1.
  apply pres_stbind.
  { unfold hdr_try_read. apply pres_bind; [now apply c_available_pres|]. intros len c2 H2. destruct (_ <? _); [easy|].
    apply pres_bind; [apply hdr_read_pres; [apply cursor_rok_data|easy]|easy]. }
  intros h c2 H2. destruct (_ <? _); [easy|].
  assert (HB : pres (cgood d) (if 0 <? h_blocks_len h then blocks_loop_try block_fuel (pr_blocks P) (h_blocks_len h) 0 [] c2 else (Ok (Success []), c2))).
  { destruct (_ <? _); [now apply loop_try_pres|easy]. }
  destruct (if 0 <? h_blocks_len h then _ else _) as [[[blocks|n]|e|w] c3]; cbn [pres] in *; auto.
  destruct (h_payload h); [|easy].
  apply pres_bind; [now apply ph_try_read_pres|]. intros [ph|n] c4 H4; [|cbn [pres]; auto].
  pose proof (pl_try_pres d (pr_kinds P) ph c4 H4) as HPL.
  destruct (pl_try_read (pr_kinds P) ph c4) as [[[pl|n]|e|w] c5]; cbn [pres] in *; auto.
Qed.
End Hostile.

Lemma bk_slice_inv scs src b : bk_read_from_slice scs src false = Ok b ->
  In (bk_ty b) scs /\ blk_read_from_slice (bk_ty b) src false = Ok (bk_vals b) /\ (ssize (bk_ty b) <= length src)%nat.
Proof.
  induction scs as [|sc scs IH]; cbn [bk_read_from_slice]; [easy|].
  destruct (blk_read_from_slice sc src false) as [vs|e|w] eqn:E; intros H.
  - inversion H; subst; cbn [bk_ty bk_vals]. split; [now left|split; [easy|]].
    unfold blk_read_from_slice in E. destruct (_ <? 4)%nat; [easy|]. destruct (bytes_eqb _ _); [|easy]. cbn [rbind] in E.
    destruct (length src <? ssize sc)%nat eqn:EL; [easy|]. lia.
  - destruct (is_sig_dismatch e); [|easy]. destruct (IH H) as (? & ?). split; [now right|easy].
  - easy.
Qed.

Lemma bk_slice_nopanic scs src w : bk_read_from_slice scs src false <> Panic w.
Proof.
  induction scs as [|sc scs IH]; cbn [bk_read_from_slice]; [easy|].
  destruct (blk_read_from_slice sc src false) as [vs|e|w1] eqn:E; [easy| |now apply blk_slice_nopanic in E].
  destruct (is_sig_dismatch e); easy.
Qed.

Lemma bk_size_nat b : N.to_nat (bk_size b) = ssize (bk_ty b).
Proof. unfold bk_size. lia. Qed.

Lemma loop_slice_nopanic scs buf bl : forall fuel rd acc w,
  (rd <= length buf)%nat -> (length buf - rd < fuel)%nat ->
  blocks_loop_slice fuel scs buf bl rd acc <> Panic w.
Proof.
  induction fuel as [|fuel IH]; intros rd acc w H1 H2; [lia|]. cbn [blocks_loop_slice].
  destruct (bk_read_from_slice scs (skipn rd buf) false) as [b|e|w1] eqn:E; cbn [rbind]; [|easy|now apply bk_slice_nopanic in E].
  destruct (_ =? _)%nat; [easy|]. apply bk_slice_inv in E as (_ & _ & L). rewrite skipn_length in L.
  rewrite bk_size_nat. pose proof (ssize_eq (bk_ty b)). apply IH; lia.
Qed.

Lemma loop_slice_rt scs (ND : NoDup (map blk_sig scs)) bs : forall fuel buf bl rd acc tail,
  Forall (block_ok scs) bs -> bs <> [] -> (length bs <= fuel)%nat ->
  skipn rd buf = concat (map bk_encode bs) ++ tail -> (rd + length (concat (map bk_encode bs)) = bl)%nat ->
  blocks_loop_slice fuel scs buf bl rd acc = Ok (acc ++ bs).
Proof.
  induction bs as [|b bs IH]; intros fuel buf bl rd acc tail F NE LF V HT; [easy|].
  inversion F; subst. destruct fuel as [|fuel]; [cbn [length] in LF; lia|].
  cbn [map concat] in V. rewrite <- app_assoc in V. cbn [blocks_loop_slice]. rewrite V, bk_slice_rt by easy. cbn [rbind].
  rewrite bk_size_nat. pose proof (bk_encode_length _ _ H1) as LB. cbn [map concat]. rewrite app_length, LB.
  destruct bs as [|b2 bs].
  - cbn [map concat length]. replace (rd + ssize (bk_ty b) =? rd + (ssize (bk_ty b) + 0))%nat with true by lia. reflexivity.
  - inversion H2; subst.
    replace (rd + ssize (bk_ty b) =? rd + (ssize (bk_ty b) + length (concat (map bk_encode (b2 :: bs)))))%nat with false.
    + rewrite (IH fuel buf _ (rd + ssize (bk_ty b))%nat (acc ++ [b]) tail); auto; try easy.
      * now rewrite <- app_assoc.
      * cbn [length] in *; lia.
      * rewrite (Nat.add_comm rd). rewrite <- (skipn_skipn (ssize (bk_ty b)) rd), V. rewrite skipn_app_exact by (now rewrite LB). reflexivity.
      * lia.
    + cbn [map concat]. rewrite app_length. pose proof (bk_encode_pos _ _ H3). lia.
Qed.

Section Hostile2.
Context {U : Type}.
Implicit Types (P : proto U).

Lemma lw_hdr {S} (R : reader S) view okst (L : lawful R view okst) s : okst s ->
  match hdr_read R s with (Panic _, _) => False | (Ok _, s') => okst s' | (Err _, _) => True end.
Proof.
  intros O. unfold hdr_read.
  assert (G : forall {B} n s (k : bytes -> S -> res B * S), okst s ->
    (forall a s', okst s' -> match k a s' with (Panic _, _) => False | (Ok _, s2) => okst s2 | (Err _, _) => True end) ->
    match sbind (rd_exact R n s) k with (Panic _, _) => False | (Ok _, s2) => okst s2 | (Err _, _) => True end).
  { intros B n s0 k O0 HK. destruct (rd_exact R n s0) as [[a|e|w] s1] eqn:E; cbn [sbind].
    - apply HK. now destruct (lw_inv L _ _ _ _ O0 E) as (_ & _ & ?).
    - easy.
    - exact (lw_nopanic L _ _ _ _ O0 E). }
  apply G; auto. intros sg s1 O1. destruct (negb _); [easy|]. apply G; auto. intros sz s2 O2. apply G; auto. intros bl s3 O3.
  apply G; auto. intros fl s4 O4. apply G; auto. intros crc s5 O5. now destruct (bytes_eqb _ _).
Qed.

(** The only panic of [Packet::read] is the allocation of the announced size. *)
Lemma pkt_read_panic {S} (R : reader S) view okst (L : lawful R view okst) P s w s' : okst s ->
  pkt_read R P s = (Panic w, s') ->
  exists h s1, hdr_read R s = (Ok h, s1) /\ two63 <= h_size h /\ w = PCapacity.
Proof.
  intros O E. unfold pkt_read in E. pose proof (lw_hdr R view okst L s O) as HH.
  destruct (hdr_read R s) as [[h|e|w1] s1]; cbn [sbind] in E; try discriminate; try contradiction.
  exists h, s1. split; [reflexivity|]. unfold alloc in E. destruct (h_size h <? two63) eqn:EA; cbn [sbind] in E.
  2: { inversion E; subst. split; [lia|reflexivity]. }
  exfalso. destruct (rd_exact R (h_size h) s1) as [[inner|e|w2] s2] eqn:E2; cbn [sbind] in E; try discriminate;
    [|exact (lw_nopanic L _ _ _ _ HH E2)].
  assert (HB : pres (fun _ => True) (if 0 <? h_blocks_len h then blocks_loop_buf block_fuel (pr_blocks P) (h_blocks_len h) 0 [] (of_slice inner)
     else (Ok (Success []), of_slice inner))) by (clear; destruct (0 <? h_blocks_len h); [apply loop_buf_pres|exact I]).
  destruct (if 0 <? h_blocks_len h then _ else _) as [[[blocks|n]|e|w3] r]; cbn [pres] in *; try easy.
  destruct (h_payload h); [|easy].
  assert (HP : pres (fun _ => True) (do (ph, r) <- ph_read buf_reader r; pl_read buf_reader (pr_kinds P) ph r)).
  { apply pres_bind; [apply ph_read_pres; [apply buf_rok|easy]|]. intros a s3 _. apply pl_read_pres; [apply buf_rok|easy]. }
  destruct (sbind (ph_read buf_reader r) _) as [[pl|e|w4] s3]; cbn [fst pres] in *; easy.
Qed.

Lemma pkt_try_read_buf_pres P s : pres (fun _ => True) (pkt_try_read_buf P s).
Proof.
  unfold pkt_try_read_buf. apply pres_bind; [apply fill_buf_pres|]. intros buf s1 _. destruct (_ <? _); [easy|].
  apply pres_bind.
  { destruct (hdr_read_from_slice buf) eqn:E; [easy|easy|]. now apply hdr_slice_nopanic in E. }
  intros h s2 _. destruct (_ <? _); [easy|]. apply pres_stbind.
  { destruct (_ <? _); [apply loop_buf_pres|easy]. }
  intros blocks s3 _. destruct (h_payload h); [|easy]. apply pres_bind.
  { unfold ph_try_read_buf. apply pres_bind; [apply fill_buf_pres|]. intros b2 s4 _.
    destruct (ph_peek b2) eqn:E; [easy|easy|]. now apply ph_peek_nopanic in E. }
  intros [ph|n] s4 _; [|easy]. apply pres_stbind; [apply pl_try_buf_pres|]. easy.
Qed.

Lemma filtered_panic {S} (R : reader S) view okst (L : lawful R view okst) P rs s w s' : okst s ->
  filtered R P rs s = (Panic w, s') ->
  exists h s1, hdr_read R s = (Ok h, s1) /\ two63 <= h_size h /\ w = PCapacity.
Proof.
  intros O E. unfold filtered in E. pose proof (lw_hdr R view okst L s O) as HH.
  destruct (hdr_read R s) as [[h|e|w1] s1]; cbn [sbind] in E; try discriminate; try contradiction.
  exists h, s1. split; [reflexivity|]. unfold alloc in E. destruct (h_size h <? two63) eqn:EA; cbn [sbind] in E.
  2: { inversion E; subst. split; [lia|reflexivity]. }
  exfalso. destruct (rd_exact R (h_size h) s1) as [[buf|e|w2] s2] eqn:E2; cbn [sbind] in E; try discriminate;
    [|exact (lw_nopanic L _ _ _ _ HH E2)].
  destruct (if 0 <? h_blocks_len h then _ else _) as [blocks|e|w3] eqn:EB; cbn [sbind] in E; try discriminate; try contradiction.
  2: { destruct (0 <? h_blocks_len h); [|easy]. now apply loop_slice_nopanic in EB; [|lia|lia]. }
  destruct (negb _); [easy|].
  destruct (if h_payload h then _ else _) as [[p|]|e|w4] eqn:EP; cbn [sbind] in E; try discriminate; try contradiction.
  - destruct (filter_packet rs p); easy.
  - destruct (h_payload h); [|easy].
    destruct (ph_peek _) as [[ph|n]|e|w5] eqn:EK; cbn [rbind] in EP; try easy; [|now apply ph_peek_nopanic in EK].
    destruct (negb _); [easy|].
    pose proof (pl_try_buf_pres (pr_kinds P) ph (of_slice (skipn (N.to_nat (h_blocks_len h) + ph_size ph) buf))) as Q.
    destruct (pl_try_read_buf _ _ _) as [[[pl|n]|e|w6] s6]; cbn [fst rbind pres] in *; easy.
Qed.

(** ** Filtered reading of a legal packet *)
Definition raw_body (ks : list (pkind U)) (o : option (payload U)) (body : bytes) : Prop :=
  match o with None => True | Some pl => exists crc, payload_ok ks pl body crc end.

Lemma payload_body_fun ks (pl : payload U) b1 c1 b2 c2 : payload_ok ks pl b1 c1 -> payload_ok ks pl b2 c2 -> b1 = b2.
Proof.
  destruct pl; cbn [payload_ok].
  - intros (_ & (E1 & _)) (_ & (E2 & _)). rewrite E1 in E2. now inversion E2.
  - intros (-> & _) (-> & _). easy.
  - intros (-> & _) (-> & _). easy.
Qed.

Lemma filtered_rt {S} (R : reader S) view okst (OK : okl R view okst) P rs (p : packet U) e s rest body :
  proto_ok P -> packet_enc P p e -> raw_body (pr_kinds P) (p_payload p) body ->
  okst s -> view s = e ++ rest ->
  exists s', filtered R P rs s =
    (Ok (if filter_by_blocks rs (p_blocks p)
            && (match p_payload p with Some _ => filter_by_payload rs body | None => true end)
            && filter_packet rs p
         then Accepted (blen e - 29) p else Denied (blen e - 29)), s')
    /\ view s' = rest /\ okst s'.
Proof.
  intros HP (tail & HB & HT & HL & EE) HBody O V.
  set (blocks := concat (map bk_encode (p_blocks p))) in *. fold (flag_of p) in EE.
  assert (LE : blen e - 29 = blen blocks + blen tail).
  { rewrite EE, !blen_app. unfold blen at 1. rewrite layout_length. lia. }
  rewrite LE. rewrite EE, <- !app_assoc in V.
  destruct (hdr_read_rt R view okst OK s _ _ _ _ O V) as (s1 & E1 & V1 & O1).
  { now apply two63_64. } { apply two63_64. lia. }
  unfold filtered. rewrite E1. cbn [sbind mkh h_size h_blocks_len h_payload].
  unfold alloc. replace (blen blocks + blen tail <? two63) with true by lia. cbn [sbind].
  destruct (OK (blen blocks + blen tail) s1 (blocks ++ tail) rest O1) as (s2 & E2 & V2 & O2).
  { now rewrite V1, <- app_assoc. } { now rewrite blen_app. }
  rewrite E2. cbn [sbind]. exists s2. split; [|auto].
  assert (EB : (if 0 <? blen blocks
      then blocks_loop_slice (length (blocks ++ tail) + 1) (pr_blocks P) (blocks ++ tail)
             (N.to_nat (N.min (blen blocks) (blen (blocks ++ tail) + 1))) 0 []
      else Ok []) = Ok (p_blocks p)).
  { destruct (0 <? blen blocks) eqn:EZ.
    - rewrite blen_app. replace (N.min (blen blocks) (blen blocks + blen tail + 1)) with (blen blocks) by lia.
      rewrite (loop_slice_rt _ (proj1 HP) (p_blocks p) _ _ _ _ _ tail); auto.
      + intros Q. unfold blocks in EZ. rewrite Q in EZ. easy.
      + assert (Q : (length (p_blocks p) <= length blocks)%nat).
        { unfold blocks. clear - HB. induction HB as [|b bs H F IH]; [easy|]. cbn [map concat length]. rewrite app_length.
          pose proof (bk_encode_pos _ _ H). lia. }
        rewrite app_length. lia.
      + fold blocks. unfold blen. lia.
    - pose proof (enc_blocks_zero _ _ HB EZ) as Q. now rewrite Q. }
  rewrite EB. cbn [sbind]. destruct (filter_by_blocks rs (p_blocks p)); cbn [negb andb]; [|easy].
  unfold flag_of. destruct p as [pbs ppl]. cbn [p_payload p_blocks] in *. destruct ppl as [pl|].
  - destruct HT as (body' & crc & HPL & L4 & ET). destruct HBody as (crc' & HPL').
    assert (QB : body = body') by exact (payload_body_fun _ _ _ _ _ _ HPL' HPL). subst body'.
    pose proof (payload_ok_hdr _ _ _ _ HPL) as HH. unfold pl_hdr in HH.
    assert (K1 : skipn (N.to_nat (blen blocks)) (blocks ++ tail) = tail).
    { rewrite skipn_app_exact by (unfold blen; lia). reflexivity. }
    rewrite K1. subst tail. set (h := mk_pheader (pl_sig pl) crc (blen body)) in *.
    rewrite ph_peek_rt by easy. cbn [rbind].
    assert (K2 : skipn (N.to_nat (blen blocks) + ph_size h) (blocks ++ ph_bytes h ++ body) = body).
    { rewrite (app_assoc blocks). rewrite skipn_app_exact; [easy|]. rewrite app_length, ph_bytes_length. unfold blen; lia. }
    rewrite K2. destruct (filter_by_payload rs body); cbn [negb andb sbind]; [|easy].
    rewrite pl_try_read_buf_eq. unfold of_slice.
    destruct (pl_read_rt _ _ _ (cur_okl []) buf_io_only (pr_kinds P) pl body crc (mk_bufsrc body []) [] (proj2 HP) HPL eq_refl) as (s3 & E3 & _ & _).
    { cbn [b_cur]. now rewrite app_nil_r. }
    unfold pl_hdr in E3. fold h in E3. rewrite E3. cbn [pmap fst rbind sbind].
    destruct (filter_packet rs _); easy.
  - cbn [sbind andb]. destruct (filter_packet rs _); easy.
Qed.

(** A packet denied by the block filter is denied whatever follows the blocks. *)
Lemma filtered_denied {S} (R : reader S) view okst (OK : okl R view okst) P rs bs tail flag s rest :
  proto_ok P -> Forall (block_ok (pr_blocks P)) bs ->
  let blocks := concat (map bk_encode bs) in
  blen blocks + blen tail < two63 -> filter_by_blocks rs bs = false ->
  okst s -> view s = layout_header (blen blocks + blen tail) (blen blocks) flag ++ blocks ++ tail ++ rest ->
  exists s', filtered R P rs s = (Ok (Denied (blen blocks + blen tail)), s') /\ view s' = rest /\ okst s'.
Proof.
  intros HP HB blocks HL HF O V.
  destruct (hdr_read_rt R view okst OK s _ _ _ _ O V) as (s1 & E1 & V1 & O1).
  { now apply two63_64. } { apply two63_64. lia. }
  unfold filtered. rewrite E1. cbn [sbind mkh h_size h_blocks_len h_payload].
  unfold alloc. replace (blen blocks + blen tail <? two63) with true by lia. cbn [sbind].
  destruct (OK (blen blocks + blen tail) s1 (blocks ++ tail) rest O1) as (s2 & E2 & V2 & O2).
  { now rewrite V1, <- app_assoc. } { now rewrite blen_app. }
  rewrite E2. cbn [sbind]. exists s2. split; [|auto].
  assert (EB : (if 0 <? blen blocks
      then blocks_loop_slice (length (blocks ++ tail) + 1) (pr_blocks P) (blocks ++ tail)
             (N.to_nat (N.min (blen blocks) (blen (blocks ++ tail) + 1))) 0 []
      else Ok []) = Ok bs).
  { destruct (0 <? blen blocks) eqn:EZ.
    - rewrite blen_app. replace (N.min (blen blocks) (blen blocks + blen tail + 1)) with (blen blocks) by lia.
      rewrite (loop_slice_rt _ (proj1 HP) bs _ _ _ _ _ tail); auto.
      + intros Q. unfold blocks in EZ. rewrite Q in EZ. easy.
      + assert (Q : (length bs <= length blocks)%nat).
        { unfold blocks. clear - HB. induction HB as [|b bs H F IH]; [easy|]. cbn [map concat length]. rewrite app_length.
          pose proof (bk_encode_pos _ _ H). lia. }
        rewrite app_length. lia.
      + fold blocks. unfold blen. lia.
    - pose proof (enc_blocks_zero _ _ HB EZ) as Q. now rewrite Q. }
  rewrite EB. cbn [sbind]. now rewrite HF.
Qed.
End Hostile2.
