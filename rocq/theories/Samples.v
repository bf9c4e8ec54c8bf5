(** * Concrete protocol and packets used by the examples beside the theorems. *)
From Coq Require Import ZifyBool ZifyNat ZifyN.
From Verif Require Import Base Crc32 Io Block Payload Packet Rules Spec BaseProofs PayloadEnumProofs.
Ltac Zify.zify_post_hook ::= Z.div_mod_to_equations.
Open Scope list_scope.

(** A linked enum with three variants on the wire as 1, 2, 3. *)
Definition colour : linked :=
  mk_linked (str "Colour") (fun v => n2b (v + 1))
    (fun b => if (1 <=? b2n b) && (b2n b <=? 3) then Some (b2n b - 1) else None).

Definition sc_a : schema :=
  mk_schema (str "crate::a") (str "BlockA") [(str "id", TU W32); (str "on", TBool); (str "temp", TI W16)] false.
Definition sc_b : schema :=
  mk_schema (str "crate::b") (str "BlockB") [(str "raw", TBlob 3); (str "kind", TLinked colour); (str "value", TF F64)] false.
(** A block with no fields at all: 8 bytes on the wire. *)
Definition sc_e : schema := mk_schema (str "crate") (str "Mark") [] false.

Lemma colour_ok : linked_ok colour.
Proof.
  intros b v. cbn [l_of l_to colour]. destruct ((1 <=? b2n b) && (b2n b <=? 3)) eqn:E; [|easy].
  intros H. inversion H; subst. rewrite b2n_n2b. replace ((b2n b - 1 + 1) mod 256) with (b2n b) by lia. now rewrite E.
Qed.

Lemma name_neq (a b : bytes) : bytes_eqb a b = false -> a <> b.
Proof. intros H E. subst. now rewrite bytes_eqb_refl in H. Qed.

Lemma sc_a_ok : schema_ok sc_a.
Proof. repeat (constructor; [split; [apply name_neq; reflexivity|exact I]|]). constructor. Qed.
Lemma sc_b_ok : schema_ok sc_b.
Proof.
  constructor; [split; [apply name_neq; reflexivity|exact I]|].
  constructor; [split; [apply name_neq; reflexivity|exact colour_ok]|].
  constructor; [split; [apply name_neq; reflexivity|exact I]|]. constructor.
Qed.
Lemma sc_e_ok : schema_ok sc_e.
Proof. constructor. Qed.

(** A user payload: a number below 2^32, encoded as four bytes. *)
Definition k_num : pkind N :=
  mk_pkind N (crc32_le (str "Num")) (fun _ => IOk 4)
    (fun v => if v <? two32 then IOk (le 4 v) else IErr OtherIo)
    (default_crc (fun v => if v <? two32 then IOk (le 4 v) else IErr OtherIo))
    (fun b => if blen b =? 4 then IOk (unle b) else IErr OtherIo).

(** A user payload with an eight byte checksum (the other documented lengths work in
    the same way). *)
Definition k_wide : pkind N :=
  mk_pkind N (crc32_le (str "Wide")) (fun _ => IOk 4)
    (fun v => IOk (le 4 v))
    (fun v => IOk (le 8 (v * 2654435761)))
    (fun b => if blen b =? 4 then IOk (unle b) else IErr OtherIo).

Definition P0 : proto N := mk_proto [sc_a; sc_b; sc_e] [k_num].

Definition b_a : block := mk_block sc_a [VN 305419896; VBool true; VZ (-2)].
Definition b_b : block := mk_block sc_b [VBlob (map n2b [1; 0; 255]); VEnum 2; VN 4614253070214989087].
Definition b_e : block := mk_block sc_e [].

Definition p_num : packet N := mk_packet [b_a; b_b; b_e; b_a] (Some (PUser k_num 77)).
Definition p_raw : packet N := mk_packet [b_b] (Some (PBytes (map n2b [10; 20; 30; 40; 50; 60]))).
Definition p_txt : packet N := mk_packet [b_e; b_a] (Some (PString (map n2b [104; 195; 169]))).
Definition p_bare : packet N := mk_packet [b_a; b_b] None.
Definition p_void : packet N := mk_packet [] None.

(** Wire bytes, by running the writer. *)
Definition wire (p : packet N) : bytes := k_got (snd (pkt_write_all p (mk_sink [] []))).

(** What an observer sees of a packet: type names and bytes of its blocks, signature and
    bytes of its payload.  The examples compare these, because a packet of the model
    also carries the user's functions. *)
Definition obs_block (b : block) : bytes * bytes := (s_name (bk_ty b), bk_encode b).
Definition obs_payload (pl : payload N) : bytes * bytes := (pl_sig pl, k_got (snd (pl_write_all pl (mk_sink [] [])))).
Definition obs (p : packet N) : list (bytes * bytes) * option (bytes * bytes) :=
  (map obs_block (p_blocks p), option_map obs_payload (p_payload p)).
Definition smap {A B} (f : A -> B) (s : status A) : status B :=
  match s with Success a => Success (f a) | NotEnough n => NotEnough n end.
Definition on_fst {A B S} (f : A -> B) (x : A * S) : B * S := (f (fst x), snd x).

Lemma nodup_bytes (l : list bytes) :
  (fix go l := match l with [] => true | x :: r => negb (existsb (bytes_eqb x) r) && go r end) l = true -> NoDup l.
Proof.
  induction l as [|x l IH]; intros H; [constructor|].
  apply andb_prop in H as [H1 H2]. constructor; [|auto]. intros Q. apply negb_true_iff in H1.
  assert (T : existsb (bytes_eqb x) l = true) by (apply existsb_exists; exists x; split; [easy|apply bytes_eqb_refl]). congruence.
Qed.

Lemma P0_ok : proto_ok P0.
Proof. split; apply nodup_bytes; vm_compute; reflexivity. Qed.

Lemma b_a_ok : block_ok (pr_blocks P0) b_a.
Proof.
  split; [now left|split; [exact sc_a_ok|]].
  repeat constructor; vm_compute; easy.
Qed.
Lemma b_b_ok : block_ok (pr_blocks P0) b_b.
Proof.
  split; [right; now left|split; [exact sc_b_ok|]].
  repeat constructor; vm_compute; easy.
Qed.
Lemma b_e_ok : block_ok (pr_blocks P0) b_e.
Proof. split; [right; right; now left|split; [exact sc_e_ok|]]. constructor. Qed.

Lemma num_encodes v : v < two32 -> encodes k_num v (le 4 v) (crc32_le (le 4 v)).
Proof.
  intros H. unfold encodes, k_num, default_crc. cbn [pk_body pk_size pk_decode pk_crc pk_sig].
  replace (v <? two32) with true by lia. rewrite unle_le by exact H.
  repeat split; try (now left). { unfold blen. now rewrite le_length. }
Qed.

Lemma p_num_enc : packet_enc P0 p_num (wire p_num).
Proof.
  exists (ph_bytes (mk_pheader (pk_sig k_num) (crc32_le (le 4 77)) 4) ++ le 4 77).
  split; [repeat (constructor; [first [exact b_a_ok | exact b_b_ok | exact b_e_ok]|]); constructor|].
  split; [|split; [vm_compute; reflexivity|vm_compute; reflexivity]].
  exists (le 4 77), (crc32_le (le 4 77)). split; [|split; reflexivity].
  split; [now left|]. apply num_encodes. reflexivity.
Qed.

Lemma p_raw_enc : packet_enc P0 p_raw (wire p_raw).
Proof.
  set (body := map n2b [10; 20; 30; 40; 50; 60]).
  exists (ph_bytes (mk_pheader (pk_sig bytes_kind) (crc32_le body) 6) ++ body).
  split; [repeat (constructor; [first [exact b_a_ok | exact b_b_ok | exact b_e_ok]|]); constructor|].
  split; [|split; [vm_compute; reflexivity|vm_compute; reflexivity]].
  exists body, (crc32_le body). split; [|split; reflexivity].
  split; [reflexivity|]. apply encodes_bytes. vm_compute. easy.
Qed.

Lemma p_txt_enc : packet_enc P0 p_txt (wire p_txt).
Proof.
  set (body := map n2b [104; 195; 169]).
  exists (ph_bytes (mk_pheader (pk_sig string_kind) (crc32_le body) 3) ++ body).
  split; [repeat (constructor; [first [exact b_a_ok | exact b_b_ok | exact b_e_ok]|]); constructor|].
  split; [|split; [vm_compute; reflexivity|vm_compute; reflexivity]].
  exists body, (crc32_le body). split; [|split; reflexivity].
  assert (U8 : utf8 body).
  { exists [104; 233]. split; [|reflexivity]. constructor; [now left|constructor; [now left|constructor]]. }
  split; [reflexivity|split; [exact U8|]]. apply encodes_string; [exact U8|]. vm_compute. easy.
Qed.

Lemma p_bare_enc : packet_enc P0 p_bare (wire p_bare).
Proof.
  exists []. split; [repeat (constructor; [first [exact b_a_ok | exact b_b_ok | exact b_e_ok]|]); constructor|].
  split; [reflexivity|split; vm_compute; reflexivity].
Qed.

Lemma p_void_enc : packet_enc P0 p_void (wire p_void).
Proof. exists []. split; [constructor|]. split; [reflexivity|split; vm_compute; reflexivity]. Qed.

(** Packets of the same size. *)
Definition p_one : packet N := mk_packet [] (Some (PUser k_num 1)).
Definition p_two : packet N := mk_packet [] (Some (PUser k_num 2)).
Definition p_three : packet N := mk_packet [] (Some (PUser k_num 3)).
Local Ltac num_enc v :=
  exists (ph_bytes (mk_pheader (pk_sig k_num) (crc32_le (le 4 v)) 4) ++ le 4 v);
  split; [constructor|]; split; [|split; [vm_compute; reflexivity|vm_compute; reflexivity]];
  exists (le 4 v), (crc32_le (le 4 v)); split; [|split; reflexivity];
  split; [now left|]; apply num_encodes; reflexivity.
Lemma p_one_enc : packet_enc P0 p_one (wire p_one).
Proof. num_enc 1. Qed.
Lemma p_two_enc : packet_enc P0 p_two (wire p_two).
Proof. num_enc 2. Qed.
Lemma p_three_enc : packet_enc P0 p_three (wire p_three).
Proof. num_enc 3. Qed.
