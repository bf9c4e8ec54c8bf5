(** * The bytes of blocks and payload headers are the documented ones. *)
From Coq Require Import ZifyBool ZifyNat ZifyN Decimal DecimalNat DecimalFacts DecimalString.
From Verif Require Import Base Crc32 Io Block Payload Packet Spec BaseProofs CrcProofs BlockProofs.
Ltac Zify.zify_post_hook ::= Z.div_mod_to_equations.
Open Scope list_scope.

(** ** Numbers *)
Lemma n2b_mod n : n2b (n mod 256) = n2b n.
Proof.
  apply b2n_inj. rewrite !b2n_n2b. apply N.mod_mod. lia.
Qed.

Lemma low_first_le k : forall n, low_first (N.of_nat k) n = le k n.
Proof.
  unfold low_first. rewrite Nat2N.id. induction k as [|k IH]; intros n; [reflexivity|].
  cbn [le seq map]. f_equal; [rewrite N.pow_0_r, N.div_1_r; apply n2b_mod|].
  rewrite <- IH, <- seq_shift, map_map. apply map_ext. intros i.
  rewrite Nat2N.inj_succ, N.pow_succ_r', N.div_div by (try apply N.pow_nonzero; lia). reflexivity.
Qed.

(** ** Decimal names *)
Fixpoint weight (u : uint) : nat :=
  match u with
  | Nil => 1
  | D0 u | D1 u | D2 u | D3 u | D4 u | D5 u | D6 u | D7 u | D8 u | D9 u => 10 * weight u
  end%nat.
Lemma of_acc u : forall a, Nat.of_uint_acc u a = (a * weight u + Nat.of_uint_acc u 0)%nat.
Proof.
  induction u; intros a; cbn [Nat.of_uint_acc weight]; [lia|..]; rewrite Nat.tail_mul_spec, IHu, (IHu (S _)) || rewrite Nat.tail_mul_spec, IHu;
    rewrite ?Nat.tail_mul_spec; rewrite ?(IHu (_ * _)%nat), ?(IHu (S _)); lia.
Qed.

(** A digit in front. *)
Definition put (d : N) (u : uint) : uint :=
  match d with 0 => D0 u | 1 => D1 u | 2 => D2 u | 3 => D3 u | 4 => D4 u | 5 => D5 u | 6 => D6 u | 7 => D7 u | 8 => D8 u | _ => D9 u end.
Lemma ten (P : N -> Prop) : P 0 -> P 1 -> P 2 -> P 3 -> P 4 -> P 5 -> P 6 -> P 7 -> P 8 -> P 9 -> forall d, d < 10 -> P d.
Proof.
  intros. assert (E : d = 0 \/ d = 1 \/ d = 2 \/ d = 3 \/ d = 4 \/ d = 5 \/ d = 6 \/ d = 7 \/ d = 8 \/ d = 9) by lia.
  repeat (destruct E as [E|E]; [now subst|]). now subst.
Qed.
Lemma put_string u d : d < 10 -> str (NilEmpty.string_of_uint (put d u)) = n2b (48 + d) :: str (NilEmpty.string_of_uint u).
Proof. revert d. apply ten; reflexivity. Qed.
Lemma put_value u d : d < 10 -> Nat.of_uint_acc (put d u) 0 = (N.to_nat d * weight u + Nat.of_uint_acc u 0)%nat.
Proof. revert d. apply ten; cbn [put Nat.of_uint_acc]; rewrite Nat.tail_mul_spec, of_acc; lia. Qed.
Lemma put_weight u d : d < 10 -> weight (put d u) = (10 * weight u)%nat.
Proof. revert d. apply ten; reflexivity. Qed.
Lemma put_norm u d : d < 10 -> d <> 0 -> unorm (put d u) = put d u.
Proof. revert d. apply (ten (fun d => d <> 0 -> unorm (put d u) = put d u)); try reflexivity. easy. Qed.

Fixpoint uint_go (fuel : nat) (n : N) (acc : uint) : uint :=
  match fuel with
  | O => acc
  | S f => let acc := put (n mod 10) acc in if n <? 10 then acc else uint_go f (n / 10) acc
  end.
Lemma digits_string f : forall n acc, str (NilEmpty.string_of_uint (uint_go f n acc)) = digits_go f n (str (NilEmpty.string_of_uint acc)).
Proof.
  induction f as [|f IH]; intros n acc; cbn [uint_go digits_go]; [reflexivity|].
  rewrite <- put_string by lia. destruct (n <? 10); [reflexivity|apply IH].
Qed.
Lemma uint_value f : forall n acc, n < N.of_nat f ->
  Nat.of_uint_acc (uint_go f n acc) 0 = (N.to_nat n * weight acc + Nat.of_uint_acc acc 0)%nat.
Proof.
  induction f as [|f IH]; intros n acc L; [lia|]. cbn [uint_go].
  destruct (n <? 10) eqn:E.
  - rewrite put_value by lia. rewrite N.mod_small by lia. lia.
  - rewrite IH by lia. rewrite put_weight, put_value by lia.
    rewrite (N.div_mod n 10) at 3 by lia. set (q := n / 10). set (r := n mod 10). clearbody q r. nia.
Qed.
Lemma uint_norm f : forall n acc, n < N.of_nat f -> 0 < n -> unorm (uint_go f n acc) = uint_go f n acc.
Proof.
  induction f as [|f IH]; intros n acc L P; [lia|]. cbn [uint_go].
  destruct (n <? 10) eqn:E; [apply put_norm; lia|apply IH; lia].
Qed.

Lemma dec_digits n : dec n = digits n.
Proof.
  unfold dec, digits. change (@nil byte) with (str (NilEmpty.string_of_uint Nil)). rewrite <- digits_string. f_equal. f_equal.
  set (u := uint_go (n + 1) (N.of_nat n) Nil).
  assert (V : Nat.of_uint u = n).
  { unfold Nat.of_uint, u. rewrite uint_value by lia. cbn [weight Nat.of_uint_acc]. lia. }
  assert (W : unorm u = u).
  { destruct n as [|n]; [reflexivity|]. apply uint_norm; lia. }
  rewrite <- V at 1. now rewrite Unsigned.to_of, W.
Qed.

Lemma ty_name_rust t : ty_name t = rust_type t.
Proof. destruct t as [[]|[]|[]| |n|l]; try reflexivity. cbn [ty_name rust_type]. now rewrite dec_digits. Qed.

Lemma join_semis l : forall x, join (str ";") (x :: l) = x ++ concat (map (fun y => str ";" ++ y) l).
Proof.
  induction l as [|y l IH]; intros x; [cbn; now rewrite app_nil_r|]. cbn [map concat]. rewrite <- app_assoc, <- IH. reflexivity.
Qed.

Lemma snapshot_text sc : snapshot sc = signature_text sc.
Proof.
  unfold snapshot, signature_text, all_fields. cbn [map]. rewrite join_semis. f_equal.
  cbn [fst snd]. rewrite (map_app _ (s_fields sc)), (map_app (fun y => str ";" ++ y)), concat_app, map_map. cbn [map concat].
  rewrite app_nil_r. cbn [fst snd]. change (ty_name (TBlob 4)) with (str "[u8;4]").
  change (str ";__sig:[u8;4]") with (str ";" ++ str "__sig" ++ str ":" ++ str "[u8;4]").
  change (str ";__crc:[u8;4]") with (str ";" ++ str "__crc" ++ str ":" ++ str "[u8;4]").
  rewrite <- !app_assoc. do 4 f_equal. f_equal. f_equal. apply map_ext. intros f. now rewrite ty_name_rust.
Qed.

(** ** Fields, blocks, payload headers *)
Lemma to_bytes_layout t v : fval_ok t v -> to_bytes t v = field_layout t v.
Proof.
  destruct t as [w|w|w| |n|l], v as [x|z|b|bs|e]; try easy; intros H; cbn [to_bytes field_layout].
  - rewrite <- low_first_le. f_equal. now destruct w.
  - rewrite <- low_first_le. assert (W : int_bits w / 8 = N.of_nat (iw_size w)) by now destruct w. rewrite W. f_equal. unfold z_to_n, pow256.
    cbn [fval_ok] in H. rewrite <- int_bits_size, N2Z.inj_pow. change (Z.of_N 2) with 2%Z.
    assert (E : (2 ^ Z.of_N (int_bits w) = 2 * 2 ^ (Z.of_N (int_bits w) - 1))%Z)
      by (rewrite <- Z.pow_succ_r by (destruct w; cbn [int_bits]; lia); f_equal; lia).
    rewrite E. set (h := (2 ^ (Z.of_N (int_bits w) - 1))%Z) in *. clearbody h. f_equal.
    destruct (z <? 0)%Z eqn:S; [|apply Z.mod_small; lia]. symmetry. apply (Z.mod_unique _ _ (-1)); lia.
  - rewrite <- low_first_le. f_equal. now destruct w.
Qed.

Lemma fields_layout ts : forall vs, Forall2 fval_ok ts vs ->
  fields_bytes ts vs = concat (map (fun tv => field_layout (fst tv) (snd tv)) (combine ts vs)).
Proof.
  induction ts as [|t ts IH]; intros vs F; inversion F; subst; [reflexivity|]. cbn [fields_bytes combine map concat fst snd].
  now rewrite to_bytes_layout, IH.
Qed.

Lemma block_bytes scs b : block_ok scs b -> bk_encode b = block_layout b.
Proof.
  intros (_ & _ & V). unfold bk_encode, blk_encode, block_layout, blk_crc, blk_sig. rewrite snapshot_text.
  unfold vals_ok, s_tys in *. now rewrite fields_layout.
Qed.

Lemma ph_bytes_layout h : ph_bytes h = payload_header_layout (ph_sig h) (ph_crc h) (ph_len h).
Proof. unfold ph_bytes, payload_header_layout. now rewrite <- (low_first_le 4). Qed.

(** ** The text of a signature determines the definition *)
Lemma split_at {A} (c : A) a : forall b x y, ~ In c a -> ~ In c b -> a ++ c :: x = b ++ c :: y -> a = b /\ x = y.
Proof.
  induction a as [|h a IH]; intros [|k b] x y NA NB E.
  - injection E as ->. auto.
  - injection E as -> _. now destruct NB; left.
  - injection E as <- _. now destruct NA; left.
  - injection E as <- E. destruct (IH b x y) as [-> ->]; auto; intros I; [apply NA|apply NB]; now right.
Qed.

Lemma digits_are f : forall n acc, Forall (fun b => 48 <= b2n b < 58) acc -> Forall (fun b => 48 <= b2n b < 58) (digits_go f n acc).
Proof.
  induction f as [|f IH]; intros n acc F; cbn [digits_go]; [exact F|].
  assert (G : Forall (fun b => 48 <= b2n b < 58) (n2b (48 + n mod 10) :: acc)) by (constructor; [rewrite b2n_n2b; lia|exact F]).
  destruct (n <? 10); auto.
Qed.

Lemma not_in_digits n c : 58 <= b2n c -> ~ In c (digits n).
Proof.
  intros L I. pose proof (digits_are (n + 1) (N.of_nat n) [] (Forall_nil _)) as F. rewrite Forall_forall in F. apply F in I. lia.
Qed.

Lemma ident_not n c : ident n -> In (b2n c) [58; 59; 91; 93] -> ~ In c n.
Proof. intros H I J. exact (H c J I). Qed.

Definition type_ok (t : fty) : Prop := match t with TLinked l => ident (l_name l) | _ => True end.
Lemma plain_type t : type_ok t -> (exists n, t = TBlob n) \/ ident (rust_type t).
Proof.
  intros H. destruct t as [w|w|w| |n|l]; [| | | |left; eauto|right; exact H]; right; intros b I;
    repeat match goal with w : iw |- _ => destruct w | w : fw |- _ => destruct w end;
    repeat (destruct I as [<-|I]; [vm_compute; intuition discriminate|]); easy.
Qed.

Lemma type_split t u x y : type_ok t -> type_ok u ->
  rust_type t ++ n2b 59 :: x = rust_type u ++ n2b 59 :: y -> rust_type t = rust_type u /\ x = y.
Proof.
  intros T1 U1 E.
  assert (B : forall n z, rust_type (TBlob n) ++ n2b 59 :: z = str "[u8" ++ n2b 59 :: (digits n ++ n2b 93 :: n2b 59 :: z)).
  { intros n z. cbn [rust_type]. change (str "[u8;") with (str "[u8" ++ [n2b 59]). change (str "]") with [n2b 93]. now rewrite <- !app_assoc. }
  assert (H3 : ~ In (n2b 59) (str "[u8")) by (intros I; repeat (destruct I as [I|I]; [discriminate I|]); easy).
  assert (H2 : In (n2b 91) (str "[u8")) by (left; reflexivity).
  assert (I59 : forall n, ident n -> ~ In (n2b 59) n) by (intros n H; apply (ident_not n _ H); vm_compute; auto).
  assert (I91 : forall n, ident n -> ~ In (n2b 91) n) by (intros n H; apply (ident_not n _ H); vm_compute; auto).
  destruct (plain_type t T1) as [(n & ->)|P]; destruct (plain_type u U1) as [(m & ->)|Q]; rewrite ?B in E.
  - apply split_at in E; auto. destruct E as [_ E]. apply split_at in E; [|apply not_in_digits; vm_compute; easy..].
    destruct E as [E1 E2]. injection E2 as ->. cbn [rust_type]. now rewrite E1.
  - apply split_at in E; auto. destruct E as [E _]. rewrite <- E in Q. now destruct (I91 _ Q).
  - apply split_at in E; auto. destruct E as [E _]. rewrite E in P. now destruct (I91 _ P).
  - apply split_at in E; auto.
Qed.

Definition field_text (f : bytes * fty) : bytes := str ";" ++ fst f ++ str ":" ++ rust_type (snd f).
Lemma field_split f g x y : ident (fst f) -> type_ok (snd f) -> ident (fst g) -> type_ok (snd g) ->
  field_text f ++ n2b 59 :: x = field_text g ++ n2b 59 :: y -> (fst f, rust_type (snd f)) = (fst g, rust_type (snd g)) /\ x = y.
Proof.
  intros I1 T1 I2 T2 E. unfold field_text in E. change (str ":") with [n2b 58] in E. rewrite <- !app_assoc in E. cbn [app] in E. injection E as E.
  apply split_at in E; [|apply ident_not; auto; vm_compute; auto..]. destruct E as [-> E].
  apply type_split in E; auto. destruct E as [-> ->]. auto.
Qed.

Lemma fields_split fs : forall gs,
  Forall (fun f => ident (fst f) /\ type_ok (snd f)) fs -> Forall (fun f => ident (fst f) /\ type_ok (snd f)) gs ->
  concat (map field_text fs) ++ str ";__crc:[u8;4]" = concat (map field_text gs) ++ str ";__crc:[u8;4]" ->
  map (fun f => (fst f, rust_type (snd f))) fs = map (fun f => (fst f, rust_type (snd f))) gs.
Proof.
  (* the end looks like a field as well; a [;] after it makes everything a sequence of fields *)
  set (fin := (str "__crc", TBlob 4)).
  assert (FI : ident (fst fin) /\ type_ok (snd fin)).
  { split; [|exact I]. intros b J. repeat (destruct J as [<-|J]; [vm_compute; intuition discriminate|]). easy. }
  change (str ";__crc:[u8;4]") with (field_text fin).
  assert (NE : forall (f : bytes * fty) z, field_text f ++ z <> []) by (intros f z; unfold field_text; discriminate).
  assert (HD : forall l, exists z, concat (map field_text l) ++ field_text fin = n2b 59 :: z).
  { intros [|f l]; [eexists; reflexivity|]. cbn [map concat]. unfold field_text at 1. eexists. rewrite <- !app_assoc. reflexivity. }
  induction fs as [|f fs IH]; intros [|g gs] F G E; cbn [map concat app] in *; [reflexivity|..].
  - exfalso. rewrite <- app_assoc in E. destruct (HD gs) as (z & Z). rewrite Z in E. inversion G as [|? ? [G1 G2] _]; subst.
    apply (f_equal (fun l => l ++ [n2b 59])) in E. rewrite <- app_assoc in E. cbn [app] in E.
    apply field_split in E; try easy. destruct E as [_ E]. destruct z; discriminate.
  - exfalso. rewrite <- app_assoc in E. destruct (HD fs) as (z & Z). rewrite Z in E. inversion F as [|? ? [G1 G2] _]; subst.
    apply (f_equal (fun l => l ++ [n2b 59])) in E. rewrite <- app_assoc in E. cbn [app] in E.
    apply field_split in E; try easy. destruct E as [_ E]. destruct z; discriminate.
  - rewrite <- !app_assoc in E. destruct (HD fs) as (z & Z), (HD gs) as (y & Y). rewrite Z, Y in E.
    inversion F as [|? ? [F1 F2] F3]; inversion G as [|? ? [G1 G2] G3]; subst.
    apply field_split in E; try easy. destruct E as [-> E]. f_equal. apply IH; auto. now rewrite Z, Y, E.
Qed.

Lemma text_determines a b : names_ok a -> names_ok b -> signature_text a = signature_text b ->
  s_name a = s_name b /\ map (fun f => (fst f, rust_type (snd f))) (s_fields a) = map (fun f => (fst f, rust_type (snd f))) (s_fields b).
Proof.
  intros [A1 A2] [B1 B2] E. unfold signature_text in E. change (str ";__sig:[u8;4]") with (n2b 59 :: str "__sig:[u8;4]") in E. cbn [app] in E.
  apply split_at in E; [|apply ident_not; auto; vm_compute; auto..]. destruct E as [-> E]. split; [reflexivity|].
  apply app_inv_head in E. now apply fields_split in E.
Qed.
