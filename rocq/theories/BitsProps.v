(** Property theorems C01-C06.  Statements, proofs by reference, assumptions. *)
From Verif Require Import BitsModel BitsSpec BitsProofs.

(** C01: Bits.set covers exactly the requested range; exact error condition. *)
Theorem C01_bits_set : forall hi lo,
  (0 <= lo <= hi /\ hi < 32 ->
   exists m, bits_set hi lo = Ok m /\
             forall i, 0 <= i -> Z.testbit m i = true <-> lo <= i <= hi) /\
  (~ (0 <= lo <= hi /\ hi < 32) -> bits_set hi lo = Err RuntimeError).
Proof. exact bits_set_spec. Qed.
Print Assumptions C01_bits_set.
Example C01_example : bits_set 31 29 = Ok 0xE0000000 /\ bits_set 5 5 = Ok 32 /\
  bits_set 32 0 = Err RuntimeError /\ bits_set 3 4 = Err RuntimeError.
Proof. repeat split. Qed.

(** C02: Bits.copy_bits copies one field and touches nothing else. *)
Theorem C02_copy_bits : forall src dst f t d,
  (0 <= f <= t /\ t < 32 -> 0 <= d /\ d + (t - f) < 32 ->
   exists r, copy_bits src dst f t d = Ok r /\
     forall i, 0 <= i ->
       (d <= i <= d + (t - f) -> Z.testbit r i = Z.testbit src (f + (i - d))) /\
       (~ (d <= i <= d + (t - f)) -> Z.testbit r i = Z.testbit dst i)) /\
  (~ ((0 <= f <= t /\ t < 32) /\ (0 <= d /\ d + (t - f) < 32)) ->
   copy_bits src dst f t d = Err RuntimeError).
Proof. exact copy_bits_spec. Qed.
Print Assumptions C02_copy_bits.
Example C02_example : copy_bits 0xAB 0x1234FFFF 4 7 16 = Ok 0x123AFFFF /\
  copy_bits 0xAB00 0x1234FFFF 8 15 0 = Ok 0x1234FFAB /\
  copy_bits 0xAB 0 0 7 25 = Err RuntimeError.
Proof. repeat split. Qed.

(** C03: bit tests. *)
Theorem C03_is_on : forall v b,
  (0 <= b -> exists r, is_on v b = Ok r /\ (r = true <-> Z.testbit v b = true)) /\
  (b < 0 -> is_on v b = Err TypeError).
Proof. exact is_on_spec. Qed.
Print Assumptions C03_is_on.

Theorem C03_are_on : forall v hi lo,
  (0 <= lo <= hi /\ hi < 32 ->
   exists r, are_on v hi lo = Ok r /\
     (r = true <-> exists i, lo <= i <= hi /\ Z.testbit v i = true)) /\
  (~ (0 <= lo <= hi /\ hi < 32) -> are_on v hi lo = Err RuntimeError).
Proof. exact are_on_spec. Qed.
Print Assumptions C03_are_on.

Theorem C03_on : forall b i, 0 <= b -> 0 <= i -> (Z.testbit (bits_on b) i = true <-> i = b).
Proof. exact bits_on_spec. Qed.
Print Assumptions C03_on.
Example C03_example : is_on 6 1 = Ok true /\ is_on 6 0 = Ok false /\ are_on 6 0 0 = Ok false /\
  are_on 6 5 2 = Ok true /\ bits_on 4 = 16.
Proof. repeat split. Qed.

(** C04: field setters. *)
Theorem C04_setters :
  sets_field modify_cond 28 4 /\ sets_field modify_opcode 21 4 /\ sets_field modify_rn 16 4 /\
  sets_field modify_rd 12 4 /\ sets_field modify_rs 8 4 /\ sets_field modify_rm 0 4.
Proof. exact (conj modify_cond_field (conj modify_opcode_field (conj modify_rn_field
  (conj modify_rd_field (conj modify_rs_field modify_rm_field))))). Qed.
Print Assumptions C04_setters.

(** The immediate is 12 bits wide for load/store encodings (bits 25-27 = 2), else 8. *)
Theorem C04_immediate : forall e v,
  exists e', modify_immediate e v = Ok e' /\
    let w := if field e 25 3 =? 2 then 12 else 8 in
    field e' 0 w = v mod 2 ^ w /\
    (forall i, 0 <= i -> ~ (0 <= i < w) -> Z.testbit e' i = Z.testbit e i) /\
    (0 <= e < 2 ^ 32 -> 0 <= e' < 2 ^ 32).
Proof. exact modify_immediate_field. Qed.
Print Assumptions C04_immediate.

(** Any two setters of disjoint 4-bit fields commute. *)
Theorem C04_commute : forall s1 s2 p1 p2,
  sets_field s1 p1 4 -> sets_field s2 p2 4 -> 0 <= p1 -> 0 <= p2 ->
  p1 + 4 <= p2 \/ p2 + 4 <= p1 ->
  forall e v1 v2, (let* e1 := s1 e v1 in s2 e1 v2) = (let* e2 := s2 e v2 in s1 e2 v1).
Proof. exact setters_commute. Qed.
Print Assumptions C04_commute.

(** The register getters of ARMInstruction read back what the setters wrote. *)
Theorem C04_read_back : forall e v, 0 <= v < 16 ->
  (let* e' := modify_rn e v in rn_field e') = Ok v /\
  (let* e' := modify_rd e v in rd_field e') = Ok v /\
  (let* e' := modify_rs e v in rs_field e') = Ok v /\
  (let* e' := modify_rm e v in rm_field e') = Ok v.
Proof. exact read_back_registers. Qed.
Print Assumptions C04_read_back.
Example C04_example : modify_cond 0xE1A02003 0 = Ok 0x01A02003 /\ modify_rd 0xE1A02003 7 = Ok 0xE1A07003 /\
  modify_immediate 0xE5910000 0xABC = Ok 0xE5910ABC /\ modify_immediate 0xE3A01000 0xABC = Ok 0xE3A010BC /\
  field 0xE5910000 25 3 = 2.
Proof. repeat split. Qed.

(** C05: byte reversal. *)
Theorem C05_reverse_int : forall v,
  (0 <= v < 2 ^ 32 ->
   exists r, reverse_endianess_int v = Ok r /\ 0 <= r < 2 ^ 32 /\
     forall k, 0 <= k <= 3 -> byte r k = byte v (3 - k)) /\
  (~ (0 <= v < 2 ^ 32) -> reverse_endianess_int v = Err StructError).
Proof. exact reverse_int_spec. Qed.
Print Assumptions C05_reverse_int.

Theorem C05_involutive : forall v, 0 <= v < 2 ^ 32 ->
  (let* r := reverse_endianess_int v in reverse_endianess_int r) = Ok v.
Proof. exact reverse_int_involutive. Qed.
Print Assumptions C05_involutive.

(** On text: eight hex digits with any white space between them. *)
Definition white (c : Z) : bool := existsb (Z.eqb c) [9; 10; 11; 12; 13; 28; 29; 30; 31; 32; 133; 160].
Definition hex_value (c d : Z) : Prop := (48 <= c <= 57 /\ d = c - 48) \/ (97 <= c <= 102 /\ d = c - 87) \/ (65 <= c <= 70 /\ d = c - 55).
Lemma white_space c : white c = is_space c.
Proof. unfold white, is_space. cbn [existsb]. apply eq_true_iff_eq. rewrite !orb_true_iff, !andb_true_iff, !Z.eqb_eq, !Z.leb_le. intuition (try discriminate; lia). Qed.
Lemma hex_value_digit c d : hex_value c d -> hex_digit c = Some d.
Proof. unfold hex_value, hex_digit. intros [(H & ->)|[(H & ->)|(H & ->)]].
  - replace ((48 <=? c) && (c <=? 57)) with true by lia. reflexivity.
  - replace ((48 <=? c) && (c <=? 57)) with false by lia. replace ((97 <=? c) && (c <=? 102)) with true by lia. reflexivity.
  - replace ((48 <=? c) && (c <=? 57)) with false by lia. replace ((97 <=? c) && (c <=? 102)) with false by lia. replace ((65 <=? c) && (c <=? 70)) with true by lia. reflexivity. Qed.
Lemma parse_values cs ds : Forall2 hex_value cs ds -> forall acc, parse_hex_from acc cs = Ok (fold_left (fun a d => 16 * a + d) ds acc).
Proof. induction 1 as [|c d cs ds H F IH]; intros acc; [reflexivity|]. cbn [parse_hex_from fold_left]. rewrite (hex_value_digit _ _ H). apply IH. Qed.
Theorem C05_reverse_str : forall s c0 c1 c2 c3 c4 c5 c6 c7 ds, let v := fold_left (fun a d => 16 * a + d) ds 0 in
  filter (fun c => negb (white c)) s = [c0; c1; c2; c3; c4; c5; c6; c7] -> Forall2 hex_value [c0; c1; c2; c3; c4; c5; c6; c7] ds ->
  parse_hex s = Ok v /\ 0 <= v < 2 ^ 32 /\
  reverse_endianess_str s = [c6; c7; c4; c5; c2; c3; c0; c1] /\
  parse_hex (reverse_endianess_str s) = reverse_endianess_int v.
Proof. intros s c0 c1 c2 c3 c4 c5 c6 c7 ds v E F. assert (S : strip_spaces s = [c0; c1; c2; c3; c4; c5; c6; c7]) by (rewrite <- E; unfold strip_spaces; apply filter_ext; intros c; rewrite white_space; reflexivity).
  assert (P : parse_hex s = Ok v) by (unfold parse_hex; rewrite S; apply (parse_values _ _ F)). destruct (reverse_str_spec s v) as (_ & R & B); [rewrite S; reflexivity|exact P|].
  split; [exact P|]. split; [exact B|]. split; [unfold reverse_endianess_str; rewrite S; reflexivity|]. rewrite <- R. destruct (reverse_endianess_int v); reflexivity. Qed.
Print Assumptions C05_reverse_str.
(* "0a 2B3c 4d" *)
Example C05_example :
  let s := [48; 97; 32; 50; 66; 51; 99; 32; 52; 100] in
  length (strip_spaces s) = 8%nat /\ parse_hex s = Ok 0x0a2b3c4d /\
  parse_hex (reverse_endianess_str s) = Ok 0x4d3c2b0a /\
  reverse_endianess_int 0x0a2b3c4d = Ok 0x4d3c2b0a.
Proof. repeat split. Qed.

(** C06: branch targets. *)
Theorem C06_jumping_address : forall e a,
  exists t, t = (a + 8 + 4 * sext24 (e mod 2 ^ 24)) mod 2 ^ 32 /\
    jumping_address true e a None = Ok (Some t, Some t) /\
    darm_jumping_address e a None = Ok (Some t, Some t) /\
    (forall cache, jumping_address false e a cache = Ok (None, cache)).
Proof. exact jumping_address_spec. Qed.
Print Assumptions C06_jumping_address.

Theorem C06_stable : forall b e a r c,
  jumping_address b e a None = Ok (r, c) -> jumping_address b e a c = Ok (r, c).
Proof. exact jumping_address_stable. Qed.
Print Assumptions C06_stable.
Example C06_example : computed_jump 0xEAFFFFFE 0x8000 = Ok 0x8000 /\ computed_jump 0xEB000001 0x8000 = Ok 0x800C.
Proof. repeat split. Qed.
