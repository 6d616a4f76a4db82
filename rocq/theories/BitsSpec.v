(** Specification vocabulary for bit fields; independent of the model's helpers. *)
From Verif Require Import Py.

(** The [w]-bit field of the number [e] that starts at bit [pos]. *)
Definition field (e pos w : Z) : Z := (e / 2 ^ pos) mod 2 ^ w.

(** What a field setter must do: it never raises, the field reads back as the
    low bits of the value, every other bit is the same, and a 32-bit word stays
    a 32-bit word. *)
Definition sets_field (setter : Z -> Z -> result Z) (pos w : Z) : Prop :=
  forall e v, exists e', setter e v = Ok e' /\
    field e' pos w = v mod 2 ^ w /\
    (forall i, 0 <= i -> ~ (pos <= i < pos + w) -> Z.testbit e' i = Z.testbit e i) /\
    (0 <= e < 2 ^ 32 -> 0 <= e' < 2 ^ 32).

(** Byte number [k] (0 = least significant) of [v]. *)
Definition byte (v k : Z) : Z := (v / 2 ^ (8 * k)) mod 256.

(** Two's complement reading of a 24-bit number. *)
Definition sext24 (x : Z) : Z := if x <? 2 ^ 23 then x else x - 2 ^ 24.
