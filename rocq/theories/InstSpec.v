(** Specification vocabulary for instruction queries. *)
From Verif Require Import Py InstModel.

(** ARM register number of a capstone register code: R0..R12 are 66..78, LR, PC
    and SP are 10, 11 and 12; other codes (status and coprocessor registers) have none. *)
Definition arm_number (code r : Z) : Prop :=
  (66 <= code <= 78 /\ r = code - 66) \/ (code = 10 /\ r = 14) \/ (code = 11 /\ r = 15) \/ (code = 12 /\ r = 13).
Definition arm_code (code : Z) : Prop := exists r, arm_number code r.

(** Register [r] appears in an operand, as a register operand... *)
Definition as_register (c : cap) (r : Z) : Prop :=
  exists code, In (OReg code) (c_operands c) /\ (arm_number code r \/ (~ arm_code code /\ r = 20 + code)).
(** ... or as base or index of a memory operand. *)
Definition in_memory (c : cap) (r : Z) : Prop :=
  exists b i, In (OMem b i) (c_operands c) /\ (arm_number b r \/ arm_number i r).

(** Register operands do have a code, as capstone guarantees. *)
Definition wf_cap (c : cap) : Prop := forall code, In (OReg code) (c_operands c) -> code <> 0.
(** Memory operands are made of ARM registers or nothing (code 0). *)
Definition known_memory (c : cap) : Prop :=
  forall b i, In (OMem b i) (c_operands c) -> (b = 0 \/ arm_code b) /\ (i = 0 \/ arm_code i).

Definition stack_op (c : cap) : Prop := c_kind c <> KOther.

(** Fields of an ARM encoding. *)
Definition field (e lo width : Z) : Z := (e / 2 ^ lo) mod 2 ^ width.
