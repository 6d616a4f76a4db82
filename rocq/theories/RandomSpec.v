(** Specification vocabulary for random corruption. *)
From Verif Require Import Py FlipSpec PacketModel.

(** Bits that the flags of corrupt_instruction allow to change: the condition,
    the registers, the opcode. *)
Definition requested (conditional registers opcode : bool) (i : Z) : Prop :=
  (conditional = true /\ 28 <= i <= 31) \/ (registers = true /\ 0 <= i <= 10) \/ (opcode = true /\ 20 <= i <= 27).

(** Ceiling of a * b / 100 over the rationals, at least 1. *)
Definition share (n percent : Z) : Z := Z.max 1 (- ((- (n * percent)) / 100)).

(** [after] are the candidates of an address that had the single candidate
    [before]: it stays first, there are others, encodings are pairwise different
    words with at most [maxa] changed bits, at the same address. *)
Definition corrupted_entry (maxa : Z) (before : inst) (after : list inst) : Prop :=
  exists new, after = before :: new /\ new <> [] /\ NoDup (map i_enc after) /\
    Forall (fun j => i_addr j = i_addr before /\ 0 <= i_enc j < 2 ^ 32 /\ differ_at_most maxa (i_enc before) (i_enc j)) new.

(** [prog'] is [prog] with exactly the addresses [changed] corrupted. *)
Definition corrupted_at (maxa : Z) (prog prog' : program) (changed : list Z) : Prop :=
  dkeys prog' = dkeys prog /\ NoDup changed /\
  (forall a, In a changed -> exists i l, dget prog a = Some [i] /\ dget prog' a = Some l /\ corrupted_entry maxa i l) /\
  (forall a, ~ In a changed -> dget prog' a = dget prog a).
