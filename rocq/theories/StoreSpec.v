(** Vocabulary for claims about a whole transmission: program, packets, losses. *)
From Verif Require Import Py InterleaveSpec PacketModel PacketSpec.

(** The program has one instruction per address, and in address order their
    encodings are the words [data]. *)
Definition program_of (prog : program) (data : list Z) : Prop :=
  length prog = length data /\
  forall i a, nth_address prog i a -> exists adr, dget prog a = Some [mkInst (nth (Z.to_nat i) data 0) adr].

(** Exactly the packets [lost] of the order did not arrive. *)
Definition lost_exactly {A} (rx : dict (option A)) (order lost : list Z) : Prop :=
  forall p, In p order -> (received rx p = false <-> In p lost).

(** [q] is in the order at place [i] for the first time. *)
Definition first_at (order : list Z) (q i : Z) : Prop :=
  0 <= i < Z.of_nat (length order) /\ nth (Z.to_nat i) order (-1) = q /\ forall j, 0 <= j < i -> nth (Z.to_nat j) order (-1) <> q.
