(** Specification vocabulary for bit flips. *)
From Verif Require Import Py.

(** [x] agrees with [e] on every bit outside [B] (so [x] is [e] with some
    subset of the bits [B] flipped). *)
Definition same_outside (B : Z -> Prop) (e x : Z) : Prop :=
  forall i, 0 <= i -> ~ B i -> Z.testbit x i = Z.testbit e i.

(** Bits covered by a list of half-open ranges. *)
Definition covered (tuples : list (Z * Z)) (i : Z) : Prop :=
  exists t, In t tuples /\ fst t <= i < snd t.

(** Ranges accepted by the code. *)
Definition valid_range (t : Z * Z) : Prop := 0 <= fst t <= snd t /\ snd t < 32.

(** Ranges of the list do not overlap. *)
Definition disjoint_ranges (tuples : list (Z * Z)) : Prop :=
  ForallOrdPairs (fun a b => forall i, ~ (fst a <= i < snd a /\ fst b <= i < snd b)) tuples.

Definition total_width (tuples : list (Z * Z)) : Z := fold_right (fun t n => (snd t - fst t) + n) 0 tuples.

(** Number of bits in which two integers differ is at most n: some list of n
    positions covers all differences. *)
Definition differ_at_most (n : Z) (e x : Z) : Prop :=
  exists B, Z.of_nat (length B) <= n /\ same_outside (fun i => In i B) e x.

Definition zsum (l : list Z) : Z := fold_right Z.add 0 l.
