(** Vocabulary for the Huffman and frequency claims; independent of the model. *)
From Verif Require Export Py.

Definition prefix (c d : list bool) : Prop := exists e, d = c ++ e.
(** A code: for each symbol its code word. *)
Definition code_of := Z -> list bool.
(** No code word of one symbol starts the code word of another. *)
Definition prefix_free (symbols : list Z) (c : code_of) : Prop :=
  forall s t, In s symbols -> In t symbols -> prefix (c s) (c t) -> s = t.
(** The encoding of a message. *)
Definition message (c : code_of) (m : list Z) : list bool := flat_map c m.
(** Total length of a text in which symbol [s] occurs [w s] times. *)
Definition total_length (symbols : list Z) (w : Z -> Z) (c : code_of) : Z :=
  fold_right (fun s n => w s * Z.of_nat (length (c s)) + n) 0 symbols.
(** The sum of [2^-length] over the symbols is one: scaled by [2^m] for any [m] not
    below the lengths. *)
Definition kraft (symbols : list Z) (c : code_of) (m : Z) : Z :=
  fold_right (fun s n => 2 ^ (m - Z.of_nat (length (c s))) + n) 0 symbols.
Definition complete_code (symbols : list Z) (c : code_of) : Prop :=
  forall m, (forall s, In s symbols -> Z.of_nat (length (c s)) <= m) -> kraft symbols c m = 2 ^ m.

(** Every first occurrence, in order. *)
Fixpoint firsts (l : list Z) : list Z :=
  match l with [] => [] | p :: l' => p :: filter (fun q => negb (q =? p)) (firsts l') end.
(** Occurrences of [k] in a list. *)
Definition occurrences (k : Z) (l : list Z) : Z := Z.of_nat (count_occ Z.eq_dec l k).
