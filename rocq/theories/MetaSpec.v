(** Specification vocabulary for metadata. *)
From Verif Require Import Py MetaModel.

(** The instructions that count. *)
Definition kept (insts : list dinst) : list dinst := filter (fun i => negb (d_ignore i)) insts.

(** Number of kept instructions with a property, number of occurrences of a storage. *)
Definition how_many (f : dinst -> bool) (insts : list dinst) : Z := Z.of_nat (length (filter f (kept insts))).
Definition occurrences (s : Z) (insts : list dinst) : Z :=
  Z.of_nat (count_occ Z.eq_dec (flat_map d_used (kept insts)) s).

(** The entry of a count dictionary: nothing for zero. *)
Definition entry_for (n : Z) : option Z := if n =? 0 then None else Some n.

(** The storage is written by instruction number [i] and read by number [j]; none
    between them writes or reads it. *)
Definition writes (insts : list dinst) (s : Z) (i : nat) : Prop := exists x, nth_error insts i = Some x /\ In s (d_written x).
Definition reads (insts : list dinst) (s : Z) (i : nat) : Prop := exists x, nth_error insts i = Some x /\ In s (d_read x).
Definition write_read (insts : list dinst) (s : Z) (i j : nat) : Prop :=
  (i < j)%nat /\ writes insts s i /\ reads insts s j /\
  forall k, (i < k < j)%nat -> ~ writes insts s k /\ ~ reads insts s k.
(** Number of instructions strictly between. *)
Definition distance (p : nat * nat) : Z := Z.of_nat (snd p) - Z.of_nat (fst p) - 1.

Definition sum_distance (l : list (nat * nat)) : Z := fold_right (fun p n => distance p + n) 0 l.
Definition least (m : Z) (l : list (nat * nat)) : Prop := (exists p, In p l /\ distance p = m) /\ forall p, In p l -> m <= distance p.
Definition greatest (m : Z) (l : list (nat * nat)) : Prop := (exists p, In p l /\ distance p = m) /\ forall p, In p l -> distance p <= m.
