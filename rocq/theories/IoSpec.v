(** Specification vocabulary for solution files. *)
From Verif Require Import Py IoModel.

Definition fits32 (v : Z) : Prop := 0 <= v < 2 ^ 32.
(** [v = pre ++ o' ++ post] where o' is the first candidate with the encoding of
    the original at address [k]. *)
Definition splits (original : dict (list inst)) (k : Z) (v pre : list inst) (o' : inst) (post : list inst) : Prop :=
  exists o others, dget original k = Some (o :: others) /\ v = pre ++ o' :: post /\ encoding o' = encoding o /\
    forall c, In c pre -> encoding c <> encoding o.
(** An address that can be written: the original is there and what is written fits. *)
Definition writable (original : dict (list inst)) (kv : Z * list inst) : Prop :=
  exists pre o' post, splits original (fst kv) (snd kv) pre o' post /\ fits32 (fst kv) /\
    (forall c, In c (pre ++ [o']) -> fits32 (encoding c)) /\ Z.of_nat (length pre) + 1 < 2 ^ 32.
(** What the reader gives back for an address. *)
Definition entry_back (original : dict (list inst)) (kv : Z * list inst) (kv_orig kv_prog : Z * list inst) : Prop :=
  exists pre o' post, splits original (fst kv) (snd kv) pre o' post /\
    kv_prog = (fst kv, map (fun c => (encoding c, fst kv)) (pre ++ [o'])) /\ kv_orig = (fst kv, [(encoding o', fst kv)]).
Definition strict_prefix {A} (a b : list A) : Prop := exists t, t <> [] /\ b = a ++ t.
