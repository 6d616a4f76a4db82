(** What passes of the recovery leave, as a sieve over instructions. *)
From Verif Require Import Py InstModel MetaModel RecModel RecSpec.

(** The list without the members that lack property [P]. *)
Inductive sifted {A} (P : A -> Prop) : list A -> list A -> Prop :=
| sift_nil : sifted P [] []
| sift_in a l l' : P a -> sifted P l l' -> sifted P (a :: l) (a :: l')
| sift_out a l l' : ~ P a -> sifted P l l' -> sifted P (a :: l) l'.

(** Without doubt: nothing in it is unknown to the original program, and its
    condition, opcode or registers are not found where the original has others. *)
Definition sure (orig : list dinst) (p : cprogram) (i : dinst) : Prop := d_ignore i = false /\ all_seen orig i /\ settled orig p i.
Definition sure_at (orig : list dinst) (p : cprogram) (a : Z) : Prop := exists c, candidate p a c /\ sure orig p (c_inst c).

(** At an address with a candidate that is without doubt only such candidates
    stay; at another, all that have nothing unknown, but pushes and pops that are
    no branches. *)
Definition survives (orig : list dinst) (p : cprogram) (a : Z) (i : dinst) : Prop :=
  (sure_at orig p a /\ sure orig p i) \/ (~ sure_at orig p a /\ d_ignore i = false /\ all_seen orig i /\ ~ stack_only i).

(** One program is what is left of the other; after a number of rounds. *)
Definition sieve (orig : list dinst) (p p' : cprogram) : Prop :=
  dkeys p' = dkeys p /\
  forall a cs, dget p a = Some cs -> exists cs', dget p' a = Some cs' /\ sifted (survives orig p a) (map c_inst cs) (map c_inst cs').
Inductive sieves (orig : list dinst) : nat -> cprogram -> cprogram -> Prop :=
| sieves_one p p' : sieve orig p p' -> sieves orig 1 p p'
| sieves_more n p p1 p' : sieve orig p p1 -> sieves orig n p1 p' -> sieves orig (S n) p p'.

(** Same instructions, in the same order, at the same addresses. *)
Definition same_insts (p p' : cprogram) : Prop := map (fun kv => (fst kv, map c_inst (snd kv))) p' = map (fun kv => (fst kv, map c_inst (snd kv))) p.
