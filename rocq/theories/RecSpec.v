(** Specification vocabulary for recovery. *)
From Verif Require Import Py InstModel MetaModel RecModel.

(** A number in [0, 1]; in (0, 1]. *)
Definition prob (q : Q) : Prop := (0 <= q /\ q <= 1)%Q.
Definition pos_prob (q : Q) : Prop := (0 < q /\ q <= 1)%Q.

(** All constants of the model are probabilities. *)
Definition valid_model (m : pmodel) : Prop :=
  pos_prob (low_probability m) /\ prob (high_probability m) /\ pos_prob (pop_end_equal m) /\ pos_prob (pop_end m) /\ pos_prob (pop_middle m) /\
  pos_prob (cpsr_near m) /\ pos_prob (cpsr_prev m) /\ pos_prob (cpsr_after m) /\ pos_prob (cpsr_branch m) /\
  pos_prob (cond_both m) /\ pos_prob (cond_prev m) /\ pos_prob (any_jump m) /\ (any_jump m * 2 <= 1)%Q /\
  pos_prob (this_method m) /\ pos_prob (other_method m).

(** The original program, one defined instruction per address, is among the candidates. *)
Definition candidate (p : cprogram) (a : Z) (c : cand) : Prop := exists cs, dget p a = Some cs /\ In c cs.
Definition has_original (orig : list dinst) (p : cprogram) : Prop :=
  NoDup (map d_addr orig) /\ NoDup (dkeys p) /\
  (forall o, In o orig -> d_ignore o = false /\ NoDup (d_used o) /\ exists c, candidate p (d_addr o) c /\ c_inst c = o) /\
  (forall a, In a (dkeys p) -> exists o, In o orig /\ d_addr o = a).

(** Scores left by earlier passes (none, the first time): parts in [0, 1], those not
    counted from the metadata positive, branches and push/pops have no register
    part, and nothing at all for ignored candidates. *)
Definition well_scored (c : cand) : Prop :=
  (d_ignore (c_inst c) = true -> c_scores c = [] /\ c_fn c = AddScore) /\
  (forall k q, In (k, q) (c_scores c) -> prob q /\ In k [Kpc; Kpo; Kpr; Kprd; Kpcfg; Kpbd; Kpopu] /\
     (k = Kpc \/ k = Kpo \/ (k = Kpr /\ d_branch (c_inst c) = false /\ pushpop (c_inst c) = false) \/ (k <> Kpr /\ (0 < q)%Q))) /\
  NoDup (dkeys (c_scores c)).
Definition all_scored (p : cprogram) : Prop := forall a c, candidate p a c -> well_scored c.

(** Among the originals some have property [f]; all addresses where some
    candidate has property [f] have an original that has it. *)
Definition number_with (f : dinst -> bool) (orig : list dinst) : nat := length (filter f orig).
Definition possible (orig : list dinst) (f : dinst -> bool) : Prop := exists o, In o orig /\ f o = true.
Definition certain (orig : list dinst) (p : cprogram) (f : dinst -> bool) : Prop :=
  forall a c, candidate p a c -> d_ignore (c_inst c) = false -> f (c_inst c) = true ->
  forall o, In o orig -> d_addr o = a -> f o = true.
Definition same_cond (i : dinst) : dinst -> bool := fun j => d_cond j =? d_cond i.
Definition same_op (i : dinst) : dinst -> bool := fun j => d_op j =? d_op i.
Definition uses (s : Z) : dinst -> bool := fun j => if in_dec Z.eq_dec s (d_used j) then true else false.

(** Every condition, opcode and register of an instruction occurs in the original
    program (branches, pushes and pops: registers left out); its condition, its
    opcode or all its registers occur only at addresses where the original has
    them too; a push or pop that is no branch. *)
Definition used_certain (orig : list dinst) (p : cprogram) (i : dinst) : Prop := forall r, In r (d_used i) -> certain orig p (uses r).
Definition all_seen (orig : list dinst) (i : dinst) : Prop := possible orig (same_cond i) /\ possible orig (same_op i) /\
  (d_branch i = false -> pushpop i = false -> forall r, In r (d_used i) -> possible orig (uses r)).
Definition settled (orig : list dinst) (p : cprogram) (i : dinst) : Prop := certain orig p (same_cond i) \/ certain orig p (same_op i) \/
  (d_branch i = false /\ pushpop i = false /\ used_certain orig p i).
Definition stack_only (i : dinst) : Prop := d_branch i = false /\ pushpop i = true.

(** Sub-lists in order. *)
Inductive subseq {A} : list A -> list A -> Prop :=
| sub_nil : subseq [] []
| sub_keep a l1 l2 : subseq l1 l2 -> subseq (a :: l1) (a :: l2)
| sub_drop a l1 l2 : subseq l1 l2 -> subseq l1 (a :: l2).

(** The function an address belongs to: the last function start at or before it
    among the addresses, or the lowest address. *)
Definition current_function (fns : functions) (addrs : list Z) (a fn : Z) : Prop :=
  (In fn addrs /\ dmem fns fn = true /\ fn <= a /\ forall x, In x addrs -> dmem fns x = true -> x <= a -> x <= fn) \/
  ((forall x, In x addrs -> dmem fns x = true -> a < x) /\ In fn addrs /\ forall x, In x addrs -> fn <= x).
