(** Specification vocabulary for the solution builders and the exact-sum constraint. *)
From Verif Require Import Py BuilderModel.

(** How often a field value occurs among the non-ignored instructions assigned to
    the variables, and how often it should. *)
Definition assigned_fields (field : xinst -> list Z) (vars : list Z) (asg : assignment) : list Z :=
  flat_map (fun v => match dget asg v with Some i => if x_ignore i then [] else field i | None => [] end) vars.
Definition number (field : xinst -> list Z) (vars : list Z) (asg : assignment) (k : Z) : Z :=
  Z.of_nat (count_occ Z.eq_dec (assigned_fields field vars asg) k).
Definition required (exact : dict Z) (k : Z) : Z := match dget exact k with Some e => e | None => 0 end.
Definition complete (vars : list Z) (asg : assignment) : Prop := forall v, In v vars -> dget asg v <> None.
Definition satisfies (exact : dict Z) (field : xinst -> list Z) (vars : list Z) (asg : assignment) : Prop :=
  complete vars asg /\ forall k, number field vars asg k = required exact k.
(** A completion keeps what is assigned and takes the rest from the domains. *)
Definition completes (vars : list Z) (doms : dict (list xinst)) (asg asg' : assignment) : Prop :=
  forall v, In v vars -> match dget asg v with
                         | Some i => dget asg' v = Some i
                         | None => exists dom i, dget doms v = Some dom /\ In i dom /\ dget asg' v = Some i
                         end.
(** Domains hold different objects, one domain for every unassigned variable. *)
Definition proper_domains (vars : list Z) (doms : dict (list xinst)) (asg : assignment) : Prop :=
  (forall v dom, dget doms v = Some dom -> NoDup (map x_id dom)) /\
  (forall v, In v vars -> dget asg v = None -> exists dom, dget doms v = Some dom).
(** The field values of an instruction that cannot take one more occurrence. *)
Definition exceeds (exact : dict Z) (field : xinst -> list Z) (vars : list Z) (asg : assignment) (k : Z) : bool :=
  negb (dmem exact k) || (required exact k <? number field vars asg k + 1).
Definition excess (exact : dict Z) (field : xinst -> list Z) (vars : list Z) (asg : assignment) (i : xinst) : list Z :=
  if x_ignore i then [] else filter (exceeds exact field vars asg) (field i).

(** What a candidate and the original have in common when they are printed alike. *)
Definition same_fields (c o : xinst) : Prop :=
  x_ignore c = x_ignore o /\ x_op c = x_op o /\ x_cond c = x_cond o /\ x_stores c = x_stores o.
(** The program has one candidate list for every address of the original program,
    candidates printed like the original agree with it, and registers_used is part
    of storages_used (which C31 gives for decoded instructions). *)
Definition candidates_for (program : xprogram) (original : list xinst) : Prop :=
  NoDup (map x_addr original) /\ NoDup (dkeys program) /\ (forall a, In a (dkeys program) <-> In a (map x_addr original)) /\
  (forall o pa c, In o original -> dget program (x_addr o) = Some pa -> In c pa -> x_text c = x_text o -> same_fields c o) /\
  (forall a pa c, dget program a = Some pa -> In c pa -> incl (x_regs c) (x_stores c)).
(** Every original that is not ignored is among the candidates. *)
Definition offers (program : xprogram) (original : list xinst) : Prop :=
  forall o, In o original -> x_ignore o = false -> exists pa c, dget program (x_addr o) = Some pa /\ In c pa /\ x_text c = x_text o.
