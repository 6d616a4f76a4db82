(** Specification vocabulary for the scoring rules. *)
From Verif Require Import Py InstModel MetaModel RecModel RecSpec RulesModel.

(** The defined candidates of an address; addresses with exactly one of them. *)
Definition live (l : list rcand) : list rcand := filter (fun c => negb (r_ignore c)) l.
Definition resolved (l : list rcand) : bool := Nat.eqb (length (live l)) 1.

(** Number of times a value occurs among candidates. *)
Definition times (values : rcand -> list Z) (v : Z) (l : list rcand) : Z := Z.of_nat (count_occ Z.eq_dec (flat_map values l) v).
(** ... among the candidates of resolved addresses and of the others. *)
Definition used_up (values : rcand -> list Z) (v : Z) (p : rprogram) : Z :=
  times values v (flat_map live (filter resolved (dvalues p))).
Definition still_open (values : rcand -> list Z) (v : Z) (p : rprogram) : Z :=
  times values v (flat_map live (filter (fun l => negb (resolved l)) (dvalues p))).

(** Chance of one open candidate with value [v] to be one of those the metadata
    still asks for. *)
Definition chance (values : rcand -> list Z) (counts : dict Z) (p : rprogram) (v : Z) : Q :=
  match dget counts v with
  | Some n => if still_open values v p =? 0 then 0%Q
              else (inject_Z (n - used_up values v p) / inject_Z (still_open values v p))%Q
  | None => 0%Q
  end.
Definition qsum (l : list Q) : Q := fold_right Qplus 0%Q l.
Definition mean_chance (values : rcand -> list Z) (counts : dict Z) (p : rprogram) (c : rcand) : Q :=
  (qsum (map (chance values counts p) (values c)) / inject_Z (Z.of_nat (length (values c))))%Q.

(** The three counting rules: what they count, where the metadata has it, what is
    added, how they are run (new rule object, [pass]). *)
Inductive crule := ByCond | ByInst | ByReg.
Definition values_of (r : crule) (c : rcand) : list Z :=
  match r with ByCond => [d_cond (r_inst c)] | ByInst => [d_op (r_inst c)] | ByReg => r_regs c end.
Definition counts_of (r : crule) (col : collector) : dict Z :=
  match r with ByCond => condition_count col | ByInst => instruction_count col | ByReg => storage_count col end.
Definition added (r : crule) (c : rcand) : Q :=
  match r with ByReg => if d_branch (r_inst c) then 1 # 1000000 else 0%Q | _ => 0%Q end.
Definition key (r : crule) (pass : Z) : Z := match r with ByCond => key_of RCond pass | ByInst => key_of RInst pass | ByReg => key_of RReg pass end.
Definition run_rule (r : crule) (pass : Z) (col : collector) : dict Q -> rprogram -> Z -> result (rprogram * dict Q * bool) :=
  match r with
  | ByCond => conditional_count pass col
  | ByInst => instruction_counting pass col
  | ByReg => register_count pass col
  end.

(** Every value of the defined candidate of a resolved address is in the
    metadata; that candidate is the first one of its address. *)
Definition known_values (r : crule) (col : collector) (p : rprogram) : Prop :=
  forall a l c v, In (a, l) p -> live l = [c] -> In v (values_of r c) -> dget (counts_of r col) v <> None.
Definition first_defined (p : rprogram) : Prop :=
  forall a l, In (a, l) p -> resolved l = true -> exists c l', l = c :: l' /\ r_ignore c = false.

(** Everything but one score is as before; that one is (equal to) [q]. *)
Definition got (k : Z) (q : Q) (c c' : rcand) : Prop :=
  r_inst c' = r_inst c /\ r_regs c' = r_regs c /\ r_flags c' = r_flags c /\
  (exists q', dget (r_scores c') k = Some q' /\ (q' == q)%Q) /\ (forall k', k' <> k -> dget (r_scores c') k' = dget (r_scores c) k').

(** The same scores, as numbers. *)
Definition same_number (x y : option Q) : Prop := match x, y with Some a, Some b => (a == b)%Q | None, None => True | _, _ => False end.
Definition same_cand (c c' : rcand) : Prop :=
  r_inst c' = r_inst c /\ r_regs c' = r_regs c /\ r_flags c' = r_flags c /\ forall k, same_number (dget (r_scores c) k) (dget (r_scores c') k).
Definition same_program (p p' : rprogram) : Prop :=
  Forall2 (fun kv kv' => fst kv = fst kv' /\ Forall2 same_cand (snd kv) (snd kv')) p p'.

(** The original program is among the candidates, one instruction per address.
    Apart from registers an instruction uses at most the storages 16 (memory) and
    18 (no register), and no register has these numbers. *)
Definition regs_and_storages (c : rcand) : Prop :=
  (exists more, d_used (r_inst c) = r_regs c ++ more /\ forall v, In v more -> v = 16 \/ v = 18) /\
  ~ In 16 (r_regs c) /\ ~ In 18 (r_regs c).
Definition original_among (orig : list rcand) (p : rprogram) : Prop :=
  NoDup (map (fun o => d_addr (r_inst o)) orig) /\ NoDup (dkeys p) /\
  (forall o, In o orig -> r_ignore o = false /\ exists l c, dget p (d_addr (r_inst o)) = Some l /\ In c l /\
     r_inst c = r_inst o /\ r_regs c = r_regs o) /\
  (forall a, In a (dkeys p) -> exists o, In o orig /\ d_addr (r_inst o) = a) /\
  (forall a l c, In (a, l) p -> In c l -> regs_and_storages c).

(** *** Control flow.  Number of defined candidates at an address with a property. *)
Definition defined_at (p : rprogram) (a : Z) : list rcand := match dget p a with Some l => live l | None => [] end.
Definition number_at (f : rcand -> bool) (p : rprogram) (a : Z) : Z := Z.of_nat (length (filter f (defined_at p a))).
Definition all_at (p : rprogram) (a : Z) : Z := Z.of_nat (length (defined_at p a)).
Definition has_cond (i : Z) (c : rcand) : bool := d_cond (r_inst c) =? i.
Definition neighbour (m : pmodel) (p : rprogram) (a i : Z) : Q :=
  if all_at p a =? 0 then 0%Q else (cond_both m * ((1 # 100000000000000) + inject_Z (number_at (has_cond i) p a)) / inject_Z (all_at p a))%Q.
Definition flag_loss (m : pmodel) (p : rprogram) (a i : Z) : Q :=
  if (i =? 14) && negb (all_at p a =? 0) then (cpsr_branch m * inject_Z (number_at r_flags p a) / inject_Z (all_at p a))%Q else 0%Q.
Definition jump_gain (m : pmodel) (p : rprogram) (i : dinst) : Q :=
  if d_branch i then match d_jump i with Some j => if dmem p j then any_jump m else 0%Q | None => 0%Q end else 0%Q.
Definition flow_score (m : pmodel) (p : rprogram) (a : Z) (c : rcand) : Q :=
  if r_ignore c then 0%Q
  else let i := d_cond (r_inst c) in
       ((1 # 100000000000000) + neighbour m p (a - 4) i + neighbour m p (a + 4) i - flag_loss m p (a - 4) i + jump_gain m p (r_inst c))%Q.
(** The condition fields that exist. *)
Definition conditions_ok (p : rprogram) : Prop := forall a l c, In (a, l) p -> In c l -> r_ignore c = false -> 0 <= d_cond (r_inst c) < 16.

(** *** Rule-driven recovery: what may change of a candidate. *)
Definition same_inst (i j : dinst) : Prop :=
  d_enc i = d_enc j /\ d_addr i = d_addr j /\ d_cond i = d_cond j /\ d_op i = d_op j /\ d_used i = d_used j /\ d_written i = d_written j /\
  d_read i = d_read j /\ d_rwritten i = d_rwritten j /\ d_rread i = d_rread j /\ d_branch i = d_branch j /\ d_kind i = d_kind j /\ d_jump i = d_jump j.
Definition same_object (c c' : rcand) : Prop :=
  same_inst (r_inst c) (r_inst c') /\ r_regs c = r_regs c' /\ r_flags c = r_flags c' /\ (r_ignore c = true -> r_ignore c' = true).
(** Nothing but scores changed. *)
Definition only_scores (c c' : rcand) : Prop := r_inst c' = r_inst c /\ r_regs c' = r_regs c /\ r_flags c' = r_flags c.
(** Same addresses in the same order, as many candidates in the same order, related
    by [R]; nothing at all happened where there was a single candidate. *)
Definition evolves (R : rcand -> rcand -> Prop) (p p' : rprogram) : Prop :=
  Forall2 (fun kv kv' => fst kv' = fst kv /\ Forall2 R (snd kv) (snd kv') /\ ((length (snd kv) <= 1)%nat -> snd kv' = snd kv)) p p'.
(** Every storage read by a defined candidate is one of the twenty known ones. *)
Definition storages_ok (p : rprogram) : Prop :=
  forall a l c r, In (a, l) p -> In c l -> r_ignore c = false -> In r (d_read (r_inst c)) -> 0 <= r < 20.
(** The same score under one key. *)
Definition agree (k : Z) (c c' : rcand) : Prop := same_number (dget (r_scores c) k) (dget (r_scores c') k).
