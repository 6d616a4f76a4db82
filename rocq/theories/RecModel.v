(** Model of semantic_codec/metadata/recuperator.py (ProbabilisticRecuperator),
    probabilistic_model.py, Instruction.score and the recovery loop of
    recover_program.py.

    Simplification used throughout: Python floats are exact rationals.  Every
    quotient divides two counts and every other number is a constant of the
    model below, so the comparisons with 0 and 1 made by the code have the same
    outcome as long as counts stay below 2^53. *)
From Verif Require Export MetaModel.
From Coq Require Export QArith.
From Coq Require Import Qminmax.
Open Scope Z_scope.

(** probabilistic_model.py:1-54, the attributes that are read. *)
Record pmodel := mkModel {
  low_probability : Q; high_probability : Q;
  pop_end_equal : Q;          (* push_given_pop_at_fn_end_equal_registers *)
  pop_end : Q;                (* push_given_pop_at_fn_end *)
  pop_middle : Q;             (* push_given_pop_at_fn_middle *)
  cpsr_near : Q;              (* branch_after_cpsr_and_near_cond_are_equals *)
  cpsr_prev : Q;              (* branch_after_cpsr_and_prev_cond_are_equals *)
  cpsr_after : Q;             (* branch_after_cpsr_and_after_cond_are_equals *)
  cpsr_branch : Q;            (* branch_after_cpsr *)
  cond_both : Q;              (* both_conditionals_are_equals *)
  cond_prev : Q;              (* prev_conditionals_are_equals *)
  any_jump : Q;               (* just_any_jump_is_valid *)
  this_method : Q;            (* branch_to_this_method *)
  other_method : Q }.         (* branch_to_other_method_start *)
Definition default_model := mkModel (1 # 1000) (999 # 1000) (9999 # 10000) (7 # 10) (65 # 100) (85 # 100) (65 # 100)
  (76 # 100) (6 # 10) (7 # 10) (65 # 100) (1 # 1000) (67 # 100) (7 # 10).

(** Keys of scores_by_rule: 'pc' 'pr' 'prd' 'po' 'pcfg' 'pupo' 'pbd' 'popu'. *)
Definition Kpc := 0.
Definition Kpr := 1.
Definition Kprd := 2.
Definition Kpo := 3.
Definition Kpcfg := 4.
Definition Kpupo := 5.
Definition Kpbd := 6.
Definition Kpopu := 7.
Definition scores := dict Q.

(** A candidate: the instruction, scores_by_rule and score_function
    (instruction.py:30-34). *)
Inductive scorer := AddScore | RemoveStep | ProbRules.
Record cand := mkCand { c_inst : dinst; c_scores : scores; c_fn : scorer }.
Definition cprogram := dict (list cand).
Definition plain (prog : cprogram) : dprogram := map (fun kv => (fst kv, map c_inst (snd kv))) prog.

Definition sget (s : scores) (k : Z) (default : Q) : Q := match dget s k with Some q => q | None => default end.
Definition pushpop (i : dinst) : bool := match d_kind i with KOther => false | _ => true end.
Definition qlt (a b : Q) : bool := negb (Qle_bool b a).
Definition qmin (a b : Q) : Q := if qlt b a then b else a.   (* min(a, b) *)
Definition qmax (a b : Q) : Q := if qlt a b then b else a.   (* max(a, b) *)

(** The product of lines 89-96 and 134-141. *)
Definition product (i : dinst) (pc po pcf pbd pr pupo prd : Q) : Q :=
  let score := (pc * po * pcf)%Q in
  if d_branch i then (score * pbd)%Q else if pushpop i then (score * (pr * pupo))%Q else (score * (pr * prd))%Q.
Definition checked (score : Q) : result Q :=
  if qlt 1 score || qlt score 0 then Err RuntimeError else Ok score.

(** recuperator.py:73-99 [probabilistic_rules]. *)
Definition probabilistic_rules (s : scores) (i : dinst) : result Q :=
  checked (product i (sget s Kpc 1) (sget s Kpo 1) (sget s Kpcfg 1) (sget s Kpbd 1) (sget s Kpr 1) (sget s Kpupo 1) (sget s Kprd 1)).

(** recuperator.py:102-146 [probabilistic_rules_remove_step]. *)
Definition lowest (s : scores) : Q := fold_left (fun lo kv => if qlt (snd kv) lo then snd kv else lo) s 2%Q.
Definition remove_step (s : scores) (i : dinst) : result Q :=
  let lo := lowest s in
  let pc := sget s Kpc 1 in let pr := sget s Kpr 0 in let prd := sget s Kprd 1 in let po := sget s Kpo 1 in
  let pcf := sget s Kpcfg 1 in let pupo := sget s Kpupo 1 in let pbd := sget s Kpbd 1 in
  let hi := qmax (qmax pc po) pr in
  checked (if Qeq_bool hi 1 && negb (Qeq_bool lo 0) then 1%Q
           else if Qeq_bool lo 0 || d_ignore i then 0%Q
           else product i pc po pcf pbd pr pupo prd).

(** instruction.py:46-54 [_add_score], [score]. *)
Definition add_score (s : scores) : Q := fold_left (fun r kv => (r + snd kv)%Q) s 0%Q.
Definition score (c : cand) : result Q :=
  match c_fn c with
  | AddScore => Ok (add_score (c_scores c))
  | RemoveStep => remove_step (c_scores c) (c_inst c)
  | ProbRules => probabilistic_rules (c_scores c) (c_inst c)
  end.

(** [a / b] on counts. *)
Definition quot (a b : Z) : result Q :=
  if b =? 0 then Err ZeroDivisionError else Ok (inject_Z a / inject_Z b)%Q.
(** [try: ... except KeyError: 0] *)
Definition or_zero (x : result Q) : result Q := match x with Err KeyError => Ok 0%Q | _ => x end.
Definition ratio (have among : dict Z) (k : Z) : result Q :=
  let* a := dget_r have k in let* b := dget_r among k in quot a b.

(** recuperator.py:182-206. *)
Definition compute_conditional (col : collector) (w : addresses_with) (i : dinst) (s : scores) : result scores :=
  let* pc := or_zero (ratio (condition_count col) (with_cond w) (d_cond i)) in Ok (dset s Kpc pc).
Definition compute_opcode (col : collector) (w : addresses_with) (i : dinst) (s : scores) : result scores :=
  let* po := or_zero (ratio (instruction_count col) (with_op w) (d_op i)) in Ok (dset s Kpo po).
(** recuperator.py:208-224. *)
Definition compute_registers (col : collector) (w : addresses_with) (i : dinst) (s : scores) : result scores :=
  if d_branch i || pushpop i then Ok s
  else
    let* pr := or_zero (foldM (fun av r => let* q := ratio (storage_count col) (with_reg w) r in Ok (qmin av q)) (d_used i) 1%Q) in
    Ok (dset s Kpr pr).

(** recuperator.py:236-265.  [r is AReg.PC] compares small integers.
    [opcode] is KPop or KPush. *)
Definition same_kind (a b : kind) : bool := match a, b with KPush, KPush => true | KPop, KPop => true | _, _ => false end.
Definition equal_registers (popped pushed : list Z) : bool :=
  forallb (fun r => zmem r pushed || (r =? PC)) popped && forallb (fun r => zmem r popped || (r =? LR) || (r =? SP)) pushed.
Definition op_prob (prog : dprogram) (opcode : kind) (addr : Z) (regs : list Z) : result (Q * bool) :=
  let* insts := dget_r prog addr in
  let '(c, t, eq) :=
    fold_left (fun st i => let '(c, t, eq) := st in
                           if d_ignore i then st
                           else if same_kind (d_kind i) opcode then (c + 1, t + 1, eq || equal_registers (d_rwritten i) regs)
                           else (c, t + 1, eq)) insts (0, 0, false) in
  let* p := quot c t in Ok (p, eq).

(** recuperator.py:298-312: walk down from the last address of the function.
    Counters: branches, pops, instructions so far. *)
Fixpoint walk_down (prog : dprogram) (addrs : list Z) (cb cp t : Z) (p2 : Q) : result Q :=
  match addrs with
  | [] => Ok p2
  | a :: rest =>
      let* insts := dget_r prog a in
      let '(cb', cp', t') :=
        fold_left (fun st i => let '(cb, cp, t) := st in
                               if d_ignore i then st
                               else ((if d_branch i then cb + 1 else cb), (if same_kind (d_kind i) KPop then cp + 1 else cp), t + 1))
                  insts (cb, cp, t) in
      let p2' := if (0 <? t) && (0 <? t') then (inject_Z cp' / inject_Z t' * inject_Z cb / inject_Z t)%Q else p2 in
      if qlt 0 p2' then Ok p2' else walk_down prog rest cb' cp' t' p2'
  end.
(** [range(hi, lo, -4)] *)
Definition down_range (hi lo : Z) : list Z := map (fun k => hi - 4 * k) (zrange 0 ((hi - lo + 3) / 4)).

(** recuperator.py:321-329, the end of [_compute_push_pop]. *)
Definition finish_push_pop (m : pmodel) (prog : dprogram) (addr : Z) (s : scores) (p1 p2 : Q) (equal : bool) : result scores :=
  let* here := dget_r prog addr in
  let* p3 := quot 1 (Z.of_nat (length here)) in
  let p3 := if equal then pop_end_equal m else p3 in
  let p1 := if qlt 0 p1 then pop_end m else p1 in
  let p2 := if qlt 0 p2 then pop_middle m else p2 in
  Ok (dset s Kpopu (qmax (qmax p1 p2) p3)).
(** recuperator.py:267-329. *)
Definition functions := dict (Z * Z).
Definition compute_push_pop (m : pmodel) (prog : dprogram) (fns : functions) (addr current_fn : Z) (i : dinst) (s : scores) : result scores :=
  let finish := finish_push_pop m prog addr s in
  match d_kind i with
  | KPush =>
      match dget fns addr with
      | Some (_, last) =>
          let* (p1, equal) := op_prob prog KPop last (d_rread i) in
          let* p2 := walk_down prog (down_range last addr) 0 0 0 0%Q in
          finish p1 p2 equal
      | None => finish 0%Q 0%Q false
      end
  | KPop =>
      let* (p1, equal) := op_prob prog KPush current_fn (d_rwritten i) in
      finish p1 0%Q equal
  | KOther => Ok s
  end.

(** recuperator.py:331-441.  The counts over the candidates before and after. *)
Definition kept_here (insts : option (list dinst)) : list dinst :=
  match insts with Some l => filter (fun i => negb (d_ignore i)) l | None => [] end.
Definition number (f : dinst -> bool) (l : list dinst) : Z := Z.of_nat (length (filter f l)).
(** [a * after / (ln_prev * ln_post) * k] if after > 0, and [a / b * k]. *)
Definition near (after ln_prev ln_post a : Z) (k : Q) : result Q :=
  if 0 <? after then let* p := quot (a * after) (ln_prev * ln_post) in Ok (p * k)%Q else Ok 0%Q.
Definition frac (a b : Z) (k : Q) : result Q := let* p := quot a b in Ok (p * k)%Q.
Definition best (x y : result Q) : result Q := let* p1 := x in let* p2 := y in Ok (qmax p1 p2).
(** recuperator.py:388-434; [always] says the conditional field is 14. *)
Definition cfg_result (m : pmodel) (always : bool) (same_cond flag_mod union after ln_prev ln_post len_prev : Z) : result Q :=
  let near := near after ln_prev ln_post in
  if negb always then
    if (0 <? same_cond) && (0 <? flag_mod) then
      best (near (same_cond + flag_mod - union) (cpsr_near m)) (frac (same_cond + flag_mod - union) ln_prev (cpsr_prev m))
    else if 0 <? same_cond then best (near same_cond (cond_both m)) (frac same_cond len_prev (cond_prev m))
    else if 0 <? flag_mod then best (near flag_mod (cpsr_after m)) (frac flag_mod ln_prev (cpsr_branch m))
    else Ok 0%Q
  else
    if 0 <? flag_mod then frac flag_mod ln_prev (1 - cpsr_branch m)%Q
    else if 0 <? same_cond then best (near same_cond (cond_both m)) (frac same_cond len_prev (cond_prev m))
    else if 0 <? after then frac after ln_post (cond_prev m)
    else Ok 0%Q.
Definition compute_cfg (m : pmodel) (prog : dprogram) (addr : Z) (i : dinst) (s : scores) : result scores :=
  let prev := dget prog (addr - 4) in
  let post := dget prog (addr + 4) in
  let same := fun j => d_cond j =? d_cond i in
  let flag := fun j => zmem CPSR (d_rwritten j) in
  let* result :=
    cfg_result m (d_cond i =? 14) (number same (kept_here prev)) (number flag (kept_here prev))
      (number (fun j => same j && flag j) (kept_here prev)) (number same (kept_here post))
      (Z.of_nat (length (kept_here prev))) (Z.of_nat (length (kept_here post)))
      (match prev with Some l => Z.of_nat (length l) | None => 0 end) in
  if Qeq_bool result 0 then Ok (dset s Kpcfg (low_probability m))
  else if qlt 1 result then Err RuntimeError
  else Ok (dset s Kpcfg result).

(** recuperator.py:443-489. *)
Fixpoint survive (prog : dprogram) (r : Z) (addrs : list Z) (p : Q) : Q :=
  match addrs with
  | [] => p
  | a :: rest =>
      match dget prog a with
      | None => survive prog r rest p
      | Some insts =>
          let ks := kept_here (Some insts) in
          let t := Z.of_nat (length ks) in
          let count := number (fun x => zmem r (d_written x)) ks in
          if 0 <? t then
            let p' := (p * (1 - inject_Z count / inject_Z t))%Q in
            if Qeq_bool p' 1 then p' else survive prog r rest p'
          else survive prog r rest p
      end
  end.
Fixpoint register_distance (m : pmodel) (col : collector) (prog : dprogram) (addr : Z) (reads : list Z) (prd : Q) : Q :=
  match reads with
  | [] => prd
  | r :: rest =>
      let '(a, b) := match dget (min_dist col) r, dget (max_dist col) r with Some a, Some b => (a, b + 1) | _, _ => (0, 1) end in
      let p := survive prog r (zrange (addr - 4 * b) (addr - 4 * a)) 1%Q in
      let prd' := qmin p prd in
      if Qle_bool 1 prd' then high_probability m else register_distance m col prog addr rest prd'
  end.
Definition compute_register_distance (m : pmodel) (col : collector) (prog : dprogram) (addr : Z) (i : dinst) (s : scores) : scores :=
  if d_branch i || pushpop i then s
  else
    let prd := (1 - register_distance m col prog addr (d_read i) 1)%Q in
    dset s Kprd (if Qle_bool prd 0 then low_probability m else prd).

(** recuperator.py:501-527. *)
Definition compute_branch_address (m : pmodel) (fns : functions) (current_fn lowest highest : Z) (i : dinst) (s : scores) : result scores :=
  if d_ignore i || negb (d_branch i) then Ok s
  else
    match d_jump i with
    | None => Ok (dset s Kpbd (any_jump m * 2)%Q)
    | Some jmp =>
        let* here := if current_fn <=? jmp then let* f := dget_r fns current_fn in Ok (jmp <=? snd f) else Ok false in
        if here : bool then Ok (dset s Kpbd (this_method m))
        else if dmem fns jmp then Ok (dset s Kpbd (other_method m))
        else if (highest <? jmp) || (jmp <? lowest) then Ok (dset s Kpbd (any_jump m))
        else Ok (dset s Kpbd (any_jump m * 2)%Q)
    end.

(** recuperator.py:548-562, one candidate; [first] says i = 0. *)
Definition score_candidate (m : pmodel) (col : collector) (w : addresses_with) (fns : functions) (prog : dprogram)
    (lowest highest current_fn addr : Z) (first : bool) (c : cand) : result cand :=
  let i := c_inst c in
  if d_ignore i then Ok c
  else
    let* s := compute_conditional col w i (c_scores c) in
    let* s := compute_opcode col w i s in
    let* s := compute_registers col w i s in
    let* s := compute_push_pop m prog fns addr current_fn i s in
    let* s := compute_branch_address m fns current_fn lowest highest i s in
    let* s := if first then Ok s else compute_cfg m prog addr i (compute_register_distance m col prog addr i s) in
    Ok (mkCand i s RemoveStep).

(** recuperator.py:529-563 [_recover].  No computation reads a score, so the
    program the rules look at is the program at the start. The state after an
    exception is not kept.  Progress bar left out. *)
Fixpoint recover_addresses (m : pmodel) (col : collector) (w : addresses_with) (fns : functions) (prog : dprogram)
    (lowest highest current_fn : Z) (first : bool) (addrs : list Z) (p : cprogram) : result cprogram :=
  match addrs with
  | [] => Ok p
  | addr :: rest =>
      let fn := if dmem fns addr then addr else current_fn in
      let* cs := dget_r p addr in
      let* cs' := mapM (score_candidate m col w fns prog lowest highest fn addr first) cs in
      recover_addresses m col w fns prog lowest highest fn false rest (dset p addr cs')
  end.
Definition recover (m : pmodel) (col : collector) (fns : functions) (p : cprogram) : result cprogram :=
  let prog := plain p in
  let w := collect_program (mkWith [] [] []) prog in
  let addresses := sort_by (fun a => a) (dkeys p) in
  match addresses with
  | [] => Err IndexError
  | first :: _ =>
      let last := List.last addresses first in
      recover_addresses m col w fns prog first last first true addresses p
  end.

(** *** recover_program.py:126-154 [remove_bad_candidates_at_addr].  [sc] is the
    score method; [v.pop(i)] is [pop_at]. *)
Definition pop_at {A} (v : list A) (i : nat) : list A := firstn i v ++ skipn (S i) v.
Fixpoint remove_loop1 {A} (sc : A -> result Q) (fuel : nat) (v : list A) (i : nat) (ones less : Z) : result (list A * Z * Z) :=
  match fuel with
  | O => Err OutOfFuel
  | S fuel' =>
      match nth_error v i with
      | None => Ok (v, ones, less)
      | Some c =>
          let* q := sc c in
          if Qeq_bool q 1 then remove_loop1 sc fuel' v (S i) (ones + 1) less
          else if Qeq_bool q 0 then remove_loop1 sc fuel' (pop_at v i) i ones less
          else if 0 <? ones then remove_loop1 sc fuel' (pop_at v i) i ones (less + 1)
          else remove_loop1 sc fuel' v (S i) ones (less + 1)
      end
  end.
Fixpoint remove_loop2 {A} (sc : A -> result Q) (fuel : nat) (v : list A) (i : nat) (ones : Z) : result (list A) :=
  match fuel with
  | O => Err OutOfFuel
  | S fuel' =>
      match nth_error v i with
      | None => Ok v
      | Some c =>
          let* q := sc c in
          if qlt q 1 && (0 <? ones) then remove_loop2 sc fuel' (pop_at v i) i ones
          else remove_loop2 sc fuel' v (S i) ones
      end
  end.
(** The list afterwards and the number removed. *)
Definition remove_bad {A} (sc : A -> result Q) (v : list A) : result (list A * Z) :=
  let* (v1, ones, less) := remove_loop1 sc (S (length v)) v 0 0 0 in
  let* v2 := if 0 <? less then remove_loop2 sc (S (length v1)) v1 0 ones else Ok v1 in
  Ok (v2, Z.of_nat (length v) - Z.of_nat (length v2)).

(** recover_program.py:182-203: the pass loop of run_recovery (reports left
    out).  [rec n] is the recuperator of pass number n. *)
Fixpoint remove_all {A} (sc : A -> result Q) (p : dict (list A)) : result (dict (list A) * bool) :=
  match p with
  | [] => Ok ([], true)
  | (k, v) :: rest =>
      let* (v', n) := remove_bad sc v in
      let* (rest', stable) := remove_all sc rest in
      Ok ((k, v') :: rest', negb (0 <? n) && stable)
  end.
Fixpoint passes {A} (sc : A -> result Q) (rec : nat -> dict (list A) -> result (dict (list A))) (fuel n : nat) (p : dict (list A)) : result (dict (list A) * nat) :=
  match fuel with
  | O => Err OutOfFuel
  | S fuel' =>
      let* p1 := rec n p in
      let* (p2, stable) := remove_all sc p1 in
      if stable : bool then Ok (p2, n) else passes sc rec fuel' (S n) p2
  end.
