(** Model of semantic_codec/solution/solution_builders.py.

    An instruction is what MetaModel keeps of it together with what str() prints
    (texts are numbered), what registers_used() answers and the identity of the
    object (used by list.remove).  int(log(n, 2)) is the exact integer part. *)
From Verif Require Export MetaModel QueueModel.

Record xinst := mkX { x_d : dinst; x_text : Z; x_regs : list Z; x_id : Z }.
Definition x_addr (i : xinst) := d_addr (x_d i).
Definition x_ignore (i : xinst) := d_ignore (x_d i).
Definition x_op (i : xinst) := d_op (x_d i).
Definition x_cond (i : xinst) := d_cond (x_d i).
Definition x_stores (i : xinst) := d_used (x_d i).
Definition xprogram := dict (list xinst).

(** rules.py:17-24 [from_instruction_list_to_dict]. *)
Definition x_to_dict (insts : list xinst) : xprogram := fold_left (fun d i => dset d (x_addr i) [i]) insts [].

(** The counts of the metadata object that the builders use and change. *)
Record counts := mkCounts { n_instr : dict Z; n_cond : dict Z; n_stor : dict Z }.
(** solution_builders.py:99-106: the constructor collects them. *)
Definition counts_of (original : list xinst) : counts :=
  let c := collect new_collector (map x_d original) in mkCounts (instruction_count c) (condition_count c) (storage_count c).

(** solution_builders.py:121-141 [_comply_constraints]. *)
Definition available (d : dict Z) (k : Z) : bool := match dget d k with Some n => negb (n =? 0) | None => false end.
Definition complies (m : counts) (i : xinst) : bool :=
  negb (x_ignore i) && available (n_instr m) (x_op i) && available (n_cond m) (x_cond i) && forallb (available (n_stor m)) (x_regs i).
(** solution_builders.py:143-156: the loop looks at pa[i-1] while i < len(pa), so
    the last candidate is not looked at. *)
Fixpoint prune (m : counts) (pa : list xinst) : list xinst :=
  match pa with
  | [] => []
  | [c] => [c]
  | c :: pa' => if complies m c then c :: prune m pa' else prune m pa'
  end.
Definition remove_invalid (m : counts) (addresses : list Z) (p : xprogram) : result xprogram :=
  foldM (fun p a => let* pa := dget_r p a in Ok (dset p a (prune m pa))) (tl addresses) p.
(** solution_builders.py:158-170 [_update_constraints]. *)
Definition dec_key (d : dict Z) (k : Z) : dict Z := match dget d k with Some n => dset d k (n - 1) | None => d end.
Definition update_counts (m : counts) (i : xinst) : counts :=
  if x_ignore i then m
  else mkCounts (dec_key (n_instr m) (x_op i)) (dec_key (n_cond m) (x_cond i)) (fold_left dec_key (x_stores i) (n_stor m)).
(** solution_builders.py:172-178. *)
Fixpoint find_index (pa : list xinst) (text : Z) : result nat :=
  match pa with
  | [] => Err RuntimeError
  | c :: pa' => if x_text c =? text then Ok 0%nat else rmap S (find_index pa' text)
  end.

(** solution_builders.py:185-205: [on_index] is the hook _on_index_found, [St] what
    it changes.  Every turn takes one address away. *)
Definition sort_addresses (p : xprogram) (l : list Z) : list Z :=
  sort_by (fun a => match dget p a with Some pa => Z.of_nat (length pa) | None => 0 end) l.
Fixpoint build_loop {St} (on_index : St -> nat -> list xinst -> result St) (forward : bool) (original : xprogram) (fuel : nat) (addresses : list Z) (p : xprogram) (m : counts) (s : St) : result (xprogram * counts * St) :=
  match addresses with
  | [] => Ok (p, m, s)
  | a :: rest =>
      match fuel with
      | O => Err OutOfFuel
      | S fuel' =>
          let* pa := dget_r p a in
          let* os := dget_r original a in
          let* ori := nth_r os 0 in
          if (length pa <=? 0)%nat || x_ignore ori then build_loop on_index forward original fuel' rest p m s
          else
            let* (index, s) :=
              if (1 <? length pa)%nat then
                let* index := find_index pa (x_text ori) in
                let* s := on_index s index pa in Ok (index, s)
              else Ok (0%nat, s) in
            let* (p, m) :=
              if forward then
                let* c := nth_r pa index in
                let m := update_counts m c in
                let* p := remove_invalid m addresses p in Ok (p, m)
              else Ok (p, m) in
            build_loop on_index forward original fuel' (sort_addresses p rest) p m s
      end
  end.
(** solution_builders.py:180-183, with the constructor (99-110). *)
Definition build {St} (on_index : St -> nat -> list xinst -> result St) (forward : bool) (s : St) (program : xprogram) (original : list xinst) : result (xprogram * counts * St) :=
  build_loop on_index forward (x_to_dict original) (length program) (sort_addresses program (dkeys program)) program (counts_of original) s.

(** solution_builders.py:213-230 [ForwardConstraintSolutionEnumerator]; the index
    is never negative.  The size log(solution, 2) is a function of the solution. *)
Definition enumerate (program : xprogram) (original : list xinst) : result (xprogram * counts * Z) :=
  build (fun s index _ => Ok (s * (Z.of_nat index + 1))) true 1 program original.
(** solution_builders.py:235-260 [ForwardConstraintSolutionBuilder]: solution size
    and queue; the second search for the index finds the same one. *)
Definition set_ws (q : bitqueue) (w : Z) : bitqueue := BQ (q_bytes q) (q_eq_word q) (q_eq_bit q) (q_dq_bit q) w.
Definition bit_index (st : Z * bitqueue) (index : nat) (pa : list xinst) : result (Z * bitqueue) :=
  let size := if (1 <? length pa)%nat then Z.log2 (Z.of_nat (length pa)) else 0 in
  let* q := bq_enqueue (set_ws (snd st) size) (Z.of_nat index) 0 in
  Ok (fst st + size, q).
(** BitQueue() has the default word size (bits.py:5). *)
Definition build_bits (program : xprogram) (original : list xinst) : result (xprogram * counts * (Z * bitqueue)) :=
  build bit_index false (0, bq_new 1) program original.

(** ** ExactFieldSumConstraint.  Variables are numbers; a domain is the list of its
    values.  python-constraint's Domain is a list; hideValue removes the value with
    list.remove, which raises ValueError if it is not there (any more), and keeps
    it aside. *)
Definition assignment := dict xinst.
Fixpoint list_remove (l : list xinst) (i : xinst) : result (list xinst) :=
  match l with
  | [] => Err ValueError
  | j :: l' => if x_id j =? x_id i then Ok l' else rmap (cons j) (list_remove l' i)
  end.
(** solution_builders.py:31-48: counting. *)
Definition sum_step (field : xinst -> list Z) (asg : assignment) (st : dict Z * bool) (v : Z) : dict Z * bool :=
  match dget asg v with
  | Some i => if x_ignore i then st else (inc_keys (fst st) (field i), snd st)
  | None => (fst st, true)
  end.
Definition sums (exact : dict Z) (field : xinst -> list Z) (vars : list Z) (asg : assignment) : dict Z * bool :=
  fold_left (sum_step field asg) vars (fold_left (fun d k => dset d k 0) (dkeys exact) [], false).
(** solution_builders.py:50-52. *)
Definition too_many (exact : dict Z) (kn : Z * Z) : bool := match dget exact (fst kn) with Some e => e <? snd kn | None => true end.
(** solution_builders.py:58-63: the values of one domain; [sum[v]] is looked up only
    if v is in exactsum. *)
Definition violates (exact sum : dict Z) (v : Z) : result bool :=
  match dget exact v with
  | None => Ok true
  | Some e => let* n := dget_r sum v in Ok (e <? n + 1)
  end.
Definition hide_violations (exact sum : dict Z) (domain : list xinst) (value : xinst) (vv : list Z) : result (list xinst) :=
  foldM (fun dom v => let* b := violates exact sum v in if b then list_remove dom value else Ok dom) vv domain.
Definition filter_domain (exact sum : dict Z) (field : xinst -> list Z) (domain : list xinst) : result (list xinst) :=
  foldM (fun dom value => if x_ignore value then Ok dom else hide_violations exact sum dom value (field value)) domain domain.
(** solution_builders.py:54-65: all domains; stops at the first one left empty
    (the boolean says whether this happened). *)
Fixpoint forward_check (exact sum : dict Z) (field : xinst -> list Z) (asg : assignment) (vars : list Z) (doms : dict (list xinst)) : result (dict (list xinst) * bool) :=
  match vars with
  | [] => Ok (doms, false)
  | v :: vars' =>
      if dmem asg v then forward_check exact sum field asg vars' doms
      else
        let* dom := dget_r doms v in
        let* dom := filter_domain exact sum field dom in
        let doms := dset doms v dom in
        match dom with [] => Ok (doms, true) | _ => forward_check exact sum field asg vars' doms end
  end.
(** solution_builders.py:66-74. *)
Definition final_check (exact sum : dict Z) (missing : bool) : result bool :=
  foldM (fun ok kn => let* e := dget_r exact (fst kn) in Ok (ok && (if missing then snd kn <=? e else snd kn =? e))) sum true.
(** solution_builders.py:27-74 [__call__]: domains left and answer. *)
Definition constraint_call (exact : dict Z) (field : xinst -> list Z) (vars : list Z) (doms : dict (list xinst)) (asg : assignment) (forwardcheck : bool) : result (dict (list xinst) * bool) :=
  let '(sum, missing) := sums exact field vars asg in
  if existsb (too_many exact) sum then Ok (doms, false)
  else
    let* (doms, emptied) := if forwardcheck && missing then forward_check exact sum field asg vars doms else Ok (doms, false) in
    if emptied then Ok (doms, false)
    else let* ok := final_check exact sum missing in Ok (doms, ok).

(** solution_builders.py:79-91 [ProblemBuilder.build]: variables with their domains
    and the three constraints. *)
Definition problem (program : xprogram) (m : counts) : dict (list xinst) * list (dict Z * (xinst -> list Z)) :=
  (filter (fun kv => (0 <? length (snd kv))%nat) program,
   [(n_cond m, fun i => [x_cond i]); (n_instr m, fun i => [x_op i]); (n_stor m, x_stores)]).
