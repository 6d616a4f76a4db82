(** Model of print_report and run_recovery (recover_program.py:14-123, 156-227).
    What is printed is reduced to the numbers reported; the file it goes to and the
    redirection of sys.stdout appear as events.  Scores are exact rationals (they are
    only compared). *)
From Verif Require Export Py IoModel RecModel.
From Coq Require Export QArith.
Open Scope Z_scope.

(** A candidate: encoding, what str() prints (texts numbered), ignore, score() and
    scores_by_rule (rules numbered).  An original: encoding and text. *)
Record pcand := mkP { p_enc : Z; p_text : Z; p_ignore : bool; p_score : Q; p_rules : dict Q }.
Record porig := mkPO { po_enc : Z; po_text : Z }.

(** [l.sort(key=score, reverse=True)]: stable, best first (recover_program.py:40). *)
Fixpoint insert_best (a : pcand) (l : list pcand) : list pcand :=
  match l with
  | [] => [a]
  | b :: l' => if Qle_bool (p_score b) (p_score a) then a :: l else b :: insert_best a l'
  end.
Definition sort_best (l : list pcand) : list pcand := fold_right insert_best [] l.

(** The counters (recover_program.py:16-25). *)
Record tally := mkTally { t_errors : Z; t_losing : Z; t_ties : Z; t_recovered : Z; t_tie_sum : Z; t_bad : dict Z; t_depths : dict Z }.
Definition no_tally := mkTally 0 0 0 0 0 [] [].
Definition bump (d : dict Z) (k : Z) : dict Z := match dget d k with Some n => dset d k (n + 1) | None => dset d k 1 end.

(** recover_program.py:33-37: the first candidate with the original's encoding. *)
Definition find_original (o : porig) (v : list pcand) : option pcand := find (fun c => p_enc c =? po_enc o) v.
(** recover_program.py:55-64: rules that prefer the winner; a rule missing for the
    original (KeyError caught) is skipped. *)
Definition bad_step (ori : pcand) (bad : dict Z) (kv : Z * Q) : dict Z :=
  match dget (p_rules ori) (fst kv) with
  | Some ov => if negb (Qle_bool (snd kv) ov) then bump bad (fst kv) else bad
  | None => bad
  end.
Definition bad_rules (ori : option pcand) (winner : pcand) (bad : dict Z) : dict Z :=
  match ori with Some o => fold_left (bad_step o) (p_rules winner) bad | None => bad end.
(** recover_program.py:68-72: the length of the leading run of equal scores. *)
Fixpoint tie_count (q : Q) (v : list pcand) : Z :=
  match v with [] => 0 | c :: v' => if Qeq_bool q (p_score c) then 1 + tie_count q v' else 0 end.
(** recover_program.py:81-96: [counting] is count_depth, [d] is this_depth. *)
Fixpoint depth_loop (o : porig) (v : list pcand) (counting : bool) (d : Z) (depths : dict Z) : dict Z :=
  match v with
  | [] => depths
  | c :: v' =>
      if p_enc c =? po_enc o then depth_loop o v' false d (bump depths d)
      else depth_loop o v' counting (if counting then d + 1 else d) depths
  end.

(** recover_program.py:27-103, one position; also the list after the sort. *)
Definition report_one (t : tally) (o : porig) (v : list pcand) : tally * list pcand :=
  let ori := find_original o v in
  if (1 <? length v)%nat then
    let v := sort_best v in
    match v with
    | c1 :: c2 :: _ =>
        let depths := depth_loop o v true 0 (t_depths t) in
        if negb (p_text c1 =? po_text o) && negb (p_enc c1 =? p_enc c2) then
          (mkTally (t_errors t + 1) (t_losing t + 1) (t_ties t) (t_recovered t) (t_tie_sum t) (bad_rules ori c1 (t_bad t)) depths, v)
        else if Qeq_bool (p_score c1) (p_score c2) && negb (p_text c1 =? p_text c2) then
          (mkTally (t_errors t + 1) (t_losing t) (t_ties t + 1) (t_recovered t) (t_tie_sum t + tie_count (p_score c1) v) (t_bad t) depths, v)
        else (mkTally (t_errors t + 1) (t_losing t) (t_ties t) (t_recovered t + 1) (t_tie_sum t) (t_bad t) depths, v)
    | _ => (t, v)
    end
  else (t, v).
(** recover_program.py:27: [recovered_program[i]] raises past its end; positions
    beyond the original are not visited. *)
Fixpoint report_loop (t : tally) (originals : list porig) (recovered : list (list pcand)) : result tally * list (list pcand) :=
  match originals, recovered with
  | [], _ => (Ok t, recovered)
  | _ :: _, [] => (Err IndexError, [])
  | o :: os, v :: vs =>
      let '(t', v') := report_one t o v in
      let '(r, vs') := report_loop t' os vs in
      (r, v' :: vs')
  end.
(** recover_program.py:14-123: the tally or the exception, and the (reordered)
    candidates.  The ratio at lines 116-117 divides by the number of errors. *)
Definition print_report (originals : list porig) (recovered : list (list pcand)) : result tally * list (list pcand) :=
  let '(r, vs) := report_loop no_tally originals recovered in
  (let* t := r in if t_errors t =? 0 then Err ZeroDivisionError else Ok t, vs).

(** *** run_recovery.  from_instruction_dict_to_list hands out the lists
    themselves, so the sort is seen in the program (rules.py:8-14). *)
Definition put_lists (p : dict (list pcand)) (vs : list (list pcand)) : dict (list pcand) :=
  fold_left (fun p kv => dset p (fst kv) (snd kv)) (combine (sort_by (fun k => k) (dkeys p)) vs) p.

(** What happens outside: files opened for reports, and solution files written. *)
Inductive event := Corrupted_report | Initial_solution | Pass_report (n : Z) | Final_solution.

(** A report: event, then the candidates in their new order, or the exception.
    On an exception sys.stdout still points to the report file. *)
Definition report_on (e : event) (originals : list porig) (st : list event * dict (list pcand)) : list event * result (dict (list pcand)) :=
  let '(es, p) := st in
  let '(r, vs) := print_report originals (dict_to_list p) in
  (es ++ [e], rmap (fun _ => put_lists p vs) r).

(** recover_program.py:182-203.  [rec n] is the recuperator of pass n;
    SolutionQuality.report only prints. *)
Fixpoint recovery_loop (rec : Z -> dict (list pcand) -> result (dict (list pcand))) (originals : list porig) (fuel : nat) (n : Z)
    (st : list event * dict (list pcand)) : list event * result (dict (list pcand) * Z) :=
  match fuel with
  | O => (fst st, Err OutOfFuel)
  | S fuel' =>
      match rec n (snd st) with
      | Err e => (fst st, Err e)
      | Ok p1 =>
          match report_on (Pass_report n) originals (fst st, p1) with
          | (es, Err e) => (es, Err e)
          | (es, Ok p2) =>
              match remove_all (fun c => Ok (p_score c)) p2 with
              | Err e => (es, Err e)
              | Ok (p3, stable) => if stable : bool then (es, Ok (p3, n)) else recovery_loop rec originals fuel' (n + 1) (es, p3)
              end
          end
      end
  end.
(** recover_program.py:156-227.  [corrupted] is what the corruptor returns;
    [write] stands for SolutionWriter.write_binary (its error, if any);
    [continuous] changes the score function; [constrain] is
    ForwardConstraintSolutionEnumerator.build. *)
Definition run_recovery (originals : list porig) (corrupted : result (dict (list pcand))) (write : dict (list pcand) -> result unit)
    (rec : Z -> dict (list pcand) -> result (dict (list pcand))) (continuous : pcand -> pcand) (constrain : dict (list pcand) -> result (dict (list pcand)))
    (fuel : nat) : list event * result unit :=
  match corrupted with
  | Err e => ([], Err e)
  | Ok p0 =>
      match report_on Corrupted_report originals ([], p0) with
      | (es, Err e) => (es, Err e)
      | (es, Ok p1) =>
          match write p1 with
          | Err e => (es, Err e)
          | Ok _ =>
              match recovery_loop rec originals fuel 1 (es ++ [Initial_solution], p1) with
              | (es, Err e) => (es, Err e)
              | (es, Ok (p2, n)) =>
                  match report_on (Pass_report (n + 1)) originals (es, map (fun kv => (fst kv, map continuous (snd kv))) p2) with
                  | (es, Err e) => (es, Err e)
                  | (es, Ok p3) =>
                      match constrain p3 with
                      | Err e => (es, Err e)
                      | Ok p4 =>
                          match report_on (Pass_report (n + 2)) originals (es, p4) with
                          | (es, Err e) => (es, Err e)
                          | (es, Ok p5) => match write p5 with Err e => (es, Err e) | Ok _ => (es ++ [Final_solution], Ok tt) end
                          end
                      end
                  end
              end
          end
      end
  end.
