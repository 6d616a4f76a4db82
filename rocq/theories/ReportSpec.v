(** What a recovery report should say, without sorting. *)
From Verif Require Import ListLemmas ReportModel.
From Coq Require Import Permutation Sorted.

(** More than one candidate is left. *)
Definition contested (v : list pcand) : bool := (1 <? length v)%nat.
(** The pairs of an original and its candidates, and how many satisfy a test. *)
Definition number {A} (f : A -> bool) (l : list A) : Z := Z.of_nat (length (filter f l)).
Definition less (a b : Q) : bool := negb (Qle_bool b a).

(** The first candidate among those with the highest score. *)
Fixpoint leader (v : list pcand) : option pcand :=
  match v with
  | [] => None
  | c :: v' => match leader v' with Some d => if less (p_score c) (p_score d) then Some d else Some c | None => Some c end
  end.
Definition is (o : porig) (c : pcand) : bool := p_enc c =? po_enc o.
(** The original scores more than every other candidate. *)
Definition strictly_best (o : porig) (v : list pcand) : bool :=
  existsb (fun c => is o c && forallb (fun d => is o d || less (p_score d) (p_score c)) v) v.
(** The leader is (not) the original. *)
Definition led_by_other (o : porig) (v : list pcand) : bool := match leader v with Some c => negb (is o c) | None => false end.
(** The leader is the original, but another candidate scores the same. *)
Definition tied (o : porig) (v : list pcand) : bool :=
  match leader v with Some c => is o c && existsb (fun d => negb (is o d) && Qeq_bool (p_score d) (p_score c)) v | None => false end.
(** Candidates with the leader's score. *)
Definition at_top (v : list pcand) : Z := match leader v with Some c => number (fun d => Qeq_bool (p_score d) (p_score c)) v | None => 0 end.

(** Candidates ahead of the original: better ones, and equal ones listed before it. *)
Fixpoint ahead (o : porig) (before v : list pcand) : option Z :=
  match v with
  | [] => None
  | c :: v' => if is o c then Some (number (fun d => negb (less (p_score d) (p_score c))) before + number (fun d => less (p_score c) (p_score d)) v')
               else ahead o (before ++ [c]) v'
  end.

(** The place of the first candidate with the original's encoding. *)
Fixpoint position (o : porig) (w : list pcand) : option Z :=
  match w with [] => None | c :: w' => if is o c then Some 0 else option_map (Z.add 1) (position o w') end.

(** Encodings are different, and texts tell encodings apart. *)
Definition distinct (o : porig) (v : list pcand) : Prop :=
  NoDup (map p_enc v) /\ (forall c, In c v -> (p_text c = po_text o <-> p_enc c = po_enc o)) /\
  (forall c d, In c v -> In d v -> p_text c = p_text d -> p_enc c = p_enc d).

(** [w] is [v], best first; candidates with equal scores keep their order. *)
Definition best_first (v w : list pcand) : Prop :=
  Permutation v w /\ StronglySorted (fun c d => (p_score d <= p_score c)%Q) w /\
  forall q, filter (fun c => Qeq_bool (p_score c) q) w = filter (fun c => Qeq_bool (p_score c) q) v.

(** The winner's score by rule [k] exceeds that of the original. *)
Definition prefers (k : Z) (o : porig) (v : list pcand) : bool :=
  match leader v, find (is o) v with
  | Some w, Some c => match dget (p_rules w) k, dget (p_rules c) k with Some a, Some b => less b a | _, _ => false end
  | _, _ => false
  end.
