(** Model of semantic_codec/probability/probabilities.py.  Floats are exact
    rationals (no rounding). *)
From Verif Require Export Py.
From Coq Require Export QArith.
Open Scope Z_scope.

(** probabilities.py:4-5 [uniform]. *)
Definition uniform (a b : Q) : result Q := if Qeq_bool (b - a) 0 then Err ZeroDivisionError else Ok (1 / (b - a))%Q.
(** probabilities.py:7-14 [indep_intersection]. *)
Definition indep_intersection (ps : list Q) : Q := fold_left (fun p r => (p * r)%Q) ps 1%Q.

(** probabilities.py:27-40: the loop; [e] is the stack, its top first, so the
    product of lines 28-30 multiplies from the bottom of [e].
    An index out of range raises IndexError. *)
Definition stack_product (ps : list Q) (e : list nat) : result Q :=
  foldM (fun p j => let* q := nth_r ps j in Ok (p * q)%Q) (rev e) 1%Q.
Fixpoint union_loop (ps : list Q) (fuel : nat) (e : list nat) (res : Q) : result Q :=
  match fuel with
  | O => Err OutOfFuel
  | S fuel' =>
      match e with
      | [] => Ok res
      | top :: below =>
          let* p := stack_product ps e in
          let res' := if Nat.odd (length e) then (res + p)%Q else (res - p)%Q in
          let i := S top in
          if (i <? length ps)%nat then union_loop ps fuel' (i :: e) res'
          else match below with
               | [] => union_loop ps fuel' [] res'
               | x :: below' => union_loop ps fuel' (S x :: below') res'
               end
      end
  end.
(** probabilities.py:17-42 [indep_events_union]. *)
Definition indep_events_union (fuel : nat) (ps : list Q) : result Q :=
  match ps with
  | [] => Err RuntimeError
  | _ => union_loop ps fuel [0%nat] 0%Q
  end.
