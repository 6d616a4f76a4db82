(** Specification of a queue of [w]-bit chunks. *)
From Verif Require Import Py BitsSpec QueueModel.

(** [v] with the [w]-bit field at [t] replaced by [c]. *)
Definition with_field (v t w c : Z) : Z := v + (c - field v t w) * 2 ^ t.

(** A [w]-bit field starting at bit [f] lies inside a 32-bit word. *)
Definition in_word (w f : Z) : bool := (0 <=? f) && (f + w <=? 32).

(** The abstract queue is the list of chunks waiting.  Fields outside a word
    are refused with RuntimeError. *)
Fixpoint fifo_run (w : Z) (q : list Z) (ops : list qop) : result (list qout * list Z) :=
  match ops with
  | [] => Ok ([], q)
  | QEnq v f :: ops' =>
      if in_word w f then
        let* (xs, q') := fifo_run w (q ++ [field v f w]) ops' in Ok (OUnit :: xs, q')
      else Err RuntimeError
  | QDeq v t :: ops' =>
      if in_word w t then
        match q with
        | [] => Err IndexError                   (* excluded by [no_underflow] *)
        | c :: q0 => let* (xs, q') := fifo_run w q0 ops' in Ok (OVal (with_field v t w c) :: xs, q')
        end
      else Err RuntimeError
  | QEmpty :: ops' =>
      let* (xs, q') := fifo_run w q ops' in
      Ok (OBool (match q with [] => true | _ => false end) :: xs, q')
  end.

(** Never more dequeues than enqueues; [n] chunks are waiting at the start. *)
Fixpoint no_underflow (n : nat) (ops : list qop) : bool :=
  match ops with
  | [] => true
  | QEnq _ _ :: ops' => no_underflow (S n) ops'
  | QDeq _ _ :: ops' => match n with O => false | S n' => no_underflow n' ops' end
  | QEmpty :: ops' => no_underflow n ops'
  end.

(** Same visible behaviour: same outputs, or the same exception. *)
Definition same_outputs {A B} (x : result (list qout * A)) (y : result (list qout * B)) : Prop :=
  match x, y with
  | Ok (xs, _), Ok (ys, _) => xs = ys
  | Err e, Err f => e = f
  | _, _ => False
  end.

(** The queue with word size [w] behaves as a FIFO on every history. *)
Definition is_fifo (w : Z) : Prop :=
  forall ops, no_underflow 0 ops = true -> same_outputs (bq_run (bq_new w) ops) (fifo_run w [] ops).
