(** Python run-time vocabulary shared by all models: exceptions as values,
    sequences, insertion-ordered dictionaries.  No proofs about the repository
    live here. *)
From Coq Require Export List ZArith Lia Bool.
Export ListNotations.
Open Scope Z_scope.

(** Exception classes that the modelled code can raise. *)
Inductive exn : Type :=
| RuntimeError | IndexError | KeyError | TypeError | ValueError
| StructError | AttributeError | ZeroDivisionError | OverflowError
| AdditionError           (* pygraph.classes.exceptions.AdditionError *)
| OutOfFuel.              (* not a Python exception: the modelled loop was cut *)

Inductive result (A : Type) : Type :=
| Ok (a : A)
| Err (e : exn).
Arguments Ok {A} a.
Arguments Err {A} e.

Definition bind {A B} (x : result A) (f : A -> result B) : result B :=
  match x with Ok a => f a | Err e => Err e end.
Notation "'let*' x ':=' e 'in' f" := (bind e (fun x => f))
  (at level 200, x pattern, right associativity).

Definition rmap {A B} (f : A -> B) (x : result A) : result B :=
  match x with Ok a => Ok (f a) | Err e => Err e end.

(** A [for] loop over a list threading a state, stopping at the first exception. *)
Fixpoint foldM {S A} (f : S -> A -> result S) (l : list A) (s : S) : result S :=
  match l with
  | [] => Ok s
  | a :: l' => let* s' := f s a in foldM f l' s'
  end.

(** [[f(x) for x in l]] where [f] may raise. *)
Fixpoint mapM {A B} (f : A -> result B) (l : list A) : result (list B) :=
  match l with
  | [] => Ok []
  | a :: l' => let* b := f a in let* bs := mapM f l' in Ok (b :: bs)
  end.

(** [range(a, b)] for integers. *)
Definition zrange (a b : Z) : list Z :=
  map (fun k => a + Z.of_nat k) (seq 0 (Z.to_nat (b - a))).

(** [l[i]] with [i >= 0] known by the caller. *)
Definition nth_r {A} (l : list A) (i : nat) : result A :=
  match nth_error l i with Some a => Ok a | None => Err IndexError end.

(** [l[i] = v] *)
Fixpoint list_set {A} (l : list A) (i : nat) (v : A) : list A :=
  match l, i with
  | [], _ => []
  | _ :: l', O => v :: l'
  | a :: l', S i' => a :: list_set l' i' v
  end.

(** Insertion-ordered dictionaries with integer keys (Python >= 3.7). *)
Definition dict (A : Type) := list (Z * A).

Fixpoint dget {A} (d : dict A) (k : Z) : option A :=
  match d with
  | [] => None
  | (k', a) :: d' => if k =? k' then Some a else dget d' k
  end.

(** [d[k] = v]: overwrite in place, or append a new key at the end. *)
Fixpoint dset {A} (d : dict A) (k : Z) (v : A) : dict A :=
  match d with
  | [] => [(k, v)]
  | (k', a) :: d' => if k =? k' then (k', v) :: d' else (k', a) :: dset d' k v
  end.

Definition dmem {A} (d : dict A) (k : Z) : bool :=
  match dget d k with Some _ => true | None => false end.

(** [d[k]] *)
Definition dget_r {A} (d : dict A) (k : Z) : result A :=
  match dget d k with Some a => Ok a | None => Err KeyError end.

Definition dkeys {A} (d : dict A) : list Z := map fst d.
Definition dvalues {A} (d : dict A) : list A := map snd d.

(** [l.sort(key=f)] / [sorted(l, key=f)] for an integer key: stable. *)
Fixpoint insert_by {A} (key : A -> Z) (a : A) (l : list A) : list A :=
  match l with
  | [] => [a]
  | b :: l' => if key a <=? key b then a :: l else b :: insert_by key a l'
  end.
Definition sort_by {A} (key : A -> Z) (l : list A) : list A := fold_right (insert_by key) [] l.

(** [l.index(x)] for integers. *)
Fixpoint zindex (l : list Z) (x : Z) : result Z :=
  match l with
  | [] => Err ValueError
  | y :: l' => if y =? x then Ok 0 else rmap (Z.add 1) (zindex l' x)
  end.
