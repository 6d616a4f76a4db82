(** What renaming should mean; independent of how it is computed. *)
From Verif Require Export Py GraphSpec.

(** [preorder children n l]: [l] lists the tree below [n], every block before its children. *)
Inductive preorder (children : Z -> list Z) : Z -> list Z -> Prop :=
| pre_node n l : preorders children (children n) l -> preorder children n (n :: l)
with preorders (children : Z -> list Z) : list Z -> list Z -> Prop :=
| pre_nil : preorders children [] []
| pre_cons n ns l l' : preorder children n l -> preorders children ns l' -> preorders children (n :: ns) (l ++ l').
Definition occ (v : Z) (l : list Z) : Z := Z.of_nat (count_occ Z.eq_dec l v).
(** Names given in sequence, each the next number of its variable. *)
Fixpoint numbered (count : Z -> Z) (vs : list Z) : list (Z * Z) :=
  match vs with [] => [] | v :: vs => (v, count v + 1) :: numbered (fun x => if x =? v then count x + 1 else count x) vs end.
(** The iterated frontier of the blocks [start], not going through the blocks [stop]. *)
Inductive spread (df : Z -> list Z) (stop : Z -> bool) (start : Z -> Prop) : Z -> Prop :=
| spread_one n d : start n -> In d (df n) -> stop d = false -> spread df stop start d
| spread_step m d : spread df stop start m -> In d (df m) -> stop d = false -> spread df stop start d.
