(** Graphs as relations; independent of the model. *)
From Verif Require Export Py.

Definition rel := Z -> Z -> Prop.
(** A path with its nodes: [walk R u l v] goes from [u] over the inner nodes [l] to [v]
    and has at least one edge. *)
Inductive walk (R : rel) : Z -> list Z -> Z -> Prop :=
| walk_edge u v : R u v -> walk R u [] v
| walk_step u w l v : R u w -> walk R w l v -> walk R u (w :: l) v.
Definition path (R : rel) (u v : Z) : Prop := exists l, walk R u l v.
Definition reachable (R : rel) (root v : Z) : Prop := v = root \/ path R root v.
(** All nodes of a path, with both ends; the path may be empty. *)
Inductive way (R : rel) : Z -> list Z -> Z -> Prop :=
| way_here u : way R u [u] u
| way_step u w l v : R u w -> way R w l v -> way R u (u :: l) v.
(** [d] dominates [v]: every way from the root to [v] passes [d]. *)
Definition dominates (R : rel) (root d v : Z) : Prop := forall l, way R root l v -> In d l.
Definition strictly_dominates (R : rel) (root d v : Z) : Prop := d <> v /\ dominates R root d v.
(** The immediate dominator: the strict dominator that all others dominate. *)
Definition immediate (R : rel) (root d v : Z) : Prop :=
  strictly_dominates R root d v /\ forall d', strictly_dominates R root d' v -> dominates R root d' d.
