(** AdaptSpec.v -- independent vocabulary for C49. *)
From Coq Require Import Reals ZArith Bool List Floats.
From Verif Require Import Base BaseFacts.
Import ListNotations.
Local Open Scope R_scope.

(** Euclidean distance of two points given by their coordinates. *)
Definition distance (a b : list R) : R :=
  R_sqrt.sqrt (fold_right Rplus 0 (map (fun xy => (fst xy - snd xy) * (fst xy - snd xy)) (combine a b))).

(** Position [k] of [sources] holds a point nearest to [target], and no earlier position does. *)
Definition first_nearest (sources : list (list R)) (target : list R) (k : nat) : Prop :=
  exists s, nth_error sources k = Some s /\
    (forall s', In s' sources -> distance target s <= distance target s') /\
    (forall k' s', (k' < k)%nat -> nth_error sources k' = Some s' -> distance target s < distance target s').

(** Position [j] of child [i] holds a point nearest to [target] among all points of all children; no earlier child and no earlier
    position of the same child does. *)
Definition first_nearest_child (children : list (list (list R))) (target : list R) (i j : nat) : Prop :=
  exists row s, nth_error children i = Some row /\ nth_error row j = Some s /\
    (forall row' s', In row' children -> In s' row' -> distance target s <= distance target s') /\
    (forall i' j' row' s', nth_error children i' = Some row' -> nth_error row' j' = Some s' ->
       (i' < i \/ i' = i /\ j' < j)%nat -> distance target s < distance target s').

(** The squared distances are representable. *)
Definition in_range (targets sources : list (list R)) : Prop :=
  forall t s, In t targets -> In s sources -> distance t s * distance t s < IZR dblmaxZ.

(** Cells whose quadrature has [n] points in [dim] dimensions. *)
Definition quad_cell {A} (n dim : nat) (pts : list (list A)) : Prop := length pts = n /\ forall p, In p pts -> length p = dim.
