(** UndefinedSpec.v -- which values have a place in a vector (C36). *)
From Coq Require Import List.
From Verif Require Import Base.
Import ListNotations.

(** Every value of [data] has an index in [set], inside a vector of [size] entries. *)
Definition fits {A} (set : list nat) (data : list A) (size : nat) : Prop :=
  (List.length data <= List.length set)%nat /\ forall k p, (k < List.length data)%nat -> nth_error set k = Some p -> (p < size)%nat.
