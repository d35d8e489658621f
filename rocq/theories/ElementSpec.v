(** ElementSpec.v -- linear thermo-elasticity on one cell. *)
From Coq Require Import Reals Bool List.
From Verif Require Import Base AssimilationSpec ElementModel.
Import ListNotations.
Local Open Scope R_scope.

(** d components, one gradient (with d entries) and value per degree of freedom at every point. *)
Definition element (d n : nat) (comps : list nat) (qs : list (quad RNum)) : Prop :=
  List.length comps = n /\ Forall (fun c => (c < d)%nat) comps /\
  Forall (fun q => List.length (q_grads q) = n /\ Forall (fun g => List.length g = d) (q_grads q) /\ List.length (q_values q) = n) qs.
(** The displacement field with coefficients [u]: derivative of component [a] in direction [b] at a point, divergence, strain. *)
Definition gradient (n : nat) (comps : list nat) (q : quad RNum) (u : nat -> R) (a b : nat) : R :=
  Rsum_to n (fun i => if Nat.eqb (nth i comps O) a then u i * nth b (nth i (q_grads q) []) 0 else 0).
Definition divergence (d n : nat) (comps : list nat) (q : quad RNum) (u : nat -> R) : R := Rsum_to d (fun a => gradient n comps q u a a).
Definition strain (n : nat) (comps : list nat) (q : quad RNum) (u : nat -> R) (a b : nat) : R :=
  (gradient n comps q u a b + gradient n comps q u b a) / 2.
(** The work of the stress of [u] on the strain of [v]: integral of lambda div u div v + 2 mu strain(u) : strain(v). *)
Definition work (d n : nat) (lambda mu : R) (comps : list nat) (qs : list (quad RNum)) (v u : nat -> R) : R :=
  Rsum (map (fun q => (lambda * divergence d n comps q v * divergence d n comps q u +
                       2 * mu * Rsum_to d (fun a => Rsum_to d (fun b => strain n comps q v a b * strain n comps q u a b))) * q_jxw q) qs).
(** The temperature above the reference at a point. *)
Definition excess (reference : R) (temperature : list R) (q : quad RNum) : R :=
  Rsum_to (Nat.min (List.length (q_tshape q)) (List.length temperature)) (fun j => nth j (q_tshape q) 0 * nth j temperature 0) - reference.
(** The number of earlier cells of this process with thermal degrees of freedom: where the thermal physics keeps the flag. *)
Definition flag_position (cells : list joint_cell) (pos : nat) : nat := List.length (filter (fun c => j_owned c && j_thermal c) (firstn pos cells)).
