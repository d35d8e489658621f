(** MicrostructureSpec.v -- what C30 means. *)
From Coq Require Import Reals ZArith Bool List String.
From Verif Require Import Base MicrostructureModel.
Import ListNotations.

(** Interpolating element: as many points as shape functions, and shape function i is 1 (to within 1e-12) at the point number q only if i = sigma q. *)
Definition interpolating {N : Num} (n : nat) (c : cell N) (sigma : nat -> nat) : Prop :=
  List.length (c_dofs c) = n /\ List.length (c_points c) = n /\
  forall q, (q < n)%nat -> (sigma q < n)%nat /\
    forall i, (i < n)%nat -> (nltb N (nopp N (ndiv N (nofZ N 1) (nofZ N 1000000000000))) (nsub N (c_value c i q) (nofZ N 1)) = true <-> i = sigma q).

(** The line of point q of a cell. *)
Definition line_of {N : Num} (old new : nat -> N) (dt : N) (c : cell N) (q : nat) (dof : nat) (x : pt N) : line N :=
  let G := norm_G (gradient new c q) in mkline x G (cooling_rate (old dof) (new dof) dt) (ndiv N (cooling_rate (old dof) (new dof) dt) G).

(** [l] is the line of a point of [c] whose temperature goes from above the liquidus to the liquidus or below. *)
Definition solidifies {N : Num} (old new : nat -> N) (dt : N) (c : cell N) (sigma : nat -> nat) (l : line N) : Prop :=
  exists q dof x, nth_error (c_points c) q = Some x /\ nth_error (c_dofs c) (sigma q) = Some dof /\
  nltb N (c_liquidus c) (old dof) = true /\ nleb N (new dof) (c_liquidus c) = true /\ l = line_of old new dt c q dof x.

(** The gradient of the interpolated temperature: the sum over the shape functions of nodal value times gradient of the shape function. *)
Definition rsum (l : list R) : R := fold_right Rplus 0%R l.
Definition is_gradient (new : nat -> R) (c : cell RNum) (q : nat) (g : pt RNum) : Prop :=
  forall comp : pt RNum -> R, In comp [@px RNum; @py RNum; @pz RNum] ->
    comp g = rsum (map (fun i => (new (nth i (c_dofs c) 0%nat) * comp (c_grad c i q))%R) (seq 0 (List.length (c_dofs c)))).
