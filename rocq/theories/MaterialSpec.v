(** MaterialSpec.v -- what C16-C23 mean (over the reals). *)
From Coq Require Import Reals ZArith Bool List String Ascii Sorted.
From Verif Require Import Base ScanPathModel MaterialModel.
Import ListNotations.
Local Open Scope R_scope.

(** Ratios of a point: a partition of unity. *)
Definition partition (r : ratios RNum) : Prop :=
  0 <= (r_solid r : R) <= 1 /\ 0 <= (r_liquid r : R) <= 1 /\ 0 <= (r_powder r : R) <= 1 /\
  (r_solid r + r_liquid r + r_powder r : R) = 1.

Definition melts (m : mat_props RNum) : Prop := (p_solidus m : R) < p_liquidus m.

(** The powder ratio stored after a history of temperatures, for a point-wise update. *)
Definition stored_powder (update : R -> R -> ratios RNum) (p0 : R) (Ts : list R) : R :=
  fold_left (fun p T => r_powder (update p T)) Ts p0.

(** [x] is the smallest of [p0] and the solid-or-powder fractions 1 - f T of a history. *)
Definition smallest_so_far (f : R -> R) (p0 : R) (Ts : list R) (x : R) : Prop :=
  forall y, y <= x <-> (y <= p0 /\ forall T, In T Ts -> y <= 1 - f T).

(** Rows sorted by temperature. *)
Definition increasing (rows : list (R * R)) : Prop :=
  forall i t v t' v', nth_error rows i = Some (t, v) -> nth_error rows (S i) = Some (t', v') -> t < t'.

(** The stored table: the rows, then the last row repeated up to 12 rows. *)
Definition padded {A} (rows full : list A) : Prop :=
  exists l, nth_error rows (List.length rows - 1) = Some l /\ full = rows ++ repeat l (12 - List.length rows).

(** One field "temperature,value" of a table. *)
Definition row_of_field {N} (P : parser N) (field : string) (r : N * N) : Prop :=
  exists a b rest, split_off ","%char field = a :: b :: rest /\ stod P a = Some (fst r) /\ stod P b = Some (snd r).

(** Value of a state's law at [T]. *)
Definition poly_at (cs : list R) (T : R) : R := fold_right (fun c acc => c + T * acc) 0 cs.
Definition law_at (law : state_law RNum) (T : R) (v : R) : Prop :=
  match law with Table rows => table_value rows T = Ok v | Poly cs => v = poly_at cs T end.
Definition law_size (p_order : nat) (law : state_law RNum) : Prop :=
  match law with Table _ => True | Poly cs => List.length cs = (p_order + 1)%nat end.

(** The states a template parameter has: the ratios of the others are 0. *)
Definition only_states (k : mstates) (r : ratios RNum) : Prop :=
  match k with Solid => (r_liquid r : R) = 0 /\ (r_powder r : R) = 0 | SolidLiquid => (r_powder r : R) = 0 | SolidLiquidPowder => True end.

(** Sum over the states of ratio times value. *)
Definition weighted (k : mstates) (r : ratios RNum) (vs vl vp : R) : R :=
  match k with
  | Solid => r_solid r * vs
  | SolidLiquid => r_solid r * vs + r_liquid r * vl
  | SolidLiquidPowder => r_solid r * vs + r_liquid r * vl + r_powder r * vp
  end.

Definition mean (l : list R) : R := fold_right Rplus 0 l / INR (List.length l).

Definition dot (a b : pt RNum) : R := px a * px b + py a * py b + pz a * pz b.

(** Stefan-Boltzmann constant, and the heat flux through the boundary. *)
Definition sigma : R := 5670374419 / 100000000000000000.
Definition outflux (convective radiative : bool) (h conv_inf emissivity rad_inf T : R) : R :=
  (if convective then h * (T - conv_inf) else 0) + (if radiative then emissivity * sigma * (T ^ 4 - rad_inf ^ 4) else 0).
