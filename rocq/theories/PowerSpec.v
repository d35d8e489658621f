(** PowerSpec.v -- what C75 means: the heat a beam deposits, as integrals in cylindrical coordinates around its axis. *)
From Coq Require Import Reals.
From Coquelicot Require Import Coquelicot.
From Verif Require Import Base ScanPathModel HeatSourceModel.
Local Open Scope R_scope.

(** The point at distance [rho] from the axis, angle [phi], height [z] above the centre of the beam. *)
Definition around (c : pt RNum) (rho phi z : R) : pt RNum := mkpt (N := RNum) (px c + rho * cos phi) (py c + rho * sin phi) (pz c + z).
Definition heat_of (o : option R) : R := match o with Some v => v | None => 0 end.
(** [total] is the volume integral of the density [q] over the cylinder of radius [R0] between the heights [a] and [b]. *)
Definition heat_in (q : pt RNum -> option R) (c : pt RNum) (R0 a b total : R) : Prop :=
  exists (g : R -> R -> R) (h : R -> R),
    (forall z rho, is_RInt (fun phi => heat_of (q (around c rho phi z)) * rho) 0 (2 * PI) (g z rho)) /\
    (forall z, is_RInt (g z) 0 R0 (h z)) /\ is_RInt h a b total.
(** Two dimensions: the integral over the rectangle of half-width [R0] between the heights [a] and [b], per unit of thickness. *)
Definition beside (c : pt RNum) (x z : R) : pt RNum := mkpt (N := RNum) (px c + x) (py c + z) 0.
Definition heat_in_2d (q : pt RNum -> option R) (c : pt RNum) (R0 a b total : R) : Prop :=
  exists h : R -> R, (forall z, is_RInt (fun x => heat_of (q (beside c x z))) (- R0) R0 (h z)) /\ is_RInt h a b total.

(** The share of the power of a Goldak source between the bottom of its support and the height [x] (in units of its depth). *)
Definition goldak_share (x : R) : R := 2 * sqrt (3 / PI) * RInt (fun u => exp (-3 * (u * u))) (-1) x.
(** The same in two dimensions, per unit of thickness, multiplied by the radius of the beam. *)
Definition goldak_share_2d : R := 2 * / Rpower (PI / 3) (3 / 2) * RInt (fun u => exp (-3 * (u * u))) (- sqrt 5) (sqrt 5) * RInt (fun u => exp (-3 * (u * u))) (-1) 0.
