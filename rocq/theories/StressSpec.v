(** StressSpec.v -- tensors in the language of continuum mechanics. *)
From Coq Require Import Reals List.
From Verif Require Import Base StressModel AssimilationSpec.
Import ListNotations.
Local Open Scope R_scope.

(** Tensors of the same size: [d] diagonal and [o] off-diagonal entries. *)
Definition shaped (d o : nat) (a : sym RNum) : Prop := List.length (dg a) = d /\ List.length (od a) = o.
(** Entries: xx, yy, zz on the diagonal; xy, xz, yz above it. *)
Definition diagonal (a : sym RNum) (i : nat) : R := nth i (dg a) 0.
Definition shear (a : sym RNum) (i : nat) : R := nth i (od a) 0.
(** Trace and double contraction a:b. *)
Definition tr (a : sym RNum) : R := Rsum (dg a).
Definition contract (a b : sym RNum) : R :=
  Rsum (map (fun xy => fst xy * snd xy) (combine (dg a) (dg b))) + 2 * Rsum (map (fun xy => fst xy * snd xy) (combine (od a) (od b))).
Definition magnitude (a : sym RNum) : R := sqrt (contract a a).
Definition zero_tensor (d o : nat) : sym RNum := mksym (N := RNum) (repeat 0 d) (repeat 0 o).
(** c times the identity. *)
Definition isotropic (d o : nat) (c : R) : sym RNum := mksym (N := RNum) (repeat c d) (repeat 0 o).

(** The trial stress, the effective stress and the overstress of an update. *)
Definition trial (m : plasticity RNum) (s : point RNum) (e : sym RNum) : sym RNum := tadd (p_stress s) (hooke (lame1 m) (lame2 m) e).
Definition effective (s : point RNum) (stress : sym RNum) : sym RNum := tsub (deviator stress) (p_back s).
(** The state is on or inside the yield surface. *)
Definition admissible (s : point RNum) : Prop := magnitude (effective s (p_stress s)) <= p_yield s.
(** Physical parameters; a point with a traceless back stress and nonnegative yield radius. *)
Definition physical (m : plasticity RNum) : Prop := 0 < lame2 m /\ 0 <= plastic_modulus m /\ 0 <= iso_hardening m <= 1.
Definition regular (d o : nat) (s : point RNum) : Prop := shaped d o (p_stress s) /\ shaped d o (p_back s) /\ tr (p_back s) = 0 /\ 0 < p_yield s.

(** The von Mises stress sqrt(3/2 s:s) of the deviator s. *)
Definition von_mises_stress (a : sym RNum) : R := sqrt (3 / 2 * contract (deviator a) (deviator a)).

(** The strain of the displacement before a solve: zero if there was none. *)
Definition previous_strain (d o : nat) (grads : list (sym RNum)) (old : option (list R)) : sym RNum :=
  match old with None => zero_tensor d o | Some v => strain_of (zero_tensor d o) grads v end.
Definition same_size (n : nat) (old : option (list R)) : Prop := match old with None => True | Some v => List.length v = n end.
(** Every solve of the sequence stays below the yield limit. *)
Fixpoint always_elastic (d o : nat) (m : plasticity RNum) (grads : list (sym RNum)) (old : option (list R)) (s : point RNum) (us : list (list R)) : Prop :=
  match us with
  | [] => True
  | u :: us' => magnitude (effective s (trial m s (tsub (strain_of (zero_tensor d o) grads u) (previous_strain d o grads old)))) < p_yield s /\
                always_elastic d o m grads (Some u) (solve_point (zero_tensor d o) grads m old s u) us'
  end.
