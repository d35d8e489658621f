(** SteadyProperties.v -- C86: exact solutions that are linear in space. *)
From Coq Require Import Reals List Bool Lra.
From Verif Require Import Base MaterialModel MaterialSpec InputModel HeatModel HeatSpec StabilitySpec RadiationSpec ParallelSpec SteadySpec SteadyProofs SteadyProofs2 SteadyExamples.
Import ListNotations.
Open Scope R_scope.

(** * C86 *)
(** What is conducted is given by Fourier's law. *)
Theorem C86_fourier : forall (dim3 : bool) (k : point_law RNum) (b : pt RNum),
  conduction (N := RNum) dim3 (pl_inv k) (pl_kx k) (pl_ky k) (pl_kz k) (pl_cos k) (pl_sin k) b = heat_flux dim3 k b.
Proof. exact flux_is. Qed.
Print Assumptions C86_fourier.
(** In a homogeneous material, a profile that is linear in space and loses at the boundary what it conducts there rises everywhere at the rate of the beams. *)
Theorem C86_rate : forall (dim3 on ad : bool) (m : heat_mesh RNum) (pos normal : nat -> pt RNum) (K : laws RNum) (F : face_laws RNum) (k : point_law RNum) (a s : R) (b : pt RNum) (y : list R),
  mesh_ok m -> exact_gradients dim3 m pos -> divergence dim3 m normal -> in_plane dim3 b -> homogeneous on K k s -> balanced dim3 ad m pos normal F k a b -> has_profile m pos a b y ->
  forall j, s = 0 \/ massive m /\ same_volumes m -> free m j -> entry (evaluate (N := RNum) dim3 on ad m K F y) j = s.
Proof. exact profile_rate. Qed.
Print Assumptions C86_rate.
(** So it is the exact solution after any steps of any lengths with any of the schemes: without beams it is steady, with beams (and balanced all the time) it rises with the elapsed time. *)
Theorem C86_steps : forall (dim3 ad : bool) (m : heat_mesh RNum) (pos normal : nat -> pt RNum) (on : nat -> nat -> R -> bool) (K : nat -> nat -> R -> laws RNum) (F : nat -> nat -> R -> face_laws RNum)
  (a s : R) (b : pt RNum) (sch : scheme) (dts : list R) (t : R) (y : list R),
  mesh_ok m -> exact_gradients dim3 m pos -> divergence dim3 m normal -> in_plane dim3 b -> s = 0 \/ massive m /\ same_volumes m ->
  (forall n i t, exists k, homogeneous (on n i t) (K n i t) k s /\ forall u, (s = 0 -> u = a) -> balanced dim3 ad m pos normal (F n i t) k u b) -> has_profile m pos a b y ->
  has_profile m pos (a + s * sumR dts) b (snd (steps sch (fun n i t v => evaluate (N := RNum) dim3 (on n i t) ad m (K n i t) (F n i t) v) dts t y)).
Proof. exact profile_steps. Qed.
Print Assumptions C86_steps.
(** Meshes of boxes of any sizes with Gauss-Lobatto points, also refined with hanging nodes, have what this needs. *)
Theorem C86_boxes : forall (dim3 : bool) (h : R) (m : heat_mesh RNum) (pos normal : nat -> pt RNum), 0 < h -> mesh_ok m -> box_grid dim3 h m pos normal ->
  exact_gradients dim3 m pos /\ divergence dim3 m normal /\ same_volumes m.
Proof. intros dim3 h m pos normal H A B. exact (conj (grid_gradients dim3 h m pos normal A B) (conj (grid_divergence dim3 h m pos normal H B) (grid_volumes dim3 h m pos normal B))). Qed.
Print Assumptions C86_boxes.
(** The gradients of profiles are exact with any points in the boxes. *)
Theorem C86_gradient : forall (dim3 : bool) (n : nat) (C : constraints RNum) (pos : nat -> pt RNum) (c : hcell RNum) (q : hquad RNum) (a : R) (b : pt RNum),
  constraints_ok n C -> hanging_placed n C pos -> placed dim3 pos c -> In q (c_quads c) -> in_plane dim3 b -> gradient C c q (profile pos a b) = b.
Proof. intros dim3 n C pos c q a b. exact (placed_gradient C n dim3 pos c q a b). Qed.
Print Assumptions C86_gradient.

(** A wall between air at 0 and at 45 degrees, on a mesh with a hanging node: 20 + 10 x is steady. *)
Example C86_wall : forall (sch : scheme) (dts : list R) (t : R),
  has_profile wall wall_pos 20 slope10 (snd (steps sch (fun n i t v => evaluate (N := RNum) false false false wall (fun _ _ _ => wall_law) wall_air v) dts t wall_temperatures)).
Proof.
  intros sch dts t. assert (H : 0 < 1/2) by lra. destruct (C86_boxes false (1/2) wall wall_pos wall_normal H wall_ok wall_grid) as (A & B & _).
  pose proof (C86_steps false false wall wall_pos wall_normal (fun _ _ _ => false) (fun _ _ _ => fun _ _ _ => wall_law) (fun _ _ _ => wall_air) 20 0 slope10 sch dts t wall_temperatures wall_ok A B (fun _ => eq_refl) (or_introl eq_refl)
    (fun _ _ _ => ex_intro _ wall_law (conj wall_homogeneous (fun u E => eq_ind_r (fun v => balanced false false wall wall_pos wall_normal wall_air wall_law v slope10) wall_balanced (E eq_refl)))) wall_profile) as Q.
  rewrite Rmult_0_l, Rplus_0_r in Q. exact Q.
Qed.
(** The same wall without losses and with beams that give 2 degrees per unit of time. *)
Example C86_heated : mesh_ok wall /\ massive wall /\ box_grid false (1/2) wall wall_pos wall_normal /\
  homogeneous true (fun _ _ _ => mkpl (N := RNum) (1/2) 2 2 2 1 0 [3; 1]) (mkpl (N := RNum) (1/2) 2 2 2 1 0 []) 2 /\
  (forall u, balanced false true wall wall_pos wall_normal wall_air (mkpl (N := RNum) (1/2) 2 2 2 1 0 []) u (mkpt (N := RNum) 0 0 0)).
Proof. exact (conj wall_ok (conj wall_massive (conj wall_grid (conj wall_heated wall_insulated)))). Qed.
