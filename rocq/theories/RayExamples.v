(** RayExamples.v -- C52: binary64, degenerate faces, concrete rays. *)
From Coq Require Import Reals ZArith Bool List Lia Lra String Floats.
From Verif Require Import Base BaseFacts MaterialModel InputModel InputSpec ExperimentModel ExperimentSpec RayModel GeometrySpec RaySpec RayProofs RayProofs2 RayProofs3.
Import ListNotations.

(** A quotient by zero or NaN is never a distance. *)
Lemma quotient_useless (x y b : PrimFloat.float) : PrimFloat.eqb y 0 = true \/ PrimFloat.eqb y y = false -> PrimFloat.ltb (x / y) 0 = true \/ PrimFloat.ltb (x / y) b = false.
Proof.
  intros H. rewrite !FloatAxioms.ltb_spec, FloatAxioms.div_spec. rewrite !FloatAxioms.eqb_spec in H.
  assert (Z : Prim2SF 0 = S754_zero false) by reflexivity. rewrite Z in *.
  destruct (Prim2SF y) as [s|s| |s m e].
  - destruct (Prim2SF x) as [s'|s'| |s' m' e']; cbn; try (right; destruct (Prim2SF b); reflexivity); (destruct (xorb s' s); [left; reflexivity|right; destruct (Prim2SF b) as [?|[]| |? ? ?]; reflexivity]).
  - exfalso. destruct s, H as [H|H]; discriminate H.
  - right. destruct (Prim2SF x) as [s'|s'| |s' m' e']; cbn; destruct (Prim2SF b); reflexivity.
  - exfalso. destruct H as [H|H]; [destruct s; discriminate H|]. unfold SFeqb, SFcompare in H. destruct s; rewrite Z.compare_refl, Pos.compare_cont_refl in H; discriminate H.
Qed.
(** Faces whose normal product is zero or NaN in binary64 are never hit. *)
Lemma degenerate_face (tol : FNum) (r : ray FNum) (st : FNum * pt FNum) (f : face FNum) :
  let det := det3 (N := FNum) (mkpt (N := FNum) (- px (r_direction r))%float (- py (r_direction r))%float (- pz (r_direction r))%float) (psub (f1 f) (f0 f)) (psub (f2 f) (f0 f)) in
  PrimFloat.eqb det 0 = true \/ PrimFloat.eqb det det = false -> visit_face tol r st f = st.
Proof.
  intros det H. unfold visit_face, plane_hit. cbv zeta. match goal with |- context [if ?b then None else _] => destruct b end; [reflexivity|].
  fold det. change (nopp FNum) with PrimFloat.opp. fold det.
  match goal with |- context [ndiv FNum ?x ?y] => destruct (quotient_useless x det (fst st) H) as [Q|Q]; change (ndiv FNum x y) with (PrimFloat.div x det) end.
  - match goal with |- context [nltb FNum ?x ?z] => change (nltb FNum x z) with (PrimFloat.ltb x 0) end. rewrite Q. reflexivity.
  - match goal with |- context [if ?b then None else _] => destruct b end; [reflexivity|].
    match goal with |- context [nltb FNum ?x ?z] => change (nltb FNum x z) with (PrimFloat.ltb x z) end. rewrite Q. reflexivity.
Qed.

(** ** Concrete rays *)
Notation PF x y z := (mkpt (N := FNum) x%float y%float z%float).
Definition tol_code : FNum := 0x1.b7cdfd9d7bdbbp-34%float. (* 1e-10 *)
(** A hexahedron from its eight vertices. *)
Definition hex (v : nat -> pt FNum) : list (face FNum) :=
  map (fun q => let '(a, b, c, d) := q in mkface (v a) (v b) (v c) (v d)) [(0, 2, 4, 6); (1, 3, 5, 7); (0, 4, 1, 5); (2, 6, 3, 7); (0, 1, 2, 3); (4, 5, 6, 7)]%nat.
Definition unit_hex := hex (fun i => nth i [PF 0 0 0; PF 1 0 0; PF 0 1 0; PF 1 1 0; PF 0 0 1; PF 1 0 1; PF 0 1 1; PF 1 1 1] (PF 0 0 0)).
Definition sheared := hex (fun i => nth i [PF 0 0 0; PF 1 0 0; PF 0 1 0; PF 1 1 0; PF 1 0 1; PF 2 0 1; PF 1 1 1; PF 2 1 1] (PF 0 0 0)).
Definition beyond := hex (fun i => nth i [PF 3 0 1; PF 4 0 1; PF 3 1 1; PF 4 1 1; PF 3 0 2.5; PF 4 0 2.5; PF 3 1 2.5; PF 4 1 2.5] (PF 0 0 0)).
Definition slanted : ray FNum := mkray (PF 0.75 0.5 (-1)) (PF 1 0 1).
Definition upwards (d : FNum) : ray FNum := mkray (PF 0.25 0.5 (-1)) (PF 0 0 d).
Lemma upwards_hit : get_points_values tol_code [[unit_hex]] [upwards 1%float] [300%float] [[(0, 0)]]%nat = Ok [(PF 0.25 0.5 0, 300%float)].
Proof. vmrefl. Qed.
Lemma tiny_lost : get_points_values tol_code [[unit_hex]] [upwards 0x1p-40%float] [300%float] [[(0, 0)]]%nat = Ok [].
Proof. vmrefl. Qed.
Lemma other_process_lost : get_points_values tol_code [[sheared]; [beyond]] [slanted] [300%float] [[(0, 0); (0, 1)]]%nat = Ok [].
Proof. vmrefl. Qed.
Lemma same_process_found : get_points_values tol_code [[sheared; beyond]] [slanted] [300%float] [[(0, 0); (1, 0)]]%nat = Ok [(PF 3 0.5 1.25, 300%float)].
Proof. vmrefl. Qed.

Lemma other_process : ~ (forall (a b : list (list (face FNum))) (r : ray FNum) (v : FNum) (found : list (nat * nat)),
  get_points_values tol_code [a; b] [r] [v] [map (relabel (List.length a)) found] = get_points_values tol_code [a ++ b] [r] [v] [found]).
Proof. intros H. assert (E := eq_trans (eq_sym other_process_lost) (eq_trans (H [sheared] [beyond] slanted 300%float [(0, 0); (1, 0)]%nat) same_process_found)). discriminate E. Qed.

Local Open Scope R_scope.
Definition two_boxes : list (pt RNum * pt RNum) := [(point3 0 0 0, point3 1 1 1); (point3 0 0 2, point3 1 1 3)].
Definition up_ray : ray RNum := mkray (point3 (1 / 4) (1 / 2) (-1)) (point3 0 0 1).
Definition up_found : list (nat * nat) := [(0, 0); (1, 0)]%nat.
Lemma two_boxes_case : (forall b, In b two_boxes -> proper (fst b) (snd b)) /\ clear_direction (1 / 10) (r_direction up_ray) /\ (forall b, In b two_boxes -> ~ in_box (fst b) (snd b) (r_origin up_ray)) /\
  (forall ir, In ir up_found -> snd ir = 0%nat /\ (fst ir < List.length two_boxes)%nat) /\ (forall i b d, nth_error two_boxes i = Some b -> enters up_ray b d -> In (i, 0%nat) up_found).
Proof.
  split; [intros b [<-|[<-|[]]]; unfold proper; cbn; lra|]. split; [intros x [<-|[<-|[<-|[]]]]; cbn; [left; reflexivity|left; reflexivity|right; rewrite Rabs_R1; lra]|].
  split; [intros b [<-|[<-|[]]]; unfold in_box; cbn; lra|]. split; [intros ir [<-|[<-|[]]]; cbn; split; (reflexivity || lia)|].
  intros [|[|i]] b d E _; cbn; [tauto|tauto|destruct i; discriminate E].
Qed.
Lemma max_gt_1 : 1 < nmax RNum.
Proof. apply IZR_lt. vm_compute. reflexivity. Qed.
(** Hence the lower box is hit, at its lower face. *)
Lemma first_entry b d : In b two_boxes -> enters up_ray b d -> d <= 1 -> d = 1.
Proof. intros Hb He L. destruct Hb as [<-|[<-|[]]]; unfold enters, in_box, along, up_ray, point3 in He; cbn [fst snd r_origin r_direction px py pz] in He; lra. Qed.
Lemma enters_one : enters up_ray (point3 0 0 0, point3 1 1 1) 1.
Proof. unfold enters, in_box, along, up_ray, point3. cbn [fst snd r_origin r_direction px py pz]. lra. Qed.
Lemma along_one : along up_ray 1 = point3 (1 / 4) (1 / 2) 0.
Proof. unfold along, up_ray, point3. cbn [fst snd r_origin r_direction px py pz]. f_equal; lra. Qed.
Lemma two_boxes_hit : trace (N := RNum) (1 / 10) 0 (map (fun b => box_cell (fst b) (snd b)) two_boxes) up_ray up_found = Ok (Some (point3 (1 / 4) (1 / 2) 0)).
Proof.
  assert (T0 : 0 < 1 / 10) by lra. destruct two_boxes_case as (A & B & C & D & E). destruct (boxes_traced (1 / 10) 0 two_boxes up_ray up_found T0 A B C D E) as (hit & T & H).
  eapply eq_trans; [exact T|]. f_equal. destruct hit as [q|].
  - destruct H as (b & d & Hb & He & Q & M). assert (M1 := M _ 1 (or_introl eq_refl) enters_one). assert (d = 1) as D1 by (apply (first_entry b d Hb He M1)). f_equal. rewrite Q, D1. exact along_one.
  - exfalso. exact (Rlt_not_le _ _ max_gt_1 (H _ 1 (or_introl eq_refl) enters_one)).
Qed.
Definition front : face RNum := mkface (point3 0 0 0) (point3 1 0 0) (point3 0 1 0) (point3 1 1 0).
Lemma front_met : flat front /\ ~ grazing (1 / 10) up_ray front /\ meets up_ray front 1.
Proof.
  assert (P : proper (point3 0 0 0) (point3 1 1 1)) by (unfold proper; cbn; lra).
  split; [apply (box_flat (point3 0 0 0) (point3 1 1 1)); [exact P|cbn; tauto]|]. split.
  - apply (box_axis_z (1 / 10) up_ray (point3 0 0 0) (point3 1 1 1) 0 P). cbn. rewrite Rabs_R1. lra.
  - split; [lra|]. replace (along up_ray 1) with (gz 0 (1 / 4) (1 / 2)) by (unfold along, gz, point3; cbn; f_equal; lra). apply (face_points (gz 0) 0 1 0 1); try lra. apply gz_affine.
Qed.
Lemma direction_length : ~ (forall (o v : pt FNum) (s : FNum), PrimFloat.ltb 0 s = true ->
  (forall q x, get_points_values tol_code [[unit_hex]] [mkray o v] [300%float] [[(0, 0)]]%nat = Ok [(q, x)] ->
     exists q' x', get_points_values tol_code [[unit_hex]] [mkray o (pscale (N := FNum) s v)] [300%float] [[(0, 0)]]%nat = Ok [(q', x')])).
Proof.
  intros H. destruct (H (PF 0.25 0.5 (-1)) (PF 0 0 1) 0x1p-40%float eq_refl _ _ upwards_hit) as (q & x & E).
  assert (E' := eq_trans (eq_sym tiny_lost) E). discriminate E'.
Qed.
