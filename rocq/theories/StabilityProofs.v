(** StabilityProofs.v -- the heat exchanged is a symmetric nonnegative form; the rates are minus this form. *)
From Coq Require Import Reals List Bool String ZArith Lra Lia.
From Verif Require Import Base MaterialModel MaterialSpec InputModel HeatModel HeatSpec MaterialProofs MaterialProofs2 HeatProofs HeatProofs2 HeatProofs3 HeatProofs4 HeatProofs5 HeatProofs7 StabilitySpec.
Import ListNotations.
Open Scope R_scope.

(** Linearity of the fields. *)
Lemma Sum_opp {A} (f : A -> R) l : Sum l (fun a => - f a) = - Sum l f.
Proof. transitivity (Sum l (fun a => -1 * f a)); [apply Sum_ext; intros; ring|]. rewrite Sum_scal. ring. Qed.
Lemma nodal_lin (C : constraints RNum) (u v : nat -> R) a j : nodal C (fun k => u k + a * v k) j = nodal C u j + a * nodal C v j.
Proof. unfold nodal. destruct (find _ C); [|reflexivity]. rewrite <- Sum_scal, <- Sum_plus. apply Sum_ext. intros; cbn [num RNum]; ring. Qed.
Lemma Sum_lin {A} (f : A -> R) (g h : nat -> R) a (l : list (A * nat)) :
  Sum l (fun p => f (fst p) * (g (snd p) + a * h (snd p))) = Sum l (fun p => f (fst p) * g (snd p)) + a * Sum l (fun p => f (fst p) * h (snd p)).
Proof. rewrite <- Sum_scal, <- Sum_plus. apply Sum_ext. intros; ring. Qed.
Lemma Sum_lin' {A} (f : A -> R) (g h : nat -> R) a (l : list (A * nat)) :
  Sum l (fun p => f (fst p) * (g (snd p) + a * h (snd p))) = Sum l (fun p => f (fst p) * g (snd p)) + Sum l (fun p => f (fst p) * h (snd p)) * a.
Proof. rewrite Sum_lin. ring. Qed.
Lemma field_lin (C : constraints RNum) c q (u v : nat -> R) a : field C c q (fun k => u k + a * v k) = field C c q u + a * field C c q v.
Proof.
  unfold field. etransitivity; [|exact (Sum_lin (fun x : R => x) (nodal C u) (nodal C v) a (combine (h_values q) (c_dofs c)))]. apply Sum_ext. intros p _. rewrite nodal_lin. reflexivity.
Qed.
Lemma gradient_lin (C : constraints RNum) c q (u v : nat -> R) a :
  gradient C c q (fun k => u k + a * v k) = padd (N := RNum) (gradient C c q u) (pscale (N := RNum) a (gradient C c q v)).
Proof.
  unfold gradient, padd, pscale. cbn [px py pz nadd nmul RNum]. f_equal.
  - etransitivity; [|exact (Sum_lin' (fun g : pt RNum => px g) (nodal C u) (nodal C v) a (combine (h_grads q) (c_dofs c)))]. apply Sum_ext. intros p _. rewrite nodal_lin. reflexivity.
  - etransitivity; [|exact (Sum_lin' (fun g : pt RNum => py g) (nodal C u) (nodal C v) a (combine (h_grads q) (c_dofs c)))]. apply Sum_ext. intros p _. rewrite nodal_lin. reflexivity.
  - etransitivity; [|exact (Sum_lin' (fun g : pt RNum => pz g) (nodal C u) (nodal C v) a (combine (h_grads q) (c_dofs c)))]. apply Sum_ext. intros p _. rewrite nodal_lin. reflexivity.
Qed.
Lemma cond_lin dim3 (inv kx ky kz c s a : R) (g h w : pt RNum) :
  dot (conduction (N := RNum) dim3 inv kx ky kz c s (padd (N := RNum) g (pscale (N := RNum) a h))) w =
  dot (conduction (N := RNum) dim3 inv kx ky kz c s g) w + a * dot (conduction (N := RNum) dim3 inv kx ky kz c s h) w.
Proof. destruct g, h, w. unfold conduction, dot, pscale, padd. destruct dim3; simpl; lra. Qed.

Lemma padd_zero (a : R) (g : pt RNum) : padd (N := RNum) g (pscale (N := RNum) a (mkpt (N := RNum) 0 0 0)) = g.
Proof. destruct g as [x1 y1 z1]. unfold padd, pscale. simpl. f_equal; ring. Qed.

Section Form.
  Variables (dim3 ad : bool) (m : heat_mesh RNum) (P : frozen) (Q : frozen_faces).
  Local Notation ex := (exchange dim3 ad m P Q).
  Lemma conducted_lin u v a z : conducted dim3 m P (fun k => u k + a * v k) z = conducted dim3 m P u z + a * conducted dim3 m P v z.
  Proof.
    unfold conducted. rewrite <- Sum_scal, <- Sum_plus. apply Sum_ext. intros ic _. rewrite <- Sum_scal, <- Sum_plus. apply Sum_ext. intros iq _. cbv zeta.
    rewrite gradient_lin, cond_lin. cbn [num RNum]. ring.
  Qed.
  Lemma convected_lin u v a z : convected m Q (fun k => u k + a * v k) z = convected m Q u z + a * convected m Q v z.
  Proof.
    unfold convected. rewrite <- Sum_scal, <- Sum_plus. apply Sum_ext. intros jf _. destruct (on_boundary (snd jf)); [|ring]. rewrite <- Sum_scal, <- Sum_plus. apply Sum_ext. intros iq _. cbv zeta.
    rewrite field_lin. cbn [num RNum]. ring.
  Qed.
  Lemma ex_lin u v a z : ex (fun k => u k + a * v k) z = ex u z + a * ex v z.
  Proof. unfold exchange. rewrite conducted_lin. destruct ad; [ring|]. rewrite convected_lin. ring. Qed.
  Lemma ex_sym u z : ex u z = ex z u.
  Proof.
    unfold exchange. f_equal; [|destruct ad; [reflexivity|]].
    - unfold conducted. apply Sum_ext. intros ic _. apply Sum_ext. intros iq _. cbv zeta. do 2 f_equal. etransitivity; [apply cond_symmetric|]. unfold dot. cbn [num RNum]. ring.
    - unfold convected. apply Sum_ext. intros jf _. destruct (on_boundary (snd jf)); [|reflexivity]. apply Sum_ext. intros iq _. cbv zeta. f_equal. apply Rmult_comm.
  Qed.
  Lemma ex_lin_r u v a z : ex z (fun k => u k + a * v k) = ex z u + a * ex z v.
  Proof. rewrite !(ex_sym z). apply ex_lin. Qed.
  Lemma ex_nonneg Tinf u : cooled dim3 ad m P Q Tinf -> 0 <= ex u u.
  Proof.
    intros [[CP CQ] A]. unfold exchange. assert (0 <= conducted dim3 m P u u).
    { unfold conducted. apply Sum_nonneg. intros ic I. apply Sum_nonneg. intros iq Iq. cbv zeta. apply in_indexed in I. apply in_indexed in Iq.
      apply (proj1 (Forall_forall _ _) CQ) in I. apply (proj1 (Forall_forall _ _) I) in Iq. destruct Iq as [J D].
      specialize (CP (fst ic) (fst iq) 0). cbv zeta in CP. destruct CP as [P1 [P2 [P3 [P4 P5]]]].
      pose proof (cond_nonpos dim3 _ _ _ _ _ _ (gradient (m_C m) (snd ic) (snd iq) u) P5 P1 P2 P3 P4 (fun E => gradient_2d _ _ _ _ (D E))) as G.
      assert (X : forall a b : R, 0 <= a -> b <= 0 -> 0 <= a * - b) by (intros; nra). apply X; assumption. }
    destruct ad; [lra|]. specialize (A eq_refl). assert (0 <= convected m Q u u); [|lra].
    unfold convected. apply Sum_nonneg. intros [j f] I. cbn [fst snd]. destruct (on_boundary f) eqn:B; [|lra]. destruct (A j f I B) as [_ [W Hq]]. apply Sum_nonneg. intros iq Iq. cbv zeta.
    apply in_indexed in Iq. apply (proj1 (Forall_forall _ _) W) in Iq. destruct (Hq (fst iq)) as [H1 [H2 _]].
    assert (X : forall a b c d : R, 0 <= a -> 0 <= b -> 0 <= c -> 0 <= a * (b * c) * (d * d)) by (intros; apply Rmult_le_pos; [apply Rmult_le_pos; [|apply Rmult_le_pos]; assumption|apply Rle_0_sqr]).
    apply X; [exact Iq|exact H1|]. destruct (has_flag _ _); [exact H2|lra].
  Qed.
  (** Only the free nodes count. *)
  Lemma ex_ext u v z : mesh_ok m -> (forall k, free m k -> u k = v k) -> ex u z = ex v z.
  Proof.
    intros Mok H. assert (Z : forall k, (k < m_n m)%nat -> ~ In k (map fst (m_C m)) -> u k = v k) by (intros; apply H; split; assumption).
    unfold exchange. f_equal; [|destruct ad; [reflexivity|]].
    - unfold conducted. apply Sum_ext. intros ic I. apply Sum_ext. intros iq _. apply in_indexed in I. apply (proj1 (Forall_forall _ _) (m_cells_ok m Mok)) in I.
      rewrite (gradient_ext _ _ (snd ic) (snd iq) (m_C_ok m Mok) I u v Z). reflexivity.
    - unfold convected. apply Sum_ext. intros jf I. destruct (on_boundary (snd jf)); [|reflexivity]. apply Sum_ext. intros iq _. apply in_indexed in I.
      apply (proj1 (Forall_forall _ _) (m_faces_ok m Mok)) in I. assert (A : shape_ok (m_n m) (active_side (snd jf))) by (unfold active_side; destruct (Nat.eqb _ 0); tauto).
      rewrite (field_ext _ _ _ (snd iq) (m_C_ok m Mok) A u v Z). reflexivity.
  Qed.
  (** The weak form of the rates. *)
  Lemma weak_exchange K F Tinf (y : list R) z : mesh_ok m -> steady K P F Q -> (ad = false -> aired m Q Tinf) ->
    weak dim3 false ad m K F y z = - ex (deviation Tinf y) z.
  Proof.
    intros Mok [EK EF] A.
    assert (D : forall (f : R -> R) k, (fun k => deviation Tinf y k + Tinf * (fun _ : nat => 1) k) k = entry y k) by (intros; unfold deviation; ring).
    unfold weak, exchange. rewrite Ropp_plus_distr. unfold Rminus at 1. f_equal.
    - unfold cells_tested, conducted. rewrite <- Sum_opp. apply Sum_ext. intros ic I. rewrite <- Sum_opp. apply Sum_ext. intros iq Iq. unfold cell_point. cbv zeta. rewrite EK.
      apply in_indexed in I. apply (proj1 (Forall_forall _ _) (m_cells_ok m Mok)) in I. apply in_indexed in Iq.
      assert (G : gradient (m_C m) (snd ic) (snd iq) (entry y) = gradient (m_C m) (snd ic) (snd iq) (deviation Tinf y)).
      { rewrite <- (gradient_ext _ _ (snd ic) (snd iq) (m_C_ok m Mok) I (fun k => deviation Tinf y k + Tinf * (fun _ : nat => 1) k) (entry y)) by (intros; apply D; exact (fun x => x)).
        rewrite gradient_lin, (gradient_const _ _ (snd ic) (snd iq) (m_C_ok m Mok) I Iq (fun _ => 1) 1) by reflexivity.
        apply padd_zero. }
      rewrite G. cbn [num RNum]. ring.
    - destruct ad; [ring|]. specialize (A eq_refl). f_equal. unfold faces_tested, convected. apply Sum_ext. intros [j f] I. cbn [fst snd]. destruct (on_boundary f) eqn:B; [|reflexivity].
      destruct (A j f I B) as [Rd [_ H]]. apply Sum_ext. intros iq Iq. unfold face_point. cbv zeta. rewrite EF, Rd. destruct (H (fst iq)) as [_ [_ H3]].
      apply in_indexed in I. cbn [snd] in I. apply (proj1 (Forall_forall _ _) (m_faces_ok m Mok)) in I. assert (S1 : shape_ok (m_n m) (active_side f)) by (unfold active_side; destruct (Nat.eqb _ 0); tauto).
      apply in_indexed in Iq.
      assert (G : field (m_C m) (active_side f) (snd iq) (entry y) = field (m_C m) (active_side f) (snd iq) (deviation Tinf y) + Tinf).
      { rewrite <- (field_ext _ _ _ (snd iq) (m_C_ok m Mok) S1 (fun k => deviation Tinf y k + Tinf * (fun _ : nat => 1) k) (entry y)) by (intros; apply D; exact (fun x => x)).
        rewrite field_lin, (field_const _ _ _ (snd iq) (m_C_ok m Mok) S1 Iq (fun _ => 1) 1) by reflexivity. ring. }
      rewrite G. unfold outflux. destruct (has_flag (hf_type f) convective); [rewrite (H3 eq_refl)|]; cbn [num RNum]; ring.
  Qed.
  Lemma rate_tested K F Tinf (y : list R) z : mesh_ok m -> massive m -> steady K P F Q -> (ad = false -> aired m Q Tinf) ->
    mass_product m z (entry (evaluate (N := RNum) dim3 false ad m K F y)) = - ex (deviation Tinf y) z.
  Proof. intros Mok M St A. etransitivity; [exact (weak_form dim3 false ad m K F y Mok z M)|]. apply weak_exchange; assumption. Qed.
End Form.
