(** SuperpositionProofs.v -- rates, steps and runs are linear in heat, surroundings and initial temperatures. *)
From Coq Require Import Reals List Bool String ZArith Lra Lia.
From Verif Require Import Base BaseFacts MaterialModel MaterialSpec InputModel HeatModel HeatSpec MaterialProofs MaterialProofs2 HeatProofs HeatProofs2 HeatProofs3 HeatProofs5 ScanPathModel HeatSourceModel EnergyModel EnergySpec StabilitySpec StabilityProofs SuperpositionSpec.
Import ListNotations.
Open Scope R_scope.

Lemma Sum_mul_r {A} (f : A -> R) l c : Sum l f * c = Sum l (fun a => f a * c).
Proof. rewrite Rmult_comm, <- Sum_scal. apply Sum_ext. intros; ring. Qed.
Section Comb.
  Variables (X : Type) (W : list (R * X)) (n : nat).
  (** The functional of a combination of fields. *)
  Lemma functional (L : (nat -> R) -> R) (f : X -> nat -> R) (u : nat -> R) : (forall a u v, L (fun k => u k + a * v k) = L u + a * L v) -> (forall u v, (forall k, u k = v k) -> L u = L v) ->
    (forall k, u k = Sum W (fun w => fst w * f (snd w) k)) -> L u = Sum W (fun w => fst w * L (f (snd w))).
  Proof.
    intros Lin Ext. revert u. induction W as [|w W' IH]; intros u E.
    - rewrite Sum_nil. assert (Z : L (fun _ => 0) = 0). { pose proof (Lin (-1) (fun _ => 0) (fun _ => 0)) as H. assert (E0 : L (fun k : nat => (fun _ : nat => 0) k + -1 * (fun _ : nat => 0) k) = L (fun _ => 0)) by (apply Ext; intros; ring). lra. }
      rewrite <- Z. apply Ext. intros k. rewrite E. apply Sum_nil.
    - rewrite Sum_cons, <- (IH (fun k => Sum W' (fun w => fst w * f (snd w) k))) by reflexivity. rewrite Rplus_comm, <- Lin. apply Ext. intros k. rewrite E, Sum_cons. ring.
  Qed.
  Definition comb (V : X -> list R) (v : list R) : Prop :=
    List.length v = n /\ (forall w, In w W -> List.length (V (snd w)) = n) /\ forall j, entry v j = Sum W (fun w => fst w * entry (V (snd w)) j).
  Lemma entry_sadd (v u : list R) a j : List.length v = List.length u -> entry (saddR v a u) j = entry v j + a * entry u j.
  Proof. intros E. unfold entry. rewrite <- !ip_hat. apply ip_sadd. exact E. Qed.
  Lemma comb_sadd V v U u a : comb V v -> comb U u -> comb (fun x => saddR (V x) a (U x)) (saddR v a u).
  Proof.
    intros (L1 & L2 & E) (M1 & M2 & G). split; [rewrite saddR_length by congruence; exact L1|]. split; [intros w I; rewrite saddR_length by (rewrite (L2 w I), (M2 w I); reflexivity); exact (L2 w I)|].
    intros j. rewrite entry_sadd by congruence. rewrite E, G, <- Sum_scal, <- Sum_plus. apply Sum_ext. intros w I. rewrite entry_sadd by (rewrite (L2 w I), (M2 w I); reflexivity). ring.
  Qed.
  Lemma comb_step s (f : X -> nat -> R -> list R -> list R) (g : nat -> R -> list R -> list R) t dt V v :
    (forall i u V v, comb V v -> comb (fun x => f x i u (V x)) (g i u v)) -> comb V v -> comb (fun x => step s (f x) t dt (V x)) (step s g t dt v).
  Proof.
    intros H C. destruct s; unfold step; cbv zeta; repeat (first [apply (comb_sadd _ _ (fun x => f x _ _ _))|apply comb_sadd|apply H|exact C]).
  Qed.
End Comb.

Section Rates.
  Variables (X : Type) (W : list (R * X)) (dim3 ad : bool) (m : heat_mesh RNum).
  Variables (on : X -> bool) (K : X -> laws RNum) (F : X -> face_laws RNum) (on0 : bool) (K0 : laws RNum) (F0 : face_laws RNum).
  Hypothesis (Mok : mesh_ok m).
  Hypothesis (SK : forall w c q T T', In w W -> same_conduction (K (snd w) c q T) (K0 c q T')).
  Hypothesis (SF : forall w f q T T', In w W -> fl_inv (F (snd w) f q T) = fl_inv (F0 f q T') /\ fl_h (F (snd w) f q T) = fl_h (F0 f q T')).
  Hypothesis (HK : forall c q T (Ts : X -> R), heat_density on0 (K0 c q T) = Sum W (fun w => fst w * heat_density (on (snd w)) (K (snd w) c q (Ts (snd w))))).
  Hypothesis (HF : forall f q T (Ts : X -> R), (fl_conv (F0 f q T) : R) = Sum W (fun w => fst w * fl_conv (F (snd w) f q (Ts (snd w))))).
  Hypothesis (NR : ad = false -> no_radiation m).
  Variables (V : X -> list R) (v : list R) (z : nat -> R).
  Hypothesis (E : forall j, entry v j = Sum W (fun w => fst w * entry (V (snd w)) j)).

  Lemma field_same C c q (u u' : nat -> R) : (forall k, u k = u' k) -> field C c q u = field C c q u'.
  Proof. intros H. unfold field. apply Sum_ext. intros p _. f_equal. unfold nodal. destruct (find _ _); [|apply H]. apply Sum_ext. intros; rewrite H; reflexivity. Qed.
  Lemma gradient_same C c q (u u' : nat -> R) : (forall k, u k = u' k) -> gradient C c q u = gradient C c q u'.
  Proof.
    intros H. assert (N0 : forall j, nodal C u j = nodal C u' j) by (intros j; unfold nodal; destruct (find _ _); [apply Sum_ext; intros; rewrite H; reflexivity|apply H]).
    unfold gradient. f_equal; apply Sum_ext; intros; rewrite N0; reflexivity.
  Qed.
  Lemma cell_comb c i iq : cell_point dim3 on0 (m_C m) (K0 i) c v z iq = Sum W (fun w => fst w * cell_point dim3 (on (snd w)) (m_C m) (K (snd w) i) c (V (snd w)) z iq).
  Proof.
    unfold cell_point. cbv zeta. set (k := K0 i (fst iq) (field (m_C m) c (snd iq) (entry v))).
    rewrite (functional X W (fun u => dot (conduction (N := RNum) dim3 (pl_inv k) (pl_kx k) (pl_ky k) (pl_kz k) (pl_cos k) (pl_sin k) (gradient (m_C m) c (snd iq) u)) (gradient (m_C m) c (snd iq) z)) (fun x => entry (V x)) (entry v)).
    2: { intros a u u'. rewrite gradient_lin. apply cond_lin. }
    2: { intros u u' H. rewrite (gradient_same _ _ _ u u' H). reflexivity. }
    2: exact E.
    transitivity (h_jxw (snd iq) * (Sum W (fun w => fst w * dot (conduction (N := RNum) dim3 (pl_inv k) (pl_kx k) (pl_ky k) (pl_kz k) (pl_cos k) (pl_sin k) (gradient (m_C m) c (snd iq) (entry (V (snd w))))) (gradient (m_C m) c (snd iq) z)) +
      pl_inv k * heat_density on0 k * field (m_C m) c (snd iq) z)).
    { f_equal. f_equal. unfold heat_density. destruct on0; cbn [num RNum]; ring. }
    pose proof (HK i (fst iq) (field (m_C m) c (snd iq) (entry v)) (fun x => field (m_C m) c (snd iq) (entry (V x)))) as A. fold k in A. rewrite A. clear A. rewrite <- (Sum_scal _ (pl_inv k)), <- Sum_mul, <- Sum_plus, <- (Sum_scal _ (h_jxw (snd iq))). apply Sum_ext. intros w I.
    destruct (SK w i (fst iq) (field (m_C m) c (snd iq) (entry (V (snd w)))) (field (m_C m) c (snd iq) (entry v)) I) as (H1 & H2 & H3 & H4 & H5 & H6). fold k in H1, H2, H3, H4, H5, H6.
    cbn [num RNum] in *. rewrite H1, H2, H3, H4, H5, H6. unfold heat_density. destruct (on (snd w)); cbn [num RNum]; ring.
  Qed.
  Lemma face_comb c i ty iq : has_flag ty radiative = false ->
    face_point (m_C m) (F0 i) ty c v z iq = Sum W (fun w => fst w * face_point (m_C m) (F (snd w) i) ty c (V (snd w)) z iq).
  Proof.
    intros Nr. unfold face_point. cbv zeta. rewrite Nr. set (k := F0 i (fst iq) (field (m_C m) c (snd iq) (entry v))). unfold outflux.
    transitivity (Sum W (fun w => fst w * (h_jxw (snd iq) * (fl_inv k * ((if has_flag ty convective then fl_h k * (field (m_C m) c (snd iq) (entry (V (snd w))) - fl_conv (F (snd w) i (fst iq) (field (m_C m) c (snd iq) (entry (V (snd w)))))) else 0) + 0)) * field (m_C m) c (snd iq) z))).
    - destruct (has_flag ty convective).
      + pose proof (HF i (fst iq) (field (m_C m) c (snd iq) (entry v)) (fun x => field (m_C m) c (snd iq) (entry (V x)))) as A. fold k in A.
        pose proof (functional X W (fun u => field (m_C m) c (snd iq) u) (fun x => entry (V x)) (entry v) (fun a u u' => field_lin (m_C m) c (snd iq) u u' a) (fun u u' H => field_same (m_C m) c (snd iq) u u' H) E) as B.
        cbn beta in B. cbn [num RNum] in *. rewrite A, B.
        transitivity (Sum W (fun w => (h_jxw (snd iq) * fl_inv k * fl_h k * field (m_C m) c (snd iq) z) * (fst w * field (m_C m) c (snd iq) (entry (V (snd w))) + -1 * (fst w * fl_conv (F (snd w) i (fst iq) (field (m_C m) c (snd iq) (entry (V (snd w))))))))).
        * rewrite Sum_scal, Sum_plus, Sum_scal. cbn [num RNum]. ring.
        * apply Sum_ext. intros w _. cbn [num RNum]. ring.
      + rewrite Sum_zero by (intros; ring). ring.
    - apply Sum_ext. intros w I. destruct (SF w i (fst iq) (field (m_C m) c (snd iq) (entry (V (snd w)))) (field (m_C m) c (snd iq) (entry v)) I) as (H1 & H2). fold k in H1, H2.
      cbn [num RNum] in *. rewrite H1, H2. reflexivity.
  Qed.
  Lemma weak_comb : weak dim3 on0 ad m K0 F0 v z = Sum W (fun w => fst w * weak dim3 (on (snd w)) ad m (K (snd w)) (F (snd w)) (V (snd w)) z).
  Proof.
    assert (A : cells_tested dim3 on0 (m_C m) (m_cells m) K0 v z = Sum W (fun w => fst w * cells_tested dim3 (on (snd w)) (m_C m) (m_cells m) (K (snd w)) (V (snd w)) z)).
    { unfold cells_tested. etransitivity; [apply Sum_ext; intros ic _; etransitivity; [apply Sum_ext; intros iq _; exact (cell_comb (snd ic) (fst ic) iq)|apply Sum_swap]|]. rewrite Sum_swap. apply Sum_ext. intros w _.
      rewrite <- Sum_scal. apply Sum_ext. intros ic _. rewrite <- Sum_scal. reflexivity. }
    unfold weak. destruct ad.
    - rewrite A, Rminus_0_r. apply Sum_ext. intros; ring.
    - assert (B : faces_tested (m_C m) (m_faces m) F0 v z = Sum W (fun w => fst w * faces_tested (m_C m) (m_faces m) (F (snd w)) (V (snd w)) z)).
      { specialize (NR eq_refl). unfold faces_tested. etransitivity.
        - apply Sum_ext. intros jf I. instantiate (1 := fun jf => Sum W (fun w => fst w * (if on_boundary (snd jf) then Sum (indexed (c_quads (active_side (snd jf)))) (face_point (m_C m) (F (snd w) (fst jf)) (hf_type (snd jf)) (active_side (snd jf)) (V (snd w)) z) else 0))). cbn beta.
          destruct (on_boundary (snd jf)) eqn:Ob; [|symmetry; apply Sum_zero; intros; ring].
          assert (Nr : has_flag (hf_type (snd jf)) radiative = false) by (apply (proj1 (Forall_forall _ _) NR); [exact (in_indexed _ _ I)|exact Ob]).
          etransitivity; [apply Sum_ext; intros iq _; exact (face_comb (active_side (snd jf)) (fst jf) (hf_type (snd jf)) iq Nr)|]. rewrite Sum_swap. apply Sum_ext. intros w _. rewrite <- Sum_scal. reflexivity.
        - rewrite Sum_swap. apply Sum_ext. intros w _. rewrite <- Sum_scal. reflexivity. }
      rewrite A, B. transitivity (Sum W (fun w => fst w * cells_tested dim3 (on (snd w)) (m_C m) (m_cells m) (K (snd w)) (V (snd w)) z) + -1 * Sum W (fun w => fst w * faces_tested (m_C m) (m_faces m) (F (snd w)) (V (snd w)) z)); [ring|].
      rewrite <- Sum_scal, <- Sum_plus. apply Sum_ext. intros; ring.
  Qed.
End Rates.

Lemma rate_comb X W dim3 ad m (on : X -> bool) (K : X -> laws RNum) (F : X -> face_laws RNum) on0 (K0 : laws RNum) (F0 : face_laws RNum) V v : mesh_ok m ->
  (forall w c q T T', In w W -> same_conduction (K (snd w) c q T) (K0 c q T')) ->
  (forall w f q T T', In w W -> fl_inv (F (snd w) f q T) = fl_inv (F0 f q T') /\ fl_h (F (snd w) f q T) = fl_h (F0 f q T')) ->
  (forall c q T (Ts : X -> R), heat_density on0 (K0 c q T) = Sum W (fun w => fst w * heat_density (on (snd w)) (K (snd w) c q (Ts (snd w))))) ->
  (forall f q T (Ts : X -> R), (fl_conv (F0 f q T) : R) = Sum W (fun w => fst w * fl_conv (F (snd w) f q (Ts (snd w))))) ->
  (ad = false -> no_radiation m) -> comb X W (m_n m) V v ->
  comb X W (m_n m) (fun x => evaluate (N := RNum) dim3 (on x) ad m (K x) (F x) (V x)) (evaluate (N := RNum) dim3 on0 ad m K0 F0 v).
Proof.
  intros Mok SK SF HK HF NR (L1 & L2 & E). split; [apply rate_length|]. split; [intros; apply rate_length|]. intros j.
  destruct (Nat.lt_ge_cases j (m_n m)) as [L|L].
  - etransitivity; [exact (evaluate_nth dim3 on0 ad m K0 F0 v Mok j L)|].
    rewrite (weak_comb X W dim3 ad m on K F on0 K0 F0 SK SF HK HF NR V v (hat j) E). set (D := nodal_mass m j + _).
    transitivity (Sum W (fun w => fst w * ((weak dim3 (on (snd w)) ad m (K (snd w)) (F (snd w)) (V (snd w)) (hat j) + (if in_dec Nat.eq_dec j (map fst (m_C m)) then 1 * entry (V (snd w)) j else 0)) / D))).
    + destruct (in_dec Nat.eq_dec j (map fst (m_C m))).
      * rewrite E, Rmult_1_l, <- Sum_plus. unfold Rdiv. rewrite <- Sum_mul. apply Sum_ext. intros; ring.
      * rewrite Rplus_0_r. unfold Rdiv. rewrite <- Sum_mul. apply Sum_ext. intros; ring.
    + apply Sum_ext. intros w _. f_equal. symmetry. exact (evaluate_nth dim3 (on (snd w)) ad m (K (snd w)) (F (snd w)) (V (snd w)) Mok j L).
  - unfold entry. etransitivity; [apply nth_overflow; eapply Nat.le_trans; [apply Nat.eq_le_incl; exact (rate_length dim3 on0 ad m K0 F0 v)|exact L]|]. symmetry. apply Sum_zero. intros w _.
    etransitivity; [apply Rmult_eq_compat_l; apply nth_overflow; eapply Nat.le_trans; [apply Nat.eq_le_incl; exact (rate_length dim3 (on (snd w)) ad m (K (snd w)) (F (snd w)) (V (snd w)))|exact L]|]. ring.
Qed.

(** ** Runs *)
Lemma run_comb dim3 ad s m (W : list (R * scenario)) (A : scenario) : mesh_ok m -> (ad = false -> no_radiation m) -> combines m W A -> forall dts n t V v, comb scenario W (m_n m) V v ->
  comb scenario W (m_n m) (fun x => temperatures dim3 ad s m x n t dts (V x)) (temperatures dim3 ad s m A n t dts v).
Proof.
  intros Mok NR (Wm & _ & HK & HF & _). induction dts as [|dt dts IH]; intros n t V v C; [exact C|]. cbn [temperatures].
  set (f := fun (x : scenario) (i : nat) (_ : R) (v : list R) => evaluate (N := RNum) dim3 (sc_on x n i) ad m (sc_laws x n i) (sc_faces x n i) v).
  change (comb scenario W (m_n m) (fun x => let '(t1, y1) := evolveR s (f x) t dt (V x) in temperatures dim3 ad s m x (S n) t1 dts y1) (let '(t1, y1) := evolveR s (f A) t dt v in temperatures dim3 ad s m A (S n) t1 dts y1)).
  assert (H : forall x, (let '(t1, y1) := evolveR s (f x) t dt (V x) in temperatures dim3 ad s m x (S n) t1 dts y1) = temperatures dim3 ad s m x (S n) (t + dt) dts (step s (f x) t dt (V x))) by (intros x; rewrite evolve_step; reflexivity).
  rewrite evolve_step.
  assert (G : comb scenario W (m_n m) (fun x => temperatures dim3 ad s m x (S n) (t + dt) dts (step s (f x) t dt (V x))) (temperatures dim3 ad s m A (S n) (t + dt) dts (step s (f A) t dt v))).
  { apply IH. apply (comb_step scenario W (m_n m) s f (f A) t dt V v); [|exact C]. intros i u V' v' C'. unfold f.
    apply (rate_comb scenario W dim3 ad m (fun x => sc_on x n i) (fun x => sc_laws x n i) (fun x => sc_faces x n i)); try assumption.
    - intros w c q T T' I. apply (proj1 (proj1 (Wm w I))).
    - intros w c q T T' I. apply (proj2 (proj1 (Wm w I))).
    - intros c q T Ts. apply HK.
    - intros c q T Ts. apply HF. }
  destruct G as (G1 & G2 & G3). split; [exact G1|]. split; [intros w I; rewrite H; exact (G2 w I)|]. intros j. rewrite G3. apply Sum_ext. intros w _. rewrite H. reflexivity.
Qed.
Lemma superposition dim3 ad s m W A dts j : mesh_ok m -> (ad = false -> no_radiation m) -> combines m W A ->
  entry (final dim3 ad s m A dts) j = Sum W (fun w => fst w * entry (final dim3 ad s m (snd w) dts) j).
Proof.
  intros Mok NR C. destruct (run_comb dim3 ad s m W A Mok NR C dts 0 0 sc_start (sc_start A)) as (_ & _ & E); [|exact (E j)].
  destruct C as (Wm & L & _ & _ & St). split; [exact L|]. split; [intros w I; exact (proj2 (Wm w I))|exact St].
Qed.
