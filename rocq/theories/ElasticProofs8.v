(** ElasticProofs8.v -- equilibrium of the stored stress, what plasticity takes from it, repeated solves. *)
From Coq Require Import Reals ZArith Bool List Lia Lra.
From Verif Require Import Base BaseFacts CellModel InputModel AssimilationSpec AssimilationProofs AssimilationProofs3 MechProofs StressModel StressSpec StressProofs StressProofs2 ElementModel ElementSpec ElementProofs ElementProofs2
  HeatModel HeatSpec HeatProofs HeatProofs2 ElasticModel ElasticSpec ElasticProofs ElasticProofs2 ElasticProofs3 ElasticProofs4 ElasticProofs5 ElasticProofs6 ElasticProofs7.
Import ListNotations.
Local Open Scope R_scope.

Lemma Sum_combine {A B} (f : A * B -> R) (g : A -> R) (l : list A) : forall m : list B, List.length m = List.length l ->
  (forall i x y, nth_error l i = Some x -> nth_error m i = Some y -> f (x, y) = g x) -> Sum (combine l m) f = Sum l g.
Proof.
  induction l as [|x l IH]; intros [|y m] L E; try discriminate; [reflexivity|]. cbn [combine]. rewrite !Sum_cons. rewrite (E O x y eq_refl eq_refl). f_equal. apply IH; [cbn in L; lia|]. intros i. exact (E (S i)).
Qed.
Lemma Sum_combine2 {A B B'} (f : A * B -> R) (g : A * B' -> R) (l : list A) : forall (m : list B) (m' : list B'), List.length m = List.length l -> List.length m' = List.length l ->
  (forall i x y y', nth_error l i = Some x -> nth_error m i = Some y -> nth_error m' i = Some y' -> f (x, y) = g (x, y')) -> Sum (combine l m) f = Sum (combine l m') g.
Proof.
  induction l as [|x l IH]; intros [|y m] [|y' m'] L L' E; try discriminate; [reflexivity|]. cbn [combine]. rewrite !Sum_cons. rewrite (E O x y y' eq_refl eq_refl eq_refl). f_equal. apply IH; [cbn in L; lia| cbn in L'; lia|]. intros i. exact (E (S i)).
Qed.
(** The work of an elastic stress. *)
Lemma elastic_work d C cells pts u v : d = 2%nat \/ d = 3%nat -> points_ok d cells pts -> elastic_stress d C cells pts u -> stress_work d C cells pts v = internal_work d C cells v u.
Proof.
  intros Hd (LP & RP & _) ES. unfold internal_work, solid. rewrite Sum_filter. unfold stress_work. apply Sum_combine; [exact LP|]. intros pos c row Ec Er. cbn [fst snd]. destruct (takes_part c) eqn:T; [|reflexivity].
  apply Sum_combine; [exact (RP pos c row Ec T Er)|]. intros k q p Eq Ep. cbn [fst snd]. rewrite (ES pos c k q row p Ec T Eq Er Ep). rewrite contract_hooke by exact Hd. reflexivity.
Qed.
(** Without the thermal part. *)
Lemma isotropic_shaped d o (x : R) : shaped d o (isotropic d o x).
Proof. unfold isotropic, shaped. cbn [dg od]. split; apply repeat_length. Qed.
Lemma contract_minus_isotropic d o (a e : sym RNum) (x : R) : shaped d o a -> shaped d o e -> contract (tsub a (isotropic d o x)) e = contract a e - x * tr e.
Proof.
  intros A E. pose proof (isotropic_shaped d o x) as I. rewrite !(contract_sum d o) by (try apply tsub_shaped; assumption). rewrite (tr_sum d o e E).
  rewrite (Rsum_to_ext d _ (fun i => D a i * D e i + (- x) * D e i)).
  2:{ intros i L. rewrite (D_sub d o) by auto. unfold D at 2. cbn [dg isotropic]. rewrite (nth_indep _ 0 x) by (rewrite repeat_length; exact L). rewrite nth_repeat. ring. }
  rewrite (Rsum_to_ext o (fun i => O_ (tsub a (isotropic d o x)) i * O_ e i) (fun i => O_ a i * O_ e i)).
  2:{ intros i L. rewrite (O_sub d o) by auto. unfold O_ at 2. cbn [od isotropic]. rewrite nth_repeat. ring. }
  rewrite (Rsum_to_lin d (- x) (fun i => D a i * D e i) (D e)). ring.
Qed.
Lemma Sum_minus {A} (f g : A -> R) l : Sum l (fun x => f x - g x) = Sum l f - Sum l g.
Proof. induction l as [|x l IH]; [unfold Sum; cbn; lra|]. rewrite !Sum_cons, IH. ring. Qed.
Lemma mechanical_part d n references t C cells pts v : Forall (cell_ok d n) cells -> points_ok d cells pts ->
  mechanical_work d references t C cells pts v = stress_work d C cells pts v - thermal_work d references t C cells v.
Proof.
  intros H (LP & RP & SP). assert (LI : List.length (indexed cells) = List.length cells) by (unfold indexed; rewrite combine_length, seq_length; lia).
  assert (NI : forall i pc, nth_error (indexed cells) i = Some pc -> fst pc = i /\ nth_error cells i = Some (snd pc)).
  { intros i pc E. pose proof (nth_error_In _ _ E) as I. unfold indexed in E.
    assert (X : nth_error (combine (seq 0 (List.length cells)) cells) i = match nth_error (seq 0 (List.length cells)) i, nth_error cells i with Some a, Some b => Some (a, b) | _, _ => None end).
    { clear. generalize (seq 0 (List.length cells)). revert cells. induction i as [|i IH]; intros [|y m] [|x l]; try reflexivity; cbn; [destruct (nth_error l i); reflexivity| apply IH]. }
    rewrite X in E. destruct (nth_error (seq 0 (List.length cells)) i) as [a|] eqn:Ea; [|discriminate]. destruct (nth_error cells i) as [c|] eqn:Ec; [|discriminate]. injection E as <-. cbn [fst snd]. split; [|reflexivity].
    apply (nth_error_nth _ _ O) in Ea. rewrite seq_nth in Ea; [now rewrite <- Ea|]. apply nth_error_Some. congruence. }
  transitivity (Sum (combine (indexed cells) pts) (fun cp => (if takes_part (snd (fst cp)) then Sum (combine (ec_quads (snd (fst cp))) (snd cp)) (fun qp => contract (p_stress (snd qp)) (strain_tensor d C (snd (fst cp)) (fst qp) v) * q_jxw (fst qp)) else 0) -
     (if takes_part (snd (fst cp)) then Sum (ec_quads (snd (fst cp))) (fun q => (3 * lame1 (ec_plast (snd (fst cp))) + 2 * lame2 (ec_plast (snd (fst cp)))) * ec_alpha (snd (fst cp)) *
        excess (reference references (td_melted t) cells (fst (fst cp)) (snd (fst cp))) (cell_temperature t (snd (fst cp))) q * cell_divergence d C (snd (fst cp)) q v * q_jxw q) else 0))).
  - unfold mechanical_work. apply Sum_combine2; [lia|lia|]. intros i [pos c] row row' Ei Er Er'. assert (row' = row) by congruence. subst row'. destruct (NI i _ Ei) as [Ep Ec]. cbn [fst snd] in *. subst pos. destruct (takes_part c) eqn:T; [|lra].
    rewrite <- (Sum_combine (fun qp : quad RNum * point RNum => (3 * lame1 (ec_plast c) + 2 * lame2 (ec_plast c)) * ec_alpha c * excess (reference references (td_melted t) cells i c) (cell_temperature t c) (fst qp) * cell_divergence d C c (fst qp) v * q_jxw (fst qp)) _ (ec_quads c) row);
      [|exact (RP i c row Ec T Er)| reflexivity]. rewrite <- Sum_minus. apply Sum_combine2; [exact (RP i c row Ec T Er)| exact (RP i c row Ec T Er)|]. intros k q p p' Eq Epk Epk'. assert (p' = p) by congruence. subst p'. cbn [fst snd].
    destruct (SP i c k q row p Ec T Eq Er Epk) as [S1 _]. rewrite (contract_minus_isotropic d (List.length (upper d))) by (try exact S1; apply strain_shaped_t). rewrite tr_strain. cbn [num RNum]. ring.
  - rewrite Sum_minus. f_equal.
    + unfold stress_work. clear - LP NI LI.
      assert (G : forall (f : ecell RNum * list (point RNum) -> R) (l : list (ecell RNum)) pts k, Sum (combine (combine (seq k (List.length l)) l) pts) (fun cp => f (snd (fst cp), snd cp)) = Sum (combine l pts) f).
      { intros f. induction l as [|x l IH]; intros [|y m] k; try reflexivity. cbn [List.length seq combine]. rewrite !Sum_cons. cbn [fst snd]. f_equal. apply IH. }
      exact (G (fun cp => if takes_part (fst cp) then Sum (combine (ec_quads (fst cp)) (snd cp)) (fun qp => contract (p_stress (snd qp)) (strain_tensor d C (fst cp) (fst qp) v) * q_jxw (fst qp)) else 0) cells pts O).
    + unfold thermal_work. apply Sum_combine; [lia|]. intros i pc row _ _. reflexivity.
Qed.

(** ** What the return mapping takes *)
Lemma update_stress d o (m : plasticity RNum) (p : point RNum) e : shaped d o (p_stress p) -> shaped d o (p_back p) -> shaped d o e ->
  p_stress (update_point m p e) = tsub (trial m p e) (plastic_correction m p (trial m p e)).
Proof.
  intros A B E. assert (T : shaped d o (trial m p e)) by (apply tadd_shaped; [exact A| now apply hooke_shaped]).
  assert (X : shaped d o (effective p (trial m p e))) by (apply tsub_shaped; [now apply dev_shaped| exact B]).
  unfold update_point. fold (trial m p e). fold (effective p (trial m p e)). unfold plastic_correction. cbv zeta. rewrite norm_R.
  cbn [nltb RNum]. unfold Rltb. destruct (Rlt_dec (magnitude (effective p (trial m p e))) (p_yield p)) as [L|L]; cbn [p_stress].
  - apply (sym_ext d o); [exact T| apply tsub_shaped; [exact T| now apply tscale_shaped]| |]; intros i Hi.
    + rewrite (D_sub d o) by (auto; now apply tscale_shaped). rewrite (D_scale d o) by auto. unfold Rdiv. ring.
    + rewrite (O_sub d o) by (auto; now apply tscale_shaped). rewrite (O_scale d o) by auto. unfold Rdiv. ring.
  - f_equal. apply (sym_ext d o); [apply tscale_shaped, tdiv_shaped, X| now apply tscale_shaped| |]; intros i Hi.
    + rewrite !(D_scale d o) by (auto; now apply tdiv_shaped). rewrite (D_div d o) by auto. change (nofZ RNum 2) with 2. cbn [nmul ndiv nsub nadd RNum]. unfold Rdiv. ring.
    + rewrite !(O_scale d o) by (auto; now apply tdiv_shaped). rewrite (O_div d o) by auto. change (nofZ RNum 2) with 2. cbn [nmul ndiv nsub nadd RNum]. unfold Rdiv. ring.
Qed.
Lemma contract_sub_l d o (a b e : sym RNum) : shaped d o a -> shaped d o b -> shaped d o e -> contract (tsub a b) e = contract a e - contract b e.
Proof.
  intros A B E. rewrite !(contract_sum d o) by (try apply tsub_shaped; assumption).
  rewrite (Rsum_to_ext d _ (fun i => D a i * D e i + (-1) * (D b i * D e i))) by (intros i L; rewrite (D_sub d o) by auto; ring).
  rewrite (Rsum_to_ext o (fun i => O_ (tsub a b) i * O_ e i) (fun i => O_ a i * O_ e i + (-1) * (O_ b i * O_ e i))) by (intros i L; rewrite (O_sub d o) by auto; ring).
  rewrite (Rsum_to_lin d (-1) (fun i => D a i * D e i)), (Rsum_to_lin o (-1) (fun i => O_ a i * O_ e i)). ring.
Qed.
Section Solve2.
  Variables (d n : nat) (C : constraints RNum) (cells : list (ecell RNum)).
  Hypothesis Hd : d = 2%nat \/ d = 3%nat.
  Hypothesis Cok : closed_ok n C.
  Hypothesis H : Forall (cell_ok d n) cells.
  Lemma trial_total (s : mstate RNum) (u : list R) (c : ecell RNum) (q : quad RNum) (p : point RNum) : match ms_old s with None => True | Some v => conforms n C v end -> conforms n C u -> p_stress p = hooke (lame1 (ec_plast c)) (lame2 (ec_plast c)) (strain_tensor d C c q (previous s)) ->
    trial (ec_plast c) p (strain_tensor d C c q (HeatSpec.entry (incrementR s u))) = hooke (lame1 (ec_plast c)) (lame2 (ec_plast c)) (strain_tensor d C c q (HeatSpec.entry u)).
  Proof.
    intros Po Cu ES. unfold trial. rewrite ES. apply hooke_increment.
    - intros a b0. exact (strain_increment n C s u c q a b0 Po Cu).
    - rewrite <- !tr_strain. rewrite !(tr_sum d _ _ (strain_shaped_t d C c q _)).
      rewrite (Rsum_to_ext d (D (strain_tensor d C c q (HeatSpec.entry (incrementR s u)))) (fun i => D (strain_tensor d C c q (HeatSpec.entry u)) i + (-1) * D (strain_tensor d C c q (previous s)) i)).
      + rewrite Rsum_to_lin. ring.
      + intros i Li. rewrite !strain_D_t by exact Li. rewrite (strain_increment n C s u c q i i Po Cu). ring.
  Qed.
  Lemma solve_defect b iterate s s' u v : state_ok d n C cells s -> (forall k, List.length (iterate k : list R) = n) -> solveR d n C cells b iterate s = Ok s' -> ms_old s' = Some u ->
    elastic_stress d C cells (ms_points s) (previous s) ->
    stress_work d C cells (ms_points s') v = internal_work d C cells v (HeatSpec.entry u) - correction_work d C cells (ms_points s) (HeatSpec.entry u) v.
  Proof.
    intros So LI E Ou ES. pose proof (solve_state d n C cells Hd Cok H b iterate s s' So LI E) as [[(LP' & RP' & _) _] _].
    pose proof (solve_points d n C cells b iterate s Hd Cok H So LI) as P. destruct (displacementR n C (assemble_matrix (N := RNum) C cells) b iterate) as [u0| |] eqn:Ed; try congruence.
    destruct P as (Cu & s0 & E0 & O0 & L0 & U & K). rewrite E in E0. injection E0 as <-. assert (u0 = u) by congruence. subst u0. destruct So as [Pk Po]. pose proof Pk as (LP & RP & SP).
    unfold stress_work, internal_work, correction_work, solid. rewrite Sum_filter.
    rewrite <- (Sum_combine (fun cp : ecell RNum * list (point RNum) => if takes_part (fst cp) then Sum (ec_quads (fst cp)) (fun q => (lame1 (ec_plast (fst cp)) * cell_divergence d C (fst cp) q v * cell_divergence d C (fst cp) q (HeatSpec.entry u) +
      2 * lame2 (ec_plast (fst cp)) * Rsum_to d (fun a => Rsum_to d (fun b0 => cell_strain C (fst cp) q v a b0 * cell_strain C (fst cp) q (HeatSpec.entry u) a b0))) * q_jxw q) else 0) _ cells (ms_points s) LP) by reflexivity.
    rewrite <- Sum_minus. apply Sum_combine2; [exact LP'| exact LP|]. intros pos c row' row Ec Er' Er. cbn [fst snd]. destruct (takes_part c) eqn:T; [|lra].
    destruct (U pos c row row' Ec T Er Er') as [Lr V].
    rewrite <- (Sum_combine (fun qp : quad RNum * point RNum => (lame1 (ec_plast c) * cell_divergence d C c (fst qp) v * cell_divergence d C c (fst qp) (HeatSpec.entry u) +
      2 * lame2 (ec_plast c) * Rsum_to d (fun a => Rsum_to d (fun b0 => cell_strain C c (fst qp) v a b0 * cell_strain C c (fst qp) (HeatSpec.entry u) a b0))) * q_jxw (fst qp)) _ (ec_quads c) row (RP pos c row Ec T Er)) by reflexivity.
    rewrite <- Sum_minus. apply Sum_combine2; [exact (RP' pos c row' Ec T Er')| exact (RP pos c row Ec T Er)|]. intros k q p' p Eq Ep' Ep. cbn [fst snd].
    rewrite (V k q p Eq Ep) in Ep'. injection Ep' as <-. destruct (SP pos c k q row p Ec T Eq Er Ep) as [S1 S2]. pose proof (strain_shaped_t d C c q) as SH.
    rewrite (update_stress d (List.length (upper d)) _ _ _ S1 S2 (SH _)). rewrite (trial_total s u c q p Po Cu (ES pos c k q row p Ec T Eq Er Ep)).
    rewrite (contract_sub_l d (List.length (upper d))); [|apply hooke_shaped, SH| unfold plastic_correction; apply tscale_shaped, tsub_shaped; [apply dev_shaped, hooke_shaped, SH| exact S2]| apply SH].
    rewrite contract_hooke by exact Hd. ring.
  Qed.
End Solve2.
