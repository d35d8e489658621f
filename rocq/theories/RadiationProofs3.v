(** RadiationProofs3.v -- any number of steps with laws that depend on the temperature. *)
From Coq Require Import Reals List Bool String ZArith Lra Lia Permutation.
From Verif Require Import Base MaterialModel MaterialSpec InputModel HeatModel HeatSpec MaterialProofs MaterialProofs2 HeatProofs HeatProofs2 HeatProofs3 HeatProofs4 HeatProofs5 HeatProofs7
  StabilitySpec StabilityProofs StabilityProofs2 StabilityProofs3 StabilityProofs4 StabilityProofs5 MaximumSpec MaximumProofs MaximumProofs2 RadiationSpec RadiationProofs RadiationProofs2.
Import ListNotations.
Open Scope R_scope.

Lemma in_indexed_nth {A} (l : list A) i a : In (i, a) (indexed l) -> nth_error l i = Some a.
Proof.
  unfold indexed. assert (G : forall l s, In (i, a) (combine (seq s (List.length l)) l) -> (s <= i)%nat /\ nth_error l (i - s) = Some a).
  { clear l. induction l as [|x l IH]; intros s I; [destruct I|]. cbn [List.length seq combine] in I. destruct I as [E|I]; [injection E as -> ->; split; [lia|]; rewrite Nat.sub_diag; reflexivity|].
    destruct (IH (S s) I) as [L E]. split; [lia|]. replace (i - s)%nat with (S (i - S s)) by lia. exact E. }
  intros I. destruct (G l 0%nat I) as [_ E]. rewrite Nat.sub_0_r in E. exact E.
Qed.
Definition held (lo hi x : R) : R := if Rle_dec lo x then if Rle_dec x hi then x else lo else lo.
Lemma held_in lo hi x : lo <= hi -> lo <= held lo hi x <= hi.
Proof. intros. unfold held. destruct (Rle_dec lo x); [destruct (Rle_dec x hi)|]; lra. Qed.
Lemma held_id lo hi x : lo <= x <= hi -> held lo hi x = x.
Proof. intros. unfold held. destruct (Rle_dec lo x); [destruct (Rle_dec x hi)|]; lra. Qed.
Definition point_of (cs : list (hcell RNum)) (C : constraints RNum) (y : list R) (i q : nat) : R :=
  match nth_error cs i with None => 0 | Some c => match nth_error (c_quads c) q with None => 0 | Some x => field C c x (entry y) end end.
Lemma point_in cs C y i q c x : In (i, c) (indexed cs) -> In (q, x) (indexed (c_quads c)) -> point_of cs C y i q = field C c x (entry y).
Proof. intros I J. unfold point_of. rewrite (in_indexed_nth _ _ _ I), (in_indexed_nth _ _ _ J). reflexivity. Qed.
Lemma indexed_map {A B} (f : A -> B) (l : list A) i a : In (i, a) (indexed l) -> In (i, f a) (indexed (map f l)).
Proof.
  unfold indexed. rewrite map_length. generalize (List.length l). intros n. generalize 0%nat. revert l. induction n as [|n IH]; intros [|x l] s I; try destruct I; cbn [seq combine map] in *.
  - left. injection H as -> ->. reflexivity.
  - right. apply IH. exact H.
Qed.
(** The points of boxes and of their sides have shape functions that are not negative. *)
Lemma box_values dim3 h c : 0 < h -> even_box dim3 true h c c -> Forall (fun q : hquad RNum => Forall (fun v : R => 0 <= v) (h_values q)) (c_quads c).
Proof.
  assert (Ln : forall b x, two x -> 0 <= lin b x) by (intros b x [-> | ->]; destruct b; unfold lin; lra).
  intros H [_ B]. apply Forall_forall. intros q I. destruct dim3.
  - destruct B as [dx [dy [dz [dofs [_ [_ [_ [_ [_ [E _]]]]]]]]]]. cbn [operator_points] in E. subst c. unfold brick in I. cbn [c_quads] in I. apply in_flat_map in I as [z [Iz I]]. apply in_flat_map in I as [y [Iy I]]. apply in_map_iff in I as [x [<- Ix]].
    apply ends_two in Iz, Iy, Ix. unfold point3. cbn [h_values]. apply Forall_forall. intros v Iv. apply in_map_iff in Iv as [k [<- _]]. repeat apply Rmult_le_pos; apply Ln; assumption.
  - destruct B as [dx [dz [dofs [_ [_ [_ [_ [E _]]]]]]]]. cbn [operator_points] in E. subst c. unfold rectangle in I. cbn [c_quads] in I. apply in_flat_map in I as [z [Iz I]]. apply in_map_iff in I as [x [<- Ix]].
    apply ends_two in Iz, Ix. unfold point2. cbn [h_values]. apply Forall_forall. intros v Iv. apply in_map_iff in Iv as [k [<- _]]. repeat apply Rmult_le_pos; apply Ln; assumption.
Qed.
Lemma side_values n dofs wc c : 0 <= fst wc -> side n dofs wc c -> Forall (fun q : hquad RNum => 0 <= h_jxw q /\ Forall (fun v : R => 0 <= v) (h_values q)) (c_quads c).
Proof.
  intros W [_ E]. apply Forall_forall. intros q I.
  assert (K : In ((h_jxw q : R), (h_values q : list R)) (map (fun a => (fst wc, map (fun k => if Nat.eqb k a then 1 else 0) (seq 0 n))) (snd wc))) by (rewrite <- E; exact (in_map (fun q : hquad RNum => ((h_jxw q : R), (h_values q : list R))) _ _ I)).
  apply in_map_iff in K as [a [Ea _]]. injection Ea as E1 E2. split; [exact (eq_ind _ (fun x => 0 <= x) W _ E1)|]. refine (eq_ind _ (fun l : list R => Forall (fun v : R => 0 <= v) l) _ _ E2).
  apply Forall_forall. intros v Iv. apply in_map_iff in Iv as [k [<- _]]. destruct (Nat.eqb k a); lra.
Qed.
Lemma sides_values dim3 h m : 0 < h -> exposed_boxes dim3 h m -> forall f, In f (m_faces m) -> on_boundary f = true -> Forall (fun q : hquad RNum => 0 <= h_jxw q /\ Forall (fun v : R => 0 <= v) (h_values q)) (c_quads (active_side f)).
Proof.
  intros H0 [_ [sides [rest [F2 Pm]]]] f If B. assert (I : In (active_side f) (List.concat sides)) by (apply (Permutation_in _ Pm); apply in_or_app; left; apply in_map; apply filter_In; split; assumption).
  apply in_concat in I as [cs [I1 I2]]. clear Pm If B. induction F2 as [|c s0 l l' H _ IH]; [destruct I1|]. destruct I1 as [-> | I1]; [|exact (IH I1)]. clear IH. destruct H as [_ H].
  assert (Pick : forall n dofs W, Forall (fun wc => 0 <= fst wc) W -> Forall2 (side n dofs) W cs -> exists wc, 0 <= fst wc /\ side n dofs wc (active_side f)).
  { clear - I2. intros n dofs W Fa H. induction H as [|wc c W cs S1 _ IH]; [destruct I2|]. inversion Fa; subst. destruct I2 as [<-|I]; [exists wc; split; assumption|apply IH; assumption]. }
  destruct dim3.
  - destruct H as [dx [dy [dz [dofs [Hx [Hy [Hz [_ [_ Sd]]]]]]]]]. destruct (Pick 8%nat dofs (sides3 dx dy dz)) as [wc [K1 K2]]; [|exact Sd|exact (side_values _ _ _ _ K1 K2)].
    unfold sides3. repeat (apply Forall_cons; [cbn [fst]; nra|]). apply Forall_nil.
  - destruct H as [dx [dz [dofs [Hx [Hz [_ [_ Sd]]]]]]]. destruct (Pick 4%nat dofs (sides2 dx dz)) as [wc [K1 K2]]; [|exact Sd|exact (side_values _ _ _ _ K1 K2)].
    unfold sides2. repeat (apply Forall_cons; [cbn [fst]; lra|]). apply Forall_nil.
Qed.
Lemma boxes_step dim3 m K F alpha g lo hi h t dt (y : list R) : mesh_ok m -> massive m -> m_C m = [] -> exposed_boxes dim3 h m -> laws_within m K F lo hi alpha g -> 0 < h -> 0 <= lo -> 0 <= dt ->
  dt * (even_factor dim3 true * (alpha / (h * h) + g / h)) <= 1 -> List.length y = m_n m -> between m lo hi y ->
  between m lo hi (snd (evolve (N := RNum) ForwardEuler (fun _ _ v => evaluate (N := RNum) dim3 false false m K F v) t dt y)).
Proof.
  intros Mok Ms C0 Ex [G0 [Lk Lf]] H0 Lo D0 DL Ly Bt j Fj. assert (LH : lo <= hi) by (specialize (Bt j Fj); lra). revert j Fj.
  assert (W : positive_weights (m_C m)) by (rewrite C0; constructor).
  set (P := fun i q => K i q (held lo hi (point_of (m_cells m) (m_C m) y i q)) : point_law RNum).
  set (TQ := fun i q => point_of (map active_side (m_faces m)) (m_C m) y i q).
  set (Q := fun i q => F i q (match nth_error (m_faces m) i with Some f => if on_boundary f then held lo hi (TQ i q) else TQ i q | None => TQ i q end) : face_law RNum).
  assert (EQ : forall i f q, In (i, f) (indexed (m_faces m)) -> Q i q = F i q (if on_boundary f then held lo hi (TQ i q) else TQ i q)).
  { intros i f q I. unfold Q. rewrite (in_indexed_nth _ _ _ I). reflexivity. }
  assert (At : at_temperatures m K P F Q y).
  { split.
    - intros i c q x I J. unfold P. rewrite (point_in _ _ _ _ _ _ _ I J). rewrite held_id; [reflexivity|]. pose proof (in_indexed _ _ I) as I'. pose proof (in_indexed _ _ J) as J'. cbn [snd] in I', J'.
      apply (field_between m lo hi); try assumption; [exact (proj1 (Forall_forall _ _) (m_cells_ok m Mok) _ I')|]. exact (proj1 (Forall_forall _ _) (box_values dim3 h c H0 (even_of dim3 h m Ex c I')) x J').
    - intros i f q x I J. rewrite (EQ i f q I). unfold TQ. rewrite (point_in _ _ _ _ _ _ _ (indexed_map active_side _ _ _ I) J). destruct (on_boundary f) eqn:B; [|reflexivity].
      rewrite held_id; [reflexivity|]. pose proof (in_indexed _ _ I) as I'. pose proof (in_indexed _ _ J) as J'. cbn [snd] in I', J'.
      apply (field_between m lo hi); try assumption; [exact (active_ok m Mok (i, f) I)|]. exact (proj2 (proj1 (Forall_forall _ _) (sides_values dim3 h m H0 Ex f I' B) x J')). }
  assert (Fl : forall j f q, In (j, f) (indexed (m_faces m)) -> on_boundary f = true -> let k := Q j q in
    0 <= fl_inv k /\ 0 <= fl_h k /\ 0 <= fl_emissivity k /\ (has_flag (hf_type f) convective = true -> lo <= fl_conv k <= hi) /\ (has_flag (hf_type f) radiative = true -> lo <= fl_rad k <= hi) /\ fl_inv k * largest_coef (hf_type f) k hi <= g).
  { intros j f q I B. rewrite (EQ j f q I), B. exact (Lf j f q _ I B (held_in lo hi (TQ j q) LH)). }
  assert (Su : surroundings false m Q lo hi).
  { intros _ j f I B. split; [exact (sides_values dim3 h m H0 Ex f (in_indexed _ _ I) B)|]. intros q. destruct (Fl j f q I B) as [F1 [F2 [F3 [F4 [F5 _]]]]]. cbv zeta in *. tauto. }
  apply (radiating_step dim3 false m K P F Q lo hi t dt y); try assumption.
  apply (boxes_moderate dim3 m P Q alpha g lo hi h dt); try assumption.
  - intros i q. unfold P. apply Lk. apply held_in. exact LH.
  - split; [exact G0|]. intros j f q I B. destruct (Fl j f q I B) as [_ [_ [_ [_ [_ F6]]]]]. exact F6.
Qed.
Lemma boxes_many dim3 m K F alpha g lo hi h t dt (y : list R) n : mesh_ok m -> massive m -> m_C m = [] -> exposed_boxes dim3 h m -> laws_within m K F lo hi alpha g -> 0 < h -> 0 <= lo -> 0 <= dt ->
  dt * (even_factor dim3 true * (alpha / (h * h) + g / h)) <= 1 -> List.length y = m_n m -> between m lo hi y ->
  between m lo hi (snd (many ForwardEuler (fun _ _ v => evaluate (N := RNum) dim3 false false m K F v) dt n (t, y))).
Proof.
  intros Mok Ms C0 Ex Lw H0 Lo D0 DL Ly Bt. set (f := fun (_ : nat) (_ : R) (v : list R) => evaluate (N := RNum) dim3 false false m K F v).
  assert (X : List.length (snd (many ForwardEuler f dt n (t, y))) = m_n m /\ between m lo hi (snd (many ForwardEuler f dt n (t, y)))).
  { induction n as [|n [IL IB]]; [split; assumption|]. cbn [many]. set (ty := many ForwardEuler f dt n (t, y)) in *. split.
    - destruct (evolve (N := RNum) ForwardEuler f (fst ty) dt (snd ty)) as [t1 y1] eqn:E. destruct (evolve_parts ForwardEuler _ _ _ _ t1 y1 E) as [_ Y1]. cbn [snd]. rewrite Y1. apply (step_length (m_n m)); [|exact IL]. intros; apply (rate_length dim3 false false m K F).
    - apply (boxes_step dim3 m K F alpha g lo hi h (fst ty) dt (snd ty)); assumption. }
  exact (proj2 X).
Qed.
