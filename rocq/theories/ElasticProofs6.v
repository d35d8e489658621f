(** ElasticProofs6.v -- stress and equilibrium. *)
From Coq Require Import Reals ZArith Bool List Lia Lra.
From Verif Require Import Base BaseFacts CellModel InputModel AssimilationSpec AssimilationProofs AssimilationProofs3 MechProofs StressModel StressSpec StressProofs StressProofs2 ElementModel ElementSpec ElementProofs ElementProofs2
  HeatModel HeatSpec HeatProofs HeatProofs2 ElasticModel ElasticSpec ElasticProofs ElasticProofs2 ElasticProofs3 ElasticProofs4 ElasticProofs5.
Import ListNotations.
Local Open Scope R_scope.

(** ** Strain *)
Definition vgetR (u : list R) (j : nat) : R := vget (N := RNum) u j.
Lemma fold_if {A} (P : A -> bool) (f : A -> R) l : forall acc : R, fold_left (fun s x => if P x then s + f x else s) l acc = acc + Sum l (fun x => if P x then f x else 0).
Proof. induction l as [|x l IH]; intros acc; cbn [fold_left]; [unfold Sum; cbn; ring|]. rewrite IH, Sum_cons. destruct (P x); ring. Qed.
Lemma grad_entry_R (comps : list nat) (q : quad RNum) (u : list R) a b : grad_entry (N := RNum) comps q u a b = ElementSpec.gradient (List.length u) comps q (fun i => nth i u 0) a b.
Proof.
  unfold grad_entry, ElementSpec.gradient.
  transitivity (Sum (numbered u) (fun ix : nat * R => if Nat.eqb (nth (fst ix) comps O) a then snd ix * nth b (nth (fst ix) (q_grads q) []) 0 else 0)).
  - etransitivity; [exact (fold_if (fun ix : nat * R => Nat.eqb (nth (fst ix) comps O) a) (fun ix => snd ix * nth b (nth (fst ix) (q_grads q) []) 0) (numbered u) 0)|]. apply Rplus_0_l.
  - unfold numbered, Rsum_to. change (Rsum (map ?f ?l)) with (Sum l f).
    assert (G : forall (F : nat -> R -> R) (l : list R) k, Sum (combine (seq k (List.length l)) l) (fun ix => F (fst ix) (snd ix)) = Sum (seq k (List.length l)) (fun i => F i (nth (i - k) l 0))).
    { intros F. induction l as [|x l IH]; intros k; [reflexivity|]. cbn [List.length seq combine]. rewrite !Sum_cons. cbn [fst snd]. rewrite Nat.sub_diag. cbn [nth]. f_equal. rewrite IH. apply Sum_ext. intros i I. apply in_seq in I. replace (i - k)%nat with (S (i - S k)) by lia. reflexivity. }
    etransitivity; [exact (G (fun i x => if Nat.eqb (nth i comps O) a then x * nth b (nth i (q_grads q) []) 0 else 0) u O)|]. apply Sum_ext. intros i _. now rewrite Nat.sub_0_r.
Qed.
Lemma pairs_upper d : d = 2%nat \/ d = 3%nat -> pairs d = upper d.
Proof. intros [-> | ->]; reflexivity. Qed.
Definition sym_gradientR d comps q (u : list R) : sym RNum := sym_gradient (N := RNum) d comps q u.
Lemma sym_gradient_strain d n C (c : ecell RNum) q (u : list R) : d = 2%nat \/ d = 3%nat -> cell_ok d n c -> conforms n C u ->
  sym_gradientR d (ec_comps c) q (map (vgetR u) (ec_dofs c)) = strain_tensor d C c q (HeatSpec.entry u).
Proof.
  intros Hd [_ D] [L CF]. rewrite Forall_forall in D.
  assert (G : forall a b, grad_entry (N := RNum) (ec_comps c) q (map (vgetR u) (ec_dofs c)) a b = ElementSpec.gradient (List.length (ec_dofs c)) (ec_comps c) q (local C (HeatSpec.entry u) c) a b).
  { intros a b. rewrite grad_entry_R, map_length. apply gradient_local_ext. intros i Li. unfold local. rewrite <- CF by (apply D, nth_In, Li).
    rewrite (nth_indep _ 0 (vgetR u O)) by (rewrite map_length; exact Li). rewrite (map_nth (vgetR u)). reflexivity. }
  unfold sym_gradientR, sym_gradient, strain_tensor. f_equal.
  - apply map_ext. intros a. rewrite G. unfold cell_strain, ElementSpec.strain. field.
  - rewrite (pairs_upper d Hd). apply map_ext. intros [a b]. cbn [fst snd]. rewrite !G. unfold cell_strain, ElementSpec.strain. cbn [nadd ndiv RNum]. reflexivity.
Qed.
Lemma strain_shaped_t d C c q u : shaped d (List.length (upper d)) (strain_tensor d C c q u).
Proof. unfold shaped, strain_tensor. cbn [dg od]. rewrite !map_length, seq_length. auto. Qed.
Lemma strain_D_t d C c q u i : (i < d)%nat -> D (strain_tensor d C c q u) i = cell_strain C c q u i i.
Proof.
  intros L. unfold D, strain_tensor. cbn [dg]. rewrite (nth_indep _ 0 (cell_strain C c q u O O)) by (rewrite map_length, seq_length; exact L). rewrite (map_nth (fun a => cell_strain C c q u a a)), seq_nth by exact L. reflexivity.
Qed.
Lemma strain_O_t d C c q u i : (i < List.length (upper d))%nat -> O_ (strain_tensor d C c q u) i = cell_strain C c q u (fst (nth i (upper d) (O, O))) (snd (nth i (upper d) (O, O))).
Proof.
  intros L. unfold O_, strain_tensor. cbn [od]. rewrite (nth_indep _ 0 (cell_strain C c q u (fst (O, O)) (snd (O, O)))) by (rewrite map_length; exact L). apply (map_nth (fun ab => cell_strain C c q u (fst ab) (snd ab))).
Qed.
Lemma tr_strain d C c q u : tr (strain_tensor d C c q u) = cell_divergence d C c q u.
Proof.
  rewrite (tr_sum d _ _ (strain_shaped_t d C c q u)). unfold cell_divergence, divergence. apply Rsum_to_ext. intros a L. rewrite strain_D_t by exact L. unfold cell_strain, ElementSpec.strain. field.
Qed.
(** The elastic stress is linear in the displacement. *)
Lemma hooke_increment d C c q (u w x : nat -> R) (lambda mu : R) : (forall a b, cell_strain C c q x a b = cell_strain C c q u a b - cell_strain C c q w a b) -> cell_divergence d C c q x = cell_divergence d C c q u - cell_divergence d C c q w ->
  tadd (hooke (N := RNum) lambda mu (strain_tensor d C c q w)) (hooke (N := RNum) lambda mu (strain_tensor d C c q x)) = hooke (N := RNum) lambda mu (strain_tensor d C c q u).
Proof.
  intros HS HDv. pose proof (fun z => strain_shaped_t d C c q z) as SH. set (o := List.length (upper d)) in *.
  apply (sym_ext d o); [apply tadd_shaped; apply hooke_shaped; apply SH| apply hooke_shaped, SH| |]; intros i Hi.
  - rewrite (D_add d o) by (try apply hooke_shaped; auto). rewrite !(D_hooke d o) by auto. rewrite !tr_strain, !strain_D_t by exact Hi. rewrite HS, HDv. ring.
  - rewrite (O_add d o) by (try apply hooke_shaped; auto). rewrite !(O_hooke d o) by auto. rewrite !strain_O_t by exact Hi. rewrite HS. ring.
Qed.
(** Contraction of the elastic stress with a strain. *)
Lemma Rsum_to_2 f : Rsum_to 2 f = f 0%nat + f 1%nat.
Proof. unfold Rsum_to, Rsum. cbn [seq map fold_right]. ring. Qed.
Lemma contract_full d C c q (u v : nat -> R) : d = 2%nat \/ d = 3%nat -> contract (strain_tensor d C c q u) (strain_tensor d C c q v) = Rsum_to d (fun a => Rsum_to d (fun b => cell_strain C c q v a b * cell_strain C c q u a b)).
Proof.
  intros Hd. rewrite (contract_sum d (List.length (upper d))) by apply strain_shaped_t.
  rewrite (Rsum_to_ext d _ (fun i => cell_strain C c q u i i * cell_strain C c q v i i)) by (intros i L; rewrite !strain_D_t by exact L; reflexivity).
  rewrite (Rsum_to_ext (List.length (upper d)) _ (fun i => cell_strain C c q u (fst (nth i (upper d) (O, O))) (snd (nth i (upper d) (O, O))) * cell_strain C c q v (fst (nth i (upper d) (O, O))) (snd (nth i (upper d) (O, O))))) by (intros i L; rewrite !strain_O_t by exact L; reflexivity).
  assert (SY : forall z a b, cell_strain C c q z a b = cell_strain C c q z b a) by (intros; unfold cell_strain, ElementSpec.strain; field).
  destruct Hd as [-> | ->]; cbn [upper flat_map map seq Nat.sub app List.length].
  - rewrite !Rsum_to_2. unfold Rsum_to, Rsum. cbn [seq map fold_right nth fst snd]. rewrite (SY u 1%nat 0%nat), (SY v 1%nat 0%nat). ring.
  - rewrite !Rsum_to_3. cbn [nth fst snd]. rewrite (SY u 1%nat 0%nat), (SY v 1%nat 0%nat), (SY u 2%nat 0%nat), (SY v 2%nat 0%nat), (SY u 2%nat 1%nat), (SY v 2%nat 1%nat). ring.
Qed.
Lemma contract_hooke d C c q (u v : nat -> R) (lambda mu : R) : d = 2%nat \/ d = 3%nat ->
  contract (hooke (N := RNum) lambda mu (strain_tensor d C c q u)) (strain_tensor d C c q v) =
  lambda * cell_divergence d C c q v * cell_divergence d C c q u + 2 * mu * Rsum_to d (fun a => Rsum_to d (fun b => cell_strain C c q v a b * cell_strain C c q u a b)).
Proof.
  intros Hd. rewrite <- contract_full by exact Hd. pose proof (fun z => strain_shaped_t d C c q z) as SH.
  rewrite !(contract_sum d (List.length (upper d))) by (try apply hooke_shaped; apply SH). rewrite <- (tr_strain d C c q v), (tr_sum d _ _ (SH v)).
  rewrite (Rsum_to_ext d (fun i => D (hooke (N := RNum) lambda mu (strain_tensor d C c q u)) i * D (strain_tensor d C c q v) i) (fun i => lambda * cell_divergence d C c q u * D (strain_tensor d C c q v) i + 2 * mu * (D (strain_tensor d C c q u) i * D (strain_tensor d C c q v) i))).
  2:{ intros i L. rewrite (D_hooke d (List.length (upper d))) by auto. rewrite tr_strain. ring. }
  rewrite (Rsum_to_ext (List.length (upper d)) (fun i => O_ (hooke (N := RNum) lambda mu (strain_tensor d C c q u)) i * O_ (strain_tensor d C c q v) i) (fun i => 2 * mu * (O_ (strain_tensor d C c q u) i * O_ (strain_tensor d C c q v) i))).
  2:{ intros i L. rewrite (O_hooke d (List.length (upper d))) by auto. ring. }
  rewrite Rsum_to_add, !Rsum_to_scal. ring.
Qed.

(** ** A solve *)
Lemma displacement_conforms n C A (b : list R) iterate u : closed_ok n C -> (forall k, List.length (iterate k : list R) = n) -> displacementR n C A b iterate = Ok u -> conforms n C u.
Proof.
  intros Cok LI E. destruct (displacement_ok n C A b iterate u LI E) as (x & Lx & _ & ->). fold (distributeR C x). split; [rewrite distribute_length; exact Lx|]. intros j Lj. now apply (distribute_conforms n).
Qed.
Definition incrementR (s : mstate RNum) (u : list R) : list R := match ms_old s with None => u | Some v => map2 (N := RNum) (fun p q => (p - q)%R) u v end.
Lemma increment_entry n C (s : mstate RNum) (u : list R) j : match ms_old s with None => True | Some v => conforms n C v end -> conforms n C u -> HeatSpec.entry (incrementR s u) j = HeatSpec.entry u j - previous s j.
Proof.
  intros Po [Lu _]. unfold incrementR, previous. destruct (ms_old s) as [v|]; [|lra]. destruct Po as [Lv _]. unfold HeatSpec.entry.
  destruct (Nat.lt_ge_cases j (List.length u)) as [L|L].
  - apply nth_map2; [congruence| exact L].
  - rewrite !nth_overflow; [lra| lia| exact L|]. rewrite map2_length by congruence. exact L.
Qed.
Lemma increment_conforms n C (s : mstate RNum) (u : list R) : match ms_old s with None => True | Some v => conforms n C v end -> conforms n C u -> conforms n C (incrementR s u).
Proof.
  intros Po Cu. split.
  - unfold incrementR. destruct (ms_old s) as [v|]; [|apply Cu]. destruct Cu as [Lu _], Po as [Lv _]. rewrite map2_length by congruence. exact Lu.
  - intros j Lj. rewrite (increment_entry n C) by assumption.
    assert (E : nodal C (HeatSpec.entry (incrementR s u)) j = nodal C (HeatSpec.entry u) j - nodal C (previous s) j).
    { transitivity (nodal C (fun k => HeatSpec.entry u k + (-1) * previous s k) j); [|rewrite nodal_lin; ring]. rewrite <- !targets_nodal. apply Sum_ext. intros w _. rewrite (increment_entry n C) by assumption. ring. }
    rewrite E. destruct Cu as [_ Cu]. rewrite <- (Cu j Lj). f_equal. unfold previous. destruct (ms_old s) as [v|]; [apply Po; exact Lj|]. rewrite <- targets_nodal. symmetry. apply Sum_zero. intros w _. ring.
Qed.
Lemma strain_increment n C (s : mstate RNum) (u : list R) (c : ecell RNum) q a b : match ms_old s with None => True | Some v => conforms n C v end -> conforms n C u ->
  cell_strain C c q (HeatSpec.entry (incrementR s u)) a b = cell_strain C c q (HeatSpec.entry u) a b - cell_strain C c q (previous s) a b.
Proof.
  intros Po Cu. transitivity (cell_strain C c q (fun k => HeatSpec.entry u k + (-1) * previous s k) a b); [|rewrite cell_strain_lin; ring]. unfold cell_strain, ElementSpec.strain.
  assert (L : forall i, local C (HeatSpec.entry (incrementR s u)) c i = local C (fun k => HeatSpec.entry u k + (-1) * previous s k) c i) by (intros i; unfold local; rewrite <- !targets_nodal; apply Sum_ext; intros w _; rewrite (increment_entry n C) by assumption; ring).
  rewrite (gradient_local_ext _ _ _ (local C (HeatSpec.entry (incrementR s u)) c) (local C (fun k => HeatSpec.entry u k + (-1) * previous s k) c) a b) by (intros; apply L).
  rewrite (gradient_local_ext _ _ _ (local C (HeatSpec.entry (incrementR s u)) c) (local C (fun k => HeatSpec.entry u k + (-1) * previous s k) c) b a) by (intros; apply L). reflexivity.
Qed.
Definition solveR d n C cells b iterate s : res (mstate RNum) := solve (N := RNum) d n C cells b iterate s.
Lemma solve_unfold d n C cells b iterate s : solveR d n C cells b iterate s =
  bind (displacementR n C (assemble_matrix (N := RNum) C cells) b iterate) (fun u => bind (compute_stress (map (stress_cell (N := RNum) d (incrementR s u)) cells) (ms_points s)) (fun pts => Ok (mkms (N := RNum) pts (Some u)))).
Proof. reflexivity. Qed.
(** The point update of a solve. *)
Lemma solve_points d n C cells b iterate s : d = 2%nat \/ d = 3%nat -> closed_ok n C -> Forall (cell_ok d n) cells -> state_ok d n C cells s -> (forall k, List.length (iterate k : list R) = n) ->
  match displacementR n C (assemble_matrix (N := RNum) C cells) b iterate with
  | Ok u => conforms n C u /\ exists s', solveR d n C cells b iterate s = Ok s' /\ ms_old s' = Some u /\ List.length (ms_points s') = List.length cells /\
      (forall pos c row row', nth_error cells pos = Some c -> takes_part c = true -> nth_error (ms_points s) pos = Some row -> nth_error (ms_points s') pos = Some row' -> List.length row' = List.length row /\
         forall k q p, nth_error (ec_quads c) k = Some q -> nth_error row k = Some p -> nth_error row' k = Some (update_point (ec_plast c) p (strain_tensor d C c q (HeatSpec.entry (incrementR s u))))) /\
      (forall pos c, nth_error cells pos = Some c -> takes_part c = false -> nth_error (ms_points s') pos = nth_error (ms_points s) pos)
  | Throw => solveR d n C cells b iterate s = Throw
  | UB => solveR d n C cells b iterate s = UB
  end.
Proof.
  intros Hd Cok H [(LP & RP & SP) Po] LI. rewrite solve_unfold. destruct (displacementR n C (assemble_matrix (N := RNum) C cells) b iterate) as [u| |] eqn:E; cbn [bind]; try reflexivity.
  pose proof (displacement_conforms n C _ b iterate u Cok LI E) as Cu. split; [exact Cu|].
  destruct (compute_stress_spec (map (stress_cell (N := RNum) d (incrementR s u)) cells) (ms_points s)) as (pts & Ep & Lp & Hi & Ha).
  - rewrite map_length. exact LP.
  - intros i mc v Em Ev A. rewrite nth_error_map in Em. destruct (nth_error cells i) as [c|] eqn:Ec; [|discriminate]. injection Em as <-. cbn [stress_cell mc_active mc_strain] in *. rewrite map_length. rewrite (RP i c v Ec A Ev). lia.
  - rewrite Ep. cbn [bind]. exists (mkms (N := RNum) pts (Some u)). split; [reflexivity|]. split; [reflexivity|]. cbn [ms_points]. split; [congruence|]. split.
    + intros pos c row row' Ec A Er Er'.
      destruct (Ha pos (stress_cell (N := RNum) d (incrementR s u) c) row row') as [Lr U]; [rewrite nth_error_map, Ec; reflexivity| exact A| exact Er| exact Er'|]. split; [exact Lr|].
      intros k q p Eq Epk. rewrite (U k p Epk). cbn [stress_cell mc_param mc_strain]. rewrite nth_error_map, Eq. cbn [option_map]. f_equal. f_equal.
      rewrite Forall_forall in H. exact (sym_gradient_strain d n C c q (incrementR s u) Hd (H c (nth_error_In _ _ Ec)) (increment_conforms n C s u Po Cu)).
    + intros pos c Ec A. apply (Hi pos (stress_cell (N := RNum) d (incrementR s u) c)); [rewrite nth_error_map, Ec; reflexivity| exact A].
Qed.
