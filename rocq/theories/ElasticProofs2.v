(** ElasticProofs2.v -- the right hand side tested with virtual displacements. *)
From Coq Require Import Reals ZArith Bool List Lia Lra.
From Verif Require Import Base BaseFacts CellModel InputModel AssimilationSpec AssimilationProofs AssimilationProofs3 MechProofs StressModel StressSpec ElementModel ElementSpec ElementProofs ElementProofs2
  HeatModel HeatSpec HeatProofs HeatProofs2 ElasticModel ElasticSpec ElasticProofs.
Import ListNotations.
Local Open Scope R_scope.

Definition distribute_vectorR (C : constraints RNum) (c : ecell RNum) (f : nat -> R) (rhs : list R) : list R := distribute_vector (N := RNum) C c f rhs.
Lemma distribute_vector_length C c f rhs : List.length (distribute_vectorR C c f rhs) = List.length rhs.
Proof. unfold distribute_vectorR, distribute_vector. apply (loop_length (fun r (ig : nat * nat) => write_dofR C r (snd ig, f (fst ig)))). intros d a. apply write_dof_length. Qed.
Lemma ip_distribute_vector z n C c f rhs : closed_ok n C -> Forall (fun j => (j < n)%nat) (ec_dofs c) -> List.length rhs = n ->
  ip z (distribute_vectorR C c f rhs) = ip z rhs + Rsum_to (List.length (ec_dofs c)) (fun i => local C z c i * f i).
Proof.
  intros Cok D L. unfold local. rewrite <- (Sum_numbered (fun i gi => nodal C z gi * f i) (ec_dofs c)). unfold distribute_vectorR, distribute_vector.
  apply (ip_loop (fun r (ig : nat * nat) => write_dofR C r (snd ig, f (fst ig))) (fun ig => nodal C z (snd ig) * f (fst ig)) (fun ig => (snd ig < n)%nat) z n).
  - intros d a. apply write_dof_length.
  - intros d a Ld La. apply ip_write; rewrite Ld; [now apply closed_targets| exact La].
  - exact L.
  - intros [i g] I. apply in_combine_r in I. rewrite Forall_forall in D. exact (D g I).
Qed.
Lemma in_numbered {A} (l : list A) p : In p (numbered l) -> nth_error l (fst p) = Some (snd p).
Proof.
  unfold numbered. assert (G : forall s, In p (combine (seq s (List.length l)) l) -> (s <= fst p)%nat /\ nth_error l (fst p - s) = Some (snd p)).
  { induction l as [|a l IH]; intros s I; [destruct I|]. cbn [List.length seq combine] in I. destruct I as [<-|I]; [cbn [fst snd]; rewrite Nat.sub_diag; auto|].
    apply IH in I. destruct I as [L E]. split; [lia|]. replace (fst p - s)%nat with (S (fst p - S s)) by lia. exact E. }
  intros I. apply G in I. destruct I as [_ E]. now rewrite Nat.sub_0_r in E.
Qed.
Lemma flag_bound (cells : list joint_cell) : forall pos c, nth_error cells pos = Some c -> j_owned c && j_thermal c = true ->
  (flag_position cells pos < List.length (filter (fun c => j_owned c && j_thermal c) cells))%nat.
Proof.
  unfold flag_position. induction cells as [|a cells IH]; intros [|pos] c E T; try discriminate; cbn [nth_error] in E.
  - injection E as ->. cbn [firstn filter]. rewrite T. cbn. lia.
  - cbn [firstn filter]. specialize (IH pos c E T). destruct (j_owned a && j_thermal a); cbn [List.length]; lia.
Qed.
Lemma filter_map_length {A B} (f : A -> B) (P : B -> bool) l : List.length (filter P (map f l)) = List.length (filter (fun a => P (f a)) l).
Proof. induction l as [|a l IH]; [reflexivity|]. cbn. destruct (P (f a)); cbn; now rewrite IH. Qed.
Lemma reference_spec references (t : thermal_data RNum) cells pos c : thermal_ok references t cells -> nth_error cells pos = Some c -> takes_part c = true ->
  reference_temperature (N := RNum) references (td_melted t) (map ec_joint cells) pos (ec_material c) = Ok (reference references (td_melted t) cells pos c).
Proof.
  intros ((solidus & initial & -> & M) & Lm & TH) E T. rewrite Forall_forall in M, TH. assert (I : In c cells) by (eapply nth_error_In; eauto). specialize (M c I). specialize (TH c I T).
  unfold takes_part in T. apply andb_prop in T. destruct T as [T1 T2].
  assert (Ej : nth_error (map ec_joint cells) pos = Some (ec_joint c)) by (rewrite nth_error_map, E; reflexivity).
  pose proof (flag_bound _ pos _ Ej ltac:(rewrite T1, TH; reflexivity)) as FB. rewrite filter_map_length in FB. cbn [num RNum] in *.
  destruct (nth_error (td_melted t) (flag_position (map ec_joint cells) pos)) as [m|] eqn:Em; [|apply nth_error_None in Em; lia].
  destruct (reference_ok (solidus ++ [initial]) (td_melted t) (map ec_joint cells) pos (ec_material c) (ec_joint c) m initial solidus Ej T1 TH T2 Em eq_refl M) as (r & Er & R1 & R2).
  rewrite Er. f_equal. unfold reference. rewrite (nth_error_nth _ _ _ Em). destruct m.
  - specialize (R1 eq_refl). apply (nth_error_nth _ _ 0) in R1. rewrite app_nth1 by exact M. now symmetry.
  - rewrite last_last. auto.
Qed.
Lemma foldR_ip {A} (f : list R -> A -> res (list R)) (T : (nat -> R) -> A -> R) n (l : list A) : 
  (forall d a, In a l -> List.length d = n -> exists d', f d a = Ok d' /\ List.length d' = n /\ forall z, ip z d' = ip z d + T z a) ->
  forall d, List.length d = n -> exists d', foldR f l d = Ok d' /\ List.length d' = n /\ forall z, ip z d' = ip z d + Sum l (T z).
Proof.
  induction l as [|a l IH]; intros H d L.
  - exists d. repeat split; [exact L|]. intros z. rewrite Sum_nil. ring.
  - destruct (H d a (or_introl eq_refl) L) as (d1 & E1 & L1 & P1). destruct (IH (fun d b I => H d b (or_intror I)) d1 L1) as (d2 & E2 & L2 & P2).
    exists d2. split; [|split; [exact L2|]].
    + rewrite (foldR_cons f a l d d1 E1). exact E2.
    + intros z. rewrite P2, P1, Sum_cons. ring.
Qed.
Lemma thermal_rhs_work d n references (t : thermal_data RNum) C cells : closed_ok n C -> Forall (cell_ok d n) cells -> thermal_ok references t cells ->
  exists b : list R, foldR (thermal_cell_rhs (N := RNum) references t C (map ec_joint cells)) (numbered cells) (repeat 0 n) = Ok b /\ List.length b = n /\
    forall z, ip z b = thermal_work d references t C cells z.
Proof.
  intros Cok H TH. rewrite Forall_forall in H.
  destruct (foldR_ip (thermal_cell_rhs (N := RNum) references t C (map ec_joint cells)) (fun z pc => if takes_part (snd pc) then Sum (ec_quads (snd pc)) (fun q =>
    (3 * lame1 (ec_plast (snd pc)) + 2 * lame2 (ec_plast (snd pc))) * ec_alpha (snd pc) * excess (reference references (td_melted t) cells (fst pc) (snd pc)) (cell_temperature t (snd pc)) q *
    cell_divergence d C (snd pc) q z * q_jxw q) else 0) n (numbered cells)) with (d := repeat 0 n) as (b & E & L & P).
  - intros r [pos c] I Lr. apply in_numbered in I. cbn [fst snd] in *. unfold thermal_cell_rhs. cbn [fst snd]. destruct (takes_part c) eqn:T.
    + rewrite (reference_spec references t cells pos c TH I T). eexists. split; [reflexivity|]. assert (Ic : In c cells) by (eapply nth_error_In; eauto). destruct (H c Ic) as [EL D]. split.
      * etransitivity; [exact (distribute_vector_length C c _ r)| exact Lr].
      * intros z. etransitivity; [exact (ip_distribute_vector z n C c _ r Cok D Lr)|]. f_equal. apply (ElementProofs.load_work d _ _ _ EL).
    + exists r. repeat split; [exact Lr|]. intros z. ring.
  - apply repeat_length.
  - exists b. repeat split; [exact E| exact L|]. intros z. rewrite P, ip_zero. unfold thermal_work. apply Rplus_0_l.
Qed.
(** ** Body forces *)
Lemma body_work d n comps qs (force : list R) (v : nat -> R) : element d n comps qs -> 
  Rsum_to n (fun i => v i * body_load (N := RNum) force comps qs i) =
  Sum qs (fun q => Rsum_to d (fun a => nth a force 0 * Rsum_to n (fun i => if Nat.eqb (nth i comps O) a then v i * nth i (q_values q) 0 else 0)) * q_jxw q).
Proof.
  intros (Lc & Fc & _). rewrite (Rsum_to_ext n _ (fun i => Sum qs (fun q => v i * (nth (nth i comps O) force 0 * nth i (q_values q) 0 * q_jxw q)))).
  2:{ intros i _. unfold body_load. cbn [num RNum nadd nmul]. match goal with |- _ * fold_left (fun m q => m + @?e q) qs _ = _ => rewrite (fold_sum e) end. change (nofZ RNum 0 : R) with 0.
      rewrite Rplus_0_l. change (Rsum (map ?f qs)) with (Sum qs f). rewrite <- Sum_scal. reflexivity. }
  unfold Rsum_to at 1. change (Rsum (map ?f ?l)) with (Sum l f). rewrite Sum_swap. apply Sum_ext. intros q _. rewrite <- Sum_mul || idtac.
  transitivity (Sum (seq 0 n) (fun i => v i * (nth (nth i comps O) force 0 * nth i (q_values q) 0)) * q_jxw q); [rewrite <- Sum_mul; apply Sum_ext; intros; ring|]. f_equal.
  transitivity (Rsum_to d (fun a => Sum (seq 0 n) (fun i => nth a force 0 * (if Nat.eqb (nth i comps O) a then v i * nth i (q_values q) 0 else 0)))).
  2:{ apply Rsum_to_ext. intros a _. rewrite Sum_scal. reflexivity. }
  unfold Rsum_to. change (Rsum (map ?f ?l)) with (Sum l f). rewrite Sum_swap. apply Sum_ext. intros i I. apply in_seq in I.
  assert (Hc : (nth i comps O < d)%nat) by (rewrite Forall_forall in Fc; apply Fc, nth_In; lia).
  transitivity (Rsum_to d (fun a => ind (Nat.eqb (nth i comps O) a) * (nth a force 0 * (v i * nth i (q_values q) 0)))).
  - rewrite (Rsum_pick d (nth i comps O) (fun a => nth a force 0 * (v i * nth i (q_values q) 0)) Hc). ring.
  - unfold Rsum_to. change (Rsum (map ?f ?l)) with (Sum l f). apply Sum_ext. intros a _. destruct (Nat.eqb (nth i comps O) a); unfold ind; ring.
Qed.
Lemma total_force_sum d (fs : list (list R)) a : Forall (fun f => List.length f = d) fs -> (a < d)%nat -> nth a (total_force (N := RNum) d fs) 0 = Sum fs (fun f => nth a f 0).
Proof.
  intros H La. unfold total_force.
  assert (G : forall (acc : list R), List.length acc = d -> nth a (fold_left (fun acc f => map (fun xy => fst xy + snd xy) (combine acc f)) fs acc) 0 = nth a acc 0 + Sum fs (fun f => nth a f 0)).
  { induction fs as [|f fs IH]; intros acc L; [rewrite Sum_nil; cbn; ring|]. inversion H as [|? ? Lf H']; subst. cbn [fold_left]. rewrite (IH H').
    - rewrite Sum_cons. rewrite (nth_indep _ 0 ((fun xy : R * R => fst xy + snd xy) (0, 0))) by (rewrite map_length, combine_length; lia). rewrite (map_nth (fun xy : R * R => fst xy + snd xy) (combine acc f) (0, 0) a), combine_nth by congruence. cbn [fst snd]. ring.
    - rewrite map_length, combine_length. lia. }
  etransitivity; [exact (G (repeat 0 d) (repeat_length 0 d))|]. rewrite nth_repeat. apply Rplus_0_l.
Qed.
Lemma body_rhs_work d n (forces : list (ecell RNum -> list R)) C cells (rhs : list R) : closed_ok n C -> Forall (cell_ok d n) cells -> forces_ok d forces -> List.length rhs = n ->
  exists b : list R, fold_left (body_cell_rhs (N := RNum) d forces C) (filter takes_part cells) rhs = b /\ List.length b = n /\ forall z, ip z b = ip z rhs + force_work d forces C cells z.
Proof.
  intros Cok H F L. eexists. split; [reflexivity|]. rewrite Forall_forall in H.
  assert (LL : forall r c, List.length (body_cell_rhs (N := RNum) d forces C r c) = List.length r) by (intros r c; apply distribute_vector_length).
  split; [etransitivity; [exact (loop_length (body_cell_rhs (N := RNum) d forces C) LL (filter takes_part cells) rhs)| exact L]|].
  intros z. unfold force_work, solid.
  apply (ip_loop (body_cell_rhs (N := RNum) d forces C) (fun c => Sum (ec_quads c) (fun q => Rsum_to d (fun a => Sum forces (fun f => nth a (f c) 0) * cell_value C c q z a) * q_jxw q)) (cell_ok d n) z n LL).
  - intros r c Lr [EL D]. etransitivity; [exact (ip_distribute_vector z n C c _ r Cok D Lr)|]. f_equal.
    etransitivity; [exact (body_work d _ _ _ _ _ EL)|]. apply Sum_ext. intros q _. f_equal. apply Rsum_to_ext. intros a La. unfold cell_value. f_equal.
    etransitivity; [apply total_force_sum; [|exact La]|].
    + apply Forall_forall. intros f I. apply in_map_iff in I. destruct I as (g & <- & I). unfold forces_ok in F. rewrite Forall_forall in F. now apply F.
    + rewrite Sum_map. reflexivity.
  - exact L.
  - intros c I. apply filter_In in I. apply H. tauto.
Qed.
Lemma force_work_nil d C cells z : force_work d [] C cells z = 0.
Proof. unfold force_work. apply Sum_zero. intros c _. apply Sum_zero. intros q _. rewrite (Rsum_to_ext d _ (fun _ => 0)); [rewrite Rsum_to_zero; ring|]. intros a _. rewrite Sum_nil. ring. Qed.
(** The right hand side is the work of the loads. *)
Lemma rhs_work d n references (t : thermal_data RNum) (forces : list (ecell RNum -> list R)) C cells : closed_ok n C -> Forall (cell_ok d n) cells -> thermal_ok references t cells -> forces_ok d forces ->
  exists b : list R, assemble_rhs (N := RNum) d n references (Some t) forces C cells = Ok b /\ List.length b = n /\
    forall z, ip z b = thermal_work d references t C cells z + force_work d forces C cells z.
Proof.
  intros Cok H TH F. destruct (thermal_rhs_work d n references t C cells Cok H TH) as (b0 & E0 & L0 & P0). unfold assemble_rhs.
  assert (NE : Nat.ltb 0 (List.length references) = true) by (destruct TH as ((s & i & -> & _) & _); rewrite app_length; apply Nat.ltb_lt; cbn; lia). cbn [num RNum] in *. rewrite NE.
  change (nofZ RNum 0) with 0. rewrite E0. cbn [bind]. destruct (Nat.ltb_spec 0 (List.length forces)) as [NF|NF].
  - destruct (body_rhs_work d n forces C cells b0 Cok H F L0) as (b & E & L & P). exists b. rewrite <- E. split; [reflexivity|]. rewrite E. split; [exact L|]. intros z. rewrite P, P0. reflexivity.
  - exists b0. repeat split; [exact L0|]. intros z. destruct forces as [|f fs]; [|cbn in NF; lia]. rewrite force_work_nil, P0. ring.
Qed.
(** Without a temperature. *)
Lemma rhs_work_cold d n (forces : list (ecell RNum -> list R)) t C cells : closed_ok n C -> Forall (cell_ok d n) cells -> forces_ok d forces ->
  exists b : list R, assemble_rhs (N := RNum) d n [] t forces C cells = Ok b /\ List.length b = n /\ forall z, ip z b = force_work d forces C cells z.
Proof.
  intros Cok H F. unfold assemble_rhs. cbn [List.length Nat.ltb Nat.leb bind]. change (nofZ RNum 0) with 0. destruct forces as [|f fs].
  - exists (repeat 0 n). repeat split; [apply repeat_length|]. intros z. now rewrite ip_zero, force_work_nil.
  - destruct (body_rhs_work d n (f :: fs) C cells (repeat 0 n) Cok H F (repeat_length 0 n)) as (b & E & L & P). exists b. rewrite <- E. split; [reflexivity|]. rewrite E. split; [exact L|]. intros z. rewrite P, ip_zero. ring.
Qed.
