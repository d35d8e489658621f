(** ParallelProofs2.v -- whole steps, the printed heat, renumbering. *)
From Coq Require Import Reals ZArith List Bool Lra Lia Permutation.
From Verif Require Import Base BaseFacts MaterialModel MaterialSpec InputModel HeatModel HeatSpec MaterialProofs HeatProofs HeatProofs2 HeatProofs3 HeatProofs4 HeatProofs5 RadiationProofs2 ElasticProofs ParallelModel ParallelSpec ParallelProofs.
Import ListNotations.
Open Scope R_scope.

(** ** Steps preserve relations between vectors that the vector operations preserve *)
Section Relation.
  Variable (Rel : list R -> list R -> Prop).
  Hypothesis Radd : forall v v' (a : R) w w', Rel v v' -> Rel w w' -> Rel (sadd (N := RNum) v a w) (sadd (N := RNum) v' a w').
  Lemma fold_rel (g : R * list R -> R) (row : list R) : forall ks ks' y y', (forall a k k', g (a, k) = g (a, k')) -> Forall2 Rel ks ks' -> Rel y y' ->
    Rel (fold_left (fun v ak => sadd (N := RNum) v (g ak) (snd ak)) (combine row ks) y) (fold_left (fun v ak => sadd (N := RNum) v (g ak) (snd ak)) (combine row ks') y').
  Proof.
    induction row as [|a row IH]; intros ks ks' y y' G H Y; [exact Y|]. destruct H as [|k k' ks ks' Hk H]; [exact Y|]. cbn [combine fold_left snd]. apply IH; [exact G|exact H|].
    rewrite (G a k k'). apply Radd; assumption.
  Qed.
  Variables (f f' : nat -> R -> list R -> list R).
  Hypothesis Rf : forall i t v v', Rel v v' -> Rel (f i t v) (f' i t v').
  Lemma stages_rel (t dt : R) a : forall (c : list R) i y y' ks ks', Rel y y' -> Forall2 Rel ks ks' ->
    Forall2 Rel (stages (N := RNum) f t dt y a c i ks) (stages (N := RNum) f' t dt y' a c i ks').
  Proof.
    induction c as [|ci c IH]; intros i y y' ks ks' Y H; [exact H|]. cbn [stages]. apply IH; [exact Y|]. apply Forall2_app; [exact H|]. constructor; [|constructor].
    apply Rf. apply (fold_rel (fun ak => dt * fst ak)); auto.
  Qed.
  Lemma evolve_rel s (t dt : R) y y' : Rel y y' -> fst (evolve (N := RNum) s f t dt y) = fst (evolve (N := RNum) s f' t dt y') /\
    Rel (snd (evolve (N := RNum) s f t dt y)) (snd (evolve (N := RNum) s f' t dt y')).
  Proof.
    intros Y. destruct s; unfold evolve; cbn [fst snd]; (split; [reflexivity|]).
    - apply Radd; [exact Y|]. apply Rf. exact Y.
    - apply (fold_rel (fun ak => dt * fst ak)); auto. apply stages_rel; [exact Y|constructor].
    - apply (fold_rel (fun ak => dt * fst ak)); auto. apply stages_rel; [exact Y|constructor].
  Qed.
End Relation.
Lemma steps_rel (Rel : list R -> list R -> Prop) (s : scheme) (f f' : nat -> nat -> R -> list R -> list R) :
  (forall v v' (a : R) w w', Rel v v' -> Rel w w' -> Rel (sadd (N := RNum) v a w) (sadd (N := RNum) v' a w')) ->
  (forall k i t v v', Rel v v' -> Rel (f k i t v) (f' k i t v')) -> forall dts t y y', Rel y y' ->
  fst (steps s f dts t y) = fst (steps s f' dts t y') /\ Rel (snd (steps s f dts t y)) (snd (steps s f' dts t y')).
Proof.
  intros A B dts t y y' Y. unfold steps. generalize (indexed dts). intros l.
  enough (G : forall l a a', fst a = fst a' -> Rel (snd a) (snd a') ->
    let r := fold_left (fun ty ndt => evolve (N := RNum) s (f (fst ndt)) (fst ty) (snd ndt) (snd ty)) l a in let r' := fold_left (fun ty ndt => evolve (N := RNum) s (f' (fst ndt)) (fst ty) (snd ndt) (snd ty)) l a' in
    fst r = fst r' /\ Rel (snd r) (snd r')) by (apply G; [reflexivity|exact Y]).
  clear - A B. induction l as [|[k dt] l IH]; intros [t v] [t' v'] E Y; cbn [fst snd] in *; [cbn; auto|]. subst t'. cbn [fold_left fst snd]. apply IH; apply (evolve_rel Rel A); auto.
Qed.

(** ** Distribution *)
Lemma saddR_len (v : list R) a w : List.length v = List.length w -> List.length (sadd (N := RNum) v a w : list R) = List.length v.
Proof. intros E. unfold sadd. rewrite map_length, combine_length. etransitivity; [apply (f_equal2 Nat.min E eq_refl)|]. rewrite Nat.min_id. symmetry. exact E. Qed.
Lemma parallel_steps (m : heat_mesh RNum) (s : scheme) (dim3 ad : bool) (on : nat -> nat -> R -> bool) (K : nat -> nat -> R -> laws RNum) (F : nat -> nat -> R -> face_laws RNum)
  (other other' : nat -> nat -> R -> share RNum -> list R) (ss : nat -> nat -> R -> list (share RNum)) (dts : list R) (t : R) (y : list R) :
  mesh_ok m -> (forall k i t, distributes m (ss k i t)) -> List.length y = m_n m ->
  steps s (fun k i t v => parallel_evaluate (N := RNum) dim3 (on k i t) ad (m_n m) (m_C m) (K k i t) (F k i t) (other k i t) (other' k i t) (ss k i t) v) dts t y =
  steps s (fun k i t v => evaluate (N := RNum) dim3 (on k i t) ad m (K k i t) (F k i t) v) dts t y.
Proof.
  intros Mok D L.
  destruct (steps_rel (fun v v' => v = v' /\ List.length v = m_n m) s (fun k i t v => parallel_evaluate (N := RNum) dim3 (on k i t) ad (m_n m) (m_C m) (K k i t) (F k i t) (other k i t) (other' k i t) (ss k i t) v)
    (fun k i t v => evaluate (N := RNum) dim3 (on k i t) ad m (K k i t) (F k i t) v)) with (dts := dts) (t := t) (y := y) (y' := y) as [E [E2 _]].
  - intros v v' a w w' [<- Lv] [<- Lw]. split; [reflexivity|]. exact (eq_trans (saddR_len v a w (eq_trans Lv (eq_sym Lw))) Lv).
  - intros k i u v v' [<- Lv]. rewrite parallel_same by auto. split; [reflexivity|]. exact (rate_length dim3 (on k i u) ad m (K k i u) (F k i u) v).
  - auto.
  - destruct (steps s _ dts t y), (steps s _ dts t y). cbn [fst snd] in *. congruence.
Qed.
Lemma rank_heat_sum n (power : nat -> nat -> R) (s : share RNum) : Forall (fun ic => shape_ok n (snd ic)) (sh_cells s) ->
  rank_heat (N := RNum) power s = Sum (sh_cells s) (fun ic => Sum (indexed (c_quads (snd ic))) (fun iq => h_jxw (snd iq) * power (fst ic) (fst iq))).
Proof.
  intros H. unfold rank_heat. rewrite Forall_forall in H.
  etransitivity; [apply (fold_nested _ (fun ic : nat * hcell RNum => Sum (indexed (c_quads (snd ic))) (fun iq => h_jxw (snd iq) * power (fst ic) (fst iq))))|apply Rplus_0_l].
  intros h ic I. destruct (H ic I) as [_ Sh].
  etransitivity; [apply (fold_nested _ (fun i => Sum (indexed (c_quads (snd ic))) (fun iq => power (fst ic) (fst iq) * nth i (h_values (snd iq)) 0 * h_jxw (snd iq))))|].
  - intros h' i _. exact (fold_Sum (fun iq : nat * hquad RNum => power (fst ic) (fst iq) * nth i (h_values (snd iq)) 0 * h_jxw (snd iq)) (indexed (c_quads (snd ic))) h').
  - f_equal. rewrite Sum_swap. apply Sum_ext. intros iq J. apply in_indexed in J. rewrite Forall_forall in Sh. destruct (Sh (snd iq) J) as (Lv & _ & S1 & _).
    rewrite (Sum_ext _ (fun i => (power (fst ic) (fst iq) * h_jxw (snd iq)) * nth i (h_values (snd iq)) 0)) by (intros; cbn [num RNum]; ring).
    rewrite Sum_scal. rewrite <- Lv. etransitivity; [apply Rmult_eq_compat_l; exact (eq_trans (Sum_seq_nth (h_values (snd iq))) S1)|]. cbn [num RNum]. ring.
Qed.
Lemma parallel_heat_same (m : heat_mesh RNum) (power : nat -> nat -> R) ss : mesh_ok m -> distributes m ss -> parallel_heat (N := RNum) power ss = heat_input (N := RNum) (m_cells m) power.
Proof.
  intros Mok D. rewrite (printed (m_n m)) by exact (m_cells_ok m Mok). unfold parallel_heat. etransitivity; [exact (fold_Sum (rank_heat (N := RNum) power) ss 0)|]. rewrite Rplus_0_l.
  rewrite (Sum_ext _ (fun s : share RNum => Sum (sh_cells s) (fun ic : nat * hcell RNum => Sum (indexed (c_quads (snd ic))) (fun iq : nat * hquad RNum => h_jxw (snd iq) * power (fst ic) (fst iq))))).
  - destruct D as (Pc & _). rewrite <- Sum_flat_map. exact (Sum_perm _ _ _ Pc).
  - intros s I. apply (rank_heat_sum (m_n m)). destruct (share_parts m ss Mok D s I) as [H _]. eapply Forall_impl; [|exact H]. cbn beta. tauto.
Qed.

(** ** Renumbering *)
Lemma find_perm (C C' : constraints RNum) k : Permutation C C' -> NoDup (map fst C) -> find (fun e => Nat.eqb (fst e) k) C = find (fun e => Nat.eqb (fst e) k) C'.
Proof.
  intros P ND. assert (ND' : NoDup (map fst C')) by exact (Permutation_NoDup (Permutation_map fst P) ND).
  assert (U : forall (D : constraints RNum) e, NoDup (map fst D) -> In e D -> fst e = k -> find (fun e => Nat.eqb (fst e) k) D = Some e).
  { clear. induction D as [|d D IH]; intros e ND I E; [contradiction|]. cbn [find]. cbn [map] in ND. inversion ND as [|? ? Na ND']; subst. destruct I as [->|I].
    - rewrite Nat.eqb_refl. reflexivity.
    - destruct (Nat.eqb_spec (fst d) (fst e)) as [E|_]; [|now apply IH]. exfalso. apply Na. apply in_map_iff. exists e. split; [symmetry; exact E|exact I]. }
  destruct (find (fun e => Nat.eqb (fst e) k) C) as [e|] eqn:E.
  - apply find_some in E. destruct E as [I E]. apply Nat.eqb_eq in E. symmetry. apply U; auto. apply (Permutation_in _ P I).
  - destruct (find (fun e => Nat.eqb (fst e) k) C') as [e|] eqn:E'; [|reflexivity]. exfalso. apply find_some in E'. destruct E' as [I E']. apply (Permutation_in _ (Permutation_sym P)) in I.
    pose proof (find_none _ _ E e I) as Q. cbn beta in Q. congruence.
Qed.
Section Renumber.
  Variables (dim3 on ad : bool) (m m' : heat_mesh RNum) (K K' : laws RNum) (F F' : face_laws RNum) (y y' : list R) (p a b : nat -> nat).
  Hypothesis (Mok : mesh_ok m) (Mok' : mesh_ok m').
  Hypothesis (Rn : renumbered p a b m m').
  Hypothesis (HK : forall i q T, K' (a i) q T = K i q T).
  Hypothesis (HF : forall i q T, F' (b i) q T = F i q T).
  Hypothesis (Y : same_field p (m_n m) y y').
  Local Notation n := (m_n m).
  Local Notation C := (m_C m).
  Lemma p_perm : Permutation (map p (seq 0 n)) (seq 0 n). Proof. exact (proj1 (proj2 Rn)). Qed.
  Lemma p_lt j : (j < n)%nat -> (p j < n)%nat.
  Proof. intros L. assert (I : In (p j) (seq 0 n)) by (apply (Permutation_in _ p_perm), in_map, in_seq; lia). apply in_seq in I. lia. Qed.
  Lemma p_inj i j : (i < n)%nat -> (j < n)%nat -> p i = p j -> i = j.
  Proof.
    intros Li Lj E. assert (ND : NoDup (map p (seq 0 n))) by (apply (Permutation_NoDup (Permutation_sym p_perm)), seq_NoDup).
    apply (proj1 (NoDup_nth (map p (seq 0 n)) (p O)) ND i j); rewrite ?map_length, ?seq_length; auto. rewrite !map_nth, !seq_nth by assumption. exact E.
  Qed.
  Lemma hat_p i j : (i < n)%nat -> (j < n)%nat -> hat (p j) (p i) = hat j i.
  Proof. intros Li Lj. unfold hat. destruct (Nat.eqb_spec (p i) (p j)) as [E|E], (Nat.eqb_spec i j) as [E'|E']; try reflexivity; [exfalso; apply E'; now apply p_inj|subst; congruence]. Qed.
  Lemma nodal_p (z z' : nat -> R) k : (forall j, (j < n)%nat -> z' (p j) = z j) -> (k < n)%nat -> nodal (m_C m') z' (p k) = nodal C z k.
  Proof.
    intros Z L. destruct Rn as (_ & _ & _ & _ & _ & PC). destruct (m_C_ok m' Mok') as [ND' _]. unfold nodal.
    rewrite <- (find_perm _ _ (p k) PC) by (exact (Permutation_NoDup (Permutation_sym (Permutation_map fst PC)) ND')).
    assert (G : Forall (fun e => (fst e < n)%nat /\ Forall (fun w => (fst w < n)%nat) (snd e)) C).
    { destruct (m_C_ok m Mok) as [_ H]. eapply Forall_impl; [|exact H]. intros e (L1 & H1 & _). split; [exact L1|]. eapply Forall_impl; [|exact H1]. intros w [L2 _]. exact L2. }
    clear PC. induction C as [|[e ws] D IH]; [cbn; now apply Z|]. inversion G as [|? ? [Le Lw] G']; subst. cbn [fst snd] in Le, Lw. cbn [map find renamed_line fst snd].
    destruct (Nat.eqb_spec e k) as [E|E].
    - subst k. rewrite Nat.eqb_refl. cbn [snd]. etransitivity; [exact (Sum_map (fun w : nat * R => (p (fst w), snd w)) (fun w : nat * R => snd w * z' (fst w)) ws)|]. apply Sum_ext. intros w I. cbn [fst snd]. rewrite Forall_forall in Lw. apply Rmult_eq_compat_l. exact (Z _ (Lw w I)).
    - destruct (Nat.eqb_spec (p e) (p k)) as [E'|_]; [exfalso; apply E; now apply p_inj|]. apply IH. exact G'.
  Qed.
  Lemma combine_map_r {A} (l : list A) (js : list nat) : combine l (map p js) = map (fun x => (fst x, p (snd x))) (combine l js).
  Proof. revert js. induction l as [|x l IH]; intros [|j js]; cbn [combine map]; [reflexivity..|]. cbn [fst snd]. now rewrite IH. Qed.
  Lemma field_p c q (z z' : nat -> R) : Forall (fun j => (j < n)%nat) (c_dofs c) -> (forall j, (j < n)%nat -> z' (p j) = z j) -> field (m_C m') (renamed p c) q z' = field C c q z.
  Proof.
    intros D Z. unfold field, renamed. cbn [c_dofs]. rewrite combine_map_r, Sum_map. apply Sum_ext. intros [v k] I. cbn [fst snd]. apply in_combine_r in I.
    rewrite Forall_forall in D. now rewrite (nodal_p z z' k Z (D k I)).
  Qed.
  Lemma gradient_p c q (z z' : nat -> R) : Forall (fun j => (j < n)%nat) (c_dofs c) -> (forall j, (j < n)%nat -> z' (p j) = z j) -> gradient (m_C m') (renamed p c) q z' = gradient C c q z.
  Proof.
    intros D Z. unfold gradient, renamed. cbn [c_dofs]. rewrite combine_map_r, !Sum_map. rewrite Forall_forall in D.
    f_equal; apply Sum_ext; intros [v k] I; cbn [fst snd]; apply in_combine_r in I; now rewrite (nodal_p z z' k Z (D k I)).
  Qed.
  Lemma yZ : forall j, (j < n)%nat -> entry y' (p j) = entry y j. Proof. exact (proj2 (proj2 Y)). Qed.
  Lemma weak_p (z z' : nat -> R) : (forall j, (j < n)%nat -> z' (p j) = z j) -> weak dim3 on ad m' K' F' y' z' = weak dim3 on ad m K F y z.
  Proof.
    intros Z. destruct Rn as (En & _ & PCe & PFa & _ & _). unfold weak. f_equal.
    - unfold cells_tested. rewrite <- (Sum_perm _ _ _ PCe), Sum_map. apply Sum_ext. intros ic I. cbn [fst snd].
      pose proof (proj1 (Forall_forall _ _) (m_cells_ok m Mok) _ (in_indexed _ _ I)) as [D _].
      unfold renamed at 1. cbn [c_quads]. apply Sum_ext. intros iq _. unfold cell_point. rewrite (field_p _ _ _ _ D yZ), (gradient_p _ _ _ _ D yZ), (field_p _ _ _ _ D Z), (gradient_p _ _ _ _ D Z), HK. reflexivity.
    - destruct ad; [reflexivity|]. unfold faces_tested. rewrite <- (Sum_perm _ _ _ PFa), Sum_map. apply Sum_ext. intros jf I. cbn [fst snd].
      pose proof (proj1 (Forall_forall _ _) (m_faces_lens m Mok) _ (in_indexed _ _ I)) as [D _].
      change (on_boundary (renamed_face p (snd jf))) with (on_boundary (snd jf)). destruct (on_boundary (snd jf)); [|reflexivity].
      assert (EA : active_side (renamed_face p (snd jf)) = renamed p (active_side (snd jf))).
      { unfold active_side, renamed_face. cbn [hf_first hf_inner hf_outer]. destruct (Nat.eqb (hf_first (snd jf)) 0); reflexivity. }
      rewrite EA. unfold renamed at 1. cbn [c_quads]. apply Sum_ext. intros iq _. unfold face_point. rewrite (field_p _ _ _ _ D yZ), (field_p _ _ _ _ D Z), HF. reflexivity.
  Qed.
  Lemma mass_p j : (j < n)%nat -> nodal_mass m' (p j) = nodal_mass m j.
  Proof.
    intros L. destruct Rn as (En & _ & _ & _ & PM & _). unfold nodal_mass, integral. rewrite <- (Sum_perm _ _ _ PM), Sum_map. apply Sum_ext. intros c I.
    pose proof (proj1 (Forall_forall _ _) (m_mass_ok m Mok) c I) as [D _]. unfold renamed at 1. cbn [c_quads]. apply Sum_ext. intros q _.
    rewrite (field_p c q (hat j) (hat (p j)) D); [reflexivity|]. intros i Li. now apply hat_p.
  Qed.
  Lemma constrained_p j : (j < n)%nat -> In (p j) (map fst (m_C m')) <-> In j (map fst C).
  Proof.
    intros L. destruct Rn as (_ & _ & _ & _ & _ & PC). assert (P2 := Permutation_map fst PC). rewrite map_map in P2.
    pose proof (constrained_lt m Mok) as CL. rewrite Forall_forall in CL. split; intros I.
    - apply (Permutation_in _ (Permutation_sym P2)) in I. apply in_map_iff in I. destruct I as (e & E & I). cbn [renamed_line fst] in E.
      assert (J : In (fst e) (map fst C)) by now apply in_map. rewrite <- (p_inj (fst e) j (CL _ J) L E). exact J.
    - apply (Permutation_in _ P2). apply in_map_iff in I. destruct I as (e & E & I). apply in_map_iff. exists e. split; [|exact I]. subst j. reflexivity.
  Qed.
  Lemma renumber_rate : same_field p n (evaluate (N := RNum) dim3 on ad m K F y) (evaluate (N := RNum) dim3 on ad m' K' F' y').
  Proof.
    destruct Rn as (En & _). split; [exact (rate_length dim3 on ad m K F y)|]. split; [rewrite <- En; exact (rate_length dim3 on ad m' K' F' y')|].
    intros j L. change (entry (rate dim3 on ad m' K' F' y') (p j) = entry (rate dim3 on ad m K F y) j).
    rewrite (evaluate_nth dim3 on ad m K F y Mok j L), (evaluate_nth dim3 on ad m' K' F' y' Mok' (p j)) by (rewrite En; now apply p_lt).
    rewrite (weak_p (hat j) (hat (p j))) by (intros; now apply hat_p). rewrite mass_p by exact L. rewrite yZ by exact L. pose proof (constrained_p j L) as Q.
    destruct (in_dec Nat.eq_dec (p j) (map fst (m_C m'))) as [I|I], (in_dec Nat.eq_dec j (map fst C)) as [I'|I']; try reflexivity; exfalso; tauto.
  Qed.
End Renumber.
Lemma entry_sadd (v w : list R) (a : R) j : List.length v = List.length w -> (j < List.length v)%nat -> entry (sadd (N := RNum) v a w) j = 1 * entry v j + a * entry w j.
Proof.
  intros E L. unfold entry, sadd. change (nth j (map (fun p : R * R => 1 * fst p + a * snd p) (combine v w)) 0 = 1 * nth j v 0 + a * nth j w 0).
  rewrite (nth_indep _ 0 ((fun p : R * R => 1 * fst p + a * snd p) (0, 0))) by (rewrite map_length, combine_length, <- E, Nat.min_id; exact L).
  etransitivity; [exact (map_nth (fun p : R * R => 1 * fst p + a * snd p) (combine v w) (0, 0) j)|]. rewrite combine_nth by exact E. reflexivity.
Qed.
Lemma renumber_steps (s : scheme) (dim3 ad : bool) (m m' : heat_mesh RNum) (p a b : nat -> nat) (on : nat -> nat -> R -> bool) (K K' : nat -> nat -> R -> laws RNum) (F F' : nat -> nat -> R -> face_laws RNum)
  (dts : list R) (t : R) (y y' : list R) : mesh_ok m -> mesh_ok m' -> renumbered p a b m m' -> (forall k i t c q T, K' k i t (a c) q T = K k i t c q T) -> (forall k i t c q T, F' k i t (b c) q T = F k i t c q T) ->
  same_field p (m_n m) y y' ->
  same_field p (m_n m) (snd (steps s (fun k i t v => evaluate (N := RNum) dim3 (on k i t) ad m (K k i t) (F k i t) v) dts t y))
                       (snd (steps s (fun k i t v => evaluate (N := RNum) dim3 (on k i t) ad m' (K' k i t) (F' k i t) v) dts t y')).
Proof.
  intros Mok Mok' Rn HK HF Y. apply (steps_rel (same_field p (m_n m))); [|intros; now apply (renumber_rate dim3 _ ad m m' _ _ _ _ v v' p a b)|exact Y].
  intros v v' x w w' (Lv & Lv' & Ev) (Lw & Lw' & Ew). split; [exact (eq_trans (saddR_len v x w (eq_trans Lv (eq_sym Lw))) Lv)|]. split; [exact (eq_trans (saddR_len v' x w' (eq_trans Lv' (eq_sym Lw'))) Lv')|]. intros j L.
  rewrite (entry_sadd v w x j (eq_trans Lv (eq_sym Lw))) by (rewrite Lv; exact L). rewrite (entry_sadd v' w' x (p j) (eq_trans Lv' (eq_sym Lw'))) by (rewrite Lv'; apply (p_lt m m' p a b Rn); exact L). now rewrite Ev, Ew.
Qed.
