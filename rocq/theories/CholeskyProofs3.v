(** CholeskyProofs3.v -- analyses with correlated errors: completion, form, perturbations with the covariance of the observations, spread. *)
From Coq Require Import Reals ZArith Bool List Lia Lra.
From Verif Require Import Base BaseFacts AssimilationModel AssimilationSpec AssimilationProofs AssimilationProofs2 AssimilationProofs3 AssimilationProofs4 CholeskyModel AnalysisSpec CholeskySpec AnalysisProofs AnalysisProofs2 CholeskyProofs CholeskyProofs2.
Import ListNotations.
Local Open Scope R_scope.

Definition Lm (L : list (list R)) : nat -> nat -> R := factor_entry (N := RNum) L.
Lemma fill_correlated n Ro draws k (v : nat -> R) : fill_noise (N := RNum) false n Ro draws k = Ok v ->
  exists L : list (list R), cholesky (N := RNum) n Ro = Ok L /\ forall e, v e = Rsum_to n (fun j => Lm L e j * draws (k + j)%nat).
Proof.
  unfold fill_noise. intros H. destruct (cholesky (N := RNum) n Ro) as [L| |] eqn:E; cbn [bind] in H; try discriminate H. exists L. split; [reflexivity|]. injection H as <-. intros e. exact (apply_R n (Lm L) (fun j => draws (k + j)%nat) e).
Qed.
Lemma fill_exists n Ro draws k : symmetric n Ro -> positive_definite n Ro -> exists v : nat -> R, fill_noise (N := RNum) false n Ro draws k = Ok v.
Proof. intros HS HD. destruct (cholesky_ok n Ro HS HD) as [L [E _]]. unfold fill_noise. rewrite E. cbn [bind]. eexists. reflexivity. Qed.

(** The analysis completes when the noise can be drawn. *)
Lemma fold_ok {A} (f : A -> res unit) (l : list A) : (forall x, In x l -> exists y, f x = Ok y) -> fold_left (fun acc p => do _ <- acc; f p) l (Ok tt) = Ok tt.
Proof.
  induction l as [|a l IH]; intros H; [reflexivity|]. cbn [fold_left bind]. destruct (H a (or_introl eq_refl)) as [[] ->]. apply IH. intros x I. apply H. right. exact I.
Qed.
Lemma general_complete {N : Num} diagonal fn cutoff sim par pat m mapping Ro (data : list N) draws k solve ens :
  List.length mapping = List.length data -> (forall k', exists v, fill_noise diagonal (List.length mapping) Ro draws k' = Ok v) ->
  (forall p, In p pat -> exists x, sample_covariance fn cutoff sim pat m ens (fst p) (snd p) = Ok x) ->
  exists ens', assimilate_general diagonal fn cutoff sim par pat m mapping Ro data draws k solve ens = Ok ens'.
Proof.
  intros HL HV HP. unfold assimilate_general. replace (Nat.eqb (List.length mapping) (List.length data)) with true by (symmetry; apply Nat.eqb_eq; exact HL). cbn [negb]. destruct (innovations_ok diagonal (List.length mapping) mapping (fun i => nth i data (nofZ N 0)) Ro draws k HV ens 0) as [bs ->]. cbn [bind].
  rewrite (fold_ok (fun p => do _ <- sample_covariance fn cutoff sim pat m ens (fst p) (snd p); Ok tt)) by (intros p I; destruct (HP p I) as [x ->]; exists tt; reflexivity). cbn [bind]. eexists. reflexivity.
Qed.

Lemma general_exists fn (cutoff : R) (pos : nat -> pt RNum) owned hits sim par Ro (data : list R) s draws k solve (ens : list (nat -> R)) :
  observed cutoff pos owned hits sim data s ens -> symmetric (List.length data) Ro -> positive_definite (List.length data) Ro ->
  exists ens', analysed_general false fn cutoff pos owned hits sim par Ro data s draws k solve ens ens'.
Proof.
  intros [L2 [Hc [HQ [Hall Hs]]]] HS HD. assert (Hne : ens <> []) by (intros ->; simpl in L2; lia).
  destruct (localized_ok fn cutoff pos owned hits sim par [] ens Hne Hc HQ Hall) as [m' [pat [E1 E2]]].
  destruct (pattern_ok (N := RNum) cutoff pos owned hits HQ sim par [] Hall) as [m2 [pat2 [E3 [P1 _]]]].
  assert (pat2 = pat) by (rewrite E1 in E3; injection E3; congruence). subst pat2.
  assert (Lo : List.length (obs (List.length data) s) = List.length data) by (unfold obs; rewrite map_length, seq_length; reflexivity).
  destruct (general_complete (N := RNum) false fn cutoff sim par pat m' (obs (List.length data) s) Ro data draws k solve ens Lo) as [ens' E].
  - intros k'. rewrite Lo. exact (fill_exists (List.length data) Ro draws k' HS HD).
  - intros [i j] I. apply P1 in I. cbn [fst snd]. eexists. apply E2; lia.
  - exists ens', [], m', pat. split; [exact E1|exact E].
Qed.

(** Perturbations made of a standard sample have the covariance [A]. *)
Section Sample.
  Variables (n M : nat) (L : nat -> nat -> R) (z : nat -> nat -> R) (eta : nat -> nat -> R).
  Hypothesis M2 : (2 <= M)%nat.
  Hypothesis form : forall m e, (m < M)%nat -> eta m e = Rsum_to n (fun j => L e j * z m j).
  Lemma dn_form m e : (m < M)%nat -> dn M eta m e = Rsum_to n (fun j => L e j * dn M z m j).
  Proof.
    intros Lm. unfold dn. rewrite (form m e Lm), (av_ext M (fun m => eta m e) (fun m => Rsum_to n (fun j => L e j * z m j))) by (intros; apply form; assumption).
    rewrite av_sum, <- Rsum_to_minus. apply Rsum_to_ext. intros j _. rewrite av_scal. ring.
  Qed.
  Lemma double_sum (a b : nat -> R) (f g : nat -> nat -> R) : Rsum_to M (fun m => Rsum_to n (fun j => a j * f m j) * Rsum_to n (fun j => b j * g m j)) = Rsum_to n (fun j => Rsum_to n (fun l => a j * b l * Rsum_to M (fun m => f m j * g m l))).
  Proof.
    rewrite (Rsum_to_ext M _ (fun m => Rsum_to n (fun j => Rsum_to n (fun l => a j * f m j * (b l * g m l))))).
    - rewrite Rsum_to_swap. apply Rsum_to_ext. intros j _. rewrite Rsum_to_swap. apply Rsum_to_ext. intros l _. rewrite <- Rsum_to_scal. apply Rsum_to_ext. intros. ring.
    - intros m _. rewrite Rmult_comm, <- Rsum_to_scal. apply Rsum_to_ext. intros j _. rewrite Rmult_comm, <- Rsum_to_scal. reflexivity.
  Qed.
  Lemma sample_factor e f : (forall j l, (j < n)%nat -> (l < n)%nat -> Rsum_to M (fun m => dn M z m j * dn M z m l) / (INR M - 1) = if Nat.eqb j l then 1 else 0) ->
    Rsum_to M (fun m => dn M eta m e * dn M eta m f) / (INR M - 1) = Rsum_to n (fun j => L e j * L f j).
  Proof.
    intros H. rewrite (Rsum_to_ext M _ (fun m => Rsum_to n (fun j => L e j * dn M z m j) * Rsum_to n (fun j => L f j * dn M z m j))) by (intros m Lm; rewrite !(dn_form m) by exact Lm; reflexivity).
    rewrite double_sum, <- Rsum_to_div. apply Rsum_to_ext. intros j Lj. rewrite <- Rsum_to_div. rewrite (Rsum_to_ext n _ (fun l => ind (Nat.eqb j l) * (L e j * L f l))).
    - rewrite (Rsum_pick n j (fun l => L e j * L f l) Lj). reflexivity.
    - intros l Ll. replace (ind (Nat.eqb j l)) with (if Nat.eqb j l then 1 else 0) by reflexivity. rewrite <- (H j l Lj Ll). unfold Rdiv. ring.
  Qed.
  Lemma sample_orthogonal e (X : nat -> R) : (forall j, (j < n)%nat -> Rsum_to M (fun m => dn M z m j * X m) = 0) -> Rsum_to M (fun m => dn M eta m e * X m) = 0.
  Proof.
    intros H. rewrite (Rsum_to_ext M _ (fun m => Rsum_to n (fun j => L e j * (dn M z m j * X m)))).
    - rewrite Rsum_to_swap. apply Rsum_to_zero. intros j Lj. rewrite Rsum_to_scal, (H j Lj). ring.
    - intros m Lm. rewrite (dn_form m e Lm), Rmult_comm, <- Rsum_to_scal. apply Rsum_to_ext. intros. ring.
  Qed.
End Sample.
Lemma sample_ok d n A draws k (ens : list (nat -> R)) (eta : nat -> nat -> R) : (2 <= List.length ens)%nat -> symmetric n A ->
  (forall m, (m < List.length ens)%nat -> fill_noise (N := RNum) false n A draws (k + m * n) = Ok (eta m)) -> standard_draws d draws n k ens ->
  let M := List.length ens in let dev m e := eta m e - Rsum_to M (fun m => eta m e) / INR M in
  (forall e f, (e < n)%nat -> (f < n)%nat -> Rsum_to M (fun m => dev m e * dev m f) / (INR M - 1) = A e f) /\
  (forall e i, (e < n)%nat -> (i < d)%nat -> Rsum_to M (fun m => dev m e * (nth m ens (fun _ => 0) i - sample_mean ens i)) = 0).
Proof.
  intros L2 HS HF [S1 S2] M dev. assert (H0 : (0 < List.length ens)%nat) by lia. destruct (fill_correlated n A draws _ _ (HF 0%nat H0)) as [L [E1 _]].
  assert (F : forall m e, (m < List.length ens)%nat -> eta m e = Rsum_to n (fun j => Lm L e j * drawn draws n k m j)).
  { intros m e Lm'. destruct (fill_correlated n A draws _ _ (HF m Lm')) as [L' [E2 F]]. assert (L' = L) as -> by (rewrite E1 in E2; injection E2; congruence). exact (F e). }
  split.
  - intros e f Le Lf. etransitivity; [exact (sample_factor n M (Lm L) (drawn draws n k) eta F e f S1)|]. exact (proj1 (cholesky_psd n A L HS E1) e f Le Lf).
  - intros e i Le Li. exact (sample_orthogonal n M (Lm L) (drawn draws n k) eta F e (fun m => nth m ens (fun _ => 0) i - sample_mean ens i) (fun j Lj => S2 j i Lj Li)).
Qed.
(** The analysis, member by member. *)
Lemma correlated_form fn (cutoff : R) (pos : nat -> pt RNum) owned hits sim par Ro (data : list R) s draws k solve (ens ens' : list (nat -> R)) :
  observed cutoff pos owned hits sim data s ens -> analysed_general false fn cutoff pos owned hits sim par Ro data s draws k solve ens ens' ->
  exists eta : nat -> nat -> R, List.length ens' = List.length ens /\ (forall m, (m < List.length ens)%nat -> fill_noise (N := RNum) false (List.length data) Ro draws (k + m * List.length data) = Ok (eta m)) /\
  exists b : nat -> nat -> R, (forall m e, (m < List.length ens)%nat -> (e < List.length data)%nat -> b m e = eta m e + (nth e data 0 - mem ens m (s e))) /\
    forall m i, (m < List.length ens)%nat -> (i < sim + par)%nat -> mem ens' m i = mem ens m i + Rsum_to (List.length data) (fun e => localized_covariance fn cutoff pos sim ens i (s e) * solve (b m) e).
Proof.
  intros ob an. destruct (general_form _ _ _ _ _ _ _ _ _ _ _ _ _ _ _ _ ob an) as [HL HM].
  set (eta := fun m => match fill_noise (N := RNum) false (List.length data) Ro draws (k + m * List.length data) with Ok v => v | _ => fun _ => 0 end).
  exists eta. split; [exact HL|]. split; [intros m Lm'; destruct (HM m Lm') as [v [V _]]; unfold eta; rewrite V; reflexivity|].
  exists (fun m i => eta m i + (nth i data 0 - calc_Hx (N := RNum) (obs (List.length data) s) (mem ens m) i)). split.
  - intros m e _ Le. pose proof (Hx_unique (N := RNum) (obs (List.length data) s) e (s e) (mem ens m) (obs_nodup _ s) (obs_in _ s e Le)) as H. exact (f_equal (fun t => eta m e + (nth e data 0 - t)) H).
  - intros m i Lm' Li. destruct (HM m Lm') as [v [V W]]. assert (Ev : eta m = v) by (unfold eta; rewrite V; reflexivity). rewrite Ev. exact (W i Li).
Qed.
Lemma correlated_kalman (cutoff : R) (pos : nat -> pt RNum) owned hits sim par Ro (data : list R) s draws k solve (ens ens' : list (nat -> R)) :
  observed cutoff pos owned hits sim data s ens -> analysed_general false no_cutoff cutoff pos owned hits sim par Ro data s draws k solve ens ens' -> wide cutoff pos sim ->
  exact_general (List.length data) (localized_covariance no_cutoff cutoff pos sim ens) s Ro solve -> symmetric (List.length data) Ro -> standard_draws (sim + par) draws (List.length data) k ens ->
  forall v c, solves_kalman (List.length data) (localized_covariance no_cutoff cutoff pos sim ens) s Ro c (fun e => Rsum_to (sim + par) (fun i => v i * localized_covariance no_cutoff cutoff pos sim ens i (s e))) ->
  sample_variance (map (along (sim + par) v) ens') = sample_variance (map (along (sim + par) v) ens) -
    Rsum_to (List.length data) (fun e => c e * Rsum_to (sim + par) (fun i => v i * localized_covariance no_cutoff cutoff pos sim ens i (s e))).
Proof.
  intros ob an wd ex HS HD v c Hc. destruct (correlated_form _ _ _ _ _ _ _ _ _ _ _ _ _ _ _ ob an) as [eta [HL [HF [b [Hb HU]]]]]. destruct (sample_ok _ _ _ _ _ _ _ (proj1 ob) HS HF HD) as [I1 I2].
  rewrite !variance_val, HL.
  apply (variance_ideal (sim + par) (List.length data) (List.length ens) s (mem ens) (mem ens') (fun e => nth e data 0) eta (fun m => solve (b m)) (localized_covariance no_cutoff cutoff pos sim ens) Ro (proj1 ob) (obs_n _ _ _ _ _ par _ _ _ ob) HU) with (c := c).
  - intros m e Lm' Le. rewrite <- (Hb m e Lm' Le). exact (ex (b m) e Le).
  - exact (symP no_cutoff _ _ _ _ _ _ _ _ ob).
  - exact HS.
  - exact Hc.
  - exact (Pcv _ _ _ _ _ _ _ _ ob wd).
  - exact I1.
  - intros e i Le Li. rewrite <- sample_mean_av. exact (I2 e i Le Li).
Qed.
(** Systems with a positive definite R are solvable. *)
Lemma general_solvable E s n (P Ro : nat -> nat -> R) b : positive_semidefinite n P -> positive_definite E Ro -> (forall e, (e < E)%nat -> (s e < n)%nat) -> exists w, solves_kalman E P s Ro w b.
Proof.
  intros HP HD Hs. destruct (definite_solvable E (fun e f => P (s e) (s f) + Ro e f)) with (b := b) as [w W].
  - intros v Hv. rewrite quadratic_rows. rewrite (Rsum_to_ext E _ (fun e => v e * Rsum_to E (fun f => P (s e) (s f) * v f) + v e * Rsum_to E (fun f => Ro e f * v f))).
    + rewrite Rsum_to_add, (quad_obs E s n P v Hs), <- quadratic_rows. pose proof (HP (apply (N := RNum) E (transpose (N := RNum) (calc_H (N := RNum) (obs E s))) v)) as H. pose proof (HD v Hv) as H'. lra.
    + intros e Le. rewrite (Rsum_to_ext E (fun j => (P (s e) (s j) + Ro e j) * v j) (fun f => P (s e) (s f) * v f + Ro e f * v f)) by (intros; ring). rewrite Rsum_to_add. ring.
  - exists w. intros e Le. rewrite <- (W e Le), <- Rsum_to_add. apply Rsum_to_ext. intros. ring.
Qed.
(** A zero matrix (observations known exactly) is rejected although it is a covariance. *)
Lemma zero_rejected : cholesky (N := RNum) 2 (fun _ _ => 0) = Throw /\ positive_semidefinite 2 (fun _ _ => 0).
Proof.
  split.
  - unfold cholesky. cbn [chol_rows List.length chol_row bind List.app]. match goal with |- context [nleb RNum ?a ?b] => assert (H : nleb RNum a b = true) by (apply Rleb_true; change (0 <= 0 - 0); lra); rewrite H end.
    cbn [List.app chol_row List.length nth]. match goal with |- context [neqb RNum ?a ?b] => assert (H2 : neqb RNum a b = true) end.
    { assert (X : sqrt (0 - 0) = 0) by (replace (0 - 0) with 0 by ring; apply sqrt_0).
      refine (match Reqb_spec _ _ in reflect _ b return b = true with ReflectT _ _ => eq_refl | ReflectF _ N => match N X with end end). }
    rewrite H2. reflexivity.
  - intros v. unfold quadratic. apply Rsum_to_nonneg. intros i _. apply Rsum_to_nonneg. intros j _. lra.
Qed.
