(** SupportProofs.v -- a load has an exact solution if and only if it does no work on rigid displacements. *)
From Coq Require Import Reals Bool List Lia Lra.
From Verif Require Import Base BaseFacts CellModel InputModel AssimilationSpec AssimilationProofs AssimilationProofs3 AnalysisProofs ElementModel ElementSpec ElementProofs StressModel StressSpec
  HeatModel HeatSpec HeatProofs HeatProofs2 ElasticModel ElasticSpec ElasticProofs ElasticProofs2 ElasticProofs3 ElasticProofs4 ElasticProofs9 ElasticProofs12 SupportSpec.
Import ListNotations.
Local Open Scope R_scope.

(** ** Projection onto the span of vectors *)
Lemma projection n (a : nat -> nat -> R) : forall m (b : nat -> R), exists w : nat -> R, forall j, (j < m)%nat ->
  Rsum_to n (fun i => a j i * (b i - Rsum_to m (fun k => w k * a k i))) = 0.
Proof.
  induction m as [|m IH]; intros b; [exists (fun _ => 0); intros; lia|].
  destruct (IH b) as (w & W). destruct (IH (a m)) as (x & X).
  set (rb := fun i => b i - Rsum_to m (fun k => w k * a k i)) in *. set (ra := fun i => a m i - Rsum_to m (fun k => x k * a k i)) in *.
  change (forall j, (j < m)%nat -> Rsum_to n (fun i => a j i * rb i) = 0) in W. change (forall j, (j < m)%nat -> Rsum_to n (fun i => a j i * ra i) = 0) in X.
  (* what is orthogonal to the first vectors sees only the residual of the last one *)
  assert (K : forall r : nat -> R, (forall j, (j < m)%nat -> Rsum_to n (fun i => a j i * r i) = 0) -> Rsum_to n (fun i => a m i * r i) = Rsum_to n (fun i => ra i * r i)).
  { intros r Hr. assert (Z : Rsum_to n (fun i => Rsum_to m (fun k => x k * a k i) * r i) = 0).
    { rewrite (Rsum_to_ext n _ (fun i => Rsum_to m (fun k => x k * (a k i * r i)))).
      - rewrite Rsum_to_swap. rewrite (Rsum_to_ext m _ (fun _ => 0)); [apply Rsum_to_zero|]. intros k Lk. rewrite Rsum_to_scal, Hr by exact Lk. ring.
      - intros i _. rewrite (Rsum_to_ext m (fun k => x k * (a k i * r i)) (fun k => r i * (x k * a k i))) by (intros; ring). rewrite Rsum_to_scal. ring. }
    unfold ra. rewrite (Rsum_to_ext n (fun i => (a m i - Rsum_to m (fun k => x k * a k i)) * r i) (fun i => a m i * r i - Rsum_to m (fun k => x k * a k i) * r i)) by (intros; ring).
    rewrite Rsum_to_minus, Z. ring. }
  set (s := Rsum_to n (fun i => ra i * ra i)). set (t := Rsum_to n (fun i => ra i * rb i) / s).
  exists (fun k => if Nat.eqb k m then t else w k - t * x k). intros j Lj.
  assert (E : forall i, b i - Rsum_to (S m) (fun k => (if Nat.eqb k m then t else w k - t * x k) * a k i) = rb i - t * ra i).
  { intros i. rewrite Rsum_to_S, Nat.eqb_refl. rewrite (Rsum_to_ext m _ (fun k => w k * a k i - t * (x k * a k i))).
    - rewrite Rsum_to_minus, Rsum_to_scal. unfold rb, ra. ring.
    - intros k Lk. destruct (Nat.eqb_spec k m); [lia|ring]. }
  rewrite (Rsum_to_ext n _ (fun i => a j i * (rb i - t * ra i))) by (intros i _; now rewrite E).
  assert (F : forall k, (k < m)%nat -> Rsum_to n (fun i => a k i * (rb i - t * ra i)) = 0).
  { intros k Lk. rewrite (Rsum_to_ext n _ (fun i => a k i * rb i - t * (a k i * ra i))) by (intros; ring). rewrite Rsum_to_minus, Rsum_to_scal, (W k Lk), (X k Lk). ring. }
  destruct (Nat.eq_dec j m) as [->|N]; [|apply F; lia]. rewrite (K _ F).
  rewrite (Rsum_to_ext n _ (fun i => ra i * rb i - t * (ra i * ra i))) by (intros; ring). rewrite Rsum_to_minus, Rsum_to_scal. fold s.
  destruct (Req_dec s 0) as [Z|Z]; [|unfold t; field; exact Z].
  rewrite (Rsum_to_ext n (fun i => ra i * rb i) (fun _ => 0)); [rewrite Rsum_to_zero, Z; ring|]. intros i Li. rewrite (squares_zero n ra (Req_le _ _ Z) i Li). ring.
Qed.
(** Linear functionals of the first entries. *)
Lemma linear_hats n (L : (nat -> R) -> R) : (forall u w s, L (fun j => u j + s * w j) = L u + s * L w) -> (forall u w, (forall j, (j < n)%nat -> u j = w j) -> L u = L w) ->
  forall u, L u = Rsum_to n (fun j => u j * L (hat j)).
Proof.
  intros Lin Ext u. assert (L0 : L (fun _ => 0) = 0).
  { pose proof (Lin (fun _ => 0) (fun _ => 0) (-1)) as H. cbv beta in H. rewrite (Ext (fun _ => 0 + -1 * 0) (fun _ => 0)) in H by (intros; ring). lra. }
  assert (P : forall m, (m <= n)%nat -> L (fun j => if Nat.ltb j m then u j else 0) = Rsum_to m (fun j => u j * L (hat j))).
  { induction m as [|m IH]; intros Lm.
    - rewrite (Ext _ (fun _ => 0)); [rewrite L0; reflexivity|]. intros j _. reflexivity.
    - rewrite Rsum_to_S, <- IH, <- Lin by lia. apply Ext. intros j _. unfold hat. destruct (Nat.ltb_spec j (S m)), (Nat.ltb_spec j m), (Nat.eqb_spec j m); try lia; subst; ring. }
  rewrite <- (P n (le_n n)). apply Ext. intros j Lj. destruct (Nat.ltb_spec j n); [reflexivity|lia].
Qed.

Section Body.
  Variables (d n : nat) (C : constraints RNum) (cells : list (ecell RNum)).
  Hypothesis Cok : closed_ok n C.
  Hypothesis Hc : Forall (cell_ok d n) cells.
  Local Notation B := (internal_work d C cells).

  Lemma internal_ext_r v u w : (forall j, (j < n)%nat -> u j = w j) -> B v u = B v w.
  Proof. intros H. apply (internal_ext n); auto. Qed.
  Lemma internal_hats v u : B v u = Rsum_to n (fun j => u j * B v (hat j)).
  Proof. apply (linear_hats n (B v)); [intros; apply internal_lin| apply internal_ext_r]. Qed.
  Lemma rigid_divergence v c q : rigid d C cells v -> In c (solid cells) -> In q (ec_quads c) -> cell_divergence d C c q v = 0.
  Proof.
    intros R0 Ic Iq. unfold cell_divergence, divergence. rewrite (Rsum_to_ext d _ (fun _ => 0)); [apply Rsum_to_zero|]. intros a La. pose proof (R0 c q a a Ic Iq La La) as H.
    unfold cell_strain, ElementSpec.strain in H. lra.
  Qed.
  (** Rigid displacements do no work against any stress. *)
  Lemma rigid_work v u : rigid d C cells v -> B v u = 0.
  Proof.
    intros R0. unfold internal_work. apply Sum_zero. intros c Ic. apply Sum_zero. intros q Iq. rewrite (rigid_divergence v c q R0 Ic Iq).
    rewrite (Rsum_to_ext d _ (fun _ => 0)); [rewrite Rsum_to_zero; ring|]. intros a La. rewrite (Rsum_to_ext d _ (fun _ => 0)); [apply Rsum_to_zero|]. intros b Lb. rewrite (R0 c q a b Ic Iq La Lb). ring.
  Qed.
  Hypothesis El : elastic_ok d cells.
  Lemma energy_rigid v : B v v = 0 -> rigid d C cells v.
  Proof. intros Z c q a b. exact (energy_zero d n C cells v Hc El Z c q a b). Qed.

  Variable W : (nat -> R) -> R.
  Hypothesis Wlin : forall u w s, W (fun j => u j + s * w j) = W u + s * W w.
  Hypothesis Wext : forall u w, (forall k, (k < n)%nat -> ~ In k (map fst C) -> u k = w k) -> W u = W w.
  Lemma work_hats v : W v = Rsum_to n (fun j => v j * W (hat j)).
  Proof. apply (linear_hats n W); [exact Wlin|]. intros u w H. apply Wext. auto. Qed.
  (** Existence. *)
  Lemma solvable : (forall v, rigid d C cells v -> W v = 0) -> exists w, balances d C cells W w.
  Proof.
    intros Z. destruct (projection n (fun j i => B (hat i) (hat j)) n (fun i => W (hat i))) as (w & H). exists w.
    set (r := fun i => W (hat i) - Rsum_to n (fun k => w k * B (hat i) (hat k))) in *. change (forall j, (j < n)%nat -> Rsum_to n (fun i => B (hat i) (hat j) * r i) = 0) in H.
    assert (O1 : forall j, (j < n)%nat -> B (hat j) r = 0).
    { intros j Lj. rewrite internal_hats. rewrite <- (H j Lj). apply Rsum_to_ext. intros i _. rewrite (internal_sym d C cells (hat j) (hat i)). unfold r. ring. }
    assert (Rr : rigid d C cells r).
    { apply energy_rigid. rewrite internal_hats. rewrite (Rsum_to_ext n _ (fun _ => 0)); [apply Rsum_to_zero|]. intros j Lj. rewrite internal_sym, (O1 j Lj). ring. }
    assert (R0 : Rsum_to n (fun i => r i * r i) = 0).
    { rewrite (Rsum_to_ext n _ (fun i => r i * W (hat i) - Rsum_to n (fun k => w k * (r i * B (hat i) (hat k))))).
      - rewrite Rsum_to_minus, <- work_hats, (Z r Rr), Rsum_to_swap. rewrite (Rsum_to_ext n _ (fun _ => 0)); [rewrite Rsum_to_zero; ring|]. intros k Lk. rewrite Rsum_to_scal.
        rewrite (Rsum_to_ext n _ (fun i => r i * B (hat k) (hat i))) by (intros i _; now rewrite (internal_sym d C cells (hat i) (hat k))). rewrite <- internal_hats, (O1 k Lk). ring.
      - intros i _. rewrite (Rsum_to_ext n (fun k => w k * (r i * B (hat i) (hat k))) (fun k => r i * (w k * B (hat i) (hat k)))) by (intros; ring). rewrite Rsum_to_scal. unfold r at 2. ring. }
    intros v. rewrite (work_hats v), internal_sym, internal_hats. apply Rsum_to_ext. intros i Li. rewrite internal_sym, internal_hats. pose proof (squares_zero n r (Req_le _ _ R0) i Li) as Q. unfold r in Q. f_equal. lra.
  Qed.
  Lemma conforming w : balances d C cells W w -> exists u, exact_solution d n C cells W u /\ forall k, (k < n)%nat -> ~ In k (map fst C) -> HeatSpec.entry u k = w k.
  Proof.
    intros Bw. set (x := map w (seq 0 n)). assert (Lx : List.length x = n) by (unfold x; now rewrite map_length, seq_length).
    assert (Ex : forall k, (k < n)%nat -> HeatSpec.entry x k = w k).
    { intros k Lk. unfold HeatSpec.entry, x. rewrite (nth_indep _ 0 (w 0%nat)) by (now rewrite map_length, seq_length). rewrite map_nth, seq_nth by exact Lk. reflexivity. }
    assert (Eu : forall k, (k < n)%nat -> ~ In k (map fst C) -> HeatSpec.entry (distributeR C x) k = w k).
    { intros k Lk Nk. rewrite (distribute_free n C x k Cok Lx Lk Nk). exact (Ex k Lk). }
    exists (distributeR C x). split; [split; [split|]|exact Eu].
    - now rewrite distribute_length.
    - intros j Lj. exact (distribute_conforms n C x j Cok Lx Lj).
    - intros v. rewrite <- (Bw v). apply (internal_ext n); auto.
  Qed.
  Lemma exists_iff : (exists u, exact_solution d n C cells W u) <-> (forall v, rigid d C cells v -> W v = 0).
  Proof.
    split; [intros (u & _ & Bu) v Rv; rewrite <- (Bu v); exact (rigid_work v (HeatSpec.entry u) Rv)|]. intros Z. destruct (solvable Z) as (w & Bw). destruct (conforming w Bw) as (u & U & _). exists u. exact U.
  Qed.
  Lemma supported_rigid v : supported d n C cells -> rigid d C cells v -> W v = 0.
  Proof.
    intros S0 Rv. rewrite (Wext v (fun _ => 0)) by (intros k Lk Nk; exact (S0 v Rv k Lk Nk)). rewrite work_hats. rewrite (Rsum_to_ext n _ (fun _ => 0)); [apply Rsum_to_zero|]. intros; ring.
  Qed.
  Lemma supported_unique (u w : list R) : supported d n C cells -> exact_solution d n C cells W u -> exact_solution d n C cells W w -> u = w.
  Proof.
    intros S0 [[Lu Cu] Bu] [[Lw Cw] Bw].
    assert (Rd : rigid d C cells (fun j => HeatSpec.entry u j + (-1) * HeatSpec.entry w j)).
    { apply energy_rigid. rewrite internal_lin, Bu, Bw. ring. }
    pose proof (S0 _ Rd) as Z. apply nth_ext with (d := 0) (d' := 0); [congruence|]. intros j Lj. rewrite Lu in Lj. change (HeatSpec.entry u j = HeatSpec.entry w j). rewrite (Cu j Lj), (Cw j Lj).
    apply (closed_nodal_ext n); auto. intros k Lk Nk. specialize (Z k Lk Nk). cbv beta in Z. lra.
  Qed.
  (** The exact solutions are the displacements of least potential energy. *)
  Lemma least_potential u v : balances d C cells W u -> potential d C cells W v = potential d C cells W u + B (fun j => v j + (-1) * u j) (fun j => v j + (-1) * u j) / 2.
  Proof.
    intros Bu. unfold potential. assert (E : B (fun j => v j + (-1) * u j) (fun j => v j + (-1) * u j) = B v v - 2 * W v + W u).
    { rewrite internal_lin, (internal_sym d C cells _ v), (internal_sym d C cells _ u), !internal_lin. rewrite (internal_sym d C cells u v), !Bu. ring. }
    rewrite E. rewrite Bu. lra.
  Qed.
  Lemma potential_iff u : balances d C cells W u <-> forall v, potential d C cells W u <= potential d C cells W v.
  Proof.
    split.
    - intros Bu v. rewrite (least_potential u v Bu). pose proof (energy_nonneg d C cells (fun j => v j + (-1) * u j) El). lra.
    - intros M v. set (g := B v u - W v). assert (E : forall s, potential d C cells W (fun j => u j + s * v j) = potential d C cells W u + s * g + s * s * (B v v / 2)).
      { intros s. unfold potential, g. rewrite internal_lin, (internal_sym d C cells _ u), (internal_sym d C cells _ v), !internal_lin, Wlin, (internal_sym d C cells u v). field. }
      pose proof (energy_nonneg d C cells v El) as Bv. destruct (Req_dec g 0) as [Z|Z]; [unfold g in Z; lra|]. exfalso.
      pose proof (M (fun j => u j + (- g / (1 + B v v)) * v j)) as Q. rewrite E in Q. assert (P : 0 < 1 + B v v) by lra.
      assert (F : - g / (1 + B v v) * g + - g / (1 + B v v) * (- g / (1 + B v v)) * (B v v / 2) = - (g * g) * (2 + B v v) / (2 * ((1 + B v v) * (1 + B v v)))) by (field; lra).
      assert (0 < g * g) by nra. assert (X : 0 < g * g * (2 + B v v) / (2 * ((1 + B v v) * (1 + B v v)))) by (apply Rdiv_lt_0_compat; nra).
      replace (- (g * g) * (2 + B v v) / (2 * ((1 + B v v) * (1 + B v v)))) with (- (g * g * (2 + B v v) / (2 * ((1 + B v v) * (1 + B v v))))) in F by (field; lra). lra.
  Qed.
End Body.
