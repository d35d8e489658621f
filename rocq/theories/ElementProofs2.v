(** ElementProofs2.v -- rigid motions, gravity, the stress of a free expansion. *)
From Coq Require Import Reals ZArith Bool List Lia Lra.
From Verif Require Import Base BaseFacts CellModel CellProofs2 AssimilationSpec AssimilationProofs AssimilationProofs3 StressModel StressSpec StressProofs StressProofs2 ElementModel ElementSpec ElementProofs.
Import ListNotations.
Local Open Scope R_scope.

Lemma Rsum_zero_terms (l : list R) : Forall (fun x => 0 <= x) l -> Rsum l = 0 -> Forall (fun x => x = 0) l.
Proof.
  induction l as [|x l IH]; intros F S; [constructor|]. inversion F as [|? ? P F']; subst. pose proof (Rsum_nonneg l F') as N. unfold Rsum in *. cbn [fold_right] in S. constructor; [lra|]. apply IH; [exact F'| lra].
Qed.
Section Rigid.
  Variables (d n : nat) (comps : list nat) (qs : list (quad RNum)).
  Hypothesis EL : element d n comps qs.
  Variables (lambda mu : R).
  Lemma row_work (u : nat -> R) i : (i < n)%nat -> Rsum_to n (fun j => matrix_entry (N := RNum) lambda mu comps qs i j * u j) = work d n lambda mu comps qs (fun k => ind (Nat.eqb i k)) u.
  Proof.
    intros Hi. rewrite <- (bilinear d n comps qs EL lambda mu).
    rewrite (Rsum_to_ext n (fun i0 => Rsum_to n (fun j => ind (Nat.eqb i i0) * matrix_entry (N := RNum) lambda mu comps qs i0 j * u j)) (fun k => ind (Nat.eqb i k) * Rsum_to n (fun j => matrix_entry (N := RNum) lambda mu comps qs k j * u j))).
    - now rewrite (Rsum_pick n i (fun k => Rsum_to n (fun j => matrix_entry (N := RNum) lambda mu comps qs k j * u j)) Hi).
    - intros k _. rewrite <- Rsum_to_scal. apply Rsum_to_ext. intros j _. ring.
  Qed.
  Lemma rigid_force u : (forall q a b, In q qs -> (a < d)%nat -> (b < d)%nat -> strain n comps q u a b = 0) -> forall v, work d n lambda mu comps qs v u = 0.
  Proof.
    intros HS v. unfold work. rewrite (Rsum_ext _ (fun _ => 0)); [apply Rsum_zero|]. intros q HI.
    assert (divergence d n comps q u = 0) as ->.
    { unfold divergence. rewrite (Rsum_to_ext d _ (fun _ => 0)); [apply Rsum_to_zero|]. intros a Ha. specialize (HS q a a HI Ha Ha). unfold strain in HS. lra. }
    rewrite (Rsum_to_ext d _ (fun _ => 0)); [rewrite Rsum_to_zero; ring|]. intros a Ha. rewrite (Rsum_to_ext d _ (fun _ => 0)); [apply Rsum_to_zero|]. intros b Hb. rewrite (HS q a b HI Ha Hb). ring.
  Qed.
  Lemma zero_energy u : 0 < mu -> 0 < INR d * lambda + 2 * mu -> Forall (fun q : quad RNum => 0 < q_jxw q) qs -> (0 < d)%nat ->
    work d n lambda mu comps qs u u = 0 -> forall q a b, In q qs -> (a < d)%nat -> (b < d)%nat -> strain n comps q u a b = 0.
  Proof.
    intros Hm Hl HW Hd W0.
    intros q a b HI Ha Hb. unfold work in W0. rewrite Forall_forall in HW.
    set (D := divergence d n comps q u). set (E := Rsum_to d (fun a => Rsum_to d (fun b => strain n comps q u a b * strain n comps q u a b))).
    assert (forall q : quad RNum, let D := divergence d n comps q u in let E := Rsum_to d (fun a => Rsum_to d (fun b => strain n comps q u a b * strain n comps q u a b)) in
              0 <= E /\ 0 <= lambda * D * D + 2 * mu * E /\ (lambda * D * D + 2 * mu * E = 0 -> E = 0)) as PT.
    { clear - Hm Hl Hd. intros q D E.
      assert (D = Rsum_to d (fun a => strain n comps q u a a)) as DV by (unfold D, divergence; apply Rsum_to_ext; intros a _; unfold strain; field).
      pose proof (trace_bound d (strain n comps q u)) as TB. fold E in TB. rewrite <- DV in TB. unfold Rsqr in TB. assert (0 < INR d) as P by now apply lt_0_INR.
      assert (0 <= E) as PE. { apply Rsum_nonneg, Forall_forall. intros y HY. apply in_map_iff in HY. destruct HY as (a & <- & _). apply Rsum_nonneg, Forall_forall. intros z HZ. apply in_map_iff in HZ. destruct HZ as (b & <- & _). apply Rle_0_sqr. }
      clearbody D E. clear - Hm Hl P TB PE. replace (lambda * D * D) with (lambda * (D * D)) by ring. pose proof (Rle_0_sqr D) as DD. unfold Rsqr in DD. set (x := D * D) in *. clearbody x.
      split; [exact PE|]. destruct (Rle_dec 0 lambda) as [L|L].
      - assert (0 <= lambda * x) by nra. split; [nra|]. intros Z. nra.
      - assert (lambda * (INR d * E) <= lambda * x) by nra. assert (0 <= E * (INR d * lambda + 2 * mu)) by nra. split; [nra|]. intros Z. nra. }
    assert ((lambda * D * D + 2 * mu * E) * q_jxw q = 0) as TZ.
    { apply Rsum_zero_terms in W0.
      - rewrite Forall_forall in W0. apply W0. apply in_map_iff. exists q. split; [reflexivity| exact HI].
      - apply Forall_forall. intros x HX. apply in_map_iff in HX. destruct HX as (q' & <- & HI'). specialize (HW q' HI'). destruct (PT q') as (_ & P2 & _). apply Rmult_le_pos; [exact P2| left; exact HW]. }
    destruct (PT q) as (P1 & _ & P3). fold D E in P1, P3. specialize (HW q HI). apply Rmult_integral in TZ. destruct TZ as [TZ|TZ]; [|cbn [num RNum] in *; lra]. specialize (P3 TZ).
    assert (forall a, (a < d)%nat -> Rsum_to d (fun b => strain n comps q u a b * strain n comps q u a b) = 0) as RZ.
    { intros a' Ha'. unfold E in P3. unfold Rsum_to at 1 in P3. apply Rsum_zero_terms in P3.
      - rewrite Forall_forall in P3. apply P3. apply in_map_iff. exists a'. split; [reflexivity| apply in_seq; lia].
      - apply Forall_forall. intros x HX. apply in_map_iff in HX. destruct HX as (a2 & <- & _). apply Rsum_nonneg, Forall_forall. intros z HZ. apply in_map_iff in HZ. destruct HZ as (b2 & <- & _). apply Rle_0_sqr. }
    apply (squares_zero d (fun b => strain n comps q u a b)); [rewrite (RZ a Ha); apply Rle_refl| exact Hb].
  Qed.
  Lemma rigid_iff u : 0 < mu -> 0 < INR d * lambda + 2 * mu -> Forall (fun q : quad RNum => 0 < q_jxw q) qs -> (0 < d)%nat ->
    (forall i, (i < n)%nat -> Rsum_to n (fun j => matrix_entry (N := RNum) lambda mu comps qs i j * u j) = 0) <->
    (forall q a b, In q qs -> (a < d)%nat -> (b < d)%nat -> strain n comps q u a b = 0).
  Proof.
    intros Hm Hl HW Hd. split.
    - intros HK.
      assert (work d n lambda mu comps qs u u = 0) as W0.
      { rewrite <- (bilinear d n comps qs EL lambda mu). rewrite (Rsum_to_ext n _ (fun _ => 0)); [apply Rsum_to_zero|]. intros i Hi.
        rewrite (Rsum_to_ext n _ (fun j => u i * (matrix_entry (N := RNum) lambda mu comps qs i j * u j))) by (intros; ring). rewrite Rsum_to_scal, (HK i Hi). ring. }
      now apply zero_energy.
    - intros HS i Hi. rewrite (row_work u i Hi). now apply rigid_force.
  Qed.
End Rigid.

(** ** Gravity *)
Lemma gravity_nth (d : nat) (rho : R) a : d = 2%nat \/ d = 3%nat -> (a < d)%nat ->
  nth a (total_force (N := RNum) d [gravity_force (N := RNum) d rho]) 0 = if Nat.eqb a (d - 1) then - (rho * (980665 / 100000)) else 0.
Proof.
  intros [-> | ->] Ha; destruct a as [|[|[|]]]; try lia; cbn; lra.
Qed.
Lemma gravity_total d n comps qs (rho : R) a : d = 2%nat \/ d = 3%nat -> element d n comps qs -> (a < d)%nat ->
  (forall q, In q qs -> Rsum_to n (fun i => if Nat.eqb (nth i comps O) a then nth i (q_values q) 0 else 0) = 1) ->
  Rsum_to n (fun i => if Nat.eqb (nth i comps O) a then body_load (N := RNum) (total_force (N := RNum) d [gravity_force (N := RNum) d rho]) comps qs i else 0) =
  (if Nat.eqb a (d - 1) then - (rho * (980665 / 100000)) else 0) * Rsum (map (fun q : quad RNum => q_jxw q : R) qs).
Proof.
  intros Hd EL Ha PU. rewrite (body_total d n comps qs (total_force (N := RNum) d [gravity_force (N := RNum) d rho]) a EL Ha PU). f_equal. now apply gravity_nth.
Qed.

(** ** The stress computed for a free expansion *)
Lemma effective_isotropic d o (c k : R) : (0 < d)%nat -> magnitude (effective (mkpoint (N := RNum) (zero_tensor d o) (zero_tensor d o) k) (isotropic d o c)) = 0.
Proof.
  intros Hd. assert (forall x, shaped d o (isotropic d o x)) as SH by (intros x; unfold isotropic, shaped; cbn [dg od]; split; apply repeat_length).
  assert (forall x i, (i < d)%nat -> D (isotropic d o x) i = x) as HD by (intros x i Hi; unfold D, isotropic; cbn [dg]; rewrite nth_indep with (d' := x) by (rewrite repeat_length; exact Hi); apply nth_repeat).
  assert (forall x i, O_ (isotropic d o x) i = 0) as HO by (intros x i; unfold O_, isotropic; cbn [od]; apply nth_repeat).
  assert (tr (isotropic d o c) = INR d * c) as HT by (rewrite (tr_sum d o) by apply SH; rewrite (Rsum_to_ext d _ (fun _ => c)) by (intros; now apply HD); apply Rsum_to_const).
  pose proof (zero_shaped d o) as ZS. set (s := mkpoint (N := RNum) (zero_tensor d o) (zero_tensor d o) k). destruct (effective_entries d o s (isotropic d o c) (SH c) ZS) as (E1 & E2).
  assert (shaped d o (effective s (isotropic d o c))) as SE by (apply tsub_shaped; [apply dev_shaped, SH| exact ZS]).
  unfold magnitude. transitivity (sqrt 0); [f_equal| apply sqrt_0]. rewrite (contract_sum d o _ _ SE SE).
  rewrite (Rsum_to_ext d _ (fun _ => 0)), (Rsum_to_ext o _ (fun _ => 0)), !Rsum_to_zero; [ring| |].
  - intros i Hi. rewrite (E2 i Hi), HO. cbn [s p_back]. rewrite (O_zero d o). ring.
  - intros i Hi. rewrite (E1 i Hi), (HD c i Hi), HT. cbn [s p_back]. rewrite (D_zero d o). field. apply not_0_INR. lia.
Qed.
Lemma expansion_stress d o (m : plasticity RNum) (k beta : R) : (0 < d)%nat -> 0 < k ->
  update_point m (mkpoint (N := RNum) (zero_tensor d o) (zero_tensor d o) k) (isotropic d o beta) =
  mkpoint (N := RNum) (isotropic d o ((INR d * lame1 m + 2 * lame2 m) * beta)) (zero_tensor d o) k.
Proof.
  intros Hd Hk. set (s := mkpoint (N := RNum) (zero_tensor d o) (zero_tensor d o) k).
  assert (trial m s (isotropic d o beta) = isotropic d o ((INR d * lame1 m + 2 * lame2 m) * beta)) as TR.
  { unfold trial. cbn [s p_stress]. rewrite (hooke_isotropic d o (lame1 m) (lame2 m) beta).
    assert (forall x, shaped d o (isotropic d o x)) as SH by (intros x; unfold isotropic, shaped; cbn [dg od]; split; apply repeat_length).
    apply (sym_ext d o); [apply tadd_shaped; [apply zero_shaped| apply SH]| apply SH| |]; intros i Hi.
    - rewrite (D_add d o _ _ (zero_shaped d o) (SH _) i Hi), (D_zero d o). ring.
    - rewrite (O_add d o _ _ (zero_shaped d o) (SH _) i Hi), (O_zero d o). ring. }
  rewrite elastic_case.
  - rewrite TR. reflexivity.
  - rewrite TR. unfold s. rewrite (effective_isotropic d o _ k Hd). exact Hk.
Qed.
