(** HeatProofs5.v -- time steps. *)
From Coq Require Import Reals List Bool String ZArith Lra Lia.
From Verif Require Import Base MaterialModel MaterialSpec InputModel InputSpec HeatModel HeatSpec InputProofs MaterialProofs MaterialProofs2 HeatProofs HeatProofs2 HeatProofs3 HeatProofs4.
Import ListNotations.
Open Scope R_scope.

Definition saddR (v : list R) (a : R) (w : list R) : list R := map (fun p : R * R => 1 * fst p + a * snd p) (combine v w).
Lemma saddR_length v a w : List.length v = List.length w -> List.length (saddR v a w) = List.length v.
Proof. intros E. unfold saddR. rewrite map_length, combine_length, E. apply Nat.min_id. Qed.
Lemma ip_sadd z v a w : List.length v = List.length w -> ip z (saddR v a w) = ip z v + a * ip z w.
Proof.
  revert z w. induction v as [|x v IH]; intros z [|b w] L; try discriminate; cbn; [lra|]. change (map _ (combine v w)) with (saddR v a w). rewrite IH by (cbn in L; lia). lra.
Qed.
Definition evolveR (s : scheme) (f : nat -> R -> list R -> list R) (t dt : R) (y : list R) : R * list R := evolve (N := RNum) s f t dt y.
Definition step (s : scheme) (f : nat -> R -> list R -> list R) (t dt : R) (y : list R) : list R :=
  match s with
  | ForwardEuler => saddR y dt (f O t y)
  | RungeKutta3 =>
      let k0 := f O (t + 0 * dt) y in
      let k1 := f 1%nat (t + 1/2 * dt) (saddR y (dt * (1/2)) k0) in
      let k2 := f 2%nat (t + 1 * dt) (saddR (saddR y (dt * -1) k0) (dt * 2) k1) in
      saddR (saddR (saddR y (dt * (1/6)) k0) (dt * (2/3)) k1) (dt * (1/6)) k2
  | RungeKutta4 =>
      let k0 := f O (t + 0 * dt) y in
      let k1 := f 1%nat (t + 1/2 * dt) (saddR y (dt * (1/2)) k0) in
      let k2 := f 2%nat (t + 1/2 * dt) (saddR (saddR y (dt * 0) k0) (dt * (1/2)) k1) in
      let k3 := f 3%nat (t + 1 * dt) (saddR (saddR (saddR y (dt * 0) k0) (dt * 0) k1) (dt * 1) k2) in
      saddR (saddR (saddR (saddR y (dt * (1/6)) k0) (dt * (1/3)) k1) (dt * (1/3)) k2) (dt * (1/6)) k3
  end.
Lemma evolve_step s f t dt y : evolveR s f t dt y = (t + dt, step s f t dt y).
Proof. destruct s; reflexivity. Qed.

Section Step.
  Variables (n : nat) (w : nat -> R) (f : nat -> R -> list R -> list R).
  Hypothesis (Lf : forall i t y, List.length y = n -> List.length (f i t y) = n).
  Lemma sl v a u : List.length v = n -> List.length u = n -> List.length (saddR v a u) = n.
  Proof. intros A B. rewrite saddR_length; congruence. Qed.
  Lemma si v a u : List.length v = n -> List.length u = n -> ip w (saddR v a u) = ip w v + a * ip w u.
  Proof. intros A B. apply ip_sadd. congruence. Qed.
  Lemma step_length s t dt y : List.length y = n -> List.length (step s f t dt y) = n.
  Proof. intros L. destruct s; unfold step; cbv zeta; repeat (apply sl || apply Lf || assumption). Qed.
  Ltac len := repeat (apply sl || apply Lf || assumption).
  (** The new value of a linear functional is the old one plus the weighted rates of the stages. *)
  Lemma step_functional s t dt y : List.length y = n -> exists stage : nat -> list R, (forall i, List.length (stage i) = n) /\ stage O = y /\
    ip w (step s f t dt y) = ip w y + dt * Sum (indexed (quadrature s)) (fun iq => snd (snd iq) * ip w (f (fst iq) (t + fst (snd iq) * dt) (stage (fst iq)))).
  Proof.
    intros L. destruct s; unfold step; cbv zeta.
    - exists (fun _ => y). split; [auto|]. split; [reflexivity|]. rewrite si by len. unfold indexed, quadrature. cbn [List.length seq combine]. rewrite Sum_cons, Sum_nil. cbn [fst snd].
      replace (t + 0 * dt) with t by ring. ring.
    - set (k0 := f O (t + 0 * dt) y). assert (L0 : List.length k0 = n) by (unfold k0; len).
      set (y1 := saddR y (dt * (1/2)) k0). assert (M1 : List.length y1 = n) by (unfold y1; len).
      set (k1 := f 1%nat (t + 1/2 * dt) y1). assert (L1 : List.length k1 = n) by (unfold k1; len).
      set (y2 := saddR (saddR y (dt * -1) k0) (dt * 2) k1). assert (M2 : List.length y2 = n) by (unfold y2; len).
      set (k2 := f 2%nat (t + 1 * dt) y2). assert (L2 : List.length k2 = n) by (unfold k2; len).
      exists (fun i => match i with O => y | S O => y1 | _ => y2 end). split; [intros [|[|i]]; auto|]. split; [reflexivity|].
      rewrite !si by len. unfold indexed, quadrature. cbn [List.length seq combine]. rewrite !Sum_cons, Sum_nil. cbn [fst snd]. fold k0 k1 k2. ring.
    - set (k0 := f O (t + 0 * dt) y). assert (L0 : List.length k0 = n) by (unfold k0; len).
      set (y1 := saddR y (dt * (1/2)) k0). assert (M1 : List.length y1 = n) by (unfold y1; len).
      set (k1 := f 1%nat (t + 1/2 * dt) y1). assert (L1 : List.length k1 = n) by (unfold k1; len).
      set (y2 := saddR (saddR y (dt * 0) k0) (dt * (1/2)) k1). assert (M2 : List.length y2 = n) by (unfold y2; len).
      set (k2 := f 2%nat (t + 1/2 * dt) y2). assert (L2 : List.length k2 = n) by (unfold k2; len).
      set (y3 := saddR (saddR (saddR y (dt * 0) k0) (dt * 0) k1) (dt * 1) k2). assert (M3 : List.length y3 = n) by (unfold y3; len).
      set (k3 := f 3%nat (t + 1 * dt) y3). assert (L3 : List.length k3 = n) by (unfold k3; len).
      exists (fun i => match i with O => y | S O => y1 | S (S O) => y2 | _ => y3 end). split; [intros [|[|[|i]]]; auto|]. split; [reflexivity|].
      rewrite !si by len. unfold indexed, quadrature. cbn [List.length seq combine]. rewrite !Sum_cons, Sum_nil. cbn [fst snd]. fold k0 k1 k2 k3. ring.
  Qed.
  Lemma step_exact (P : nat -> R -> R) s t dt y : (forall i t y, List.length y = n -> ip w (f i t y) = P i t) -> List.length y = n ->
    ip w (step s f t dt y) = ip w y + dt * Sum (indexed (quadrature s)) (fun iq => snd (snd iq) * P (fst iq) (t + fst (snd iq) * dt)).
  Proof.
    intros H L. destruct (step_functional s t dt y L) as (st & Ls & _ & E). rewrite E. f_equal. f_equal. apply Sum_ext. intros iq _. rewrite H by apply Ls. reflexivity.
  Qed.
  Lemma weights_sum s : Sum (indexed (quadrature s)) (fun iq => snd (snd iq)) = 1.
  Proof. clear. destruct s; unfold indexed, quadrature; cbn [List.length seq combine]; rewrite ?Sum_cons, Sum_nil; cbn [fst snd]; lra. Qed.
  Lemma weights_pos s iq : In iq (indexed (quadrature s)) -> 0 <= snd (snd iq).
  Proof. clear. intros I. destruct s; unfold indexed, quadrature in I; cbn [List.length seq combine] in I; repeat (destruct I as [<-|I]; [cbn; lra|]); destruct I. Qed.
  Lemma step_bounds (lo hi : R) s t dt y : 0 <= dt -> (forall i t y, List.length y = n -> lo <= ip w (f i t y) <= hi) -> List.length y = n ->
    ip w y + dt * lo <= ip w (step s f t dt y) <= ip w y + dt * hi.
  Proof.
    intros D H L. destruct (step_functional s t dt y L) as (st & Ls & _ & E). rewrite E.
    set (S0 := Sum (indexed (quadrature s)) (fun iq => snd (snd iq) * ip w (f (fst iq) (t + fst (snd iq) * dt) (st (fst iq))))).
    assert (lo <= S0 <= hi); [|split; apply Rplus_le_compat_l; apply Rmult_le_compat_l; tauto || lra].
    split.
    - replace lo with (Sum (indexed (quadrature s)) (fun iq => lo * snd (snd iq))) by (rewrite Sum_scal, weights_sum; ring). unfold S0. apply Sum_le. intros iq I. rewrite Rmult_comm.
      apply Rmult_le_compat_l; [apply (weights_pos s); exact I|]. apply H. apply Ls.
    - replace hi with (Sum (indexed (quadrature s)) (fun iq => hi * snd (snd iq))) by (rewrite Sum_scal, weights_sum; ring). unfold S0. apply Sum_le. intros iq I. rewrite (Rmult_comm hi).
      apply Rmult_le_compat_l; [apply (weights_pos s); exact I|]. apply H. apply Ls.
  Qed.
End Step.

(** ** Heat balance of a step *)
Lemma integral_ip m (y : list R) : mesh_ok m -> List.length y = m_n m -> integral (m_C m) (m_mass m) (entry y) = ip (nodal_mass m) y.
Proof. intros Mok L. rewrite (integral_mass m Mok), ip_nth, L. reflexivity. Qed.
Definition heat_rate (dim3 : bool) (ad : bool) (m : heat_mesh RNum) (on : nat -> R -> bool) (K : nat -> R -> laws RNum) (F : nat -> R -> face_laws RNum) (i : nat) (t : R) (y : list R) : list R :=
  evaluate (N := RNum) dim3 (on i t) ad m (K i t) (F i t) y.
Lemma step_power dim3 m on (K : nat -> R -> laws RNum) (F : nat -> R -> face_laws RNum) rc s t dt (y : list R) : mesh_ok m -> massive m -> 0 < rc -> List.length y = m_n m ->
  (forall i t c q T, pl_inv (K i t c q T) = / rc) -> (forall i t c q T T', pl_beams (K i t c q T) = pl_beams (K i t c q T')) ->
  rc * integral (m_C m) (m_mass m) (entry (snd (evolveR s (heat_rate dim3 true m on K F) t dt y))) =
  rc * integral (m_C m) (m_mass m) (entry y) +
  dt * Sum (indexed (quadrature s)) (fun iq => snd (snd iq) * (let t' := t + fst (snd iq) * dt in if on (fst iq) t' then
    power_in (m_cells m) (fun c q => Sum (pl_beams (K (fst iq) t' c q 0)) (fun b => b : R)) else 0)).
Proof.
  intros Mok M P L I B. rewrite evolve_step. cbn [snd].
  assert (Lf : forall i t y, List.length y = m_n m -> List.length (heat_rate dim3 true m on K F i t y) = m_n m) by (intros; apply rate_length).
  rewrite !integral_ip by (try exact Mok; try exact L; apply (step_length (m_n m) _ Lf); exact L).
  rewrite (step_exact (m_n m) (nodal_mass m) _ Lf (fun i t => / rc * (if on i t then power_in (m_cells m) (fun c q => Sum (pl_beams (K i t c q 0)) (fun b => b : R)) else 0)) s t dt y).
  - rewrite Rmult_plus_distr_l. f_equal. rewrite <- Rmult_assoc, (Rmult_comm rc dt), Rmult_assoc. f_equal. rewrite <- Sum_scal. apply Sum_ext. intros iq _. cbv zeta. field. lra.
  - intros i u v Lv. rewrite <- integral_ip by (try exact Mok; apply Lf; exact Lv). unfold heat_rate.
    etransitivity; [exact (balance dim3 (on i u) true m (K i u) (F i u) v Mok M)|]. rewrite Rminus_0_r. destruct (on i u); [|ring]. unfold released, power_in. rewrite <- Sum_scal. apply Sum_ext. intros ic _.
    rewrite <- Sum_scal. apply Sum_ext. intros iq _. cbv zeta. rewrite I, (B i u (fst ic) (fst iq) _ 0). rewrite <- Rmult_assoc, (Rmult_comm (h_jxw (snd iq))), Rmult_assoc. reflexivity.
  - exact L.
Qed.
(** Without sources and with adiabatic walls, the integral of the temperature does not change, whatever the material laws. *)
Lemma step_conserved dim3 m (K : nat -> R -> laws RNum) (F : nat -> R -> face_laws RNum) s t dt (y : list R) : mesh_ok m -> massive m -> List.length y = m_n m ->
  integral (m_C m) (m_mass m) (entry (snd (evolveR s (heat_rate dim3 true m (fun _ _ => false) K F) t dt y))) = integral (m_C m) (m_mass m) (entry y).
Proof.
  intros Mok M L. rewrite evolve_step. cbn [snd].
  assert (Lf : forall i t y, List.length y = m_n m -> List.length (heat_rate dim3 true m (fun _ _ => false) K F i t y) = m_n m) by (intros; apply rate_length).
  rewrite !integral_ip by (try exact Mok; try exact L; apply (step_length (m_n m) _ Lf); exact L).
  rewrite (step_exact (m_n m) (nodal_mass m) _ Lf (fun _ _ => 0) s t dt y); [|intros i u v Lv|exact L].
  - rewrite Sum_zero by (intros; ring). ring.
  - rewrite <- integral_ip by (try exact Mok; apply Lf; exact Lv). unfold heat_rate. etransitivity; [exact (balance dim3 false true m (K i u) (F i u) v Mok M)|]. exact (Rminus_0_r 0).
Qed.

(** ** Order *)
Lemma map_saddR (g : R -> R) (h : R -> R) a y : saddR (map g y) a (map h y) = map (fun x => g x + a * h x) y.
Proof. induction y as [|x y IH]; [reflexivity|]. cbn [map]. unfold saddR in *. cbn [combine map fst snd]. rewrite IH. f_equal. ring. Qed.
Lemma linear_step s lam t dt y : snd (evolveR s (fun _ _ v => map (fun x => lam * x) v) t dt y) = map (fun x => taylor (order s) (lam * dt) * x) y.
Proof.
  rewrite evolve_step. cbn [snd]. assert (E : y = map (fun x => x) y) by (symmetry; apply map_id). rewrite E at 1.
  destruct s; unfold step; cbv zeta; repeat (rewrite ?map_map, ?map_saddR); apply map_ext; intros x; cbn [order taylor fact Nat.add Nat.mul INR pow]; field.
Qed.
Lemma quadrature_order s k : (k < order s)%nat -> Sum (quadrature s) (fun q => snd q * fst q ^ k) = / INR (S k).
Proof.
  intros L. destruct s; cbn [order] in L; do 4 (destruct k as [|k]; [try (exfalso; lia); unfold quadrature; rewrite ?Sum_cons, Sum_nil; cbn [fst snd pow INR]; field|]); lia.
Qed.
Lemma tableau_rows s i : (i < List.length (quadrature s) - 1)%nat ->
  Sum (nth i (tableau_a (N := RNum) s) []) (fun a => a : R) = fst (nth (S i) (quadrature s) (0, 0)).
Proof.
  intros L. destruct s; cbn [quadrature List.length Nat.sub] in L; do 3 (destruct i as [|i]; [try (exfalso; lia); cbn [tableau_a nth quadrature fst]; rewrite ?Sum_cons, Sum_nil; unfold half; cbn [nofZ ndiv RNum]; lra|]); lia.
Qed.

(** ** Schemes *)
Lemma make_scheme_named method : named method ["forward_euler"; "rk_third_order"; "rk_fourth_order"]%string <-> exists s, make_scheme method = Some s.
Proof.
  rewrite named_lower. unfold make_scheme. split.
  - intros (m & I & E). cbv zeta. rewrite E. destruct I as [<-|[<-|[<-|[]]]]; eexists; reflexivity.
  - intros [s E]. cbv zeta in E. destruct (String.eqb_spec (lower method) "forward_euler") as [A|_]; [exists "forward_euler"%string; split; [cbn; auto|rewrite A; reflexivity]|].
    destruct (String.eqb_spec (lower method) "rk_third_order") as [A|_]; [exists "rk_third_order"%string; split; [cbn; auto|rewrite A; reflexivity]|].
    destruct (String.eqb_spec (lower method) "rk_fourth_order") as [A|_]; [exists "rk_fourth_order"%string; split; [cbn; auto|rewrite A; reflexivity]|]. discriminate.
Qed.
Lemma make_scheme_which method : (named method ["forward_euler"]%string <-> make_scheme method = Some ForwardEuler) /\ (named method ["rk_third_order"]%string <-> make_scheme method = Some RungeKutta3) /\
  (named method ["rk_fourth_order"]%string <-> make_scheme method = Some RungeKutta4).
Proof.
  assert (G : forall k : string, lower k = k -> named method [k] <-> lower method = k).
  { intros k K. rewrite named_lower. split; [intros (m & [<-|[]] & E); congruence|]. intros E. exists k. split; [cbn; auto| congruence]. }
  rewrite !G by reflexivity. unfold make_scheme. cbv zeta.
  destruct (String.eqb_spec (lower method) "forward_euler") as [A|A]; [rewrite A; repeat split; congruence|].
  destruct (String.eqb_spec (lower method) "rk_third_order") as [B|B]; [rewrite B; repeat split; congruence|].
  destruct (String.eqb_spec (lower method) "rk_fourth_order") as [D|D]; [rewrite D; repeat split; congruence|]. repeat split; congruence.
Qed.
Lemma sources_on l : heat_sources_on l = true <-> In true l.
Proof.
  unfold heat_sources_on. assert (G : forall l b, fold_left (fun on s => if s : bool then true else on) l b = true <-> b = true \/ In true l).
  { clear. induction l as [|s l IH]; intros b; cbn [fold_left]; [split; [auto|intros [H|[]]; exact H]|]. rewrite IH. destruct s, b; cbn; intuition discriminate. }
  rewrite G. split; [intros [H|H]; [discriminate|exact H]|auto].
Qed.
Lemma filter_le {A} (g : A -> bool) l : (List.length (filter g l) <= List.length l)%nat.
Proof. induction l as [|a l IH]; [apply Nat.le_refl|]. cbn [filter]. destruct (g a); cbn [List.length]; lia. Qed.
Lemma filter_all {A} (g : A -> bool) l : List.length (filter g l) = List.length l <-> forall a, In a l -> g a = true.
Proof.
  induction l as [|a l IH]; [split; [intros _ a []|reflexivity]|]. cbn [filter]. destruct (g a) eqn:E; cbn [List.length].
  - split; [intros H b [<-|I]; [exact E|apply IH; [lia|exact I]]|intros H; f_equal; apply IH; intros; apply H; apply in_cons; assumption].
  - split; [|intros H; rewrite (H a (in_eq _ _)) in E; discriminate]. intros H. pose proof (filter_le g l). lia.
Qed.
Lemma adiabatic_only_iff types : adiabatic_only types = true <-> Forall (fun ty => has_flag ty adiabatic = true) types.
Proof.
  unfold adiabatic_only, get_boundary_ids. rewrite Nat.eqb_eq. rewrite <- (seq_length (List.length types) 0) at 2. rewrite filter_all, Forall_forall. split.
  - intros H ty I. apply (In_nth _ _ 0%N) in I. destruct I as (i & L & <-). apply H. apply in_seq. lia.
  - intros H i I. apply in_seq in I. apply H. apply nth_In. lia.
Qed.
