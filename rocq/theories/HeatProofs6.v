(** HeatProofs6.v -- boundary conditions, validated methods, counterexamples. *)
From Coq Require Import Reals QArith List Bool String ZArith Lra Lia.
From Verif Require Import Base MaterialModel MaterialSpec InputModel InputSpec HeatModel HeatSpec MaterialProofs MaterialProofs2 HeatProofs HeatProofs2 HeatProofs3 HeatProofs4 HeatProofs5 HeatExamples.
Import ListNotations.
Local Open Scope R_scope.

Lemma inside_face (C : constraints RNum) (F : face_laws RNum) (src d : list R) (jf : nat * hface RNum) : on_boundary (snd jf) = false -> face_apply (N := RNum) C F src d jf = d.
Proof. intros H. unfold face_apply. cbv zeta. rewrite face_done_boundary, H. reflexivity. Qed.
Lemma shortcut dim3 on m (K : laws RNum) (F : face_laws RNum) (y : list R) (types : list BinNums.N) : mesh_ok m ->
  Forall (fun f => In (hf_type f) types) (m_faces m) ->
  Forall (fun ty => has_flag ty adiabatic = true -> has_flag ty convective = false /\ has_flag ty radiative = false) types ->
  forall j, free m j -> entry (evaluate (N := RNum) dim3 on (adiabatic_only types) m K F y) j = entry (evaluate (N := RNum) dim3 on false m K F y) j.
Proof.
  intros Mok I T j Fr. destruct (adiabatic_only types) eqn:A; [|reflexivity]. apply adiabatic_only_iff in A. symmetry. apply no_loss; [exact Mok| |exact Fr].
  eapply Forall_impl; [|exact I]. intros f If. cbn beta in If. apply (proj1 (Forall_forall _ _) T); [exact If|]. exact (proj1 (Forall_forall _ _) A _ If).
Qed.
Lemma mixed_refuted : exists (m : heat_mesh RNum) (K : laws RNum) (F : face_laws RNum) (y : list R) (ty : BinNums.N) (j : nat), mesh_ok m /\ massive m /\ free m j /\
  parse_boundary_line "convective,adiabatic" = Ok ty /\ Forall (fun f => hf_type f = ty) (m_faces m) /\
  entry (evaluate (N := RNum) false false (adiabatic_only [ty; ty]) m K F y) j <> entry (evaluate (N := RNum) false false (adiabatic_only [ty; convective]) m K F y) j.
Proof.
  exists (mesh3 (N := RNum) mixed), K3, F3, yR, mixed, 4%nat. split; [apply mesh3_ok|]. split; [apply mesh3_massive|]. split; [split; [cbn; lia|cbn; intuition lia]|].
  split; [exact mixed_line|]. split; [repeat (apply Forall_list; [reflexivity|]); apply Forall_nil|]. destruct mixed_differs as [A B].
  intros E. rewrite A, B in E. lra.
Qed.
Lemma shortcut_case : Forall (fun f => In (hf_type f) [adiabatic; convective]) (m_faces (mesh3 (N := RNum) convective)) /\
  Forall (fun ty => has_flag ty adiabatic = true -> has_flag ty convective = false /\ has_flag ty radiative = false) [adiabatic; convective] /\ adiabatic_only [adiabatic; convective] = false /\
  map on_boundary (m_faces (mesh3 (N := RNum) convective)) = [true; true; false].
Proof.
  split; [repeat (apply Forall_list; [cbn; auto|]); apply Forall_nil|]. split; [|split; reflexivity]. repeat (apply Forall_list; [vm_compute; auto; discriminate|]). apply Forall_nil.
Qed.
Lemma validated_step (tbool : string -> option bool) (tdouble : string -> option R) (db : ptree) : valid_time (N := RNum) tbool tdouble db ->
  exists m, value db ["time_stepping"; "method"]%string m /\
  forall (f : nat -> R -> list R -> list R) (t dt : R) (y : list R), exists y' : list R, evolve_one_time_step (N := RNum) m f t dt y = Ok (t + dt, y').
Proof.
  intros [(m & V & Nm) _]. exists m. split; [exact V|]. intros f t dt y. apply make_scheme_named in Nm. destruct Nm as [s E]. exists (step s f t dt y). unfold evolve_one_time_step. rewrite E.
  f_equal. exact (evolve_step s f t dt y).
Qed.
Lemma unknown_step method (f : nat -> R -> list R -> list R) (t dt : R) (y : list R) : ~ named method ["forward_euler"; "rk_third_order"; "rk_fourth_order"]%string ->
  evolve_one_time_step (N := RNum) method f t dt y = UB.
Proof.
  intros H. unfold evolve_one_time_step. destruct (make_scheme method) as [s|] eqn:E; [|reflexivity]. exfalso. apply H. apply make_scheme_named. exists s. exact E.
Qed.
Lemma total_ip (n : nat) (w : nat -> R) (v : list R) : List.length v = n -> Sum (seq 0 n) (fun j => w j * entry v j) = ip w v.
Proof. intros L. rewrite ip_nth, L. reflexivity. Qed.
Lemma stages_total (n : nat) (w : nat -> R) (f : nat -> R -> list R -> list R) : (forall i t y, List.length y = n -> List.length (f i t y) = n) ->
  forall (s : scheme) (t dt : R) (y : list R), List.length y = n -> exists stage : nat -> list R, (forall i, List.length (stage i) = n) /\ stage O = y /\
  let total v := Sum (seq 0 n) (fun j => w j * entry v j) in
  total (snd (evolve (N := RNum) s f t dt y)) = total y + dt * Sum (indexed (quadrature s)) (fun iq => snd (snd iq) * total (f (fst iq) (t + fst (snd iq) * dt) (stage (fst iq)))).
Proof.
  intros Lf s t dt y L. destruct (step_functional n w f Lf s t dt y L) as (st & Ls & S0 & E). exists st. split; [exact Ls|]. split; [exact S0|]. cbv zeta.
  etransitivity; [transitivity (Sum (seq 0 n) (fun j => w j * entry (step s f t dt y) j)); [destruct s; reflexivity|exact (total_ip n w (step s f t dt y) (step_length n f Lf s t dt y L))]|]. rewrite (total_ip n w y L), E. f_equal. f_equal. apply Sum_ext. intros iq _.
  rewrite total_ip by (apply Lf; apply Ls). reflexivity.
Qed.
Lemma bounds_total (n : nat) (w : nat -> R) (f : nat -> R -> list R -> list R) (lo hi : R) : (forall i t y, List.length y = n -> List.length (f i t y) = n) ->
  (forall i t y, List.length y = n -> lo <= Sum (seq 0 n) (fun j => w j * entry (f i t y) j) <= hi) ->
  forall (s : scheme) (t dt : R) (y : list R), 0 <= dt -> List.length y = n ->
  let total v := Sum (seq 0 n) (fun j => w j * entry v j) in
  total y + dt * lo <= total (snd (evolve (N := RNum) s f t dt y)) <= total y + dt * hi.
Proof.
  intros Lf H s t dt y D L. cbv zeta.
  pose proof (total_ip n w (step s f t dt y) (step_length n f Lf s t dt y L)) as G2. pose proof (total_ip n w y L) as G1.
  assert (B : Sum (seq 0 n) (fun j => w j * entry y j) + dt * lo <= Sum (seq 0 n) (fun j => w j * entry (step s f t dt y) j) <= Sum (seq 0 n) (fun j => w j * entry y j) + dt * hi); [|destruct s; exact B]. rewrite G2, G1. apply step_bounds with (n := n); auto.
  intros i t' y' L'. rewrite <- (total_ip n) by (apply Lf; exact L'). apply H. exact L'.
Qed.
Lemma schemes_case : make_scheme "RK_Fourth_Order" = Some RungeKutta4 /\ ~ named "backward_euler" ["forward_euler"; "rk_third_order"; "rk_fourth_order"]%string.
Proof. split; [reflexivity|]. rewrite make_scheme_named. intros [s E]. vm_compute in E. discriminate. Qed.
Lemma off_rate dim3 ad m (K : laws RNum) (F : face_laws RNum) (y : list R) : mesh_ok m ->
  (forall i q T, Sum (pl_beams (K i q T)) (fun b => b : R) = 0) -> forall j, free m j ->
  entry (evaluate (N := RNum) dim3 true ad m K F y) j = entry (evaluate (N := RNum) dim3 false ad m K F y) j.
Proof.
  intros Mok H j Fr. pose proof (rate_free dim3 true ad m K F y Mok j Fr) as A. pose proof (rate_free dim3 false ad m K F y Mok j Fr) as B. unfold rate in *. rewrite A, B. f_equal. unfold weak. f_equal.
  unfold cells_tested. apply Sum_ext. intros ic _. apply Sum_ext. intros iq _. unfold cell_point. cbv zeta. rewrite H. rewrite Rmult_0_r. reflexivity.
Qed.
Lemma pair_rc_pos c : 0 < pair_rc c. Proof. destruct c; cbn; lra. Qed.
Definition smallR : heat_mesh RNum :=
  mkhm (N := RNum) 4 [] [square (N := RNum) (1 / 100000000) [0; 1; 2; 3]%nat] [msquare (N := RNum) (1 / 100000000) [0; 1; 2; 3]%nat] [].
Lemma small_ok : mesh_ok smallR.
Proof.
  split; [|split; [|split]].
  - split; [constructor|apply Forall_nil].
  - repeat (apply Forall_list; [shape|]). apply Forall_nil.
  - repeat (apply Forall_list; [shape|]). apply Forall_nil.
  - apply Forall_nil.
Qed.
Lemma small_massive : massive smallR.
Proof. intros j [L _]. cbn in L. unfold nodal_mass. do 4 (destruct j as [|j]; [calc|]). lia. Qed.
Lemma small_refuted : exists (m : heat_mesh RNum) (K : laws RNum) (y r : list R) (j : nat), mesh_ok m /\ massive m /\ free m j /\
  evaluate_device (N := RNum) false true m K y = Ok r /\ entry r j = 0 /\ forall F, entry (evaluate (N := RNum) false true true m K F y) j <> 0.
Proof.
  destruct (device_rate false smallR K3 F3 [1; 2; 1; 2] small_ok) as (r & E & _ & _ & Z). assert (Fr : free smallR 0) by (split; [cbn; lia|intros []]).
  exists smallR, K3, [1; 2; 1; 2], r, O. split; [exact small_ok|]. split; [exact small_massive|]. split; [exact Fr|]. split; [exact E|]. split.
  - apply Z; [exact Fr|]. unfold smallest_mass. replace (10 ^ 15) with 1000000000000000 by ring. unfold nodal_mass. calc.
  - intros F. calc.
Qed.
