(** StabilityExamples.v -- meshes of boxes; a square on which a long step grows. *)
From Coq Require Import Reals List Bool String ZArith Lra Lia.
From Verif Require Import Base MaterialModel MaterialSpec InputModel HeatModel HeatSpec MaterialProofs MaterialProofs2 HeatProofs HeatProofs2 HeatProofs3 HeatProofs4 HeatProofs5 HeatProofs7 HeatExamples
  StabilitySpec StabilityProofs StabilityProofs2 StabilityProofs3 StabilityProofs4 StabilityProofs5.
Import ListNotations.
Open Scope R_scope.

(** The elements are those of a mesh. *)
Lemma point3_ok dx dy dz x y z : let q := point3 dx dy dz x y z in List.length (h_values q) = 8%nat /\ List.length (h_grads q) = 8%nat /\
  Sum (h_values q) (fun v => v : R) = 1 /\ Sum (h_grads q) (fun g => px g) = 0 /\ Sum (h_grads q) (fun g => py g) = 0 /\ Sum (h_grads q) (fun g => pz g) = 0.
Proof.
  unfold point3, corners3, Sum, sumR. cbn [h_values h_grads map List.length fold_right fst snd lin slope px py pz num RNum]. repeat split; unfold Rdiv; ring.
Qed.
Lemma point2_ok dx dz x z : let q := point2 dx dz x z in List.length (h_values q) = 4%nat /\ List.length (h_grads q) = 4%nat /\
  Sum (h_values q) (fun v => v : R) = 1 /\ Sum (h_grads q) (fun g => px g) = 0 /\ Sum (h_grads q) (fun g => py g) = 0 /\ Sum (h_grads q) (fun g => pz g) = 0.
Proof.
  unfold point2, corners2, Sum, sumR. cbn [h_values h_grads map List.length fold_right fst snd lin slope px py pz num RNum]. repeat split; unfold Rdiv; ring.
Qed.
Lemma brick_shape n points dx dy dz dofs : List.length dofs = 8%nat -> Forall (fun j => (j < n)%nat) dofs -> shape_ok n (brick points dx dy dz dofs).
Proof.
  intros L H. split; [exact H|]. apply Forall_forall. intros q I. unfold brick in I. cbn [c_quads] in I. apply in_flat_map in I as [z [_ I]]. apply in_flat_map in I as [y [_ I]]. apply in_map_iff in I as [x [<- _]].
  cbn [brick c_dofs]. rewrite L. apply point3_ok.
Qed.
Lemma rectangle_shape n points dx dz dofs : List.length dofs = 4%nat -> Forall (fun j => (j < n)%nat) dofs -> shape_ok n (rectangle points dx dz dofs).
Proof.
  intros L H. split; [exact H|]. apply Forall_forall. intros q I. unfold rectangle in I. cbn [c_quads] in I. apply in_flat_map in I as [z [_ I]]. apply in_map_iff in I as [x [<- _]].
  cbn [rectangle c_dofs]. rewrite L. apply point2_ok.
Qed.
Lemma boxes_conducting dim3 lob m P alpha h : 0 < h -> boxes dim3 lob h m -> diffusivity_at_most P alpha -> conducting dim3 m (fun i q _ => P i q).
Proof.
  intros H B D. split; [intros i q _; destruct (D i q) as [A1 [A2 [A3 [A4 [A5 _]]]]]; auto|]. unfold boxes in B. induction B as [|c cm cs cms X _ IH]; [apply Forall_nil|]. apply Forall_cons; [|exact IH]. clear IH.
  destruct dim3; cbn [box] in X.
  - destruct X as [dx [dy [dz [dofs [Hx [Hy [Hz [_ [-> _]]]]]]]]]. apply Forall_forall. intros q I. unfold brick in I. cbn [c_quads] in I. apply in_flat_map in I as [z [_ I]]. apply in_flat_map in I as [y [_ I]]. apply in_map_iff in I as [x [<- _]].
    split; [|discriminate]. cbn [point3 h_jxw]. assert (0 < dx * dy * dz) by (apply Rmult_lt_0_compat; [apply Rmult_lt_0_compat|]; lra). cbn [num RNum]. lra.
  - destruct X as [dx [dz [dofs [Hx [Hz [_ [-> _]]]]]]]. apply Forall_forall. intros q I. unfold rectangle in I. cbn [c_quads] in I. apply in_flat_map in I as [z [_ I]]. apply in_map_iff in I as [x [<- _]].
    split; [cbn [point2 h_jxw]; assert (0 < dx * dz) by (apply Rmult_lt_0_compat; lra); cbn [num RNum]; lra|]. intros _. cbn [point2 h_grads corners2 map]. repeat (apply Forall_cons; [reflexivity|]). apply Forall_nil.
Qed.
Lemma boxes_step dim3 lob m K P F Q alpha h Tinf s t dt (y : list R) : mesh_ok m -> massive m -> positive_weights (m_C m) -> steady K P F Q -> diffusivity_at_most P alpha -> 0 < h -> boxes dim3 lob h m ->
  List.length y = m_n m -> 0 <= dt -> dt * (box_factor dim3 lob * alpha / (h * h)) <= limit s ->
  size2 m (deviation Tinf (snd (evolve (N := RNum) s (fun _ _ v => evaluate (N := RNum) dim3 false true m K F v) t dt y))) <= size2 m (deviation Tinf y).
Proof.
  intros Mok M W St D H B L D0 DL. assert (Co : cooled dim3 true m P Q Tinf) by (split; [exact (boxes_conducting dim3 lob m P alpha h H B D)|discriminate]).
  pose proof (step_contracts dim3 true m P Q K F Tinf Mok M St s t dt _ y Co (boxes_bound dim3 lob m P Q alpha h Mok W D H B) D0 DL L) as X.
  pose proof (ex_nonneg dim3 true m P Q Tinf (deviation Tinf y) Co) as X0.
  assert (X1 : 0 <= dt * exchange dim3 true m P Q (deviation Tinf y) (deviation Tinf y)) by (apply Rmult_le_pos; assumption).
  match goal with |- size2 m (deviation Tinf (snd ?e)) <= _ => change e with (evolveR s (fun _ _ v => evaluate (N := RNum) dim3 false true m K F v) t dt y) end. rewrite evolve_step. cbn [snd]. lra.
Qed.

(** A square. *)
Definition unit_law : frozen := fun _ _ => mkpl (N := RNum) 1 1 1 1 1 0 [].
Definition no_air : frozen_faces := fun _ _ => mkfl (N := RNum) 0 0 0 0 0.
Definition tile (t : R) : heat_mesh RNum := mkhm (N := RNum) 4 [] [rectangle (pts t) 1 1 [0; 1; 2; 3]%nat] [rectangle ends 1 1 [0; 1; 2; 3]%nat] [].
Definition unit_square : heat_mesh RNum := mkhm (N := RNum) 4 [] [rectangle gauss 1 1 [0; 1; 2; 3]%nat] [rectangle ends 1 1 [0; 1; 2; 3]%nat] [].
Lemma unit_tile : unit_square = tile (/ (2 * sqrt 3)). Proof. reflexivity. Qed.
Lemma unit_mesh_ok : mesh_ok unit_square.
Proof.
  split; [split; [apply NoDup_nil|apply Forall_nil]|]. assert (F4 : Forall (fun j => (j < 4)%nat) [0; 1; 2; 3]%nat) by (repeat (apply Forall_cons; [lia|]); apply Forall_nil).
  split; [|split]; [apply Forall_cons; [apply rectangle_shape; [reflexivity|exact F4]|apply Forall_nil]..|apply Forall_nil].
Qed.
Lemma unit_mass j : (j < 4)%nat -> nodal_mass unit_square j = 1/4.
Proof. intros L. unfold nodal_mass, integral, unit_square. do 4 (destruct j as [|j]; [calc|]). lia. Qed.
Lemma unit_massive : massive unit_square.
Proof. intros j [L _]. rewrite unit_mass by exact L. lra. Qed.
Lemma unit_boxes : boxes false false 1 unit_square.
Proof. apply Forall2_cons; [|apply Forall2_nil]. exists 1, 1, [0; 1; 2; 3]%nat. repeat split; try lra; reflexivity. Qed.
Lemma unit_diffusivity : diffusivity_at_most unit_law 1.
Proof. intros i q. unfold unit_law. cbn. repeat split; lra. Qed.
Lemma unit_weights : positive_weights (m_C unit_square). Proof. apply Forall_nil. Qed.
Lemma tile_exchange t u z : exchange false true (tile t) unit_law no_air u z =
  / 4 * (nX u * nX z + 4 * (t * t) * (nXZ u * nXZ z) + nZ u * nZ z + 4 * (t * t) * (nXZ u * nXZ z)).
Proof.
  unfold exchange, conducted, tile. cbn [m_cells m_C]. unfold unit_law, no_air, indexed, rectangle, pts. cbn [List.length seq combine c_quads flat_map map List.app].
  rewrite Sum_cons, Sum_nil. cbn [fst snd List.length seq combine c_quads]. rewrite !Sum_cons, Sum_nil. cbn [fst snd].
  assert (G : forall x y v, gradient [] (mkhc (N := RNum) [0; 1; 2; 3]%nat [point2 1 1 (1/2 - t) (1/2 - t); point2 1 1 (1/2 + t) (1/2 - t); point2 1 1 (1/2 - t) (1/2 + t); point2 1 1 (1/2 + t) (1/2 + t)]) (point2 1 1 x y) v =
    mkpt (N := RNum) ((1 - y) * (v 1%nat - v 0%nat) + y * (v 3%nat - v 2%nat)) 0 ((1 - x) * (v 2%nat - v 0%nat) + x * (v 3%nat - v 1%nat))).
  { intros x y v. unfold gradient, point2, corners2, Sum, sumR. cbn [h_grads c_dofs map combine fold_right fst snd lin slope px py pz num RNum]. unfold nodal. cbn [find]. f_equal; field. }
  rewrite !G. unfold conduction, dot, pscale, point2. cbn [h_jxw px py pz pl_inv pl_kx pl_ky pl_kz pl_cos pl_sin num RNum nmul nsub nadd nopp nofZ]. unfold nX, nZ, nXZ. simpl. field.
Qed.
Lemma unit_exchange u z : exchange false true unit_square unit_law no_air u z = / 4 * (nX u * nX z + nZ u * nZ z + 2/3 * (nXZ u * nXZ z)).
Proof. rewrite unit_tile, tile_exchange, gauss_sq. field. Qed.
Lemma unit_product u z : mass_product unit_square u z = / 4 * (u 0%nat * z 0%nat + u 1%nat * z 1%nat + u 2%nat * z 2%nat + u 3%nat * z 3%nat).
Proof.
  unfold mass_product. cbn [unit_square m_n seq]. rewrite !Sum_cons, Sum_nil. fold unit_square. rewrite !unit_mass by lia. field.
Qed.
Lemma unit_slowest : rate_at_least false true unit_square unit_law no_air (8/3).
Proof.
  intros z Z. specialize (Z eq_refl). rewrite (integral_mass unit_square unit_mesh_ok) in Z. cbn [unit_square m_n seq] in Z. fold unit_square in Z. rewrite !Sum_cons, Sum_nil, !unit_mass in Z by lia.
  unfold size2. rewrite unit_product, unit_exchange. unfold nX, nZ, nXZ. assert (E : z 3%nat = - (z 0%nat + z 1%nat + z 2%nat)) by lra. rewrite E.
  pose proof (Rle_0_sqr (z 0%nat + z 2%nat)) as A. pose proof (Rle_0_sqr (z 0%nat + z 1%nat)) as B. unfold Rsqr in *. lra.
Qed.
(** The mode that changes only along x. *)
Lemma unit_mode u : exchange false true unit_square unit_law no_air (deviation 300 [299; 301; 299; 301]) u = 4 * mass_product unit_square (deviation 300 [299; 301; 299; 301]) u.
Proof. rewrite unit_exchange, unit_product. unfold nX, nZ, nXZ, deviation, entry. cbn [nth]. field. Qed.
Definition unit_K : laws RNum := fun i q _ => unit_law i q.
Definition unit_F : face_laws RNum := fun i q _ => no_air i q.
Definition hot : list R := [299; 301; 299; 301].
Lemma unit_steady : steady unit_K unit_law unit_F no_air. Proof. split; reflexivity. Qed.
Lemma taylor_three s : 11/8 <= Rabs (taylor (order s) (- (4 * (3/4)))).
Proof.
  destruct s; cbn [order taylor fact Nat.mul Nat.add INR]; cbn [pow].
  - rewrite Rabs_left; lra.
  - rewrite Rabs_left; lra.
  - rewrite Rabs_right; lra.
Qed.
Lemma unit_grows s n : (11/8) ^ n <= Rabs (entry (snd (many s (fun _ _ v => evaluate (N := RNum) false false true unit_square unit_K unit_F v) (3/4) n (0, hot))) 0 - 300).
Proof.
  pose proof (mode_steps false true unit_square unit_law no_air unit_K unit_F 300 4 (3/4) unit_mesh_ok unit_massive unit_steady ltac:(discriminate) s n 0 hot eq_refl unit_mode 0%nat) as H.
  assert (Fr : free unit_square 0) by (split; [cbn; lia|intros []]). specialize (H Fr). unfold deviation in H. rewrite H. rewrite Rabs_mult, <- RPow_abs.
  replace (Rabs (entry hot 0 - 300)) with 1 by (unfold entry, hot; cbn [nth]; rewrite Rabs_left; lra). rewrite Rmult_1_r. apply pow_incr. pose proof (taylor_three s). lra.
Qed.
Lemma unit_run s : exists y2, cooling_run false true s unit_square 300 (8/3) 0 hot (0 + 1/4) y2 /\ integral (m_C unit_square) (m_mass unit_square) (deviation 300 hot) = 0.
Proof.
  destruct (evolve (N := RNum) s (fun _ _ v => evaluate (N := RNum) false false true unit_square unit_K unit_F v) 0 (1/4) hot) as [t1 y1] eqn:E. exists y1. split.
  - destruct (evolve_parts s _ 0 (1/4) hot t1 y1 E) as [T1 _]. rewrite <- T1.
    apply (cr_step false true s unit_square 300 (8/3) 0 (1/4) hot t1 y1 t1 y1 unit_K unit_F unit_law no_air (box_factor false false * 1 / (1 * 1))); [exact unit_steady| | | |lra| |exact E|apply cr_stop].
    + split; [exact (boxes_conducting false false unit_square unit_law 1 1 ltac:(lra) unit_boxes unit_diffusivity)|discriminate].
    + exact (boxes_bound false false unit_square unit_law no_air 1 1 unit_mesh_ok unit_weights unit_diffusivity ltac:(lra) unit_boxes).
    + exact unit_slowest.
    + unfold box_factor. destruct s; cbn [limit]; lra.
  - rewrite (integral_mass unit_square unit_mesh_ok). cbn [unit_square m_n seq]. fold unit_square. rewrite !Sum_cons, Sum_nil, !unit_mass by lia. unfold deviation, entry, hot. cbn [nth]. lra.
Qed.

(** Three squares of two sizes with a hanging node, cooled by air on the right. *)
Definition half_weights : constraints RNum := [(5%nat, [(1%nat, 1/2); (3%nat, 1/2)])].
Definition plate (ty : BinNums.N) : heat_mesh RNum :=
  mkhm (N := RNum) 8 half_weights
    [rectangle gauss 1 1 [0; 1; 2; 3]%nat; rectangle gauss (1/2) (1/2) [1; 4; 5; 6]%nat; rectangle gauss (1/2) (1/2) [5; 6; 3; 7]%nat]
    [rectangle ends 1 1 [0; 1; 2; 3]%nat; rectangle ends (1/2) (1/2) [1; 4; 5; 6]%nat; rectangle ends (1/2) (1/2) [5; 6; 3; 7]%nat] (faces3 (N := RNum) ty).
Lemma plate_ok ty : mesh_ok (plate ty).
Proof.
  split; [|split; [|split]].
  - split; [cbn; repeat constructor; cbn; intuition lia|]. apply Forall_list; [|apply Forall_nil]. cbn [fst snd]. split; [cbn; lia|]. split; [|calc].
    repeat (apply Forall_list; [cbn; split; [lia|intuition lia]|]). apply Forall_nil.
  - repeat (apply Forall_cons; [apply rectangle_shape; [reflexivity|repeat (apply Forall_cons; [cbn; lia|]); apply Forall_nil]|]). apply Forall_nil.
  - repeat (apply Forall_cons; [apply rectangle_shape; [reflexivity|repeat (apply Forall_cons; [cbn; lia|]); apply Forall_nil]|]). apply Forall_nil.
  - exact (proj2 (proj2 (proj2 (mesh3_ok ty)))).
Qed.
Lemma plate_massive ty : massive (plate ty).
Proof.
  intros j [L N]. cbn in L, N. unfold nodal_mass. do 5 (destruct j as [|j]; [calc|]). destruct j as [|j]; [exfalso; apply N; auto|]. do 2 (destruct j as [|j]; [calc|]). lia.
Qed.
Lemma plate_boxes ty : boxes false false (1/2) (plate ty).
Proof. repeat (apply Forall2_cons; [eexists _, _, _; split; [|split; [|split; [|split; reflexivity]]]; try reflexivity; lra|]). apply Forall2_nil. Qed.
Lemma plate_weights ty : positive_weights (m_C (plate ty)).
Proof. apply Forall_cons; [|apply Forall_nil]. repeat (apply Forall_cons; [cbn [snd]; cbn [num RNum]; lra|]). apply Forall_nil. Qed.
Definition plate_air : frozen_faces := fun _ _ => mkfl (N := RNum) 1 5 20 0 0.
Lemma plate_aired : aired (plate convective) plate_air 20.
Proof.
  intros j f I _. assert (T : In f (faces3 (N := RNum) convective)) by exact (in_indexed _ _ I). split; [|split].
  - destruct T as [<-|[<-|[<-|[]]]]; reflexivity.
  - destruct T as [<-|[<-|[<-|[]]]]; repeat (apply Forall_cons; [calc|]); apply Forall_nil.
  - intros q. cbn. repeat split; lra.
Qed.
Lemma plate_run s (y : list R) : List.length y = 8%nat -> exists dt y1, 0 < dt /\ cooling_run false false s (plate convective) 20 0 0 y (0 + dt) y1.
Proof.
  intros L. destruct (some_bound false false (plate convective) unit_law plate_air (plate_ok convective) (plate_massive convective)) as [lam [L0 Mo]].
  set (dt := limit s / lam). destruct (evolve (N := RNum) s (fun _ _ v => evaluate (N := RNum) false false false (plate convective) (fun i q _ => unit_law i q) (fun i q _ => plate_air i q) v) 0 dt y) as [t1 y1] eqn:E.
  destruct (evolve_parts s _ 0 dt y t1 y1 E) as [T1 _]. assert (D0 : 0 < dt) by (apply Rdiv_lt_0_compat; [destruct s; cbn; lra|exact L0]). exists dt, y1. split; [exact D0|]. rewrite <- T1.
  assert (Co : cooled false false (plate convective) unit_law plate_air 20) by (split; [exact (boxes_conducting false false _ unit_law 1 (1/2) ltac:(lra) (plate_boxes convective) unit_diffusivity)|intros _; exact plate_aired]).
  apply (cr_step false false s (plate convective) 20 0 0 dt y t1 y1 t1 y1 (fun i q _ => unit_law i q) (fun i q _ => plate_air i q) unit_law plate_air lam); [split; reflexivity|exact Co|exact Mo| |lra| |exact E|apply cr_stop].
  - intros z _. rewrite Rmult_0_l. apply (ex_nonneg _ _ _ _ _ 20 z Co).
  - unfold dt. right. field. lra.
Qed.
Lemma unit_unstable : rate_at_most false true unit_square unit_law no_air 4 /\ forall (s : scheme) (n : nat),
  (11/8) ^ n <= Rabs (entry (snd (many s (fun _ _ v => evaluate (N := RNum) false false true unit_square unit_K unit_F v) (3/4) n (0, hot))) 0 - 300).
Proof.
  split; [|exact unit_grows]. replace 4 with (box_factor false false * 1 / (1 * 1)) by (unfold box_factor; lra).
  exact (boxes_bound false false unit_square unit_law no_air 1 1 unit_mesh_ok unit_weights unit_diffusivity ltac:(lra) unit_boxes).
Qed.
Lemma step_statement (dim3 ad : bool) (m : heat_mesh RNum) (P : frozen) (Q : frozen_faces) (K : laws RNum) (F : face_laws RNum) (Tinf : R) (s : scheme) (t dt lam : R) (y : list R) :
  mesh_ok m -> massive m -> steady K P F Q -> cooled dim3 ad m P Q Tinf -> rate_at_most dim3 ad m P Q lam -> 0 <= dt -> dt * lam <= limit s -> List.length y = m_n m ->
  size2 m (deviation Tinf (snd (evolve (N := RNum) s (fun _ _ v => evaluate (N := RNum) dim3 false ad m K F v) t dt y))) <=
  size2 m (deviation Tinf y) - 1/100 * (dt * exchange dim3 ad m P Q (deviation Tinf y) (deviation Tinf y)) /\
  0 <= exchange dim3 ad m P Q (deviation Tinf y) (deviation Tinf y).
Proof.
  intros Mok M St Co Mo D0 DL L. split; [|exact (ex_nonneg dim3 ad m P Q Tinf _ Co)].
  match goal with |- size2 m (deviation Tinf (snd ?e)) <= _ => change e with (evolveR s (fun _ _ v => evaluate (N := RNum) dim3 false ad m K F v) t dt y) end. rewrite evolve_step. cbn [snd].
  exact (step_contracts dim3 ad m P Q K F Tinf Mok M St s t dt lam y Co Mo D0 DL L).
Qed.
Lemma eleven : 11/64 * (box_factor false false * 1 / (1/2 * (1/2))) = 11/4. Proof. unfold box_factor. field. Qed.
