(** StressProofs2.v -- paths, cells, the von Mises output. *)
From Coq Require Import Reals ZArith Bool List Lia Lra.
From Verif Require Import Base BaseFacts CellModel CellProofs2 CellProofs4 StressModel AssimilationSpec AssimilationProofs AssimilationProofs3 StressSpec StressProofs.
Import ListNotations.
Local Open Scope R_scope.

(** ** Along a strain path *)
Section Path.
  Variables (d o : nat) (m : plasticity RNum).
  Hypothesis Hd : (0 < d)%nat. Hypothesis PH : physical m.
  Lemma path_regular path : forall s, regular d o s -> Forall (shaped d o) path -> regular d o (strain_path m s path).
  Proof.
    induction path as [|e path IH]; intros s RG F; [exact RG|]. inversion F; subst. cbn [strain_path fold_left]. apply IH; [|assumption].
    now apply new_regular.
  Qed.
  Lemma path_yield path : forall s, regular d o s -> Forall (shaped d o) path -> p_yield s <= p_yield (strain_path m s path).
  Proof.
    induction path as [|e path IH]; intros s RG F; [apply Rle_refl|]. inversion F; subst. cbn [strain_path fold_left].
    eapply Rle_trans; [apply (yield_monotone d o m s e); assumption|]. apply IH; [now apply new_regular| assumption].
  Qed.
  Lemma path_volume path : forall s, regular d o s -> Forall (shaped d o) path ->
    tr (p_stress (strain_path m s path)) = tr (p_stress s) + (INR d * lame1 m + 2 * lame2 m) * Rsum (map tr path).
  Proof.
    induction path as [|e path IH]; intros s RG F; [unfold Rsum; cbn; ring|]. inversion F; subst. cbn [strain_path fold_left map].
    change (fold_left (update_point m) path (update_point m s e)) with (strain_path m (update_point m s e) path).
    rewrite IH by (try apply new_regular; assumption). rewrite (volume_untouched d o m s e) by assumption. unfold Rsum. cbn [fold_right]. ring.
  Qed.
  Lemma path_admissible path : forall s, iso_hardening m = 1 -> regular d o s -> Forall (shaped d o) path -> path <> [] -> admissible (strain_path m s path).
  Proof.
    induction path as [|e path IH]; intros s B1 RG F NE; [congruence|]. inversion F; subst. cbn [strain_path fold_left].
    assert (regular d o (update_point m s e)) as RG' by now apply new_regular.
    destruct path as [|e' path]; [apply (isotropic_admissible d o); assumption|]. apply IH; try assumption. discriminate.
  Qed.
End Path.

(** ** Exactly when a plastic update with kinematic hardening ends inside the yield surface *)
Lemma kinematic_iff d o m s e : (0 < d)%nat -> physical m -> regular d o s -> shaped d o e ->
  iso_hardening m < 1 -> 0 < plastic_modulus m -> p_yield s <= magnitude (effective s (trial m s e)) ->
  let g := (magnitude (effective s (trial m s e)) - p_yield s) / (2 * lame2 m + plastic_modulus m) in
  admissible (update_point m s e) <-> g <= plastic_modulus m /\ (1 - iso_hardening m) * plastic_modulus m * (plastic_modulus m - g) <= 2 * p_yield (update_point m s e).
Proof.
  intros Hd PH RG HE B1 HP L g. unfold admissible. rewrite (new_distance d o m s e Hd PH RG HE L). fold g.
  set (Y := p_yield (update_point m s e)). assert (0 < Y) as HY by (pose proof (new_regular d o m s e Hd PH RG HE) as (_ & _ & _ & A); exact A).
  set (b := iso_hardening m) in *. set (H := plastic_modulus m) in *. cbn [num RNum] in *. clearbody Y b H g.
  assert (0 < (1 - b) * H) as P by (apply Rmult_lt_0_compat; lra).
  split.
  - intros A. pose proof (Rle_abs (Y + (1 - b) * H * (g - H))). pose proof (Rle_abs (- (Y + (1 - b) * H * (g - H)))) as A2. rewrite Rabs_Ropp in A2. split; [|nra]. destruct (Rle_dec g H) as [G|G]; [exact G|]. assert (0 < (1 - b) * H * (g - H)) by (apply Rmult_lt_0_compat; lra). lra.
  - intros [A B]. apply Rabs_le. assert (0 <= (1 - b) * H * (H - g)) by (apply Rmult_le_pos; lra). split; nra.
Qed.

(** ** Successive solves: the strains telescope *)
Section Solves.
  Variables (d o : nat) (m : plasticity RNum) (grads : list (sym RNum)).
  Hypothesis Hd : (0 < d)%nat. Hypothesis PH : physical m. Hypothesis HG : Forall (shaped d o) grads.
  Let z := zero_tensor d o.
  Lemma zero_shaped : shaped d o z.
  Proof. unfold z, zero_tensor, shaped. cbn [dg od]. split; apply repeat_length. Qed.
  Lemma D_zero i : D z i = 0.
  Proof. unfold D, z, zero_tensor. cbn [dg]. destruct (nth_in_or_default i (repeat 0 d) 0) as [H|H]; [now apply repeat_spec in H| exact H]. Qed.
  Lemma O_zero i : O_ z i = 0.
  Proof. unfold O_, z, zero_tensor. cbn [od]. destruct (nth_in_or_default i (repeat 0 o) 0) as [H|H]; [now apply repeat_spec in H| exact H]. Qed.
  Lemma strain_acc u : forall gs acc, Forall (shaped d o) gs -> shaped d o acc ->
    let r := fold_left (fun acc ug => tadd acc (tscale (fst ug) (snd ug))) (combine u gs) acc in
    shaped d o r /\ (forall i, (i < d)%nat -> D r i = D acc i + Rsum (map (fun xg : R * sym RNum => fst xg * D (snd xg) i) (combine u gs))) /\
                    (forall i, (i < o)%nat -> O_ r i = O_ acc i + Rsum (map (fun xg : R * sym RNum => fst xg * O_ (snd xg) i) (combine u gs))).
  Proof.
    induction u as [|x u IH]; intros gs acc F S; [cbn; repeat split; try apply S; intros; unfold Rsum; cbn; ring|].
    destruct gs as [|g gs]; [cbn; repeat split; try apply S; intros; unfold Rsum; cbn; ring|]. inversion F; subst. cbn [combine fold_left map fst snd].
    assert (shaped d o (tscale (N := RNum) x g)) as S1 by now apply tscale_shaped.
    assert (shaped d o (tadd acc (tscale (N := RNum) x g))) as S2 by now apply tadd_shaped.
    destruct (IH gs _ H2 S2) as (A & B & C). split; [exact A|]. split; intros i Hi.
    - rewrite (B i Hi), (D_add d o _ _ S S1 i Hi), (D_scale d o g x H1 i Hi). unfold Rsum. cbn [map fold_right]. ring.
    - rewrite (C i Hi), (O_add d o _ _ S S1 i Hi), (O_scale d o g x H1 i Hi). unfold Rsum. cbn [map fold_right]. ring.
  Qed.
  Lemma strain_shaped u : shaped d o (strain_of z grads u).
  Proof. apply (strain_acc u grads z HG zero_shaped). Qed.
  Lemma strain_D u i : (i < d)%nat -> D (strain_of z grads u) i = Rsum (map (fun xg : R * sym RNum => fst xg * D (snd xg) i) (combine u grads)).
  Proof. intros Hi. destruct (strain_acc u grads z HG zero_shaped) as (_ & B & _). unfold strain_of. rewrite (B i Hi), D_zero. ring. Qed.
  Lemma strain_O u i : (i < o)%nat -> O_ (strain_of z grads u) i = Rsum (map (fun xg : R * sym RNum => fst xg * O_ (snd xg) i) (combine u grads)).
  Proof. intros Hi. destruct (strain_acc u grads z HG zero_shaped) as (_ & _ & B). unfold strain_of. rewrite (B i Hi), O_zero. ring. Qed.
  Lemma lin_sub (f : sym RNum -> R) u : forall v gs, List.length u = List.length v ->
    Rsum (map (fun xg : R * sym RNum => fst xg * f (snd xg)) (combine (map2 (N := RNum) (fun x y => nsub RNum x y) u v) gs)) =
    Rsum (map (fun xg => fst xg * f (snd xg)) (combine u gs)) - Rsum (map (fun xg => fst xg * f (snd xg)) (combine v gs)).
  Proof.
    unfold map2. cbn [num RNum]. induction u as [|x u IH]; intros [|y v] gs L; cbn in L; try discriminate; [unfold Rsum; cbn; ring|]. destruct gs as [|g gs]; [unfold Rsum; cbn; ring|].
    specialize (IH v gs (eq_add_S _ _ L)). unfold Rsum in *. cbn in *. rewrite IH. ring.
  Qed.
  Lemma strain_sub u v : List.length u = List.length v ->
    strain_of z grads (map2 (N := RNum) (fun x y => nsub RNum x y) u v) = tsub (strain_of z grads u) (strain_of z grads v).
  Proof.
    intros L. pose proof (strain_shaped u) as SU. pose proof (strain_shaped v) as SV. apply (sym_ext d o); [apply strain_shaped| now apply tsub_shaped| |]; intros i Hi.
    - rewrite (D_sub d o _ _ SU SV i Hi), !strain_D by exact Hi. now apply (lin_sub (fun g => D g i)).
    - rewrite (O_sub d o _ _ SU SV i Hi), !strain_O by exact Hi. now apply (lin_sub (fun g => O_ g i)).
  Qed.
  Lemma solve_shaped old u : shaped d o (strain_of z grads (match old with None => u | Some v => map2 (N := RNum) (fun x y => nsub RNum x y) u v end)).
  Proof. apply strain_shaped. Qed.
  Local Notation strain_old := (previous_strain d o grads).
  Lemma strain_old_shaped old : shaped d o (strain_old old).
  Proof. destruct old; [apply strain_shaped| apply zero_shaped]. Qed.
  Lemma strain_incr n old u : same_size n old -> List.length u = n ->
    strain_of z grads (match old with None => u | Some v => map2 (N := RNum) (fun x y => nsub RNum x y) u v end) = tsub (strain_of z grads u) (strain_old old).
  Proof.
    intros S L. destruct old as [v|]; [apply strain_sub; exact (eq_trans L (eq_sym S))|]. cbn [previous_strain]; fold z.
    pose proof (strain_shaped u) as SU. pose proof zero_shaped as SZ. apply (sym_ext d o); [exact SU| now apply tsub_shaped| |]; intros i Hi.
    - rewrite (D_sub d o _ _ SU SZ i Hi), D_zero. ring.
    - rewrite (O_sub d o _ _ SU SZ i Hi), O_zero. ring.
  Qed.
  Lemma solves_trace n us : forall old s, regular d o s -> same_size n old -> Forall (fun u => List.length u = n) us ->
    tr (p_stress (solve_path z grads m old s us)) =
    tr (p_stress s) + (INR d * lame1 m + 2 * lame2 m) * (tr (strain_old (fold_left (fun _ u => Some u) us old)) - tr (strain_old old)).
  Proof.
    induction us as [|u us IH]; intros old s RG S F; [cbn [solve_path fold_left]; ring|]. inversion F as [|? ? Lu Fu]; subst. cbn [solve_path fold_left].
    assert (regular d o (solve_point z grads m old s u)) as RG' by (apply new_regular; try assumption; apply solve_shaped).
    rewrite (IH (Some u) _ RG' eq_refl Fu). unfold solve_point. rewrite (volume_untouched d o) by (try assumption; apply solve_shaped).
    pose proof (strain_incr (List.length u) old u S eq_refl) as SI. cbn [num RNum] in *. rewrite SI, (tr_sub d o) by (first [apply strain_shaped| apply strain_old_shaped]). cbn [previous_strain]; fold z. ring.
  Qed.
  (** Elastic solves: only the last displacement matters. *)
  Lemma solves_elastic n us : forall old s, regular d o s -> same_size n old -> Forall (fun u => List.length u = n) us -> always_elastic d o m grads old s us ->
    solve_path z grads m old s us =
    mkpoint (tadd (p_stress s) (hooke (lame1 m) (lame2 m) (tsub (strain_old (fold_left (fun _ u => Some u) us old)) (strain_old old)))) (p_back s) (p_yield s).
  Proof.
    induction us as [|u us IH]; intros old s RG S F E; pose proof (strain_old_shaped old) as SO.
    - cbn [solve_path fold_left]. destruct RG as (A & _). destruct s as [st ba y]. cbn [p_stress p_back p_yield] in *. f_equal. symmetry.
      assert (shaped d o (tsub (strain_old old) (strain_old old))) as SS by now apply tsub_shaped.
      assert (tr (tsub (strain_old old) (strain_old old)) = 0) as T0 by (rewrite (tr_sub d o) by assumption; ring).
      apply (sym_ext d o); [apply tadd_shaped; [exact A| now apply hooke_shaped]| exact A| |]; intros i Hi.
      + rewrite (D_add d o _ _ A (hooke_shaped d o _ _ _ SS) i Hi), (D_hooke d o _ SS _ _ i Hi), T0, (D_sub d o _ _ SO SO i Hi). cbn [num RNum]. ring.
      + rewrite (O_add d o _ _ A (hooke_shaped d o _ _ _ SS) i Hi), (O_hooke d o _ SS _ _ i Hi), (O_sub d o _ _ SO SO i Hi). cbn [num RNum]. ring.
    - inversion F as [|? ? Lu Fu]; subst. destruct E as (E1 & E2). cbn [solve_path fold_left].
      assert (regular d o (solve_point z grads m old s u)) as RG' by (apply new_regular; try assumption; apply solve_shaped).
      eapply eq_trans; [exact (IH (Some u) _ RG' eq_refl Fu E2)|]. clear IH.
      set (last := strain_old (fold_left (fun _ u => Some u) us (Some u))). assert (shaped d o last) as SL by apply strain_old_shaped.
      set (inc := tsub (strain_of z grads u) (strain_old old)) in *. assert (shaped d o inc) as SI by (apply tsub_shaped; [apply strain_shaped| exact SO]).
      assert (solve_point z grads m old s u = mkpoint (trial m s inc) (p_back s) (p_yield s)) as ->.
      { unfold solve_point. pose proof (strain_incr (List.length u) old u S eq_refl) as SX. cbn [num RNum] in *. rewrite SX. fold inc. apply elastic_case. exact E1. }
      cbn [p_stress p_back p_yield]. cbn [previous_strain]. fold z. f_equal. destruct RG as (A & _). unfold trial.
      pose proof (strain_shaped u) as SU.
      assert (shaped d o (tsub last (strain_of z grads u))) as S1 by now apply tsub_shaped.
      assert (shaped d o (tsub last (strain_old old))) as S2 by now apply tsub_shaped.
      assert (shaped d o (hooke (N := RNum) (lame1 m) (lame2 m) inc)) as H1 by now apply hooke_shaped.
      assert (shaped d o (hooke (N := RNum) (lame1 m) (lame2 m) (tsub last (strain_of z grads u)))) as H2 by now apply hooke_shaped.
      assert (shaped d o (hooke (N := RNum) (lame1 m) (lame2 m) (tsub last (strain_old old)))) as H3 by now apply hooke_shaped.
      assert (shaped d o (tadd (p_stress s) (hooke (N := RNum) (lame1 m) (lame2 m) inc))) as S3 by now apply tadd_shaped.
      apply (sym_ext d o); [now apply tadd_shaped| now apply tadd_shaped| |]; intros i Hi.
      + rewrite (D_add d o _ _ S3 H2 i Hi), !(D_add d o _ _ A) by (try exact Hi; assumption). rewrite !(D_hooke d o) by assumption. unfold inc.
        rewrite !(tr_sub d o), !(D_sub d o) by assumption. cbn [num RNum]. ring.
      + rewrite (O_add d o _ _ S3 H2 i Hi), !(O_add d o _ _ A) by (try exact Hi; assumption). rewrite !(O_hooke d o) by assumption. unfold inc.
        rewrite !(O_sub d o) by assumption. cbn [num RNum]. ring.
  Qed.
End Solves.

(** ** The cells of a process *)
Lemma update_points_spec (m : plasticity RNum) strains : forall pts, (List.length strains <= List.length pts)%nat ->
  exists pts', update_points m pts strains = Ok pts' /\ List.length pts' = List.length pts /\
    forall q p, nth_error pts q = Some p -> nth_error pts' q = Some (match nth_error strains q with Some e => update_point m p e | None => p end).
Proof.
  induction strains as [|e es IH]; intros pts L.
  - exists pts. split; [now destruct pts|]. split; [reflexivity|]. intros q p E. now destruct q.
  - destruct pts as [|p ps]; [cbn in L; lia|]. cbn [update_points]. destruct (IH ps) as (r & E & LR & HR); [cbn in L; lia|]. rewrite E. cbn [bind].
    eexists. split; [reflexivity|]. split; [cbn; now rewrite LR|]. intros [|q] x Ex; cbn in *; [now injection Ex as <-| now apply HR].
Qed.
Lemma update_points_short (m : plasticity RNum) strains : forall pts, (List.length pts < List.length strains)%nat -> update_points m pts strains = UB.
Proof.
  induction strains as [|e es IH]; intros pts L; [cbn in L; lia|]. destruct pts as [|p ps]; [reflexivity|]. cbn [update_points]. rewrite IH by (cbn in L; lia). reflexivity.
Qed.
Lemma compute_stress_spec (cells : list (mech_cell RNum)) : forall vars,
  List.length vars = List.length cells ->
  (forall i c v, nth_error cells i = Some c -> nth_error vars i = Some v -> mc_active c = true -> (List.length (mc_strain c) <= List.length v)%nat) ->
  exists vars', compute_stress cells vars = Ok vars' /\ List.length vars' = List.length vars /\
    (forall i c, nth_error cells i = Some c -> mc_active c = false -> nth_error vars' i = nth_error vars i) /\
    (forall i c v v', nth_error cells i = Some c -> mc_active c = true -> nth_error vars i = Some v -> nth_error vars' i = Some v' ->
       List.length v' = List.length v /\
       forall q p, nth_error v q = Some p -> nth_error v' q = Some (match nth_error (mc_strain c) q with Some e => update_point (mc_param c) p e | None => p end)).
Proof.
  induction cells as [|c cs IH]; intros vars L HL.
  - destruct vars; [|discriminate]. exists []. split; [reflexivity|]. split; [reflexivity|]. split; intros [|k]; discriminate.
  - destruct vars as [|v vs]; [discriminate|]. cbn [compute_stress].
    destruct (IH vs) as (r & E & LR & H1 & H2); [cbn in L; lia| intros i c' v' A B; exact (HL (S i) c' v' A B)|]. clear IH. rewrite E.
    destruct (mc_active c) eqn:AC.
    + destruct (update_points_spec (mc_param c) (mc_strain c) v) as (v' & E' & L' & H'); [exact (HL 0%nat c v eq_refl eq_refl AC)|]. rewrite E'. cbn [bind].
      eexists. split; [reflexivity|]. split; [cbn; now rewrite LR|]. split.
      * intros [|i] c' Ec; cbn in *; [injection Ec as <-; congruence| exact (H1 i c' Ec)].
      * intros [|i] c' w w' Ec Ac Ew Ew'; cbn in *; [injection Ec as <-; injection Ew as <-; injection Ew' as <-; split; [exact L'| exact H']| exact (H2 i c' w w' Ec Ac Ew Ew')].
    + cbn [bind]. eexists. split; [reflexivity|]. split; [cbn; now rewrite LR|]. split.
      * intros [|i] c' Ec; cbn in *; [reflexivity| exact (H1 i c' Ec)].
      * intros [|i] c' w w' Ec Ac Ew Ew'; cbn in *; [injection Ec as <-; congruence| exact (H2 i c' w w' Ec Ac Ew Ew')].
Qed.

(** ** The von Mises output *)
Lemma von_mises_value (a : sym RNum) : shaped 3 3 a ->
  von_mises a = sqrt (3 / 2 * contract (deviator a) (deviator a) + 3 * (O_ a 2 * O_ a 2 - O_ a 1 * O_ a 1)).
Proof.
  intros [H1 H2]. destruct a as [[|x [|y [|z [|]]]] [|xy [|xz [|yz [|]]]]]; try discriminate. unfold von_mises, sq, entry, O_. cbn [dg od nth RNum nsqrt nadd nmul ndiv nsub nofZ num].
  f_equal. unfold contract, deviator, trace, lsum, Rsum. cbn [dg od map combine List.length fold_left fold_right RNum nsub nadd ndiv nofZ num fst snd]. cbn. field.
Qed.
Lemma von_mises_ok (a : sym RNum) : shaped 3 3 a -> Rabs (O_ a 1) = Rabs (O_ a 2) -> von_mises a = von_mises_stress a.
Proof.
  intros S E. rewrite von_mises_value by exact S. unfold von_mises_stress. f_equal.
  assert (O_ a 2 * O_ a 2 = O_ a 1 * O_ a 1) as ->; [|ring]. change (Rsqr (O_ a 2) = Rsqr (O_ a 1)). rewrite (Rsqr_abs (O_ a 2)), (Rsqr_abs (O_ a 1)). now rewrite E.
Qed.
Lemma dev_contract_nonneg (a : sym RNum) : 0 <= contract (deviator a) (deviator a).
Proof. apply contract_nonneg. Qed.
Lemma von_mises_iff (a : sym RNum) : shaped 3 3 a -> (von_mises a = von_mises_stress a <-> Rabs (O_ a 1) = Rabs (O_ a 2)).
Proof.
  intros S. split; [|now apply von_mises_ok]. rewrite von_mises_value by exact S. unfold von_mises_stress. intros E.
  assert (0 <= 3 / 2 * contract (deviator a) (deviator a)) as P1 by (pose proof (contract_nonneg (deviator a)); lra).
  assert (0 <= 3 / 2 * contract (deviator a) (deviator a) + 3 * (O_ a 2 * O_ a 2 - O_ a 1 * O_ a 1)) as P2.
  { destruct S as [H1 H2]. destruct a as [[|x [|y [|z [|]]]] [|xy [|xz [|yz [|]]]]]; try discriminate. unfold O_, contract, deviator, trace, lsum, Rsum. cbn.
    match goal with |- 0 <= ?e => replace e with (1 / 2 * (Rsqr (x - y) + Rsqr (y - z) + Rsqr (z - x) + 6 * (Rsqr xy + Rsqr yz + Rsqr yz))) by (unfold Rsqr; field) end.
    pose proof (Rle_0_sqr (x - y)). pose proof (Rle_0_sqr (y - z)). pose proof (Rle_0_sqr (z - x)). pose proof (Rle_0_sqr xy). pose proof (Rle_0_sqr yz). lra. }
  apply sqrt_inj in E; try assumption. assert (O_ a 1 * O_ a 1 = O_ a 2 * O_ a 2) as E2 by lra. apply Rsqr_eq_abs_0. exact E2.
Qed.
Lemma von_mises_scale (c : R) (a : sym RNum) : shaped 3 3 a -> von_mises (tscale (N := RNum) c a) = Rabs c * von_mises a.
Proof.
  intros [H1 H2]. destruct a as [[|x [|y [|z [|]]]] [|xy [|xz [|yz [|]]]]]; try discriminate. unfold von_mises, sq, entry. cbn [tscale map dg od nth RNum nsqrt nadd nmul ndiv nsub nofZ num].
  rewrite <- (sqrt_Rsqr_abs c), <- sqrt_mult_alt by apply Rle_0_sqr. f_equal. unfold Rsqr. cbn. ring.
Qed.
Lemma von_mises_hydrostatic (c : R) : von_mises (isotropic 3 3 c) = 0.
Proof. unfold von_mises, sq, entry, isotropic. cbn [dg od repeat nth RNum nsqrt nadd nmul ndiv nsub nofZ num]. transitivity (sqrt 0); [f_equal; cbn; field| apply sqrt_0]. Qed.
Lemma fold_points (n : nat) (stress : list (sym RNum)) (a : R) (s0 : nat) : (s0 + n <= List.length stress)%nat ->
  fold_left (fun acc q => do a <- acc; do t <- at_ stress q; Ok (nadd RNum a (von_mises t))) (seq s0 n) (Ok a) =
  Ok (a + Rsum (map von_mises (firstn n (skipn s0 stress)))).
Proof.
  revert a s0. induction n as [|n IH]; intros a s0 L; [cbn; unfold Rsum; cbn; now rewrite Rplus_0_r|]. cbn [seq fold_left bind].
  destruct (nth_error stress s0) as [t|] eqn:E; [|apply nth_error_None in E; lia]. unfold at_ at 2. rewrite E. cbn [bind]. rewrite IH by lia.
  f_equal. assert (skipn s0 stress = t :: skipn (S s0) stress) as ->.
  { clear - E. revert s0 E. induction stress as [|x l IH]; intros [|s0] E; cbn in *; try discriminate; [now injection E as <-| now apply IH]. }
  cbn [firstn map]. unfold Rsum. cbn [fold_right]. cbn. ring.
Qed.
Lemma cell_average (stress : list (sym RNum)) : cell_von_mises (List.length stress) true stress = Ok (Rsum (map von_mises stress) / INR (List.length stress)).
Proof.
  unfold cell_von_mises. cbn [RNum nofZ num]. rewrite fold_points by lia. cbn [bind skipn]. rewrite firstn_all. f_equal. cbn [RNum ndiv num]. rewrite <- INR_IZR_INZ. f_equal. apply Rplus_0_l.
Qed.
Lemma output_spec (active : list bool) (stress : list (list (sym RNum))) (n : nat) :
  List.length stress = List.length active -> Forall (fun s => List.length s = n) stress ->
  exists out, get_von_mises_stress 3 active stress = Ok out /\ List.length out = List.length active /\
    forall i s b, nth_error stress i = Some s -> nth_error active i = Some b ->
      nth_error out i = Some (if b then Rsum (map von_mises s) / INR (List.length s) else 0).
Proof.
  intros L F. unfold get_von_mises_stress. cbn [Nat.eqb negb].
  set (nq := match stress with [] => 0%nat | s :: _ => List.length s end).
  assert (forall i s, nth_error stress i = Some s -> List.length s = nq) as HN.
  { intros i s E. rewrite Forall_forall in F. unfold nq. destruct stress as [|s1 stress']; [now destruct i|]. rewrite (F s1) by now left. apply F. now apply (nth_error_In _ i). }
  clearbody nq.
  set (f := fun '(i, a) => if a : bool then do s <- at_ stress i; cell_von_mises nq a s else Ok (nZ 0 : num RNum)).
  set (g := fun ia : nat * bool => if snd ia then Rsum (map von_mises (nth (fst ia) stress [])) / INR nq else 0).
  assert (forall ia, In ia (combine (seq 0 (List.length active)) active) -> f ia = Ok (g ia)) as HF.
  { intros [i a] HI. unfold f, g. cbn [fst snd]. destruct a; [|reflexivity].
    destruct (nth_error stress i) as [s|] eqn:E.
    - unfold at_. rewrite E. cbn [bind]. rewrite <- (HN i s E), cell_average. now rewrite (nth_error_nth _ _ _ E).
    - apply nth_error_None in E. apply in_combine_l in HI. apply in_seq in HI. lia. }
  assert (mapR f (combine (seq 0 (List.length active)) active) = Ok (map g (combine (seq 0 (List.length active)) active))) as EM.
  { clear - HF. induction (combine (seq 0 (List.length active)) active) as [|x l IH]; [reflexivity|]. cbn [mapR map]. rewrite HF by now left. cbn [bind]. rewrite IH by (intros; apply HF; now right). reflexivity. }
  exists (map g (combine (seq 0 (List.length active)) active)). split; [exact EM|]. split; [rewrite map_length, combine_length, seq_length; lia|].
  intros i s b Es Eb.
  assert (nth_error (combine (seq 0 (List.length active)) active) i = Some (i, b)) as EC.
  { assert (forall (l : list bool) s0 i b, nth_error l i = Some b -> nth_error (combine (seq s0 (List.length l)) l) i = Some ((s0 + i)%nat, b)) as G.
    { induction l as [|x l IH]; intros s0 [|j] b' E; cbn in *; try discriminate; [injection E as <-; now rewrite Nat.add_0_r|]. rewrite (IH (S s0) j b' E). do 2 f_equal. lia. }
    exact (G active 0%nat i b Eb). }
  refine (eq_trans (map_nth_error g _ _ EC) _). unfold g. cbn [fst snd]. rewrite (nth_error_nth _ _ _ Es), (HN i s Es). reflexivity.
Qed.
Lemma lost_shear (x : R) : von_mises (mksym (N := RNum) [0; 0; 0] [0; x; 0]) = 0 /\ von_mises_stress (mksym (N := RNum) [0; 0; 0] [0; x; 0]) = sqrt 3 * Rabs x.
Proof.
  split.
  - unfold von_mises, sq, entry. cbn [dg od nth RNum nsqrt nadd nmul ndiv nsub nofZ num]. transitivity (sqrt 0); [f_equal; cbn; field| apply sqrt_0].
  - unfold von_mises_stress, contract, deviator, trace, lsum, Rsum. cbn [dg od map combine fst snd fold_left fold_right List.length Z.of_nat RNum nadd nsub nmul ndiv nofZ num].
    rewrite <- (sqrt_Rsqr_abs x), <- sqrt_mult_alt by lra. f_equal. unfold Rsqr. cbn. field.
Qed.
