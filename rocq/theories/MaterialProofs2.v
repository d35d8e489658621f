(** MaterialProofs2.v -- C19 to C23. *)
From Coq Require Import Reals ZArith QArith Bool List String Lra Lia Floats.
From Verif Require Import Base BaseFacts Decimal ScanPathModel MaterialModel MaterialSpec MaterialProofs.
Import ListNotations.
Local Open Scope R_scope.

(** ** Property evaluation *)
Lemma npow_R (x : R) i : npow (N := RNum) x i = x ^ i.
Proof. induction i as [|i IH]; [reflexivity|]. simpl in *. rewrite IH. lra. Qed.

Lemma poly_loop_R (r T : R) cs : forall value i, poly_loop (N := RNum) r T value cs i = value + r * (T ^ i * poly_at cs T).
Proof.
  induction cs as [|c cs IH]; intros value i; [simpl; lra|]. cbn [poly_loop]. rewrite IH, npow_R.
  cbn [poly_at fold_right]. fold (poly_at cs T). simpl. lra.
Qed.

Lemma powers_R (T : R) n : forall i, temperature_powers (N := RNum) T (T ^ i) (S n) = T ^ i :: temperature_powers (N := RNum) T (T ^ S i) n.
Proof. intros i. cbn [temperature_powers]. f_equal. f_equal. simpl. lra. Qed.

Lemma poly_loop_pw_R (r T : R) cs : forall value i, poly_loop_pw (N := RNum) r value cs (temperature_powers (N := RNum) T (T ^ i) (List.length cs)) = value + r * (T ^ i * poly_at cs T).
Proof.
  induction cs as [|c cs IH]; intros value i; [simpl; lra|]. cbn [List.length]. rewrite powers_R. cbn [poly_loop_pw]. rewrite IH.
  cbn [poly_at fold_right]. fold (poly_at cs T). simpl. lra.
Qed.

Lemma eval_step_scalar (T value r v : R) law rs ls : law_at law T v ->
  eval_loop (N := RNum) T value (r :: rs) (law :: ls) = eval_loop (N := RNum) T (value + r * v) rs ls.
Proof.
  intros H. destruct law as [rows|cs]; cbn [eval_loop].
  - simpl in H. rewrite H. reflexivity.
  - simpl in H. subst v. cbn [bind]. f_equal. rewrite poly_loop_R. simpl. lra.
Qed.
Lemma eval_step_host p_order (T value r v : R) law rs ls : law_size p_order law -> law_at law T v ->
  host_loop_states (N := RNum) T (temperature_powers (N := RNum) T 1 (p_order + 1)) value (r :: rs) (law :: ls) =
  host_loop_states (N := RNum) T (temperature_powers (N := RNum) T 1 (p_order + 1)) (value + r * v) rs ls.
Proof.
  intros S1 H. destruct law as [rows|cs]; cbn [host_loop_states].
  - simpl in H. rewrite H. reflexivity.
  - simpl in H, S1. subst v. cbn [bind]. f_equal. rewrite <- S1. change 1 with (T ^ 0) at 1. rewrite poly_loop_pw_R. simpl. lra.
Qed.

Lemma eval_weighted k p_order (law : prop_law RNum) (r : ratios RNum) (T vs vl vp : R) :
  law_size p_order (l_solid law) -> law_size p_order (l_liquid law) -> law_size p_order (l_powder law) ->
  law_at (l_solid law) T vs -> law_at (l_liquid law) T vl -> law_at (l_powder law) T vp ->
  eval_scalar k law r T = Ok (weighted k r vs vl vp) /\ eval_host k p_order law r T = Ok (weighted k r vs vl vp).
Proof.
  intros S1 S2 S3 H1 H2 H3. unfold eval_scalar, eval_host, ratio_list, law_list.
  change (nofZ RNum 1) with 1. change (nofZ RNum 0) with 0.
  destruct k; cbn [n_states firstn].
  - rewrite (eval_step_scalar _ _ _ vs), (eval_step_host _ _ _ _ vs) by assumption. split; simpl; f_equal; lra.
  - rewrite (eval_step_scalar _ _ _ vs), (eval_step_scalar _ _ _ vl), (eval_step_host _ _ _ _ vs), (eval_step_host _ _ _ _ vl) by assumption. split; simpl; f_equal; lra.
  - rewrite (eval_step_scalar _ _ _ vs), (eval_step_scalar _ _ _ vl), (eval_step_scalar _ _ _ vp), (eval_step_host _ _ _ _ vs), (eval_step_host _ _ _ _ vl), (eval_step_host _ _ _ _ vp) by assumption.
    split; simpl; f_equal; lra.
Qed.

Fixpoint wsum (f : list R -> R) (rs : list R) (cs : list (list R)) : R :=
  match rs, cs with r :: rs', c :: cs' => r * f c + wsum f rs' cs' | _, _ => 0 end.
Lemma unrolled_states_R i (p : R) : forall rs cs (value : R), unrolled_states (N := RNum) i p value rs cs = value + p * wsum (fun c => nth i c 0) rs cs.
Proof.
  induction rs as [|r rs IH]; intros [|c cs] value; simpl; try lra. rewrite IH. simpl. lra.
Qed.
Lemma poly_step n i (c : list R) T : poly_at (firstn (S n) (skipn i c)) T = nth i c 0 + T * poly_at (firstn n (skipn (S i) c)) T.
Proof.
  revert i. induction c as [|x c IH]; intros i.
  - rewrite !skipn_nil. rewrite !firstn_nil. destruct i; simpl; lra.
  - destruct i as [|i].
    + simpl. reflexivity.
    + change (skipn (S i) (x :: c)) with (skipn i c). change (skipn (S (S i)) (x :: c)) with (skipn (S i) c). rewrite IH. reflexivity.
Qed.
Lemma unrolled_R (T : R) rs cs : forall n i (value : R), unrolled (N := RNum) i (temperature_powers (N := RNum) T (T ^ i) n) value rs cs =
  value + T ^ i * wsum (fun c => poly_at (firstn n (skipn i c)) T) rs cs.
Proof.
  assert (W : forall n i, wsum (fun c => poly_at (firstn (S n) (skipn i c)) T) rs cs = wsum (fun c => nth i c 0) rs cs + T * wsum (fun c => poly_at (firstn n (skipn (S i) c)) T) rs cs).
  { intros n i. revert cs. induction rs as [|r rs IH]; intros [|c cs]; cbn [wsum]; try lra. rewrite IH, poly_step. lra. }
  assert (Z : forall i, wsum (fun c => poly_at (firstn 0 (skipn i c)) T) rs cs = 0).
  { clear W. intros i. revert cs. induction rs as [|r rs IH]; intros [|c cs]; cbn [wsum]; try lra. rewrite IH. simpl. lra. }
  induction n as [|n IH]; intros i value.
  - cbn [temperature_powers unrolled]. rewrite Z. lra.
  - rewrite powers_R. cbn [unrolled]. rewrite IH, unrolled_states_R, W. simpl. lra.
Qed.

Lemma unrolled_weighted k p_order cs0 cs1 cs2 (r : ratios RNum) (T : R) :
  List.length cs0 = (p_order + 1)%nat -> List.length cs1 = (p_order + 1)%nat -> List.length cs2 = (p_order + 1)%nat ->
  (eval_unrolled k p_order [cs0; cs1; cs2] r T : R) = weighted k r (poly_at cs0 T) (poly_at cs1 T) (poly_at cs2 T).
Proof.
  intros L0 L1 L2. unfold eval_unrolled, ratio_list. change (nofZ RNum 1) with (T ^ 0). rewrite unrolled_R.
  destruct k; cbn [n_states firstn wsum skipn].
  - rewrite <- L0, firstn_all. simpl. lra.
  - rewrite <- L0, firstn_all. rewrite L0, <- L1, firstn_all. simpl. lra.
  - rewrite <- L0, firstn_all. rewrite L0, <- L1, firstn_all. rewrite L1, <- L2, firstn_all. simpl. lra.
Qed.

Lemma weighted_between k (r : ratios RNum) vs vl vp lo hi : partition r -> only_states k r ->
  lo <= vs <= hi -> lo <= vl <= hi -> lo <= vp <= hi -> lo <= weighted k r vs vl vp <= hi.
Proof.
  intros (A & B & C & D) O H1 H2 H3. destruct r as [s l p]. cbn [r_solid r_liquid r_powder] in *. simpl in *.
  destruct k; simpl in *; nra.
Qed.

(** ** Cell states *)
Lemma sum_list_R (l : list R) : sum_list (N := RNum) l = fold_right Rplus 0 l.
Proof.
  unfold sum_list. assert (H : forall l (a : R), fold_left (fun acc x => nadd RNum acc x) l a = a + fold_right Rplus 0 l).
  { clear. induction l as [|x l IH]; intros a; simpl; [lra|]. rewrite IH. simpl. lra. }
  rewrite (H l). simpl. lra.
Qed.
Lemma nofnat_R n : nofnat (N := RNum) n = INR n.
Proof. unfold nofnat. simpl. rewrite <- INR_IZR_INZ. reflexivity. Qed.
Lemma mean_of_sum (l : list R) n : List.length l = n -> ndiv RNum (sum_list (N := RNum) l) (nofnat (N := RNum) n) = mean l.
Proof. intros <-. rewrite sum_list_R, nofnat_R. reflexivity. Qed.
Lemma col_length (t : mf_table RNum) n pos : List.length (col t n pos) = n.
Proof. unfold col. rewrite map_length, seq_length. reflexivity. Qed.

Lemma mean_range (l : list R) lo hi : l <> [] -> (forall x, In x l -> lo <= x <= hi) -> lo <= mean l <= hi.
Proof.
  intros NE B. assert (S1 : INR (List.length l) * lo <= fold_right Rplus 0 l <= INR (List.length l) * hi).
  { clear NE. induction l as [|x l IH]; [simpl; lra|]. cbn [List.length fold_right]. rewrite S_INR. assert (H := B x (or_introl eq_refl)).
    destruct IH as [I1 I2]; [intros y Hy; apply B; right; exact Hy|]. lra. }
  assert (P : 0 < INR (List.length l)) by (apply lt_0_INR; destruct l; [contradiction|simpl; lia]).
  unfold mean. split; apply (Rmult_le_reg_r (INR (List.length l))); try exact P; unfold Rdiv; rewrite ?Rmult_assoc, ?Rinv_l by lra; lra.
Qed.
Lemma mean_const (l : list R) c : l <> [] -> (forall x, In x l -> x = c) -> mean l = c.
Proof. intros NE H. assert (Q := mean_range l c c NE (fun x Hx => ltac:(rewrite (H x Hx); lra))). lra. Qed.
Lemma mean_plus {A} (f g : A -> R) (l : list A) : mean (map f l) + mean (map g l) = mean (map (fun x => f x + g x) l).
Proof.
  unfold mean. rewrite !map_length. unfold Rdiv. rewrite <- Rmult_plus_distr_r. f_equal.
  induction l as [|x l IH]; simpl; [lra|]. rewrite <- IH. lra.
Qed.

Definition pos_of (w : option (nat * nat)) : nat * nat := match w with Some p => p | None => (0, 0)%nat end.
Lemma set_state_mean k (liq pow : mf_table RNum) n_q w cells state c : In c cells ->
  let r := set_state k liq pow n_q w cells state c in
  (k <> Solid -> (r_liquid r : R) = mean (col liq n_q (pos_of (w c)))) /\
  (k = SolidLiquidPowder -> (r_powder r : R) = mean (col pow n_q (pos_of (w c)))) /\
  (r_solid r + r_liquid r + r_powder r : R) = 1 /\ only_states k r.
Proof.
  intros H. assert (E : existsb (Nat.eqb c) cells = true) by (apply existsb_exists; exists c; split; [exact H|apply Nat.eqb_refl]).
  unfold set_state. rewrite E. cbv zeta. unfold set_state_cell. fold (pos_of (w c)). destruct k; cbv zeta.
  - split; [congruence|]. split; [discriminate|]. simpl. lra.
  - rewrite mean_of_sum by apply col_length. split; [reflexivity|]. split; [discriminate|]. simpl. lra.
  - rewrite !mean_of_sum by apply col_length. split; [reflexivity|]. split; [reflexivity|]. simpl. lra.
Qed.

Lemma set_state_partition k (liq pow : mf_table RNum) n_q w cells state c : In c cells -> (0 < n_q)%nat ->
  (forall q, (q < n_q)%nat -> let p := pos_of (w c) in
     0 <= (liq (fst p) q (snd p) : R) /\ 0 <= (pow (fst p) q (snd p) : R) /\ (liq (fst p) q (snd p) + pow (fst p) q (snd p) : R) <= 1) ->
  partition (set_state k liq pow n_q w cells state c).
Proof.
  intros H NQ B. destruct (set_state_mean k liq pow n_q w cells state c H) as (M1 & M2 & M3 & M4).
  set (r := set_state k liq pow n_q w cells state c) in *. set (p := pos_of (w c)) in *.
  assert (NE : forall t, col (N := RNum) t n_q p <> []) by (intros t E; apply (f_equal (@List.length _)) in E; rewrite col_length in E; simpl in E; lia).
  assert (IL : forall (t : mf_table RNum) x, In x (col t n_q p) -> exists q, (q < n_q)%nat /\ x = t (fst p) q (snd p)).
  { intros t x Hx. unfold col in Hx. apply in_map_iff in Hx. destruct Hx as (q & <- & Hq). apply in_seq in Hq. exists q. split; [lia|reflexivity]. }
  assert (RL : 0 <= mean (col liq n_q p) <= 1).
  { apply mean_range; [apply NE|]. intros x Hx. destruct (IL _ _ Hx) as (q & Hq & ->). destruct (B q Hq) as (B1 & B2 & B3). simpl in *. lra. }
  assert (RP : 0 <= mean (col pow n_q p) <= 1).
  { apply mean_range; [apply NE|]. intros x Hx. destruct (IL _ _ Hx) as (q & Hq & ->). destruct (B q Hq) as (B1 & B2 & B3). simpl in *. lra. }
  assert (RS : mean (col liq n_q p) + mean (col pow n_q p) <= 1).
  { unfold col. change (num RNum) with R. rewrite mean_plus. apply mean_range with (lo := 0).
    - intros E. apply (f_equal (@List.length _)) in E. rewrite map_length, seq_length in E. simpl in E. lia.
    - intros x Hx. apply in_map_iff in Hx. destruct Hx as (q & <- & Hq). apply in_seq in Hq. destruct (B q ltac:(lia)) as (B1 & B2 & B3). simpl in *. lra. }
  unfold partition. destruct k.
  - unfold only_states in M4. destruct M4 as [M4 M5]. rewrite M4, M5 in *. simpl in *. repeat split; lra.
  - specialize (M1 ltac:(discriminate)). unfold only_states in M4. rewrite M1, M4 in *. simpl in *. repeat split; lra.
  - specialize (M1 ltac:(discriminate)). specialize (M2 eq_refl). rewrite M1, M2 in *. simpl in *. repeat split; lra.
Qed.

Lemma ratios_ext (r r' : ratios RNum) : (r_solid r : R) = r_solid r' -> (r_liquid r : R) = r_liquid r' -> (r_powder r : R) = r_powder r' -> r = r'.
Proof. destruct r, r'; simpl. intros; subst; reflexivity. Qed.

Lemma state_round_trip k (state : nat -> ratios RNum) cell_at n_q w cells c : (0 < n_q)%nat -> In c cells ->
  partition (state c) -> only_states k (state c) ->
  cell_at (fst (pos_of (w c))) (snd (pos_of (w c))) = c ->
  set_state k (get_state_liquid state cell_at) (get_state_powder state cell_at) n_q w cells state c = state c.
Proof.
  intros NQ H (P1 & P2 & P3 & P4) O E. set (r' := set_state _ _ _ _ _ _ _ _).
  destruct (set_state_mean k (get_state_liquid state cell_at) (get_state_powder state cell_at) n_q w cells state c H) as (M1 & M2 & M3 & M4).
  fold r' in M1, M2, M3, M4.
  assert (NE : forall t, col (N := RNum) t n_q (pos_of (w c)) <> []) by (intros t Z; apply (f_equal (@List.length _)) in Z; rewrite col_length in Z; simpl in Z; lia).
  assert (L : mean (col (get_state_liquid state cell_at) n_q (pos_of (w c))) = r_liquid (state c)).
  { apply mean_const; [apply NE|]. intros x Hx. unfold col in Hx. apply in_map_iff in Hx. destruct Hx as (q & <- & _). unfold get_state_liquid. rewrite E. reflexivity. }
  assert (W : mean (col (get_state_powder state cell_at) n_q (pos_of (w c))) = r_powder (state c)).
  { apply mean_const; [apply NE|]. intros x Hx. unfold col in Hx. apply in_map_iff in Hx. destruct Hx as (q & <- & _). unfold get_state_powder. rewrite E. reflexivity. }
  assert (A : (r_liquid r' : R) = r_liquid (state c)).
  { destruct k; [destruct M4, O; congruence|rewrite M1 by discriminate; exact L|rewrite M1 by discriminate; exact L]. }
  assert (B : (r_powder r' : R) = r_powder (state c)).
  { destruct k; [destruct M4, O; congruence|simpl in M4, O; congruence|rewrite M2 by reflexivity; exact W]. }
  apply ratios_ext; try assumption. rewrite A, B in M3. simpl in *. lra.
Qed.

Lemma set_state_device_same k (liq pow : mf_table RNum) n_q w cells state (dliq dpow : nat -> R) positions active c :
  In c cells -> In c active ->
  map dliq (positions c) = col liq n_q (pos_of (w c)) -> map dpow (positions c) = col pow n_q (pos_of (w c)) ->
  set_state_device (N := RNum) k dliq dpow positions active state c = set_state k liq pow n_q w cells state c.
Proof.
  intros H1 H2 EL EP.
  assert (E1 : existsb (Nat.eqb c) cells = true) by (apply existsb_exists; exists c; split; [exact H1|apply Nat.eqb_refl]).
  assert (E2 : existsb (Nat.eqb c) active = true) by (apply existsb_exists; exists c; split; [exact H2|apply Nat.eqb_refl]).
  assert (LN : List.length (positions c) = n_q) by (rewrite <- (map_length dliq), EL; apply col_length).
  unfold set_state, set_state_device. rewrite E1, E2. unfold set_state_cell. fold (pos_of (w c)). destruct k; cbv zeta; [reflexivity| |].
  - change (num RNum) with R in *. rewrite EL, LN. reflexivity.
  - change (num RNum) with R in *. rewrite EL, EP, LN. reflexivity.
Qed.
Lemma set_state_device_other k (dliq dpow : nat -> R) positions active (state : nat -> ratios RNum) c :
  ~ In c active -> k <> Solid -> set_state_device (N := RNum) k dliq dpow positions active state c = state c.
Proof.
  intros H NS. assert (E2 : existsb (Nat.eqb c) active = false).
  { apply not_true_is_false. intros E. apply existsb_exists in E. destruct E as (x & Hx & Hc). apply Nat.eqb_eq in Hc. subst. contradiction. }
  unfold set_state_device. rewrite E2. destruct k; [congruence|reflexivity|reflexivity].
Qed.

Lemma initial_ok k u r : initial_state (N := RNum) k u = Ok r -> partition r /\ only_states k r.
Proof.
  unfold initial_state. destruct (Nat.ltb_spec u (n_states k)); [|discriminate]. intros E. injection E as <-.
  unfold partition. destruct k; destruct u as [|[|[|u]]]; simpl in *; try lia; repeat split; lra.
Qed.
Lemma initial_ub k u : initial_state (N := RNum) k u = UB <-> (n_states k <= u)%nat.
Proof. unfold initial_state. destruct (Nat.ltb_spec u (n_states k)); split; try discriminate; auto; lia. Qed.

(** ** Radiation *)
Lemma sigma_R : stefan_boltzmann (N := RNum) = sigma.
Proof. reflexivity. Qed.
Lemma boundary_is_flux cv rd (inv h ci e ri T : R) : boundary_val (N := RNum) cv rd inv h ci e ri T = - inv * outflux cv rd h ci e ri T.
Proof.
  unfold boundary_val, rad_coef, outflux. rewrite sigma_R. generalize sigma. intros sg. destruct cv, rd; simpl; lra.
Qed.
Lemma sigma_pos : 0 < sigma. Proof. unfold sigma. lra. Qed.
Lemma pow4_le a b : 0 <= a -> a <= b -> a ^ 4 <= b ^ 4.
Proof. intros A B. apply pow_incr. lra. Qed.
Lemma pow4_lt a b : 0 <= a -> a < b -> a ^ 4 < b ^ 4.
Proof.
  intros A B. assert (a ^ 2 < b ^ 2) by (simpl; nra). assert (0 <= a ^ 2) by (simpl; nra).
  replace (a ^ 4) with ((a ^ 2) * (a ^ 2)) by (simpl; ring). replace (b ^ 4) with ((b ^ 2) * (b ^ 2)) by (simpl; ring). nra.
Qed.
Lemma flux_sign cv rd (inv h ci e ri T : R) : 0 < inv -> 0 <= h -> 0 <= e -> 0 <= ri -> 0 <= T ->
  let f := boundary_val (N := RNum) cv rd inv h ci e ri T : R in
  ((cv = true -> ci <= T) -> (rd = true -> ri <= T) -> f <= 0) /\
  ((cv = true -> T <= ci) -> (rd = true -> T <= ri) -> 0 <= f) /\
  (rd = true -> 0 < e -> (cv = true -> ci <= T) -> ri < T -> f < 0) /\
  (rd = true -> 0 < e -> (cv = true -> T <= ci) -> T < ri -> 0 < f) /\
  (cv = true -> 0 < h -> ci < T -> (rd = true -> ri <= T) -> f < 0) /\
  (cv = true -> 0 < h -> T < ci -> (rd = true -> T <= ri) -> 0 < f).
Proof.
  intros HI HH HE HR HT f. unfold f. rewrite boundary_is_flux. unfold outflux. assert (SG := sigma_pos). generalize dependent sigma. intros sg SG.
  assert (ES : 0 <= e * sg) by (apply Rmult_le_pos; lra).
  assert (ES' : 0 < e -> 0 < e * sg) by (intros; apply Rmult_lt_0_compat; lra).
  set (k := e * sg) in *. clearbody k.
  assert (P1 : ri <= T -> 0 <= k * (T ^ 4 - ri ^ 4)) by (intros; apply Rmult_le_pos; [lra|]; assert (Q := pow4_le ri T HR H); lra).
  assert (P2 : T <= ri -> k * (T ^ 4 - ri ^ 4) <= 0) by (intros; assert (Q := pow4_le T ri HT H); assert (0 <= k * (ri ^ 4 - T ^ 4)) by (apply Rmult_le_pos; lra); lra).
  assert (P3 : 0 < k -> ri < T -> 0 < k * (T ^ 4 - ri ^ 4)) by (intros HK H; apply Rmult_lt_0_compat; [lra|]; assert (Q := pow4_lt ri T HR H); lra).
  assert (P4 : 0 < k -> T < ri -> k * (T ^ 4 - ri ^ 4) < 0) by (intros HK H; assert (Q := pow4_lt T ri HT H); assert (0 < k * (ri ^ 4 - T ^ 4)) by (apply Rmult_lt_0_compat; lra); lra).
  assert (C1 : ci <= T -> 0 <= h * (T - ci)) by (intros; apply Rmult_le_pos; lra).
  assert (C2 : T <= ci -> h * (T - ci) <= 0) by (intros; assert (0 <= h * (ci - T)) by (apply Rmult_le_pos; lra); lra).
  assert (C3 : 0 < h -> ci < T -> 0 < h * (T - ci)) by (intros; apply Rmult_lt_0_compat; lra).
  assert (C4 : 0 < h -> T < ci -> h * (T - ci) < 0) by (intros; assert (0 < h * (ci - T)) by (apply Rmult_lt_0_compat; lra); lra).
  assert (N1 : forall x, 0 <= x -> - inv * x <= 0) by (intros; assert (0 <= inv * x) by (apply Rmult_le_pos; lra); lra).
  assert (N2 : forall x, x <= 0 -> 0 <= - inv * x) by (intros; assert (0 <= inv * - x) by (apply Rmult_le_pos; lra); lra).
  assert (N3 : forall x, 0 < x -> - inv * x < 0) by (intros; assert (0 < inv * x) by (apply Rmult_lt_0_compat; lra); lra).
  assert (N4 : forall x, x < 0 -> 0 < - inv * x) by (intros; assert (0 < inv * - x) by (apply Rmult_lt_0_compat; lra); lra).
  set (r4 := k * (T ^ 4 - ri ^ 4)) in *. set (hc := h * (T - ci)) in *. clearbody r4 hc.
  destruct cv, rd; repeat split; intros; try discriminate;
    repeat match goal with H : true = true -> _ |- _ => specialize (H eq_refl) | H : false = true -> _ |- _ => clear H end;
    first [apply N1 | apply N2 | apply N3 | apply N4];
    try (specialize (P1 ltac:(lra))); try (specialize (P2 ltac:(lra))); try (specialize (P3 ltac:(auto) ltac:(lra))); try (specialize (P4 ltac:(auto) ltac:(lra)));
    try (specialize (C1 ltac:(lra))); try (specialize (C2 ltac:(lra))); try (specialize (C3 ltac:(lra) ltac:(lra))); try (specialize (C4 ltac:(lra) ltac:(lra))); lra.
Qed.
Lemma flux_equilibrium cv rd (inv h e T : R) : boundary_val (N := RNum) cv rd inv h T e T T = 0.
Proof. rewrite boundary_is_flux. unfold outflux. destruct cv, rd; lra. Qed.
Lemma cell_coef_unset (e T fl : R) : cell_rad_coef (N := RNum) e T (prop_or_max (N := RNum) None) fl = fl.
Proof. unfold cell_rad_coef. change (neqb RNum (prop_or_max None) (nmax RNum)) with (Reqb (nmax RNum) (nmax RNum)). destruct (Reqb_spec (nmax RNum) (nmax RNum)); [reflexivity|congruence]. Qed.
Lemma cell_coef_set (e T Ti fl : R) : Ti <> nmax RNum -> cell_rad_coef (N := RNum) e T Ti fl * (T - Ti) = e * sigma * (T ^ 4 - Ti ^ 4).
Proof.
  intros H. unfold cell_rad_coef. change (neqb RNum Ti (nmax RNum)) with (Reqb Ti (nmax RNum)).
  destruct (Reqb_spec Ti (nmax RNum)); [contradiction|]. cbn [negb]. unfold rad_coef. rewrite sigma_R. generalize sigma. intros; simpl; lra.
Qed.

(** ** Latent heat *)
Lemma latent_sl (m : mat_props RNum) (r : ratios RNum) (c : R) : partition r -> only_states SolidLiquid r ->
  host_latent SolidLiquid m r c = device_latent SolidLiquid m r c.
Proof.
  intros (A & B & C & D) O. unfold host_latent, device_latent, only_states in *. destruct r as [s l p]. simpl in *.
  rewrite O in *. assert (s = 1 - l) by lra. subst s.
  destruct (Rltb_spec 0 (l * (1 - l))); destruct (Rltb_spec 0 l); destruct (Rltb_spec l 1); simpl; try reflexivity; exfalso; nra.
Qed.
Lemma latent_slp_iff (m : mat_props RNum) (r : ratios RNum) (c : R) : partition r -> p_latent m / (p_liquidus m - p_solidus m) <> 0 ->
  ((host_latent SolidLiquidPowder m r c : R) = device_latent SolidLiquidPowder m r c <->
   ~ (0 < (r_liquid r : R) /\ (r_solid r : R) = 0 /\ 0 < (r_powder r : R))).
Proof.
  intros (A & B & C & D) LN. unfold host_latent, device_latent. destruct r as [s l p]. simpl in *.
  set (d := p_latent m / (p_liquidus m - p_solidus m)) in *. simpl in d. change (p_latent m / (p_liquidus m - p_solidus m)) with d.
  destruct (Rltb_spec 0 (l * s)); destruct (Rltb_spec 0 l); destruct (Rltb_spec l 1); simpl; split; intros H; try reflexivity; try (intros (H1 & H2 & H3)); try (exfalso; nra).
Qed.
Lemma cell_device_latent k (m : mat_props RNum) (r : ratios RNum) (c : R) : partition r -> only_states k r -> (p_liquidus m - p_solidus m : R) <> 0 ->
  (cell_latent k m r c : R) = device_latent k m r c.
Proof.
  intros (A & B & C & D) O NZ. unfold cell_latent, device_latent. destruct r as [s l p]. simpl in *.
  set (dd := p_liquidus m - p_solidus m) in *. simpl in dd.
  destruct k; [reflexivity| |]; simpl; destruct (Rltb 0 l && Rltb l 1)%bool; try reflexivity; simpl.
  - rewrite O in D. replace s with (1 - l) by lra. unfold Rdiv. fold dd. change (p_liquidus m - p_solidus m) with dd. lra.
  - replace s with (1 - l - p) by lra. unfold Rdiv. change (p_liquidus m - p_solidus m) with dd. lra.
Qed.
(** Melting fresh powder: the host never adds latent heat. *)
Lemma fresh_powder (m : mat_props RNum) (T c : R) : melts m -> (p_solidus m : R) < T < p_liquidus m ->
  let r := device_ratios SolidLiquidPowder m 1 T in
  (host_latent SolidLiquidPowder m r c : R) = c /\ (device_latent SolidLiquidPowder m r c : R) = c + p_latent m / (p_liquidus m - p_solidus m).
Proof.
  intros M H. unfold device_ratios. cbv zeta. destruct (liquid_law m T M) as (_ & _ & L). specialize (L ltac:(lra)).
  unfold melts in M. assert (HL : 0 < (liquid_ratio m T : R) < 1).
  { simpl in *. set (l := liquid_ratio m T : R) in *. set (a := p_solidus m : R) in *. set (b := p_liquidus m : R) in *. simpl in *. split; nra. }
  generalize dependent (liquid_ratio m T). intros l L HL. simpl in l, L, HL. unfold host_latent, device_latent. simpl.
  destruct (Rltb_spec (1 - l) 1); [|exfalso; lra]. replace (1 - l - (1 - l)) with 0 by lra.
  destruct (Rltb_spec 0 (l * 0)); [exfalso; lra|]. destruct (Rltb_spec 0 l); [|exfalso; lra]. destruct (Rltb_spec l 1); [|exfalso; lra]. split; reflexivity.
Qed.

(** ** Conduction *)
Lemma cond_symmetric dim3 (inv kx ky kz c s : R) g h : dot (conduction (N := RNum) dim3 inv kx ky kz c s g) h = dot g (conduction (N := RNum) dim3 inv kx ky kz c s h).
Proof. destruct g, h. unfold conduction, dot, pscale. destruct dim3; simpl; lra. Qed.
Lemma cond_eigen (inv kx ky kz c s : R) : c * c + s * s = 1 ->
  conduction (N := RNum) true inv kx ky kz c s (mkpt (N := RNum) c s 0) = pscale (N := RNum) (- inv * kx) (mkpt (N := RNum) c s 0) /\
  conduction (N := RNum) true inv kx ky kz c s (mkpt (N := RNum) (- s) c 0) = pscale (N := RNum) (- inv * ky) (mkpt (N := RNum) (- s) c 0) /\
  conduction (N := RNum) true inv kx ky kz c s (mkpt (N := RNum) 0 0 1) = pscale (N := RNum) (- inv * kz) (mkpt (N := RNum) 0 0 1).
Proof.
  intros U. unfold conduction, pscale. simpl. repeat split; f_equal; simpl.
  all: try lra.
  - transitivity (- inv * kx * c * (c * c + s * s)); [ring|rewrite U; ring].
  - transitivity (- inv * kx * s * (c * c + s * s)); [ring|rewrite U; ring].
  - transitivity (inv * ky * s * (c * c + s * s)); [ring|rewrite U; ring].
  - transitivity (- inv * ky * c * (c * c + s * s)); [ring|rewrite U; ring].
Qed.
Lemma cond_bounds (dim3 : bool) (inv kx ky kz c s lo hi : R) (g : pt RNum) : c * c + s * s = 1 -> 0 <= inv -> lo <= kx <= hi -> lo <= ky <= hi -> lo <= kz <= hi ->
  (dim3 = false -> (py g : R) = 0) ->
  - inv * hi * dot g g <= dot (conduction (N := RNum) dim3 inv kx ky kz c s g) g <= - inv * lo * dot g g.
Proof.
  intros U I X Y Z D2. destruct g as [a b d]. unfold conduction, dot, pscale. simpl in *.
  assert (Q : dot (conduction (N := RNum) dim3 inv kx ky kz c s (mkpt (N := RNum) a b d)) (mkpt (N := RNum) a b d) =
    - inv * (kx * (if dim3 then (c * a + s * b) * (c * a + s * b) else a * a) + (if dim3 then ky * ((- s * a + c * b) * (- s * a + c * b)) else 0) + kz * (d * d))).
  { unfold conduction, dot, pscale. destruct dim3; simpl; ring. }
  unfold conduction, dot, pscale in Q. simpl in Q. rewrite Q.
  assert (NN : a * a + b * b = (c * a + s * b) * (c * a + s * b) + (- s * a + c * b) * (- s * a + c * b)).
  { transitivity ((c * c + s * s) * (a * a + b * b)); [rewrite U; ring|ring]. }
  destruct dim3.
  - rewrite NN. set (u := c * a + s * b) in *. set (v := - s * a + c * b) in *.
    assert (0 <= u * u) by nra. assert (0 <= v * v) by nra. assert (0 <= d * d) by nra.
    assert (forall k w, lo <= k <= hi -> 0 <= w -> lo * w <= k * w <= hi * w) as K by (intros; split; apply Rmult_le_compat_r; lra).
    assert (K1 := K kx (u * u) X ltac:(assumption)). assert (K2 := K ky (v * v) Y ltac:(assumption)). assert (K3 := K kz (d * d) Z ltac:(assumption)).
    replace (- inv * hi * (u * u + v * v + d * d)) with (- (inv * (hi * (u * u) + hi * (v * v) + hi * (d * d)))) by ring.
    replace (- inv * lo * (u * u + v * v + d * d)) with (- (inv * (lo * (u * u) + lo * (v * v) + lo * (d * d)))) by ring.
    replace (- inv * (kx * (u * u) + ky * (v * v) + kz * (d * d))) with (- (inv * (kx * (u * u) + ky * (v * v) + kz * (d * d)))) by ring.
    split; apply Ropp_le_contravar; apply Rmult_le_compat_l; lra.
  - rewrite (D2 eq_refl) in *. assert (0 <= a * a) by nra. assert (0 <= d * d) by nra.
    assert (forall k w, lo <= k <= hi -> 0 <= w -> lo * w <= k * w <= hi * w) as K by (intros; split; apply Rmult_le_compat_r; lra).
    assert (K1 := K kx (a * a) X ltac:(assumption)). assert (K3 := K kz (d * d) Z ltac:(assumption)).
    replace (- inv * hi * (a * a + 0 * 0 + d * d)) with (- (inv * (hi * (a * a) + hi * (d * d)))) by ring.
    replace (- inv * lo * (a * a + 0 * 0 + d * d)) with (- (inv * (lo * (a * a) + lo * (d * d)))) by ring.
    replace (- inv * (kx * (a * a) + 0 + kz * (d * d))) with (- (inv * (kx * (a * a) + kz * (d * d)))) by ring.
    split; apply Ropp_le_contravar; apply Rmult_le_compat_l; lra.
Qed.

Lemma set_state_other k (liq pow : mf_table RNum) n_q w cells state c : ~ In c cells ->
  (k <> Solid -> set_state k liq pow n_q w cells state c = state c) /\ (k = Solid -> set_state k liq pow n_q w cells state c = mkr (N := RNum) 1 0 0).
Proof.
  intros H. assert (E2 : existsb (Nat.eqb c) cells = false).
  { apply not_true_is_false. intros E. apply existsb_exists in E. destruct E as (x & Hx & Hc). apply Nat.eqb_eq in Hc. subst. contradiction. }
  unfold set_state. rewrite E2. destruct k; split; intros; try reflexivity; try congruence.
Qed.
Lemma heat_of_melting k (m : mat_props RNum) (r : ratios RNum) (rho c : R) : k <> Solid -> 0 < (r_liquid r : R) < 1 -> 0 < (r_solid r : R) -> melts m -> 0 < rho -> 0 < c -> 0 <= (p_latent m : R) ->
  let heat (inv : R) := ((p_liquidus m - p_solidus m) / inv)%R in let expected : R := rho * (c * (p_liquidus m - p_solidus m) + p_latent m) in
  heat (inv_rho_cp (N := RNum) rho (host_latent k m r c)) = expected /\ heat (inv_rho_cp (N := RNum) rho (device_latent k m r c)) = expected.
Proof.
  intros K [L0 L1] S0 M P C La. cbv zeta. unfold melts in M.
  assert (EH : host_latent k m r c = (c + p_latent m / (p_liquidus m - p_solidus m))%R).
  { unfold host_latent. destruct k; [congruence| |]; cbn [nltb RNum]; (assert (Q : Rltb 0 (r_liquid r * r_solid r) = true); [destruct (Rltb_spec 0 (r_liquid r * r_solid r)) as [|n]; [reflexivity|exfalso; apply n; now apply Rmult_lt_0_compat]|change (nofZ RNum 0) with 0%R; cbn [nmul RNum]; rewrite Q; reflexivity]). }
  assert (ED : device_latent k m r c = (c + p_latent m / (p_liquidus m - p_solidus m))%R).
  { unfold device_latent. destruct k; [congruence| |]; cbn [nltb RNum]; change (nofZ RNum 0) with 0%R; change (nofZ RNum 1) with 1%R;
      destruct (Rltb_spec 0 (r_liquid r)) as [|n]; try (exfalso; apply n; assumption); destruct (Rltb_spec (r_liquid r) 1) as [|n]; try (exfalso; apply n; assumption); reflexivity. }
  rewrite EH, ED. unfold inv_rho_cp. change (nofZ RNum 1) with 1%R. cbn [ndiv nmul RNum].
  revert M La. generalize (p_liquidus m : R) (p_solidus m : R) (p_latent m : R). intros l s h M La.
  assert (D : l - s <> 0) by lra. assert (D2 : c * (l - s) + h <> 0). { assert (0 < c * (l - s)) by (apply Rmult_lt_0_compat; lra). lra. }
  split; field; repeat split; lra.
Qed.
Lemma heat_outside k (m : mat_props RNum) (r : ratios RNum) (rho c : R) : (r_liquid r : R) = 0 \/ ((r_liquid r : R) = 1 /\ (r_solid r : R) = 0) -> 0 < rho -> 0 < c ->
  (inv_rho_cp (N := RNum) rho (host_latent k m r c) * (rho * c) = 1)%R /\ (inv_rho_cp (N := RNum) rho (device_latent k m r c) * (rho * c) = 1)%R.
Proof.
  intros H P C.
  assert (EH : host_latent k m r c = c).
  { unfold host_latent. destruct k; try reflexivity; change (nofZ RNum 0) with 0%R; cbn [nltb nmul RNum];
      (destruct (Rltb_spec 0 (r_liquid r * r_solid r)) as [l|]; [exfalso; destruct H as [E|[E1 E2]]; [rewrite E, Rmult_0_l in l|rewrite E2, Rmult_0_r in l]; lra|reflexivity]). }
  assert (ED : device_latent k m r c = c).
  { unfold device_latent. destruct k; try reflexivity; change (nofZ RNum 0) with 0%R; change (nofZ RNum 1) with 1%R; cbn [nltb RNum];
      destruct (Rltb_spec 0 (r_liquid r)) as [a|]; try reflexivity; destruct (Rltb_spec (r_liquid r) 1) as [b|]; try reflexivity; exfalso; destruct H as [E|[E1 E2]]; [rewrite E in a; lra|rewrite E1 in b; lra|rewrite E in a; lra|rewrite E1 in b; lra]. }
  rewrite EH, ED. unfold inv_rho_cp. change (nofZ RNum 1) with 1%R. cbn [ndiv nmul RNum]. split; field; lra.
Qed.
