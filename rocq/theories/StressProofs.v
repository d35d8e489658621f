(** StressProofs.v *)
From Coq Require Import Reals ZArith Bool List Lia Lra.
From Verif Require Import Base BaseFacts CellModel StressModel AssimilationSpec AssimilationProofs StressSpec.
Import ListNotations.
Local Open Scope R_scope.

Lemma lsum_R (l : list R) : lsum (N := RNum) l = Rsum l.
Proof.
  unfold lsum. cbn [RNum nadd num nofZ]. change (nZ 0 : num RNum) with (0 : R).
  assert (forall l (a : R), fold_left (fun s x : R => s + x) l a = a + Rsum l) as G.
  { induction l0 as [|x l0 IH]; intros a; cbn [fold_left]; [unfold Rsum; cbn; lra|]. rewrite IH. unfold Rsum. cbn. lra. }
  rewrite G. lra.
Qed.
Lemma trace_R a : trace (N := RNum) a = tr a.
Proof. apply lsum_R. Qed.
Lemma contract_squares (l : list R) : Rsum (map (fun xy => fst xy * snd xy) (combine l l)) = Rsum (map (fun x => x * x) l).
Proof. induction l as [|x l IH]; [reflexivity|]. unfold Rsum in *. cbn in *. now rewrite IH. Qed.
Lemma norm2_R (a : sym RNum) : norm2 (N := RNum) a = contract a a.
Proof. unfold norm2, contract. cbn [RNum nadd nmul num]. rewrite !contract_squares. change (nZ 2 : num RNum) with (2 : R). f_equal; [|f_equal]; apply lsum_R. Qed.
Lemma norm_R (a : sym RNum) : norm (N := RNum) a = magnitude a.
Proof. unfold norm, magnitude. now rewrite norm2_R. Qed.

(** Entrywise reasoning. *)
Notation D := diagonal.
Notation O_ := shear.
Lemma sym_ext d o (a b : sym RNum) : shaped d o a -> shaped d o b -> (forall i, (i < d)%nat -> D a i = D b i) -> (forall i, (i < o)%nat -> O_ a i = O_ b i) -> a = b.
Proof.
  destruct a as [a1 a2], b as [b1 b2]. unfold shaped, D, O_. cbn [dg od]. intros [A1 A2] [B1 B2] H1 H2. f_equal; eapply nth_ext; try congruence; intros i Hi; [apply H1| apply H2]; congruence.
Qed.
Lemma nth_map_R (f : R -> R) l i : (i < List.length l)%nat -> nth i (map f l) 0 = f (nth i l 0).
Proof. intros H. rewrite (nth_indep _ 0 (f 0)) by now rewrite map_length. apply map_nth. Qed.
Lemma map2_length f (a b : list R) : List.length a = List.length b -> List.length (map2 (N := RNum) f a b) = List.length a.
Proof. intros H. unfold map2. rewrite map_length, combine_length. cbn [num RNum] in *. rewrite <- H. apply Nat.min_id. Qed.
Lemma nth_map2 f (a b : list R) i : List.length a = List.length b -> (i < List.length a)%nat -> nth i (map2 (N := RNum) f a b) 0 = f (nth i a 0) (nth i b 0).
Proof.
  intros L H. unfold map2. cbn [num RNum].
  rewrite (nth_indep _ 0 ((fun xy => f (fst xy) (snd xy)) (0, 0))) by (rewrite map_length, combine_length; lia).
  rewrite (map_nth (fun xy : R * R => f (fst xy) (snd xy))). now rewrite combine_nth by exact L.
Qed.
Lemma tadd_shaped d o a b : shaped d o a -> shaped d o b -> shaped d o (tadd a b).
Proof. intros [A1 A2] [B1 B2]. split; cbn [tadd dg od]; (rewrite map2_length; [assumption| first [exact (eq_trans A1 (eq_sym B1))| exact (eq_trans A2 (eq_sym B2))]]). Qed.
Lemma tsub_shaped d o a b : shaped d o a -> shaped d o b -> shaped d o (tsub a b).
Proof. intros [A1 A2] [B1 B2]. split; cbn [tsub dg od]; (rewrite map2_length; [assumption| first [exact (eq_trans A1 (eq_sym B1))| exact (eq_trans A2 (eq_sym B2))]]). Qed.
Lemma tscale_shaped d o c a : shaped d o a -> shaped d o (tscale c a).
Proof. intros [A1 A2]. split; cbn [tscale dg od]; now rewrite map_length. Qed.
Lemma tdiv_shaped d o c a : shaped d o a -> shaped d o (tdiv a c).
Proof. intros [A1 A2]. split; cbn [tdiv dg od]; now rewrite map_length. Qed.
Lemma dev_shaped d o a : shaped d o a -> shaped d o (deviator a).
Proof. intros [A1 A2]. split; cbn [deviator dg od]; [now rewrite map_length| assumption]. Qed.
Lemma hooke_shaped d o l m a : shaped d o a -> shaped d o (hooke l m a).
Proof. intros [A1 A2]. split; cbn [hooke dg od]; now rewrite map_length. Qed.
Section Entries.
  Variables (d o : nat) (a b : sym RNum).
  Hypothesis Ha : shaped d o a. Hypothesis Hb : shaped d o b.
  Lemma D_add i : (i < d)%nat -> D (tadd a b) i = D a i + D b i.
  Proof. destruct Ha, Hb. intros. unfold D. cbn [tadd dg]. rewrite nth_map2 by (cbn [num RNum] in *; lia). reflexivity. Qed.
  Lemma O_add i : (i < o)%nat -> O_ (tadd a b) i = O_ a i + O_ b i.
  Proof. destruct Ha, Hb. intros. unfold O_. cbn [tadd od]. rewrite nth_map2 by (cbn [num RNum] in *; lia). reflexivity. Qed.
  Lemma D_sub i : (i < d)%nat -> D (tsub a b) i = D a i - D b i.
  Proof. destruct Ha, Hb. intros. unfold D. cbn [tsub dg]. rewrite nth_map2 by (cbn [num RNum] in *; lia). reflexivity. Qed.
  Lemma O_sub i : (i < o)%nat -> O_ (tsub a b) i = O_ a i - O_ b i.
  Proof. destruct Ha, Hb. intros. unfold O_. cbn [tsub od]. rewrite nth_map2 by (cbn [num RNum] in *; lia). reflexivity. Qed.
End Entries.
Section Entries1.
  Variables (d o : nat) (a : sym RNum) (c : R).
  Hypothesis Ha : shaped d o a.
  Lemma D_scale i : (i < d)%nat -> D (tscale (N := RNum) c a) i = c * D a i.
  Proof. destruct Ha. intros. unfold D. cbn [tscale dg]. rewrite nth_map_R by (cbn [num RNum] in *; lia). reflexivity. Qed.
  Lemma O_scale i : (i < o)%nat -> O_ (tscale (N := RNum) c a) i = c * O_ a i.
  Proof. destruct Ha. intros. unfold O_. cbn [tscale od]. rewrite nth_map_R by (cbn [num RNum] in *; lia). reflexivity. Qed.
  Lemma D_div i : (i < d)%nat -> D (tdiv (N := RNum) a c) i = D a i / c.
  Proof. destruct Ha. intros. unfold D. cbn [tdiv dg]. rewrite nth_map_R by (cbn [num RNum] in *; lia). reflexivity. Qed.
  Lemma O_div i : (i < o)%nat -> O_ (tdiv (N := RNum) a c) i = O_ a i / c.
  Proof. destruct Ha. intros. unfold O_. cbn [tdiv od]. rewrite nth_map_R by (cbn [num RNum] in *; lia). reflexivity. Qed.
  Lemma D_dev i : (i < d)%nat -> D (deviator a) i = D a i - tr a / INR d.
  Proof.
    destruct Ha as [A1 A2]. intros. unfold D. cbn [deviator dg]. rewrite nth_map_R by (cbn [num RNum] in *; lia). cbn [RNum nsub ndiv nofZ num] in *. rewrite trace_R. cbn [RNum num] in *. rewrite A1. now rewrite <- INR_IZR_INZ.
  Qed.
  Lemma O_dev i : O_ (deviator a) i = O_ a i.
  Proof. reflexivity. Qed.
  Lemma D_hooke l m i : (i < d)%nat -> D (hooke (N := RNum) l m a) i = l * tr a + 2 * m * D a i.
  Proof. destruct Ha. intros. unfold D. cbn [hooke dg]. rewrite nth_map_R by (cbn [num RNum] in *; lia). cbn [RNum nadd nmul num]. now rewrite trace_R. Qed.
  Lemma O_hooke l m i : (i < o)%nat -> O_ (hooke (N := RNum) l m a) i = 2 * m * O_ a i.
  Proof. destruct Ha. intros. unfold O_. cbn [hooke od]. rewrite nth_map_R by (cbn [num RNum] in *; lia). reflexivity. Qed.
End Entries1.

(** Sums over entries. *)
Lemma Rsum_nth (l : list R) : Rsum l = Rsum_to (List.length l) (fun i => nth i l 0).
Proof.
  unfold Rsum_to. induction l as [|x l IH]; [reflexivity|]. cbn [List.length]. rewrite <- cons_seq, <- seq_shift. cbn [map]. unfold Rsum in *. cbn [fold_right nth]. f_equal.
  rewrite IH, map_map. reflexivity.
Qed.
Lemma tr_sum d o a : shaped d o a -> tr a = Rsum_to d (D a).
Proof. intros [A _]. unfold tr. rewrite Rsum_nth. cbn [RNum num] in *. now rewrite A. Qed.
Lemma prod_sum (l m : list R) : List.length l = List.length m -> Rsum (map (fun xy => fst xy * snd xy) (combine l m)) = Rsum_to (List.length l) (fun i => nth i l 0 * nth i m 0).
Proof.
  revert m. induction l as [|x l IH]; intros [|y m] L; cbn in L; try discriminate; [reflexivity|].
  unfold Rsum_to. cbn [combine map List.length]. rewrite <- cons_seq, <- seq_shift. cbn [map]. unfold Rsum at 1 2. cbn [fold_right fst snd nth]. f_equal.
  specialize (IH m (eq_add_S _ _ L)). unfold Rsum at 1 in IH. rewrite IH. unfold Rsum_to. rewrite map_map. reflexivity.
Qed.
Lemma contract_sum d o a b : shaped d o a -> shaped d o b -> contract a b = Rsum_to d (fun i => D a i * D b i) + 2 * Rsum_to o (fun i => O_ a i * O_ b i).
Proof. intros [A1 A2] [B1 B2]. unfold contract. cbn [RNum num] in *. rewrite !prod_sum by congruence. now rewrite A1, A2. Qed.
Lemma Rsum_to_ext' n f g : (forall i, (i < n)%nat -> f i = g i) -> Rsum_to n f = Rsum_to n g.
Proof. intros H. apply Rsum_ext. intros i Hi. apply in_seq in Hi. apply H. lia. Qed.
Lemma Rsum_to_const n c : Rsum_to n (fun _ => c) = INR n * c.
Proof.
  unfold Rsum_to. assert (forall s, Rsum (map (fun _ => c) (seq s n)) = INR n * c) as G; [|apply G].
  induction n as [|n IH]; intros s; [unfold Rsum; cbn; lra|]. cbn [seq map]. rewrite S_INR. unfold Rsum in *. cbn [fold_right]. rewrite IH. lra.
Qed.
Lemma Rsum_to_lin n c f g : Rsum_to n (fun i => f i + c * g i) = Rsum_to n f + c * Rsum_to n g.
Proof. unfold Rsum_to. rewrite <- (Rsum_scal g c), <- Rsum_add. reflexivity. Qed.

Lemma tr_dev d o a : (0 < d)%nat -> shaped d o a -> tr (deviator a) = 0.
Proof.
  intros Hd S. rewrite (tr_sum d o) by now apply dev_shaped. assert (0 < INR d) as P by now apply lt_0_INR.
  rewrite (Rsum_to_ext' d _ (fun i => D a i + (-1) * (tr a / INR d))) by (intros i Hi; rewrite (D_dev d o a S i Hi); lra).
  rewrite (Rsum_to_lin d (-1) (D a) (fun _ => tr a / INR d)), Rsum_to_const, <- (tr_sum d o a S). field. lra.
Qed.
Lemma tr_sub d o a b : shaped d o a -> shaped d o b -> tr (tsub a b) = tr a - tr b.
Proof.
  intros A B. rewrite (tr_sum d o (tsub a b)) by now apply tsub_shaped.
  rewrite (Rsum_to_ext' d _ (fun i => D a i + (-1) * D b i)) by (intros i Hi; rewrite (D_sub d o a b A B i Hi); lra).
  rewrite Rsum_to_lin, <- (tr_sum d o a A), <- (tr_sum d o b B). lra.
Qed.
Lemma tr_add d o a b : shaped d o a -> shaped d o b -> tr (tadd a b) = tr a + tr b.
Proof.
  intros A B. rewrite (tr_sum d o (tadd a b)) by now apply tadd_shaped.
  rewrite (Rsum_to_ext' d _ (fun i => D a i + 1 * D b i)) by (intros i Hi; rewrite (D_add d o a b A B i Hi); lra).
  rewrite Rsum_to_lin, <- (tr_sum d o a A), <- (tr_sum d o b B). lra.
Qed.
Lemma tr_scale d o c a : shaped d o a -> tr (tscale (N := RNum) c a) = c * tr a.
Proof.
  intros A. rewrite (tr_sum d o (tscale (N := RNum) c a)) by now apply tscale_shaped.
  rewrite (Rsum_to_ext' d _ (fun i => c * D a i)) by (intros i Hi; now rewrite (D_scale d o a c A i Hi)).
  unfold Rsum_to. rewrite Rsum_scal. now rewrite (tr_sum d o a A).
Qed.
Lemma tr_div d o c a : shaped d o a -> tr (tdiv (N := RNum) a c) = tr a / c.
Proof.
  intros A. rewrite (tr_sum d o (tdiv (N := RNum) a c)) by now apply tdiv_shaped.
  rewrite (Rsum_to_ext' d _ (fun i => / c * D a i)) by (intros i Hi; rewrite (D_div d o a c A i Hi); unfold Rdiv; ring).
  unfold Rsum_to. rewrite Rsum_scal. rewrite (tr_sum d o a A). unfold Rsum_to, Rdiv. ring.
Qed.
Lemma tr_hooke d o l m a : shaped d o a -> tr (hooke (N := RNum) l m a) = (INR d * l + 2 * m) * tr a.
Proof.
  intros A. rewrite (tr_sum d o (hooke (N := RNum) l m a)) by now apply hooke_shaped.
  rewrite (Rsum_to_ext' d _ (fun i => l * tr a + (2 * m) * D a i)) by (intros i Hi; now rewrite (D_hooke d o a A l m i Hi)).
  rewrite (Rsum_to_lin d (2 * m) (fun _ => l * tr a) (D a)), Rsum_to_const, <- (tr_sum d o a A). ring.
Qed.
Lemma contract_scale d o c a : shaped d o a -> contract (tscale (N := RNum) c a) (tscale (N := RNum) c a) = c * c * contract a a.
Proof.
  intros A. rewrite (contract_sum d o) by now apply tscale_shaped. rewrite (contract_sum d o a a A A).
  rewrite (Rsum_to_ext' d _ (fun i => (c * c) * (D a i * D a i))) by (intros i Hi; rewrite (D_scale d o a c A i Hi); ring).
  rewrite (Rsum_to_ext' o _ (fun i => (c * c) * (O_ a i * O_ a i))) by (intros i Hi; rewrite (O_scale d o a c A i Hi); ring).
  unfold Rsum_to. rewrite !Rsum_scal. ring.
Qed.
Lemma contract_nonneg a : 0 <= contract a a.
Proof.
  unfold contract. rewrite !contract_squares.
  assert (forall l, 0 <= Rsum (map (fun x => x * x) l)) as G by (intros l; apply Rsum_nonneg; apply Forall_forall; intros y Hy; apply in_map_iff in Hy; destruct Hy as (x & <- & _); nra).
  pose proof (G (dg a)). pose proof (G (od a)). lra.
Qed.
Lemma magnitude_scale d o c a : shaped d o a -> magnitude (tscale (N := RNum) c a) = Rabs c * magnitude a.
Proof.
  intros A. unfold magnitude. rewrite (contract_scale d o c a A). rewrite sqrt_mult_alt by nra. f_equal. replace (c * c) with (Rsqr c) by reflexivity. apply sqrt_Rsqr_abs.
Qed.
Lemma magnitude_nonneg a : 0 <= magnitude a.
Proof. apply sqrt_pos. Qed.
Lemma div_scale d o a c : shaped d o a -> tdiv (N := RNum) a c = tscale (N := RNum) (/ c) a.
Proof.
  intros A. apply (sym_ext d o); [now apply tdiv_shaped| now apply tscale_shaped| |]; intros i Hi.
  - rewrite (D_div d o a c A i Hi), (D_scale d o a _ A i Hi). unfold Rdiv. ring.
  - rewrite (O_div d o a c A i Hi), (O_scale d o a _ A i Hi). unfold Rdiv. ring.
Qed.

(** ** One update *)
Section Update.
  Variables (d o : nat) (m : plasticity RNum) (s : point RNum) (e : sym RNum).
  Hypothesis Hd : (0 < d)%nat.
  Hypothesis PH : physical m. Hypothesis RG : regular d o s. Hypothesis HE : shaped d o e.
  Let T := trial m s e.
  Let xi := effective s T.
  Let X := magnitude xi.
  Let mu : R := lame2 m.
  Let H : R := plastic_modulus m.
  Let beta : R := iso_hardening m.
  Let Dg : R := (X - p_yield s) / (2 * mu + H).
  Lemma T_shaped : shaped d o T.
  Proof. destruct RG as (A & _). apply tadd_shaped; [exact A| now apply hooke_shaped]. Qed.
  Lemma xi_shaped : shaped d o xi.
  Proof. destruct RG as (_ & B & _). apply tsub_shaped; [apply dev_shaped, T_shaped| exact B]. Qed.
  Lemma tr_xi : tr xi = 0.
  Proof. destruct RG as (_ & B & TB & _). unfold xi, effective. rewrite (tr_sub d o) by (try apply dev_shaped, T_shaped; exact B). rewrite (tr_dev d o T Hd T_shaped), TB. lra. Qed.
  Lemma tr_T : tr T = tr (p_stress s) + (INR d * lame1 m + 2 * mu) * tr e.
  Proof. destruct RG as (A & _). unfold T, trial. rewrite (tr_add d o) by (try apply hooke_shaped; assumption). rewrite (tr_hooke d o) by exact HE. reflexivity. Qed.

  Lemma elastic_case : X < p_yield s -> update_point m s e = mkpoint T (p_back s) (p_yield s).
  Proof.
    intros L. unfold update_point. cbn [RNum nltb]. rewrite norm_R. fold (trial m s e). fold T. fold (effective s T). fold xi. fold X.
    destruct (Rltb_spec X (p_yield s)); [reflexivity| exfalso; lra].
  Qed.
  Definition flow := tscale (N := RNum) (/ X) xi.
  Lemma plastic_case : p_yield s <= X ->
    update_point m s e = mkpoint (tsub T (tscale (N := RNum) (2 * mu * Dg) flow)) (tadd (p_back s) (tscale (N := RNum) ((1 - beta) * H * H) flow)) (p_yield s + beta * H * Dg).
  Proof.
    intros L. unfold update_point. cbn [RNum nltb]. rewrite norm_R. fold (trial m s e). fold T. fold (effective s T). fold xi. fold X.
    destruct (Rltb_spec X (p_yield s)); [exfalso; lra|]. rewrite (div_scale d o xi X xi_shaped). reflexivity.
  Qed.
  Lemma flow_shaped : shaped d o flow.
  Proof. apply tscale_shaped, xi_shaped. Qed.
  Lemma tr_flow : tr flow = 0.
  Proof. unfold flow. rewrite (tr_scale d o _ _ xi_shaped), tr_xi. ring. Qed.
  Lemma X_pos : p_yield s <= X -> 0 < X.
  Proof. destruct RG as (_ & _ & _ & Y). lra. Qed.
  Lemma Dg_nonneg : p_yield s <= X -> 0 <= Dg.
  Proof. intros L. destruct PH as (M & HH & _). unfold Dg. apply Rmult_le_pos; [lra|]. left. apply Rinv_0_lt_compat. unfold mu, H. lra. Qed.
  Lemma magnitude_flow : p_yield s <= X -> magnitude flow = 1.
  Proof.
    intros L. pose proof (X_pos L) as P. unfold flow. rewrite (magnitude_scale d o _ _ xi_shaped). fold X. rewrite Rabs_right by (left; now apply Rinv_0_lt_compat). field. lra.
  Qed.

  Lemma new_regular : regular d o (update_point m s e).
  Proof.
    destruct RG as (A & B & TB & Y). destruct (Rlt_le_dec X (p_yield s)) as [L|L].
    - rewrite (elastic_case L). repeat split; cbn [p_stress p_back p_yield]; try apply T_shaped; try apply B; try assumption.
    - rewrite (plastic_case L). unfold regular. cbn [p_stress p_back p_yield].
      split; [apply tsub_shaped; [apply T_shaped| apply tscale_shaped, flow_shaped]|].
      split; [apply tadd_shaped; [exact B| apply tscale_shaped, flow_shaped]|]. split.
      + rewrite (tr_add d o) by (try apply tscale_shaped, flow_shaped; exact B). rewrite (tr_scale d o _ _ flow_shaped), tr_flow, TB. ring.
      + pose proof (Dg_nonneg L). destruct PH as (M & HH & (B1 & B2)). fold H in HH. fold beta in B1, B2. assert (0 <= beta * H * Dg) by (apply Rmult_le_pos; [apply Rmult_le_pos|]; assumption). lra.
  Qed.
  Lemma volume_untouched : tr (p_stress (update_point m s e)) = tr (p_stress s) + (INR d * lame1 m + 2 * mu) * tr e.
  Proof.
    destruct (Rlt_le_dec X (p_yield s)) as [L|L].
    - rewrite (elastic_case L). apply tr_T.
    - rewrite (plastic_case L). cbn [p_stress]. rewrite (tr_sub d o) by (try apply T_shaped; apply tscale_shaped, flow_shaped).
      rewrite (tr_scale d o _ _ flow_shaped), tr_flow, tr_T. ring.
  Qed.
  Lemma yield_monotone : p_yield s <= p_yield (update_point m s e).
  Proof.
    destruct (Rlt_le_dec X (p_yield s)) as [L|L].
    - rewrite (elastic_case L). cbn [p_yield]. apply Rle_refl.
    - rewrite (plastic_case L). cbn [p_yield]. pose proof (Dg_nonneg L). destruct PH as (M & HH & (B1 & B2)). fold H in HH. fold beta in B1, B2. assert (0 <= beta * H * Dg) by (apply Rmult_le_pos; [apply Rmult_le_pos|]; assumption). lra.
  Qed.
  (** The new effective stress is a multiple of the flow direction. *)
  Lemma new_effective : p_yield s <= X ->
    effective (update_point m s e) (p_stress (update_point m s e)) = tscale (N := RNum) (X - 2 * mu * Dg - (1 - beta) * H * H) flow.
  Proof.
    intros L. pose proof (X_pos L) as P. destruct RG as (A & B & TB & Y). rewrite (plastic_case L). unfold effective. cbn [p_stress p_back].
    set (F1 := tscale (N := RNum) (2 * mu * Dg) flow). set (F2 := tscale (N := RNum) ((1 - beta) * H * H) flow).
    assert (shaped d o F1) as SF1 by apply tscale_shaped, flow_shaped. assert (shaped d o F2) as SF2 by apply tscale_shaped, flow_shaped.
    assert (shaped d o (tsub T F1)) as S1 by (apply tsub_shaped; [apply T_shaped| exact SF1]).
    assert (shaped d o (tadd (p_back s) F2)) as S2 by (apply tadd_shaped; [exact B| exact SF2]).
    assert (tr (tsub T F1) = tr T) as TT by (rewrite (tr_sub d o T F1 T_shaped SF1); unfold F1; rewrite (tr_scale d o _ _ flow_shaped), tr_flow; ring).
    pose proof T_shaped as TS. pose proof (dev_shaped d o T TS) as DTS. pose proof xi_shaped as XS. pose proof flow_shaped as FS.
    apply (sym_ext d o); [apply tsub_shaped; [now apply dev_shaped| exact S2]| apply tscale_shaped, FS| |]; intros i Hi.
    - rewrite (D_sub d o _ _ (dev_shaped d o _ S1) S2 i Hi), (D_dev d o _ S1 i Hi), TT, (D_sub d o T F1 TS SF1 i Hi), (D_add d o _ _ B SF2 i Hi).
      unfold F1, F2. rewrite !(D_scale d o flow _ FS i Hi). unfold flow. rewrite !(D_scale d o xi _ XS i Hi).
      assert (D xi i = D T i - tr T / INR d - D (p_back s) i) as E by (unfold xi, effective; rewrite (D_sub d o _ _ DTS B i Hi), (D_dev d o T TS i Hi); reflexivity).
      rewrite E. field. split; first [lra| apply not_0_INR; lia].
    - rewrite (O_sub d o _ _ (dev_shaped d o _ S1) S2 i Hi), O_dev, (O_sub d o T F1 TS SF1 i Hi), (O_add d o _ _ B SF2 i Hi).
      unfold F1, F2. rewrite !(O_scale d o flow _ FS i Hi). unfold flow. rewrite !(O_scale d o xi _ XS i Hi).
      assert (O_ xi i = O_ T i - O_ (p_back s) i) as E by (unfold xi, effective; rewrite (O_sub d o _ _ DTS B i Hi); reflexivity).
      rewrite E. field. lra.
  Qed.
  Lemma new_distance : p_yield s <= X ->
    magnitude (effective (update_point m s e) (p_stress (update_point m s e))) = Rabs (p_yield (update_point m s e) + (1 - beta) * H * (Dg - H)).
  Proof.
    intros L. rewrite (new_effective L), (magnitude_scale d o _ _ flow_shaped), (magnitude_flow L), Rmult_1_r. f_equal.
    rewrite (plastic_case L). cbn [p_yield]. destruct PH as (M & HH & _). fold mu in M. fold H in HH.
    assert (X = p_yield s + (2 * mu + H) * Dg) as HX by (unfold Dg; field; lra). clearbody Dg. cbn [num RNum] in *. lra.
  Qed.
  Lemma isotropic_admissible : beta = 1 -> admissible (update_point m s e).
  Proof.
    intros B1. unfold admissible. destruct (Rlt_le_dec X (p_yield s)) as [L|L].
    - rewrite (elastic_case L). cbn [p_stress p_yield]. unfold effective. cbn [p_back]. change (magnitude xi <= p_yield s). fold X. lra.
    - rewrite (new_distance L), B1. pose proof new_regular as (_ & _ & _ & Y).
      replace ((1 - 1) * H * (Dg - H)) with 0 by ring. rewrite Rplus_0_r. apply Req_le, Rabs_right. left. exact Y.
  Qed.
  Lemma elastic_admissible : X < p_yield s -> admissible (update_point m s e).
  Proof. intros L. unfold admissible. rewrite (elastic_case L). cbn [p_stress p_yield]. unfold effective. cbn [p_back]. change (magnitude xi <= p_yield s). fold X. lra. Qed.
  (** The update entry by entry. *)
  Lemma trial_entries : (forall i, (i < d)%nat -> D T i = D (p_stress s) i + lame1 m * tr e + 2 * mu * D e i) /\ (forall i, (i < o)%nat -> O_ T i = O_ (p_stress s) i + 2 * mu * O_ e i).
  Proof.
    destruct RG as (A & _). pose proof (hooke_shaped d o (lame1 m) (lame2 m) e HE) as HS. split; intros i Hi; unfold T, trial.
    - rewrite (D_add d o _ _ A HS i Hi), (D_hooke d o e HE _ _ i Hi). unfold mu. cbn [num RNum]. ring.
    - rewrite (O_add d o _ _ A HS i Hi), (O_hooke d o e HE _ _ i Hi). reflexivity.
  Qed.
  Lemma plastic_entries : p_yield s <= X ->
    (forall i, (i < d)%nat -> D (p_stress (update_point m s e)) i = D T i - 2 * mu * Dg * (D xi i / X) /\ D (p_back (update_point m s e)) i = D (p_back s) i + (1 - beta) * (H * H) * (D xi i / X)) /\
    (forall i, (i < o)%nat -> O_ (p_stress (update_point m s e)) i = O_ T i - 2 * mu * Dg * (O_ xi i / X) /\ O_ (p_back (update_point m s e)) i = O_ (p_back s) i + (1 - beta) * (H * H) * (O_ xi i / X)) /\
    p_yield (update_point m s e) = p_yield s + beta * H * Dg.
  Proof.
    intros L. destruct RG as (A & B & _). rewrite (plastic_case L). cbn [p_stress p_back p_yield]. pose proof flow_shaped as FS. pose proof xi_shaped as XS. pose proof T_shaped as TS.
    pose proof (tscale_shaped d o (2 * mu * Dg) flow FS) as S1. pose proof (tscale_shaped d o ((1 - beta) * H * H) flow FS) as S2.
    split; [|split; [|reflexivity]]; intros i Hi; split.
    - rewrite (D_sub d o T _ TS S1 i Hi), (D_scale d o flow _ FS i Hi). unfold flow. rewrite (D_scale d o xi _ XS i Hi). unfold Rdiv. ring.
    - rewrite (D_add d o _ _ B S2 i Hi), (D_scale d o flow _ FS i Hi). unfold flow. rewrite (D_scale d o xi _ XS i Hi). unfold Rdiv. ring.
    - rewrite (O_sub d o T _ TS S1 i Hi), (O_scale d o flow _ FS i Hi). unfold flow. rewrite (O_scale d o xi _ XS i Hi). unfold Rdiv. ring.
    - rewrite (O_add d o _ _ B S2 i Hi), (O_scale d o flow _ FS i Hi). unfold flow. rewrite (O_scale d o xi _ XS i Hi). unfold Rdiv. ring.
  Qed.
End Update.
Lemma effective_entries d o (s : point RNum) (a : sym RNum) : shaped d o a -> shaped d o (p_back s) ->
  (forall i, (i < d)%nat -> D (effective s a) i = D a i - tr a / INR d - D (p_back s) i) /\ (forall i, (i < o)%nat -> O_ (effective s a) i = O_ a i - O_ (p_back s) i).
Proof.
  intros A B. pose proof (dev_shaped d o a A) as DA. split; intros i Hi; unfold effective.
  - rewrite (D_sub d o _ _ DA B i Hi), (D_dev d o a A i Hi). reflexivity.
  - rewrite (O_sub d o _ _ DA B i Hi). reflexivity.
Qed.
