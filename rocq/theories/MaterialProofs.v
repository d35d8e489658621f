(** MaterialProofs.v -- C16, C17, C18. *)
From Coq Require Import Reals ZArith QArith Bool List String Ascii Sorted Lra Lia Floats.
From Verif Require Import Base BaseFacts Decimal ScanPathModel DepositionProofs MaterialModel MaterialSpec.
Import ListNotations.
Local Open Scope R_scope.

(** ** The liquid fraction *)
Lemma liquid_clamp (m : mat_props RNum) (T : R) : melts m ->
  (liquid_ratio m T : R) = Rmax 0 (Rmin 1 ((T - p_solidus m) / (p_liquidus m - p_solidus m))).
Proof.
  intros M. unfold melts in M. unfold liquid_ratio. simpl in *.
  set (s := p_solidus m : R) in *. set (l := p_liquidus m : R) in *.
  assert (D : 0 < / (l - s)) by (apply Rinv_0_lt_compat; lra).
  assert (I : (l - s) * / (l - s) = 1) by (apply Rinv_r; lra).
  destruct (Rltb_spec T s).
  - rewrite Rmax_left; [reflexivity|]. apply Rle_trans with (1 := Rmin_r _ _). unfold Rdiv.
    assert (0 <= (s - T) * / (l - s)) by (apply Rmult_le_pos; lra). lra.
  - destruct (Rltb_spec l T).
    + rewrite Rmin_left; [rewrite Rmax_right; lra|]. unfold Rdiv. apply Rle_trans with ((l - s) * / (l - s)); [lra|apply Rmult_le_compat_r; lra].
    + assert (A : 0 <= (T - s) / (l - s)) by (apply Rmult_le_pos; lra).
      assert (B : (T - s) / (l - s) <= 1) by (unfold Rdiv; apply Rle_trans with ((l - s) * / (l - s)); [apply Rmult_le_compat_r; lra|lra]).
      rewrite Rmin_right by exact B. rewrite Rmax_right by exact A. reflexivity.
Qed.

Lemma liquid_range (m : mat_props RNum) (T : R) : melts m -> 0 <= (liquid_ratio m T : R) <= 1.
Proof.
  intros M. rewrite liquid_clamp by exact M. split; [apply Rmax_l|]. apply Rmax_lub; [lra|apply Rmin_l].
Qed.

Lemma clamp_lip a b : Rabs (Rmax 0 (Rmin 1 a) - Rmax 0 (Rmin 1 b)) <= Rabs (a - b).
Proof. unfold Rmax, Rmin, Rabs. repeat destruct (Rle_dec _ _); repeat destruct (Rcase_abs _); lra. Qed.

Lemma liquid_lipschitz (m : mat_props RNum) (T T' : R) : melts m ->
  Rabs (liquid_ratio m T - liquid_ratio m T') <= Rabs (T - T') / (p_liquidus m - p_solidus m).
Proof.
  intros M. rewrite !liquid_clamp by exact M. apply Rle_trans with (1 := clamp_lip _ _). unfold melts in M. simpl in *.
  set (s := p_solidus m : R) in *. set (l := p_liquidus m : R) in *.
  replace ((T - s) / (l - s) - (T' - s) / (l - s)) with ((T - T') / (l - s)) by (field; lra).
  unfold Rdiv. rewrite Rabs_mult. rewrite (Rabs_pos_eq (/ (l - s))); [lra|]. apply Rlt_le, Rinv_0_lt_compat. lra.
Qed.

Lemma liquid_mono (m : mat_props RNum) (T T' : R) : melts m -> T <= T' -> (liquid_ratio m T : R) <= liquid_ratio m T'.
Proof.
  intros M H. rewrite !liquid_clamp by exact M. unfold melts in M. simpl in *.
  set (s := p_solidus m : R) in *. set (l := p_liquidus m : R) in *. apply Rle_max_compat_l. apply Rle_min_compat_l.
  unfold Rdiv. apply Rmult_le_compat_r; [apply Rlt_le, Rinv_0_lt_compat; lra|lra].
Qed.

Lemma liquid_law (m : mat_props RNum) (T : R) : melts m ->
  (T <= (p_solidus m : R) -> (liquid_ratio m T : R) = 0) /\ ((p_liquidus m : R) <= T -> (liquid_ratio m T : R) = 1) /\
  ((p_solidus m : R) <= T <= p_liquidus m -> (liquid_ratio m T : R) * (p_liquidus m - p_solidus m) = T - p_solidus m).
Proof.
  intros M. rewrite liquid_clamp by exact M. unfold melts in M. simpl in *.
  set (s := p_solidus m : R) in *. set (l := p_liquidus m : R) in *.
  assert (D : 0 < / (l - s)) by (apply Rinv_0_lt_compat; lra).
  assert (I : (l - s) * / (l - s) = 1) by (apply Rinv_r; lra).
  split; [|split]; intros H.
  - rewrite Rmax_left; [reflexivity|]. apply Rle_trans with (1 := Rmin_r _ _). unfold Rdiv.
    assert (0 <= (s - T) * / (l - s)) by (apply Rmult_le_pos; lra). lra.
  - rewrite Rmin_left; [rewrite Rmax_right; lra|]. unfold Rdiv. apply Rle_trans with ((l - s) * / (l - s)); [lra|apply Rmult_le_compat_r; lra].
  - assert (A : 0 <= (T - s) / (l - s)) by (apply Rmult_le_pos; lra).
    assert (B : (T - s) / (l - s) <= 1) by (unfold Rdiv; apply Rle_trans with ((l - s) * / (l - s)); [apply Rmult_le_compat_r; lra|lra]).
    rewrite Rmin_right by exact B. rewrite Rmax_right by exact A. field. lra.
Qed.

Lemma unset_never_liquid (lat ri ci : option R) (T : R) : T < nmax RNum ->
  (liquid_ratio (N := RNum) (mkmp (N := RNum) (prop_or_max (N := RNum) None) (prop_or_max (N := RNum) None) (prop_or_max (N := RNum) lat) (prop_or_max (N := RNum) ri) (prop_or_max (N := RNum) ci)) T : R) = 0.
Proof.
  intros H. unfold liquid_ratio. cbn [p_solidus prop_or_max]. change (nltb RNum T (nmax RNum)) with (Rltb T (nmax RNum)).
  apply Rltb_true in H. rewrite H. reflexivity.
Qed.

(** ** Partition of unity over any history *)
Lemma device_is_cell k (m : mat_props RNum) (p T : R) : device_ratios k m p T = cell_ratios k m p T.
Proof.
  destruct k; try reflexivity. unfold device_ratios, cell_ratios, nmin. cbv zeta. simpl. generalize (liquid_ratio m T). intros l.
  simpl in l. destruct (Rltb_spec (1 - l) p); destruct (Rltb_spec p (1 - l)); try reflexivity; try (exfalso; lra).
  assert (p = 1 - l) by lra. subst p. reflexivity.
Qed.

Lemma ratios_step k (m : mat_props RNum) (p T : R) : melts m -> 0 <= p <= 1 ->
  partition (device_ratios k m p T) /\
  (k = SolidLiquidPowder -> (r_powder (device_ratios k m p T) : R) = Rmin (1 - liquid_ratio m T) p) /\
  (k <> Solid -> r_liquid (device_ratios k m p T) = liquid_ratio m T).
Proof.
  intros M P. assert (L := liquid_range m T M). unfold partition. destruct k; unfold device_ratios; cbv zeta.
  - simpl. split; [repeat split; lra|]. split; [discriminate|congruence].
  - simpl in *. split; [repeat split; lra|]. split; [discriminate|reflexivity].
  - simpl in *. generalize dependent (liquid_ratio m T). intros l L. simpl in l, L.
    split; [destruct (Rltb_spec (1 - l) p); repeat split; simpl; lra|]. split; [|reflexivity]. intros _.
    unfold Rmin. destruct (Rltb_spec (1 - l) p); destruct (Rle_dec (1 - l) p); simpl; lra.
Qed.

Lemma history_range k (m : mat_props RNum) Ts : melts m -> forall p0, 0 <= p0 <= 1 ->
  0 <= stored_powder (fun p T => device_ratios k m p T) p0 Ts <= 1.
Proof.
  intros M. induction Ts as [|T Ts IH]; intros p0 P; [exact P|]. unfold stored_powder. simpl. apply IH.
  destruct (ratios_step k m p0 T M P) as [(_ & _ & Q & _) _]. exact Q.
Qed.

Lemma history_ok k (m : mat_props RNum) p0 Ts T : melts m -> 0 <= p0 <= 1 ->
  partition (device_ratios k m (stored_powder (fun p T => device_ratios k m p T) p0 Ts) T) /\
  (r_powder (device_ratios k m (stored_powder (fun p T => device_ratios k m p T) p0 Ts) T) : R) <= stored_powder (fun p T => device_ratios k m p T) p0 Ts.
Proof.
  intros M P. assert (H := history_range k m Ts M p0 P). set (p := stored_powder _ p0 Ts) in *.
  destruct (ratios_step k m p T M H) as (A & B & C). split; [exact A|]. destruct k.
  - simpl. lra.
  - simpl. lra.
  - rewrite B by reflexivity. apply Rmin_r.
Qed.

Lemma history_min (m : mat_props RNum) Ts : melts m -> forall p0, 0 <= p0 <= 1 ->
  smallest_so_far (fun T => liquid_ratio m T) p0 Ts (stored_powder (fun p T => device_ratios SolidLiquidPowder m p T) p0 Ts).
Proof.
  intros M. induction Ts as [|T Ts IH]; intros p0 P y.
  - unfold stored_powder; simpl. split; [intros H; split; [exact H|contradiction]|intros [H _]; exact H].
  - unfold stored_powder. cbn [fold_left]. fold (stored_powder (fun p T => device_ratios SolidLiquidPowder m p T) (r_powder (device_ratios SolidLiquidPowder m p0 T)) Ts).
    destruct (ratios_step SolidLiquidPowder m p0 T M P) as ((_ & _ & Q & _) & B & _). specialize (B eq_refl).
    rewrite (IH _ Q y). rewrite B. split.
    + intros [H1 H2]. split; [apply Rle_trans with (1 := H1), Rmin_r|]. intros T' [<-|H']; [apply Rle_trans with (1 := H1), Rmin_l|apply H2, H'].
    + intros [H1 H2]. split; [apply Rmin_glb; [apply H2; left; reflexivity|exact H1]|]. intros T' H'. apply H2. right. exact H'.
Qed.

(** ** The host batch *)
Lemma set_nth_length {A} (l : list A) i a : List.length (set_nth l i a) = List.length l.
Proof.
  unfold set_nth. destruct (Nat.ltb_spec i (List.length l)); [|reflexivity]. rewrite app_length, firstn_length. cbn [List.length]. rewrite skipn_length. lia.
Qed.
Lemma set_nth_same {A} (l : list A) i a d : (i < List.length l)%nat -> nth i (set_nth l i a) d = a.
Proof.
  intros H. unfold set_nth. destruct (Nat.ltb_spec i (List.length l)); [|lia]. rewrite app_nth2; rewrite firstn_length; [|lia].
  replace (i - Nat.min i (List.length l))%nat with 0%nat by lia. reflexivity.
Qed.
Lemma set_nth_other {A} (l : list A) i j a d : i <> j -> nth j (set_nth l i a) d = nth j l d.
Proof.
  intros H. unfold set_nth. destruct (Nat.ltb_spec i (List.length l)); [|reflexivity].
  destruct (Nat.lt_ge_cases j i).
  - rewrite app_nth1 by (rewrite firstn_length; lia). rewrite <- (firstn_skipn i l) at 2. rewrite app_nth1 by (rewrite firstn_length; lia). reflexivity.
  - rewrite app_nth2 by (rewrite firstn_length; lia). rewrite firstn_length. replace (Nat.min i (List.length l)) with i by lia.
    destruct (j - i)%nat eqn:E; [lia|]. cbn [nth]. rewrite <- (firstn_skipn (S i) l) at 2. rewrite app_nth2 by (rewrite firstn_length; lia).
    rewrite firstn_length. f_equal. lia.
Qed.

Lemma host_loop_slp (stored : list R) : forall lanes n sol liq pow,
  List.length sol = (n + List.length lanes)%nat -> List.length liq = (n + List.length lanes)%nat -> List.length stored = (n + List.length lanes)%nat ->
  let '(sol', liq', pow') := host_loop (N := RNum) SolidLiquidPowder stored n lanes sol liq pow in
  (forall j, (j < n)%nat -> nth j sol' 0 = nth j sol 0 /\ nth j liq' 0 = nth j liq 0) /\
  (forall i m T, nth_error lanes i = Some (m, T) ->
     nth (n + i) sol' 0 = r_solid (cell_ratios SolidLiquidPowder m (nth (n + i) stored 0) T) /\
     nth (n + i) liq' 0 = liquid_ratio m T /\
     (S i = List.length lanes -> nth (n + i) pow' 0 = r_powder (cell_ratios SolidLiquidPowder m (nth (n + i) stored 0) T) /\
        forall j, j <> (n + i)%nat -> nth j pow' 0 = nth j stored 0)) /\
  (lanes = [] -> pow' = pow).
Proof.
  induction lanes as [|[m T] lanes IH]; intros n sol liq pow HS HL HP.
  - simpl. split; [auto|]. split; [intros [|i] m T H; discriminate|reflexivity].
  - cbn [host_loop]. cbv zeta. simpl in HS, HL, HP.
    set (l := liquid_ratio m T). set (p := nmin (nsub RNum (nofZ RNum 1) l) (nth n stored (nofZ RNum 0))).
    set (sol1 := set_nth sol n (nsub RNum (nsub RNum (nofZ RNum 1) l) p)). set (liq1 := set_nth liq n l). set (pow1 := set_nth stored n p).
    match goal with |- context [host_loop ?k ?st ?n ?ls ?a ?b ?c] => change (host_loop (N := RNum) k st n ls a b c) with (host_loop (N := RNum) k stored n lanes sol1 liq1 pow1) end.
    specialize (IH (S n) sol1 liq1 pow1).
    destruct (host_loop (N := RNum) SolidLiquidPowder stored (S n) lanes sol1 liq1 pow1) as [[sol' liq'] pow'].
    destruct IH as (A & B & C); [unfold sol1; rewrite set_nth_length; simpl in *; lia|unfold liq1; rewrite set_nth_length; simpl in *; lia|simpl in *; lia|].
    split; [|split; [|discriminate]].
    + intros j Hj. destruct (A j) as [A1 A2]; [lia|]. rewrite A1, A2. unfold sol1, liq1. split; apply set_nth_other; lia.
    + intros [|i] m' T' H.
      * simpl in H. injection H as <- <-. rewrite Nat.add_0_r. destruct (A n) as [A1 A2]; [lia|]. rewrite A1, A2.
        split; [unfold sol1; rewrite set_nth_same by (simpl in *; lia); reflexivity|]. split; [unfold liq1; rewrite set_nth_same by (simpl in *; lia); reflexivity|].
        intros HL1. destruct lanes; [|discriminate]. rewrite C by reflexivity. unfold pow1. split; [rewrite set_nth_same by (simpl in *; lia); reflexivity|].
        intros j Hj. apply set_nth_other. auto.
      * simpl in H. destruct (B i m' T' H) as (B1 & B2 & B3). replace (n + S i)%nat with (S n + i)%nat by lia.
        split; [exact B1|]. split; [exact B2|]. intros E. apply B3. simpl in *. lia.
Qed.

Lemma host_exact (stored init : list R) (lanes : list (mat_props RNum * R)) sol liq pow :
  List.length stored = List.length lanes -> List.length init = List.length lanes ->
  host_ratios (N := RNum) SolidLiquidPowder stored lanes init = (sol, liq, pow) ->
  forall i m T, nth_error lanes i = Some (m, T) ->
    nth i sol 0 = r_solid (device_ratios SolidLiquidPowder m (nth i stored 0) T) /\
    nth i liq 0 = liquid_ratio m T /\
    nth i pow 0 = (if Nat.eqb (S i) (List.length lanes) then r_powder (device_ratios SolidLiquidPowder m (nth i stored 0) T) else nth i stored 0).
Proof.
  intros HS HI HR i m T Hi. unfold host_ratios in HR.
  assert (K := host_loop_slp stored lanes 0 init init init HI HI HS). rewrite HR in K. destruct K as (_ & B & _).
  rewrite device_is_cell. destruct (B i m T Hi) as (B1 & B2 & B3). simpl in B1, B2, B3. split; [exact B1|]. split; [exact B2|].
  destruct (Nat.eqb_spec (S i) (List.length lanes)) as [E|E]; [apply B3, E|].
  assert (Hl : (i < List.length lanes)%nat) by (apply nth_error_Some; congruence).
  destruct (nth_error lanes (List.length lanes - 1)) as [[m' T']|] eqn:EL.
  - destruct (B _ _ _ EL) as (_ & _ & B3'). destruct B3' as [_ B3']; [(simpl in *; lia)|]. apply B3'. (simpl in *; lia).
  - apply nth_error_None in EL. (simpl in *; lia).
Qed.

Lemma host_loop_sl (stored : list R) : forall lanes n sol liq pow,
  List.length sol = (n + List.length lanes)%nat -> List.length liq = (n + List.length lanes)%nat ->
  let '(sol', liq', pow') := host_loop (N := RNum) SolidLiquid stored n lanes sol liq pow in
  (forall j, (j < n)%nat -> nth j sol' 0 = nth j sol 0 /\ nth j liq' 0 = nth j liq 0) /\
  (forall i m T, nth_error lanes i = Some (m, T) ->
     nth (n + i) sol' 0 = 1 - liquid_ratio m T /\ nth (n + i) liq' 0 = liquid_ratio m T).
Proof.
  induction lanes as [|[m T] lanes IH]; intros n sol liq pow HS HL.
  - simpl. split; [auto|]. intros [|i] m T H; discriminate.
  - cbn [host_loop]. cbv zeta. simpl in HS, HL. set (l := liquid_ratio m T).
    set (sol1 := set_nth sol n (nsub RNum (nofZ RNum 1) l)). set (liq1 := set_nth liq n l).
    match goal with |- context [host_loop ?k ?st ?n ?ls ?a ?b ?c] => change (host_loop (N := RNum) k st n ls a b c) with (host_loop (N := RNum) k stored n lanes sol1 liq1 pow) end.
    specialize (IH (S n) sol1 liq1 pow). destruct (host_loop (N := RNum) SolidLiquid stored (S n) lanes sol1 liq1 pow) as [[sol' liq'] pow'].
    destruct IH as (A & B); [unfold sol1; rewrite set_nth_length; (simpl in *; lia)|unfold liq1; rewrite set_nth_length; (simpl in *; lia)|].
    split.
    + intros j Hj. destruct (A j) as [A1 A2]; [(simpl in *; lia)|]. rewrite A1, A2. unfold sol1, liq1. split; apply set_nth_other; (simpl in *; lia).
    + intros [|i] m' T' H.
      * simpl in H. injection H as <- <-. rewrite Nat.add_0_r. destruct (A n) as [A1 A2]; [(simpl in *; lia)|]. rewrite A1, A2.
        split; [unfold sol1; rewrite set_nth_same by ((simpl in *; lia)); reflexivity|unfold liq1; rewrite set_nth_same by ((simpl in *; lia)); reflexivity].
      * simpl in H. destruct (B i m' T' H) as (B1 & B2). replace (n + S i)%nat with (S n + i)%nat by (simpl in *; lia). split; assumption.
Qed.
Lemma host_sl_exact (stored init : list R) (lanes : list (mat_props RNum * R)) sol liq pow :
  List.length init = List.length lanes -> host_ratios (N := RNum) SolidLiquid stored lanes init = (sol, liq, pow) ->
  forall i m T, nth_error lanes i = Some (m, T) -> nth i sol 0 = 1 - liquid_ratio m T /\ nth i liq 0 = liquid_ratio m T.
Proof.
  intros HI HR i m T Hi. unfold host_ratios in HR.
  assert (K := host_loop_sl stored lanes 0 init init (map (fun _ => nofZ RNum 0) init) HI HI).
  match type of HR with ?t = _ => match type of K with context [host_loop ?k ?st ?n ?ls ?a ?b ?c] => change (host_loop (N := RNum) k st n ls a b c) with t in K end end.
  rewrite HR in K. destruct K as (_ & B). apply (B i m T Hi).
Qed.

Definition mat_1k_2k : mat_props RNum := mkmp (N := RNum) 1000 2000 300 300 300.
Lemma host_sum_two : exists sol liq pow,
  host_ratios (N := RNum) SolidLiquidPowder [1; 1] [(mat_1k_2k, 2500); (mat_1k_2k, 2500)] [0; 0] = (sol, liq, pow) /\
  nth 0 sol 0 + nth 0 liq 0 + nth 0 pow 0 = 2 /\ nth 0 pow 0 = 1 /\ nth 0 liq 0 = 1 /\ nth 1 sol 0 + nth 1 liq 0 + nth 1 pow 0 = 1.
Proof.
  destruct (host_ratios (N := RNum) SolidLiquidPowder [1; 1] [(mat_1k_2k, 2500); (mat_1k_2k, 2500)] [0; 0]) as [[sol liq] pow] eqn:E.
  exists sol, liq, pow. split; [reflexivity|].
  assert (M : melts mat_1k_2k) by (unfold melts; simpl; lra).
  assert (L : (liquid_ratio mat_1k_2k 2500 : R) = 1) by (destruct (liquid_law mat_1k_2k 2500 M) as (_ & H & _); apply H; simpl; lra).
  destruct (host_exact [1; 1] [0; 0] [(mat_1k_2k, 2500); (mat_1k_2k, 2500)] sol liq pow eq_refl eq_refl E 0%nat mat_1k_2k 2500 eq_refl) as (A1 & A2 & A3).
  destruct (host_exact [1; 1] [0; 0] [(mat_1k_2k, 2500); (mat_1k_2k, 2500)] sol liq pow eq_refl eq_refl E 1%nat mat_1k_2k 2500 eq_refl) as (B1 & B2 & B3).
  rewrite A1, A2, A3, B1, B2, B3. unfold device_ratios. cbv zeta. rewrite L. simpl. destruct (Rltb_spec (1 - 1) 1); [|exfalso; lra]. simpl. lra.
Qed.

(** ** Tables *)
Ltac slia := first [lia | cbn [num RNum] in *; lia | simpl in *; lia].
Lemma first_above_spec (T : R) (rows : list (R * R)) : (first_above (N := RNum) T rows <= List.length rows)%nat /\
  (forall j t v, nth_error rows j = Some (t, v) -> (j < first_above (N := RNum) T rows)%nat -> t <= T) /\
  (forall t v, nth_error rows (first_above (N := RNum) T rows) = Some (t, v) -> T < t).
Proof.
  induction rows as [|[t v] rows (A & B & C)]; simpl.
  - split; [slia|]. split; [intros [|j]; discriminate|discriminate].
  - destruct (Rltb_spec T t); simpl.
    + split; [slia|]. split; [slia|]. intros t' v' H. injection H as <- <-. assumption.
    + split; [slia|]. split; [|exact C]. intros [|j] t' v' H HJ; [simpl in H; injection H as <- <-; lra|]. simpl in H. apply (B j t' v' H). slia.
Qed.

Lemma increasing_lt rows : increasing rows -> forall i j t v t' v', (i < j)%nat -> nth_error rows i = Some (t, v) -> nth_error rows j = Some (t', v') -> t < t'.
Proof.
  intros I i j. induction j as [|j IH]; intros t v t' v' H Hi Hj; [slia|].
  destruct (nth_error rows j) as [[a b]|] eqn:E; [|apply nth_error_None in E; assert (Q : (S j < List.length rows)%nat) by (apply nth_error_Some; congruence); slia].
  assert (S1 := I j a b t' v' E Hj). destruct (Nat.eq_dec i j) as [->|NE]; [rewrite Hi in E; injection E as <- <-; exact S1|].
  apply Rlt_trans with a; [|exact S1]. apply (IH t v a b); auto. slia.
Qed.

Section Table.
  Variables (rows full : list (R * R)).
  Hypothesis Hinc : increasing rows.
  Hypothesis Hlen : (1 <= List.length rows <= 12)%nat.
  Hypothesis Hpad : padded rows full.

  Lemma full_length : List.length full = 12%nat.
  Proof. destruct Hpad as (l & _ & ->). rewrite app_length, repeat_length. slia. Qed.
  Lemma full_front i r : nth_error rows i = Some r -> nth_error full i = Some r.
  Proof. intros H. destruct Hpad as (l & _ & ->). rewrite nth_error_app1; [exact H|]. apply nth_error_Some. congruence. Qed.
  Lemma full_back i l : nth_error rows (List.length rows - 1) = Some l -> (List.length rows - 1 <= i < 12)%nat -> nth_error full i = Some l.
  Proof.
    intros HL H. destruct Hpad as (l' & HL' & ->). assert (l' = l) by congruence. subst l'.
    destruct (Nat.lt_ge_cases i (List.length rows)).
    - rewrite nth_error_app1 by assumption. replace i with (List.length rows - 1)%nat by slia. exact HL.
    - rewrite nth_error_app2 by assumption. apply nth_error_repeat. slia.
  Qed.
  Lemma full_cases i r : nth_error full i = Some r -> nth_error rows i = Some r \/ (List.length rows <= i)%nat /\ nth_error rows (List.length rows - 1) = Some r.
  Proof.
    intros H. destruct Hpad as (l' & HL' & E). destruct (Nat.lt_ge_cases i (List.length rows)).
    - left. rewrite E, nth_error_app1 in H by assumption. exact H.
    - right. split; [assumption|]. rewrite E, nth_error_app2 in H by assumption.
      destruct (Nat.lt_ge_cases (i - List.length rows) (12 - List.length rows)).
      + rewrite nth_error_repeat in H by assumption. congruence.
      + assert (Q : nth_error (repeat l' (12 - List.length rows)) (i - List.length rows) = None) by (apply nth_error_None; rewrite repeat_length; slia). congruence.
  Qed.

  Lemma table_below t0 v0 T : nth_error rows 0 = Some (t0, v0) -> T <= t0 -> table_value (N := RNum) full T = Ok v0.
  Proof.
    intros H HT. unfold table_value, at_. cbn [num RNum]. rewrite (full_front _ _ H). cbn [bind fst snd]. change (nleb RNum T t0) with (Rleb T t0).
    apply Rleb_true in HT. rewrite HT. reflexivity.
  Qed.

  Lemma table_above tl vl T : nth_error rows (List.length rows - 1) = Some (tl, vl) -> tl <= T -> table_value (N := RNum) full T = Ok vl.
  Proof.
    intros H HT. destruct (nth_error rows 0) as [[t0 v0]|] eqn:E0; [|apply nth_error_None in E0; slia].
    destruct (Rle_dec T t0) as [L0|L0].
    - assert (List.length rows = 1)%nat.
      { destruct (Nat.eq_dec (List.length rows) 1) as [E|E]; [exact E|]. exfalso.
        assert (Q := increasing_lt rows Hinc 0 (List.length rows - 1) t0 v0 tl vl ltac:(slia) E0 H). lra. }
      rewrite H0 in H. change (1 - 1)%nat with 0%nat in H. rewrite E0 in H. injection H as <- <-. apply table_below with t0; assumption.
    - unfold table_value, at_. cbn [num RNum]. rewrite (full_front _ _ E0). cbn [bind fst snd]. change (nleb RNum T t0) with (Rleb T t0).
      destruct (Rleb_spec T t0); [contradiction|].
      assert (F : first_above (N := RNum) T full = 12%nat).
      { destruct (first_above_spec T full) as (A & B & C). rewrite full_length in A.
        destruct (Nat.eq_dec (first_above (N := RNum) T full) 12) as [E|E]; [exact E|]. exfalso.
        destruct (nth_error full (first_above (N := RNum) T full)) as [[t v]|] eqn:EF; [|apply nth_error_None in EF; rewrite full_length in EF; slia].
        assert (Q := C _ _ eq_refl). destruct (full_cases _ _ EF) as [K|[_ K]].
        - destruct (Nat.eq_dec (first_above (N := RNum) T full) (List.length rows - 1)) as [E1|E1].
          + rewrite E1, H in K. injection K as <- <-. lra.
          + assert (first_above (N := RNum) T full < List.length rows)%nat by (apply nth_error_Some; congruence).
            assert (Z := increasing_lt rows Hinc (first_above (N := RNum) T full) (List.length rows - 1) _ _ _ _ ltac:(slia) K H). lra.
        - rewrite H in K. injection K as <- <-. lra. }
      rewrite F, full_length. cbv zeta. change (Nat.leb (12 - 1) 12) with true. cbn iota. change (12 - 1)%nat with 11%nat. rewrite (full_back 11 _ H) by slia. reflexivity.
  Qed.

  Lemma table_between i ti vi tj vj T : nth_error rows i = Some (ti, vi) -> nth_error rows (S i) = Some (tj, vj) ->
    (List.length rows < 12)%nat \/ (S i < 11)%nat /\ T < tj -> ti <= T <= tj -> table_value (N := RNum) full T = Ok (vi + (T - ti) * (vj - vi) / (tj - ti)).
  Proof.
    intros Hi Hj HI HT. assert (HIJ := Hinc _ _ _ _ _ Hi Hj).
    assert (HJl : (S i < List.length rows)%nat) by (apply nth_error_Some; congruence).
    destruct (nth_error rows 0) as [[t0 v0]|] eqn:E0; [|apply nth_error_None in E0; slia].
    destruct (Rle_dec T t0) as [L0|L0].
    - assert (i = 0)%nat.
      { destruct i; [reflexivity|]. exfalso. assert (Q := increasing_lt rows Hinc 0 (S i) _ _ _ _ ltac:(slia) E0 Hi). lra. }
      subst i. rewrite Hi in E0. injection E0 as <- <-. rewrite (table_below ti vi) by assumption. f_equal.
      assert (T = ti) by lra. subst T. rewrite Rminus_eq_0. unfold Rdiv. ring.
    - destruct (Req_EM_T T tj) as [->|NE].
      + (* at the upper end *)
        destruct (Nat.eq_dec (S i) (List.length rows - 1)) as [EL|EL].
        * rewrite EL in Hj. rewrite (table_above tj vj) by (try assumption; lra). f_equal. field. lra.
        * destruct (nth_error rows (S (S i))) as [[tk vk]|] eqn:EK; [|apply nth_error_None in EK; slia].
          assert (HJK := Hinc _ _ _ _ _ Hj EK).
          unfold table_value, at_. cbn [num RNum]. rewrite (full_front _ _ E0). cbn [bind fst snd]. change (nleb RNum tj t0) with (Rleb tj t0).
          destruct (Rleb_spec tj t0); [contradiction|].
          assert (F : first_above (N := RNum) tj full = S (S i)).
          { destruct (first_above_spec tj full) as (A & B & C).
            assert (~ (first_above (N := RNum) tj full < S (S i))%nat).
            { intros Q. destruct (nth_error rows (first_above (N := RNum) tj full)) as [[t v]|] eqn:EF; [|apply nth_error_None in EF; slia].
              assert (Z := C _ _ (full_front _ _ EF)). destruct (Nat.eq_dec (first_above (N := RNum) tj full) (S i)) as [E1|E1].
              - rewrite E1, Hj in EF. injection EF as <- <-. lra.
              - assert (Y := increasing_lt rows Hinc (first_above (N := RNum) tj full) (S i) _ _ _ _ ltac:(slia) EF Hj). lra. }
            assert (~ (S (S i) < first_above (N := RNum) tj full)%nat).
            { intros Q. assert (Z := B _ _ _ (full_front _ _ EK) Q). lra. }
            slia. }
          rewrite F, full_length. cbv zeta. destruct (Nat.leb_spec (12 - 1) (S (S i))).
          { exfalso. assert (S (S i) < List.length rows)%nat by (apply nth_error_Some; congruence). destruct HI as [HI|[_ HI]]; [slia|lra]. }
          rewrite (full_front _ _ EK). cbn [bind]. replace (S (S i) - 1)%nat with (S i) by slia. rewrite (full_front _ _ Hj). cbn [bind fst snd]. simpl. f_equal. field. split; lra.
      + unfold table_value, at_. cbn [num RNum]. rewrite (full_front _ _ E0). cbn [bind fst snd]. change (nleb RNum T t0) with (Rleb T t0).
        destruct (Rleb_spec T t0); [contradiction|].
        assert (F : first_above (N := RNum) T full = S i).
        { destruct (first_above_spec T full) as (A & B & C).
          assert (~ (first_above (N := RNum) T full < S i)%nat).
          { intros Q. destruct (nth_error rows (first_above (N := RNum) T full)) as [[t v]|] eqn:EF; [|apply nth_error_None in EF; slia].
            assert (Z := C _ _ (full_front _ _ EF)). destruct (Nat.eq_dec (first_above (N := RNum) T full) i) as [E1|E1].
            - rewrite E1, Hi in EF. injection EF as <- <-. lra.
            - assert (Y := increasing_lt rows Hinc (first_above (N := RNum) T full) i _ _ _ _ ltac:(slia) EF Hi). lra. }
          assert (~ (S i < first_above (N := RNum) T full)%nat).
          { intros Q. assert (Z := B _ _ _ (full_front _ _ Hj) Q). lra. }
          slia. }
        rewrite F, full_length. cbv zeta. destruct (Nat.leb_spec (12 - 1) (S i)); [slia|].
        rewrite (full_front _ _ Hj). cbn [bind]. replace (S i - 1)%nat with i by slia. rewrite (full_front _ _ Hi). reflexivity.
  Qed.

  (** A full table: from its last-but-one row on, the last value. *)
  Lemma table_full_last t10 v10 t11 v11 T : nth_error rows 10 = Some (t10, v10) -> nth_error rows 11 = Some (t11, v11) -> t10 <= T ->
    table_value (N := RNum) full T = Ok v11.
  Proof.
    intros H10 H11 HT. assert (HL : List.length rows = 12%nat) by (assert (11 < List.length rows)%nat by (apply nth_error_Some; congruence); slia).
    destruct (Rle_dec t11 T) as [L|L]; [apply table_above with t11; [rewrite HL; exact H11|exact L]|].
    destruct (nth_error rows 0) as [[t0 v0]|] eqn:E0; [|apply nth_error_None in E0; slia].
    assert (Q0 := increasing_lt rows Hinc 0 10 _ _ _ _ ltac:(slia) E0 H10).
    unfold table_value, at_. cbn [num RNum]. rewrite (full_front _ _ E0). cbn [bind fst snd]. change (nleb RNum T t0) with (Rleb T t0).
    destruct (Rleb_spec T t0); [exfalso; lra|].
    assert (F : (11 <= first_above (N := RNum) T full)%nat).
    { destruct (first_above_spec T full) as (A & B & C). destruct (Nat.le_gt_cases 11 (first_above (N := RNum) T full)) as [Y|Y]; [exact Y|]. exfalso.
      destruct (nth_error rows (first_above (N := RNum) T full)) as [[t v]|] eqn:EF; [|apply nth_error_None in EF; slia].
      assert (Z := C _ _ (full_front _ _ EF)). destruct (Nat.eq_dec (first_above (N := RNum) T full) 10) as [E1|E1].
      - rewrite E1, H10 in EF. injection EF as <- <-. lra.
      - assert (W := increasing_lt rows Hinc (first_above (N := RNum) T full) 10 _ _ _ _ ltac:(slia) EF H10). lra. }
    rewrite full_length. cbv zeta. destruct (Nat.leb_spec (12 - 1) (first_above (N := RNum) T full)); [|slia]. change (12 - 1)%nat with 11%nat. rewrite (full_front _ _ H11). reflexivity.
  Qed.
End Table.

(** Any non-empty table, sorted or not: a value is returned and lies between tabulated values. *)
Lemma table_range (rows : list (R * R)) (T lo hi : R) : rows <> [] -> (forall t v, In (t, v) rows -> lo <= v <= hi) ->
  exists v, table_value (N := RNum) rows T = Ok v /\ lo <= v <= hi.
Proof.
  intros NE B. assert (NL : (0 < List.length rows)%nat) by (destruct rows; [contradiction|simpl; lia]).
  destruct (nth_error rows 0) as [[t0 v0]|] eqn:E0; [|apply nth_error_None in E0; lia].
  unfold table_value, at_. cbn [num RNum]. rewrite E0. cbn [bind fst snd].
  change (nleb RNum T t0) with (Rleb T t0). destruct (Rleb_spec T t0); [exists v0; split; [reflexivity|]; apply (B t0); eapply nth_error_In; eauto|].
  destruct (first_above_spec T rows) as (A & K & C). cbv zeta. destruct (Nat.leb_spec (List.length rows - 1) (first_above (N := RNum) T rows)).
  - destruct (nth_error rows (List.length rows - 1)) as [[tl vl]|] eqn:E; [|apply nth_error_None in E; simpl in E; slia].
    exists vl. split; [reflexivity|]. apply (B tl). eapply nth_error_In; eauto.
  - set (i := first_above (N := RNum) T rows) in *.
    destruct (nth_error rows i) as [[ti vi]|] eqn:Ei; [|apply nth_error_None in Ei; slia]. assert (Ci := C _ _ eq_refl).
    assert (i <> 0)%nat by (intros Z; rewrite Z, E0 in Ei; injection Ei as <- <-; lra).
    destruct (nth_error rows (i - 1)) as [[tj vj]|] eqn:Ej; [|apply nth_error_None in Ej; slia]. assert (Cj := K _ _ _ Ej ltac:(slia)).
    cbn [bind fst snd]. eexists. split; [reflexivity|]. simpl.
    assert (Bi := B ti vi (nth_error_In _ _ Ei)). assert (Bj := B tj vj (nth_error_In _ _ Ej)).
    set (w := (T - tj) / (ti - tj)).
    assert (W : 0 <= w <= 1).
    { unfold w. split; [apply Rmult_le_pos; [lra|apply Rlt_le, Rinv_0_lt_compat; lra]|]. apply (Rmult_le_reg_r (ti - tj)); [lra|]. unfold Rdiv. rewrite Rmult_assoc, Rinv_l by lra. lra. }
    replace (vj + (T - tj) * (vi - vj) / (ti - tj)) with ((1 - w) * vj + w * vi) by (unfold w; field; lra). nra.
Qed.

(** Parsing *)
Lemma parse_rows_ok {N} (P : parser N) entries rows : parse_rows P entries = Ok rows <-> Forall2 (row_of_field P) entries rows.
Proof.
  revert rows. induction entries as [|e entries IH]; intros rows; simpl.
  - split; [intros H; injection H as <-; constructor|]. inversion 1. reflexivity.
  - destruct (num_tok P (split_off ","%char e) 0) as [a| |] eqn:Ea; cbn [bind].
    + destruct (num_tok P (split_off ","%char e) 1) as [b| |] eqn:Eb; cbn [bind].
      * apply num_tok_ok in Ea, Eb. destruct Ea as (sa & Na & Va), Eb as (sb & Nb & Vb).
        assert (Q : forall r, row_of_field P e r <-> r = (a, b)).
        { intros r. unfold row_of_field. split.
          - intros (x & y & rest & E & X & Y). rewrite E in Na, Nb. simpl in Na, Nb. injection Na as <-. injection Nb as <-. destruct r; simpl in *. congruence.
          - intros ->. destruct (split_off ","%char e) as [|x [|y rest]]; simpl in Na, Nb; try discriminate. injection Na as <-. injection Nb as <-. exists x, y, rest. auto. }
        destruct (parse_rows P entries) as [rs| |]; cbn [bind].
        -- split.
           ++ intros H. injection H as <-. constructor; [apply Q; reflexivity|]. apply IH. reflexivity.
           ++ inversion 1 as [|? r ? rs' Hr Hrs]; subst. apply Q in Hr. subst r. apply IH in Hrs. injection Hrs as <-. reflexivity.
        -- split; [discriminate|]. inversion 1 as [|? r ? rs' Hr Hrs]; subst. apply IH in Hrs. discriminate.
        -- split; [discriminate|]. inversion 1 as [|? r ? rs' Hr Hrs]; subst. apply IH in Hrs. discriminate.
      * split; [discriminate|]. inversion 1 as [|? r ? rs' Hr Hrs]; subst. destruct Hr as (x & y & rest & E & X & Y).
        assert (num_tok P (split_off ","%char e) 1 = Ok (snd r)) by (apply num_tok_ok; rewrite E; exists y; auto). congruence.
      * split; [discriminate|]. inversion 1 as [|? r ? rs' Hr Hrs]; subst. destruct Hr as (x & y & rest & E & X & Y).
        assert (num_tok P (split_off ","%char e) 1 = Ok (snd r)) by (apply num_tok_ok; rewrite E; exists y; auto). congruence.
    + split; [discriminate|]. inversion 1 as [|? r ? rs' Hr Hrs]; subst. destruct Hr as (x & y & rest & E & X & Y).
      assert (num_tok P (split_off ","%char e) 0 = Ok (fst r)) by (apply num_tok_ok; rewrite E; exists x; auto). congruence.
    + split; [discriminate|]. inversion 1 as [|? r ? rs' Hr Hrs]; subst. destruct Hr as (x & y & rest & E & X & Y).
      assert (num_tok P (split_off ","%char e) 0 = Ok (fst r)) by (apply num_tok_ok; rewrite E; exists x; auto). congruence.
Qed.

Lemma Forall2_len {A B} (P : A -> B -> Prop) l l' : Forall2 P l l' -> List.length l = List.length l'.
Proof. induction 1; simpl; congruence. Qed.
Lemma split_off_nonempty sep s : forall cur, split_off_go sep cur s <> [].
Proof. induction s as [|c s IH]; intros cur; simpl; [discriminate|]. destruct (Ascii.eqb c sep); [discriminate|apply IH]. Qed.

Lemma parse_table_ok {N : Num} (P : parser N) s full : parse_table P s = Ok full <->
  exists rows, Forall2 (row_of_field P) (split_off "|"%char (remove_blanks s)) rows /\ (1 <= List.length rows <= 12)%nat /\ padded rows full.
Proof.
  unfold parse_table. cbv zeta. set (entries := split_off "|"%char (remove_blanks s)).
  assert (NE : entries <> []) by apply split_off_nonempty.
  destruct (Nat.ltb_spec table_size (List.length entries)) as [LT|LT]; unfold table_size in LT.
  - split; [discriminate|]. intros (rows & F & L & _). apply Forall2_len in F. simpl in *. lia.
  - split.
    + intros H. destruct (parse_rows P entries) as [rows| |] eqn:E; try discriminate. cbn [bind] in H. apply parse_rows_ok in E.
      assert (LE := Forall2_len _ _ _ E). assert (List.length entries <> 0)%nat by (destruct entries; [contradiction|discriminate]).
      rewrite back_nth in H by (intros Z; rewrite Z in LE; simpl in LE; lia). unfold at_ in H.
      destruct (nth_error rows (List.length rows - 1)) as [l|] eqn:EL; [|apply nth_error_None in EL; lia]. cbn [bind] in H. injection H as <-.
      exists rows. split; [exact E|]. split; [lia|]. exists l. split; [exact EL|reflexivity].
    + intros (rows & F & L & (l & HL & ->)). apply parse_rows_ok in F. rewrite F. cbn [bind].
      rewrite back_nth by (intros ->; simpl in L; lia). unfold at_. rewrite HL. reflexivity.
Qed.
