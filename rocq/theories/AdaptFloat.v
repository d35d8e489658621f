(** AdaptFloat.v -- C49 in binary64, NaN and infinities included. *)
From Coq Require Import Reals ZArith Bool List Floats Lia Lra.
From Verif Require Import Base BaseFacts AdaptModel AdaptSpec AdaptProofs.
Import ListNotations.

(** Position of a non-NaN number in the order of the extended reals, as three integers compared lexicographically. *)
Definition key (x : spec_float) : Z * Z * Z :=
  match x with
  | S754_nan => (0, 0, 0)
  | S754_zero _ => (0, 0, 0)
  | S754_infinity false => (2, 0, 0)
  | S754_infinity true => (-2, 0, 0)
  | S754_finite false m e => (1, e, Zpos m)
  | S754_finite true m e => (-1, -e, Zneg m)
  end%Z.
Definition klt (a b : Z * Z * Z) : Prop :=
  let '(a1, a2, a3) := a in let '(b1, b2, b3) := b in (a1 < b1 \/ a1 = b1 /\ (a2 < b2 \/ a2 = b2 /\ a3 < b3))%Z.
Definition number (x : spec_float) : Prop := x <> S754_nan.
Lemma SFltb_key x y : SFltb x y = true <-> number x /\ number y /\ klt (key x) (key y).
Proof.
  unfold SFltb, number, SFcompare.
  destruct x as [[]|[]| |[] m e]; destruct y as [[]|[]| |[] m' e']; cbn [key klt];
    try (split; [intros _; repeat split; try discriminate; lia|]; intros; reflexivity);
    try (split; [discriminate|]; intros [H1 [H2 H3]]; try congruence; lia).
  - destruct (Z.compare_spec e e') as [->|L|L].
    + change (Pos.compare_cont Eq m m') with (Pos.compare m m'). destruct (Pos.compare_spec m m') as [->|L|L]; cbn [CompOpp]; (split; [try discriminate; intros _; repeat split; try discriminate; lia|intros [_ [_ H]]; try reflexivity; lia]).
    + split; [discriminate|]. intros [_ [_ H]]. lia.
    + split; [intros _|reflexivity]. repeat split; try discriminate. lia.
  - destruct (Z.compare_spec e e') as [->|L|L].
    + change (Pos.compare_cont Eq m m') with (Pos.compare m m'). destruct (Pos.compare_spec m m') as [->|L|L]; (split; [try discriminate; intros _; repeat split; try discriminate; lia|intros [_ [_ H]]; try reflexivity; lia]).
    + split; [intros _|reflexivity]. repeat split; try discriminate. lia.
    + split; [discriminate|]. intros [_ [_ H]]. lia.
Qed.
Lemma ordered_F : ordered (N := FNum).
Proof.
  split; [|split]; unfold below; cbn; intros *; rewrite ?ltb_spec.
  - rewrite !SFltb_key. intros [H1 [H2 H3]] [H4 [H5 H6]]. repeat split; try assumption. destruct (key (Prim2SF x)) as [[a b] c], (key (Prim2SF y)) as [[a' b'] c'], (key (Prim2SF z)) as [[a2 b2] c2]. cbn in *. lia.
  - intros H1 H2 H3. apply SFltb_key in H1 as [H4 [H5 H6]]. apply SFltb_key in H2 as [H7 [H8 H9]]. apply SFltb_key. repeat split; try assumption.
    assert (~ klt (key (Prim2SF z)) (key (Prim2SF y))) as NL by (intros L; assert (SFltb (Prim2SF z) (Prim2SF y) = true) by (apply SFltb_key; auto); congruence).
    destruct (key (Prim2SF x)) as [[a b] c], (key (Prim2SF y)) as [[a' b'] c'], (key (Prim2SF z)) as [[a2 b2] c2]. cbn in *. lia.
  - destruct (SFltb (Prim2SF x) (Prim2SF x)) eqn:E; [|reflexivity]. apply SFltb_key in E as [_ [_ H]]. destruct (key (Prim2SF x)) as [[a b] c]. cbn in H. lia.
Qed.

(** The squared distance the code computes, in binary64. *)
Definition computed (a b : list float) : float := norm_square_diff (N := FNum) a b.
Definition usable (d : float) : Prop := PrimFloat.ltb d F_max = true.

Lemma coarse_to_fine_F {T} (dflt : T) n dim coarse children vals : quad_cell n dim coarse -> (forall ch, In ch children -> quad_cell n dim ch) -> length vals = n ->
  (forall pts f, In pts children -> In f pts -> exists c, In c coarse /\ usable (computed f c)) ->
  exists out, coarse_to_fine (N := FNum) dflt coarse children vals = Ok out /\ length out = length children /\
    forall i pts, nth_error children i = Some pts -> exists row, nth_error out i = Some row /\ length row = n /\
      forall j f, nth_error pts j = Some f -> exists k c, nth_error coarse k = Some c /\ nth_error row j = nth_error vals k /\ (k < n)%nat /\
        usable (computed f c) /\ (forall c', In c' coarse -> PrimFloat.ltb (computed f c') (computed f c) = false) /\
        (forall k' c', nth_error coarse k' = Some c' -> (k' < k)%nat -> usable (computed f c') -> PrimFloat.ltb (computed f c) (computed f c') = true).
Proof.
  intros [Lc _] QC LV US. unfold coarse_to_fine.
  assert (forall pts, In pts children -> exists row, child_row (N := FNum) dflt coarse vals pts = Ok row /\ length row = n /\
      forall j f, nth_error pts j = Some f -> exists k c, nth_error coarse k = Some c /\ nth_error row j = nth_error vals k /\ (k < n)%nat /\
        usable (computed f c) /\ (forall c', In c' coarse -> PrimFloat.ltb (computed f c') (computed f c) = false) /\
        (forall k' c', nth_error coarse k' = Some c' -> (k' < k)%nat -> usable (computed f c') -> PrimFloat.ltb (computed f c) (computed f c') = true)) as ROW.
  { intros pts Hp. destruct (QC pts Hp) as [Lp _]. unfold child_row. cbn [num FNum] in *.
    replace (length coarse <? length pts)%nat with false by (symmetry; apply Nat.ltb_ge; lia).
    assert (forall f, In f pts -> exists k c, fst (closest (coarse_candidates (N := FNum) coarse f)) = Some k /\ nth_error coarse k = Some c /\
        usable (computed f c) /\ (forall c', In c' coarse -> PrimFloat.ltb (computed f c') (computed f c) = false) /\
        (forall k' c', nth_error coarse k' = Some c' -> (k' < k)%nat -> usable (computed f c') -> PrimFloat.ltb (computed f c) (computed f c') = true)) as CL.
    { intros f Hf. pose proof (closest_coarse (N := FNum) ordered_F coarse f) as H. destruct (closest (coarse_candidates (N := FNum) coarse f)) as [[k|] d].
      - destruct H as [c [E [-> [B [M F]]]]]. exists k, c. repeat split; assumption.
      - exfalso. destruct (US pts f Hp Hf) as [c [Hc U]]. exact (H c Hc U). }
    destruct (mapM_ok (fun f => at_opt vals (fst (closest (coarse_candidates (N := FNum) coarse f)))) pts) as [bs [E [Lb C]]].
    { intros f Hf. destruct (CL f Hf) as [k [c [Ek [Ec _]]]]. rewrite Ek. cbn [at_opt]. destruct (at_lt vals k) as [a [_ [Ea _]]]; [|eauto].
      rewrite LV, <- Lc. apply nth_error_Some. congruence. }
    cbn [num FNum] in *. rewrite E. cbn [bind]. exists (bs ++ repeat dflt (length coarse - length pts)). split; [reflexivity|]. split.
    - rewrite app_length, repeat_length. lia.
    - intros j f Ef. destruct (C j f Ef) as [b [Eb Hb]]. destruct (CL f (nth_error_In _ _ Ef)) as [k [c [Ek [Ec R]]]]. rewrite Ek in Hb. cbn [at_opt] in Hb.
      exists k, c. split; [exact Ec|]. assert (k < n)%nat by (rewrite <- Lc; apply nth_error_Some; congruence). split; [|split; assumption].
      assert (j < length pts)%nat by (apply nth_error_Some; congruence). rewrite nth_error_app1 by lia. rewrite Eb. unfold at_ in Hb. destruct (nth_error vals k); congruence. }
  destruct (mapM_ok (child_row (N := FNum) dflt coarse vals) children) as [out [E [Lo C]]].
  { intros pts Hp. destruct (ROW pts Hp) as [row [H _]]. eauto. }
  cbn [num FNum] in *. exists out. split; [exact E|]. split; [exact Lo|]. intros i pts Ep. destruct (C i pts Ep) as [row [Er Hr]]. destruct (ROW pts (nth_error_In _ _ Ep)) as [row' [Hr' [L H]]].
  assert (row' = row) as -> by congruence. exists row. repeat split; assumption.
Qed.
Lemma coarse_to_fine_F_UB {T} (dflt : T) n dim coarse children vals pts f : quad_cell n dim coarse -> (forall ch, In ch children -> quad_cell n dim ch) -> length vals = n ->
  In pts children -> In f pts -> (forall c, In c coarse -> ~ usable (computed f c)) ->
  coarse_to_fine (N := FNum) dflt coarse children vals = UB.
Proof.
  intros [Lc _] QC LV Hp Hf NU. unfold coarse_to_fine.
  assert (forall v i, @at_opt T v i <> Throw) as NT by (intros v [i|]; cbn; [unfold at_; destruct (nth_error v i)|]; discriminate).
  assert (forall l, mapM (fun f => at_opt vals (fst (closest (coarse_candidates (N := FNum) coarse f)))) l <> Throw) as NM.
  { induction l as [|x l IH]; [discriminate|]. cbn [mapM]. destruct (at_opt vals _) eqn:E; cbn [bind]; [|exfalso; exact (NT _ _ E)|discriminate].
    destruct (mapM _ l); cbn [bind]; [discriminate|congruence|discriminate]. }
  apply mapM_bad with pts.
  - intros x Hx. unfold child_row. match goal with |- context[if ?b then _ else _] => destruct b end; [discriminate|]. pose proof (NM x) as NMx. cbn [num FNum] in *. match goal with |- context[bind ?m _] => change m with (mapM (fun f => at_opt vals (fst (closest (coarse_candidates (N := FNum) coarse f)))) x); destruct (mapM (fun f => at_opt vals (fst (closest (coarse_candidates (N := FNum) coarse f)))) x) eqn:E end; cbn [bind]; [discriminate|intros _; exact (NMx E)|discriminate].
  - exact Hp.
  - unfold child_row. match goal with |- context[if ?b then _ else _] => destruct b end; [reflexivity|].
    rewrite (mapM_bad (fun f => at_opt vals (fst (closest (coarse_candidates (N := FNum) coarse f)))) pts f); [reflexivity| |exact Hf|].
    + intros x _. apply NT.
    + pose proof (closest_coarse (N := FNum) ordered_F coarse f) as H. destruct (closest (coarse_candidates (N := FNum) coarse f)) as [[k|] d]; [|reflexivity].
      destruct H as [c [E [-> [B _]]]]. exfalso. exact (NU c (nth_error_In _ _ E) B).
Qed.
Lemma fine_to_coarse_F {T} n dim coarse children (vals : list (list T)) : quad_cell n dim coarse ->
  (forall ch, In ch children -> quad_cell n dim ch) -> length vals = length children -> (forall v, In v vals -> length v = n) ->
  (forall c, In c coarse -> exists pts f, In pts children /\ In f pts /\ usable (computed f c)) ->
  exists out, fine_to_coarse (N := FNum) coarse children vals = Ok out /\ length out = n /\
    forall k c, nth_error coarse k = Some c -> exists i j pts f v, nth_error children i = Some pts /\ nth_error pts j = Some f /\ nth_error vals i = Some v /\
      nth_error out k = nth_error v j /\ (j < n)%nat /\ usable (computed f c) /\
      (forall pts' f', In pts' children -> In f' pts' -> PrimFloat.ltb (computed f' c) (computed f c) = false) /\
      (forall i' j' pts' f', nth_error children i' = Some pts' -> nth_error pts' j' = Some f' -> (i' < i \/ i' = i /\ j' < j)%nat ->
         usable (computed f' c) -> PrimFloat.ltb (computed f c) (computed f' c) = true).
Proof.
  intros [Lc _] QC LV LV' US. unfold fine_to_coarse. cbv zeta. pose proof (best_searches (N := FNum) coarse children) as BS. cbn [num FNum] in *. rewrite BS. clear BS.
  assert (forall c, In c coarse -> exists i j pts f v x, fst (closest (fine_candidates (N := FNum) children c)) = Some (i, j) /\
     nth_error children i = Some pts /\ nth_error pts j = Some f /\ nth_error vals i = Some v /\ nth_error v j = Some x /\ (j < n)%nat /\ usable (computed f c) /\
      (forall pts' f', In pts' children -> In f' pts' -> PrimFloat.ltb (computed f' c) (computed f c) = false) /\
      (forall i' j' pts' f', nth_error children i' = Some pts' -> nth_error pts' j' = Some f' -> (i' < i \/ i' = i /\ j' < j)%nat ->
         usable (computed f' c) -> PrimFloat.ltb (computed f c) (computed f' c) = true)) as CL.
  { intros c Hc. pose proof (closest_fine (N := FNum) ordered_F children c) as H. destruct (closest (fine_candidates (N := FNum) children c)) as [[[i j]|] d].
    - destruct H as [row [f [E1 [E2 [-> [B [M F]]]]]]]. assert (i < length vals)%nat as Li by (rewrite LV; apply nth_error_Some; cbn [num FNum] in *; congruence).
      destruct (at_lt vals i Li) as [v [Ev [_ Iv]]]. assert (j < n)%nat as Lj.
      { destruct (QC row (nth_error_In _ _ E1)) as [L _]. rewrite <- L. apply nth_error_Some. cbn [num FNum] in *; congruence. }
      destruct (at_lt v j) as [x [Ex _]]; [rewrite (LV' v Iv); exact Lj|]. exists i, j, row, f, v, x. split; [reflexivity|]. repeat (split; [first [assumption|exact M]|]). exact F.
    - exfalso. destruct (US c Hc) as [pts [f [Hp [Hf U]]]]. destruct (In_nth_error _ _ Hp) as [i Ei]. destruct (In_nth_error _ _ Hf) as [j Ej]. exact (H i j pts f Ei Ej U). }
  destruct (mapM_ok (fun b : option (nat * nat) * float => match fst b with Some (i, j) => do row <- at_ vals i; at_ row j | None => UB end)
              (map (fun c => closest (fine_candidates (N := FNum) children c)) coarse)) as [out [E [Lo C]]].
  { intros b Hb. apply in_map_iff in Hb as [c [<- Hc]]. destruct (CL c Hc) as [i [j [pts [f [v [x [Ei [_ [_ [Ev [Ex _]]]]]]]]]]]. cbn [num FNum] in *. rewrite Ei.
    unfold at_. rewrite Ev. cbn [bind]. rewrite Ex. eauto. }
  exists out. split; [exact E|]. split; [rewrite map_length in Lo; exact (eq_trans Lo Lc)|]. intros k c Ec.
  destruct (C k (closest (fine_candidates (N := FNum) children c))) as [x [Ex Hx]]; [refine (eq_trans (nth_error_map _ _ _) _); cbn [num FNum]; rewrite Ec; reflexivity|].
  destruct (CL c (nth_error_In _ _ Ec)) as [i [j [pts [f [v [y [Ei [E1 [E2 [Ev [Ey R]]]]]]]]]]]. exists i, j, pts, f, v.
  split; [exact E1|]. split; [exact E2|]. split; [exact Ev|]. split; [|exact R]. cbn [num FNum] in *. rewrite Ei in Hx. unfold at_ in Hx. rewrite Ev in Hx. cbn [bind] in Hx. rewrite Ey in Hx. congruence.
Qed.
Lemma fine_to_coarse_F_UB {T} coarse children (vals : list (list T)) c : In c coarse -> (forall pts f, In pts children -> In f pts -> ~ usable (computed f c)) ->
  fine_to_coarse (N := FNum) coarse children vals = UB.
Proof.
  intros Hc NU. unfold fine_to_coarse. cbv zeta. pose proof (best_searches (N := FNum) coarse children) as BS. cbn [num FNum] in *. rewrite BS.
  apply mapM_bad with (closest (fine_candidates (N := FNum) children c)).
  - intros [[[i j]|] d] _; cbn [fst]; [|discriminate]. unfold at_. destruct (nth_error vals i); cbn [bind]; [|discriminate]. destruct (nth_error _ j); discriminate.
  - apply in_map_iff. exists c. split; [reflexivity|exact Hc].
  - pose proof (closest_fine (N := FNum) ordered_F children c) as H. destruct (closest (fine_candidates (N := FNum) children c)) as [[[i j]|] d]; [|reflexivity].
    exfalso. destruct H as [row [f [E1 [E2 [-> [B _]]]]]]. exact (NU row f (nth_error_In _ _ E1) (nth_error_In _ _ E2) B).
Qed.
