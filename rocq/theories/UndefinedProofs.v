(** UndefinedProofs.v -- what is not reported but undefined (C36, C38). *)
From Coq Require Import ZArith QArith List Bool Lia.
From Verif Require Import Base BaseFacts AssimilationModel StressModel RunModel RunProofs UndefinedSpec.
Import ListNotations.

Lemma bind_reports {A B} (r : res A) (f : A -> res B) : r <> Throw -> (forall a, f a <> Throw) -> bind r f <> Throw.
Proof. destruct r; cbn [bind]; auto; congruence. Qed.
Lemma undefined {A} (r : res A) : r <> Throw -> (forall a, r <> Ok a) -> r = UB.
Proof. destruct r as [a| |]; [intros _ H; destruct (H a); reflexivity|congruence|reflexivity]. Qed.
Lemma at_reports {A} (l : list A) i : at_ l i <> Throw.
Proof. unfold at_. destruct (nth_error l i); discriminate. Qed.
Lemma back_reports {A} (l : list A) : back l <> Throw.
Proof. unfold back. destruct (rev l); discriminate. Qed.

Section Run.
  Context {N : Num}.
  Lemma divides_reports a b : divides a b <> Throw.
  Proof. unfold divides, umod. destruct (Nat.eqb b 0); discriminate. Qed.
  Lemma divides_zero a : divides a 0 = UB. Proof. reflexivity. Qed.
  Lemma reread_reports (reread : nat -> @path N) (ps : list (@path N)) : forall i e fin, scan_reread reread i ps e fin <> Throw.
  Proof.
    induction ps as [|p ps IH]; intros i e fin; cbn [scan_reread]; [discriminate|]. destruct (p_finished p).
    - apply bind_reports; [apply IH|]. intros [[ps' e'] f']. discriminate.
    - apply bind_reports; [apply back_reports|]. intros t. apply bind_reports; [apply IH|]. intros [[ps' e'] f']. discriminate.
  Qed.
  Lemma step_reports cfg reread redep (st : @state N) : step cfg reread redep st <> Throw.
  Proof.
    unfold step. apply bind_reports.
    - destruct (_ && _); [|discriminate]. apply bind_reports; [apply reread_reports|]. intros [[ps' e'] f']. discriminate.
    - intros [[[ps e] d] dep]. apply bind_reports; [destruct (Nat.eqb (s_n st) 1); [discriminate|apply divides_reports]|]. intros ref.
      match goal with |- context [let '(_, _) := ?x in _] => destruct x as [w a] end. apply bind_reports.
      + destruct (c_mech cfg); [|discriminate]. apply bind_reports; [apply divides_reports|]. intros [|]; [discriminate|apply divides_reports].
      + intros m. apply bind_reports; [|intros c; apply bind_reports; [apply divides_reports|intros o; discriminate]].
        destruct (c_checkpoint cfg); [|discriminate]. apply bind_reports; [apply divides_reports|]. intros c. destruct (c && negb (c_thermal cfg)); discriminate.
  Qed.
  Lemma zero_period cfg reread redep (st : @state N) : c_output cfg = 0%nat \/ c_checkpoint cfg = Some 0%nat \/ (c_mech cfg = true /\ c_mech_factor cfg = 0%nat) \/ (s_n st <> 1%nat /\ c_refine cfg = 0%nat) ->
    step cfg reread redep st = UB.
  Proof.
    intros Z. apply undefined; [apply step_reports|]. intros [e st'] H. destruct (step_schedule _ _ _ _ _ _ H) as (_ & _ & _ & _ & O1 & _ & R1 & _ & M1 & _ & C1 & _). intuition congruence.
  Qed.
  Lemma run_reports cfg reread redep fuel : forall (st : @state N), run cfg reread redep fuel st <> Throw.
  Proof.
    induction fuel as [|f IH]; intros st; cbn [run]; destruct (_ <? _)%num; try discriminate. apply bind_reports; [apply step_reports|]. intros [e st1].
    apply bind_reports; [apply IH|]. intros [[es st2] fin]. discriminate.
  Qed.
End Run.

Section Gather.
  Context {N : Num}.
  Lemma write_reports (l : list N) : forall i v, write l i v <> Throw.
  Proof. induction l as [|x l IH]; intros i v; [discriminate|]. destruct i; cbn [write]; [discriminate|]. apply bind_reports; [apply IH|discriminate]. Qed.
  Lemma write_inv (l : list N) : forall i v l', write l i v = Ok l' -> (i < List.length l)%nat /\ List.length l' = List.length l.
  Proof.
    induction l as [|x l IH]; intros i v l' H; [discriminate|]. destruct i; cbn [write] in H; [injection H as <-; cbn; lia|].
    destruct (write l i v) as [r| |] eqn:E; try discriminate. injection H as <-. destruct (IH _ _ _ E). cbn. lia.
  Qed.
  Lemma place_reports (data : list N) : forall set l, place set data l <> Throw.
  Proof. induction data as [|v data IH]; intros [|p set] l; cbn [place]; try discriminate. apply bind_reports; [apply write_reports|]. intros l'. apply IH. Qed.
  Lemma place_inv (data : list N) : forall set l l', place set data l = Ok l' -> List.length l' = List.length l /\ (List.length data <= List.length set)%nat /\
    forall k p, (k < List.length data)%nat -> nth_error set k = Some p -> (p < List.length l)%nat.
  Proof.
    induction data as [|v data IH]; intros [|q set] l l' H; cbn [place] in H.
    - injection H as <-. cbn. repeat split; intros; lia.
    - injection H as <-. cbn. repeat split; intros; lia.
    - discriminate.
    - destruct (write l q v) as [l1| |] eqn:E; try discriminate. cbn [bind] in H. destruct (write_inv _ _ _ _ E) as [A B]. destruct (IH _ _ _ H) as (C & D & F). rewrite B in *.
      split; [exact C|]. split; [cbn; lia|]. intros [|k] p L Hp; cbn in L, Hp; [injection Hp as <-; exact A|]. apply (F k p); [lia|exact Hp].
  Qed.
  Lemma gather_steps (i : nat) (group : list (process N)) : forall acc : list N * list N,
    let f := fun acc (p : process N) => do '(b0, b1) <- acc; do m <- at_ (pr_members p) i; do b0' <- place (pr_set0 p) (fst m) b0; do b1' <- place (pr_set1 p) (snd m) b1; Ok (b0', b1') in
    fold_left f group (Ok acc) <> Throw /\
    forall r, fold_left f group (Ok acc) = Ok r -> forall p m, In p group -> nth_error (pr_members p) i = Some m -> fits (pr_set0 p) (fst m) (List.length (fst acc)) /\ fits (pr_set1 p) (snd m) (List.length (snd acc)).
  Proof.
    cbv zeta. set (f := fun acc (p : process N) => do '(b0, b1) <- acc; do m <- at_ (pr_members p) i; do b0' <- place (pr_set0 p) (fst m) b0; do b1' <- place (pr_set1 p) (snd m) b1; Ok (b0', b1')).
    assert (U : forall g, fold_left f g UB = UB) by (induction g as [|p g IH]; [reflexivity|exact IH]).
    induction group as [|p g IH]; intros [b0 b1]; cbn [fold_left]; [split; [discriminate|intros r _ p m []]|].
    change (f (Ok (b0, b1)) p) with (do m <- at_ (pr_members p) i; do b0' <- place (pr_set0 p) (fst m) b0; do b1' <- place (pr_set1 p) (snd m) b1; Ok (b0', b1')).
    unfold at_. destruct (nth_error (pr_members p) i) as [m|] eqn:M; cbn [bind]; [|rewrite U; split; [discriminate|discriminate]].
    destruct (place (pr_set0 p) (fst m) b0) as [c0| |] eqn:P0; cbn [bind]; [|destruct (place_reports _ _ _ P0)|rewrite U; split; discriminate].
    destruct (place (pr_set1 p) (snd m) b1) as [c1| |] eqn:P1; cbn [bind]; [|destruct (place_reports _ _ _ P1)|rewrite U; split; discriminate].
    destruct (place_inv _ _ _ _ P0) as (L0 & A0 & B0). destruct (place_inv _ _ _ _ P1) as (L1 & A1 & B1). destruct (IH (c0, c1)) as [Nt Fi]. split; [exact Nt|].
    intros r H q m' [->|I] Hm.
    - rewrite M in Hm. injection Hm as <-. cbn [fst snd]. split; split; assumption.
    - specialize (Fi r H q m' I Hm). cbn [fst snd] in Fi |- *. rewrite L0, L1 in Fi. exact Fi.
  Qed.
  Lemma gather_out_of_range (group : list (process N)) i p m : In p group -> nth_error (pr_members p) i = Some m ->
    ~ (fits (pr_set0 p) (fst m) (block_size0 group) /\ fits (pr_set1 p) (snd m) (block_size1 group)) -> gather_member group i = UB.
  Proof.
    intros I M F. apply undefined; unfold gather_member.
    - exact (proj1 (gather_steps i group (repeat (nofZ N 0) (block_size0 group), repeat (nofZ N 0) (block_size1 group)))).
    - intros r H. apply F. pose proof (proj2 (gather_steps i group (repeat (nofZ N 0) (block_size0 group), repeat (nofZ N 0) (block_size1 group))) r H p m I M) as X.
      cbn [fst snd] in X. rewrite !repeat_length in X. exact X.
  Qed.
End Gather.
Lemma out_of_range_case : let p1 := mkproc (N := QNum) [0%nat] [0%nat] [([1%Q], [7%Q])] in let p2 := mkproc (N := QNum) [1%nat] [0%nat; 1%nat] [([2%Q], [8%Q; 9%Q])] in
  In p2 [p1; p2] /\ nth_error (pr_members p2) 0 = Some ([2%Q], [8%Q; 9%Q]) /\ fits (pr_set0 p2) [2%Q] (block_size0 [p1; p2]) /\ ~ fits (pr_set1 p2) [8%Q; 9%Q] (block_size1 [p1; p2]).
Proof.
  cbv zeta. split; [right; left; reflexivity|]. split; [reflexivity|]. split.
  - split; [cbn; lia|]. intros [|k] p L H; cbn in L, H; [injection H as <-; cbn; lia|lia].
  - intros [_ F]. specialize (F 1%nat 1%nat ltac:(cbn; lia) eq_refl). cbn in F. lia.
Qed.

Section Stress.
  Context {N : Num}.
  Lemma points_report (m : plasticity N) strains : forall pts, update_points m pts strains <> Throw.
  Proof. induction strains as [|e es IH]; intros [|p ps]; cbn [update_points]; try discriminate. apply bind_reports; [apply IH|discriminate]. Qed.
  Lemma points_enough (m : plasticity N) strains : forall pts r, update_points m pts strains = Ok r -> (List.length strains <= List.length pts)%nat.
  Proof.
    induction strains as [|e es IH]; intros [|p ps] r H; cbn [update_points] in H; cbn; try lia; try discriminate.
    destruct (update_points m ps es) as [r'| |] eqn:E; try discriminate. specialize (IH _ _ E). lia.
  Qed.
  Lemma stress_reports (cells : list (mech_cell N)) : forall vars, compute_stress cells vars <> Throw.
  Proof.
    induction cells as [|c cs IH]; intros [|v vs]; cbn [compute_stress]; try discriminate; [destruct (existsb _ _); discriminate|].
    apply bind_reports; [destruct (mc_active c); [apply points_report|discriminate]|]. intros v'. apply bind_reports; [apply IH|discriminate].
  Qed.
  Lemma stress_enough (cells : list (mech_cell N)) : forall vars r, compute_stress cells vars = Ok r -> forall i c, nth_error cells i = Some c -> mc_active c = true ->
    exists v, nth_error vars i = Some v /\ (List.length (mc_strain c) <= List.length v)%nat.
  Proof.
    induction cells as [|a cs IH]; intros [|v vs] r H i c Hi A; cbn [compute_stress] in H; try (destruct i; discriminate).
    - assert (X : existsb mc_active (a :: cs) = true) by (apply existsb_exists; exists c; split; [exact (nth_error_In _ _ Hi)|exact A]). rewrite X in H. discriminate.
    - destruct (if mc_active a then update_points (mc_param a) v (mc_strain a) else Ok v) as [v'| |] eqn:E; cbn [bind] in H; try discriminate.
      destruct (compute_stress cs vs) as [r'| |] eqn:E'; cbn [bind] in H; try discriminate. destruct i as [|i]; cbn [nth_error] in Hi |- *; [|exact (IH _ _ E' i c Hi A)].
      injection Hi as ->. rewrite A in E. exists v. split; [reflexivity|]. exact (points_enough _ _ _ _ E).
  Qed.
  Lemma stress_undefined (cells : list (mech_cell N)) vars i c : nth_error cells i = Some c -> mc_active c = true ->
    (forall v, nth_error vars i = Some v -> (List.length v < List.length (mc_strain c))%nat) -> compute_stress cells vars = UB.
  Proof.
    intros I A S. apply undefined; [apply stress_reports|]. intros r H. destruct (stress_enough _ _ _ H i c I A) as (v & V & L). specialize (S v V). lia.
  Qed.
End Stress.
