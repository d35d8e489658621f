(** ExperimentExamples.v -- witnesses and counterexamples for C31, C32, C54, C55. *)
From Coq Require Import Reals ZArith QArith Bool List String Ascii Lia Lra Floats.
From Verif Require Import Base BaseFacts ScanPathModel MaterialModel Decimal InputModel InputSpec ExperimentModel ExperimentSpec ExperimentProofs ExperimentProofs2.
Import ListNotations.
Local Open Scope string_scope.

(** Two cameras, frames 1 to 3; blanks, a missing entry, numbers that are not consecutive. *)
Definition x_cfg : log_config QNum := mklog (N := QNum) (1 # 10) 1 3 2.
Definition x_log : list string := ["0,0.5,0.6"; "1 , 1.5 ,1.6"; "3,,3.6"; "2,2.5,2.6"; "7,7.5,7.6"].
Definition x_stamps : list (list Q) := [[(8 # 5); (13 # 5)]; [(17 # 10); (37 # 10); (27 # 10)]]%Q.
Lemma ex_log : read_frame_timestamps QParser x_cfg x_log = Ok x_stamps.
Proof. vmrefl. Qed.
(** A third column for a frame of interest; an empty line. *)
Lemma ex_log_ub : read_frame_timestamps QParser x_cfg ["2,1,2,3"] = UB. Proof. vmrefl. Qed.
Lemma ex_log_blank : read_frame_timestamps QParser x_cfg ["2,1,2"; ""] = Throw. Proof. vmrefl. Qed.

(** Frames *)
Definition r_ts : list R := [1; 3]%R.
Definition r_times : list R := [1; 2; 3]%R.
Ltac cases4 i := destruct i as [|[|[|[|i]]]].
Lemma r_ts_increasing : increasing r_ts.
Proof. intros i j x y L X Y. destruct i as [|[|i]], j as [|[|j]]; try lia; simpl in *; try discriminate; try (destruct i; discriminate); try (destruct j; discriminate). injection X as <-. injection Y as <-. lra. Qed.
Lemma r_times_increasing : increasing (0%R :: r_times).
Proof.
  intros i j x y L X Y. unfold r_times in *. cases4 i; cases4 j; try lia; simpl in X, Y; try discriminate; try (destruct i; discriminate); try (destruct j; discriminate);
  injection X as <-; injection Y as <-; lra.
Qed.
Lemma r_spaced : spaced r_ts r_times.
Proof.
  split.
  - intros j x y k t t' X Y T T'. unfold r_ts, r_times in *. destruct j as [|[|j]]; simpl in X, Y; try discriminate; try (destruct j; discriminate).
    injection X as <-. injection Y as <-. destruct k as [|[|[|k]]]; simpl in T, T'; try discriminate; try (destruct k; discriminate); injection T as <-; injection T' as <-; lra.
  - intros y t Y T. simpl in Y, T. injection Y as <-. injection T as <-. lra.
Qed.
Lemma r_events : exists st1 st2 st3, frame_run (N := RNum) r_ts (101 / 100)%R 1 0%R r_times (frames_initial (N := RNum) 0) = Ok [(st1, Assimilated 0); (st2, Nothing); (st3, Assimilated 1)].
Proof.
  destruct (each_once r_ts (101 / 100) 0 r_times r_ts_increasing r_times_increasing (spaced_apart _ _ _ r_ts_increasing r_times_increasing r_spaced)) as (evs & E & L & H & NR & _).
  rewrite E. destruct evs as [|[s1 e1] [|[s2 e2] [|[s3 e3] [|]]]]; try discriminate. exists s1, s2, s3. clear E.
  assert (D0 : due r_ts r_times 0 0) by (apply due_0; exists 1%R; split; [reflexivity|lra]).
  assert (D2 : due r_ts r_times 2 1).
  { exists 3%R, 3%R. repeat split; try reflexivity; [lra|]. intros [|[|k]] t Hk T; simpl in T; try lia; injection T as <-; lra. }
  assert (N1 : forall j, ~ due r_ts r_times 1 j).
  { intros j (x & t & X & T & Lx & F). simpl in T. injection T as <-. specialize (F 0%nat 1%R ltac:(lia) eq_refl). destruct j as [|[|j]]; simpl in X; try discriminate; try (destruct j; discriminate); injection X as <-; lra. }
  apply H in D0, D2. simpl in D0, D2. injection D0 as ->. injection D2 as ->.
  destruct e2 as [|j|j]; [reflexivity|exfalso; exact (NR 1%nat j eq_refl)|exfalso; apply (N1 j), H; reflexivity].
Qed.
(** Two stamps in the first step. *)
Lemma r_two : frame_run (N := RNum) [1 / 4; 1 / 2]%R (101 / 100)%R 1 0%R r_times (frames_initial (N := RNum) 0) = Throw.
Proof.
  apply two_in_a_step.
  - intros i j x y L X Y. destruct i as [|[|i]], j as [|[|j]]; try lia; simpl in *; try discriminate; try (destruct i; discriminate); try (destruct j; discriminate). injection X as <-. injection Y as <-. lra.
  - exact r_times_increasing.
  - exists 0%nat, 0%nat, 1%nat. split; [simpl; lia|]. split; [lia|]. split; apply due_0; eexists; (split; [reflexivity|lra]).
Qed.

(** Restart at 2, after the first stamp; the hypotheses of the output theorem. *)
Lemma r_restart : frames_restarted (N := RNum) 0 r_ts 2%R = Ok (mkfs (N := RNum) 1 0 (-1)%R) /\ frame_run (N := RNum) r_ts (101 / 100)%R 3 2%R [3]%R (mkfs (N := RNum) 1 0 (-1)%R) = Throw.
Proof.
  assert (E : frames_restarted (N := RNum) 0 r_ts 2%R = Ok (mkfs (N := RNum) 1 0 (-1)%R)).
  { unfold frames_restarted. rewrite (proj2 (advance_ok r_ts 2 0 1)); [reflexivity|]. split; [lia|]. split; [exists 3%R; split; [reflexivity|lra]|].
    intros j x Hj X. destruct j; [|lia]. simpl in X. injection X as <-. lra. }
  split; [exact E|].
  assert (I : increasing [2; 3]%R).
  { intros i j x y L X Y. destruct i as [|[|i]], j as [|[|j]]; try lia; simpl in *; try discriminate; try (destruct i; discriminate); try (destruct j; discriminate). injection X as <-. injection Y as <-. lra. }
  destruct (restart_aborts r_ts (101 / 100) 2 1 [3]%R 3 _ r_ts_increasing I ltac:(lia) eq_refl ltac:(lra) E) as (x & X & _ & H). simpl in X. injection X as <-. apply H. exists 3%R. split; [left; reflexivity|lra].
Qed.
Lemma r_output_hyps : (forall x, nth_error r_ts 0 = Some x -> 0 < x)%R /\ (forall k t t', nth_error (0%R :: r_times) k = Some t -> nth_error r_times k = Some t' -> (t' - t <= 101 / 100)%R) /\ (forall t, nth_error r_times 0 = Some t -> (-1 + 101 / 100 < t)%R).
Proof.
  split; [|split].
  - intros x X. simpl in X. injection X as <-. lra.
  - intros k t t' T T'. unfold r_times in *. destruct k as [|[|[|k]]]; simpl in T, T'; try discriminate; try (destruct k; discriminate); injection T as <-; injection T' as <-; lra.
  - intros t T. simpl in T. injection T as <-. lra.
Qed.

Local Open Scope float_scope.
(** Output on assimilation, binary64, time step 1: the second frame is assimilated without output. *)
Definition f_run := frame_run (N := FNum) [0x1.fae147ae147aep-1; 2] (0x1.028f5c28f5c29p+0 * 1) 1 0 [1; 2; 3] (frames_initial 0).
Definition f_outputs : list (fevent * bool) :=
  match f_run with Ok evs => map (fun '(t, (st, e)) => (e, writes_output (N := FNum) true 1000 7 (0x1.028f5c28f5c29p+0 * 1) t st)) (combine [1; 2; 3] evs) | _ => [] end.
Lemma ex_outputs : f_outputs = [(Assimilated 0, true); (Assimilated 1, false); (Nothing, false)].
Proof. vmrefl. Qed.
(** experiment.first_frame = 1, four stamps (frames 1 to 4) at 1, 2, 3, 4: frame 1 is read but not assimilated, frame 2 is assimilated at time 3 although its stamp is 2. *)
Definition f_shift := match frame_run (N := FNum) [1; 2; 3; 4] 0x1.028f5c28f5c29p-1 1 0 [0.5; 1; 1.5; 2; 2.5; 3; 3.5; 4; 4.5] (frames_initial 1) with Ok evs => Some (map snd evs) | _ => None end.
Lemma ex_shift : f_shift = Some [Nothing; Read 1; Nothing; Nothing; Nothing; Assimilated 2; Nothing; Assimilated 3; Nothing].
Proof. vmrefl. Qed.
(** first_frame = 10, five stamps: out of bounds at the first frame. *)
Lemma ex_shift_ub : frame_run (N := FNum) [1; 2; 3; 4; 5] 0x1.028f5c28f5c29p-1 1 0 [0.5; 1] (frames_initial 10) = UB.
Proof. vmrefl. Qed.
Local Close Scope float_scope.

(** Point cloud *)
Definition x_strtod (s : string) : Q := match parse_Q s with Some q => q | None => 0%Q end.
Lemma ex_row : cloud_row (N := QNum) x_strtod 0%Q 3 "1,2,3,400" = mksample (N := QNum) [1%Q; 2%Q; 3%Q] 400%Q /\ words_of "1,2,3,400" ["1"; "2"; "3"; "400"].
Proof.
  split; [vmrefl|]. split; [discriminate|]. split; [reflexivity|]. intros w [<-|[<-|[<-|[<-|[]]]]] I; simpl in I; repeat (destruct I as [I|I]; [discriminate I|]); destruct I.
Qed.
(** An empty field shifts the row: the y coordinate becomes 3, z the value. *)
Lemma ex_row_shift : cloud_row (N := QNum) x_strtod 0%Q 3 "1,,3,400" = mksample (N := QNum) [1%Q; 3%Q; 400%Q] 0%Q.
Proof. vmrefl. Qed.
Lemma ex_file : frame_file "data/cam#camera_f#frame.csv" 2 13 = "data/cam2_f13.csv" /\ "data/cam#camera_f#frame.csv" = render_with "#camera" "#frame" [Text "data/cam"; Cam; Text "_f"; Frm; Text ".csv"].
Proof. split; vmrefl. Qed.
(** Two ranks: rank 0 has nodes 4, 7; rank 1 node 9; the observations are closest to node 9, 4, 9. *)
Lemma ex_mapping : expt_to_dof [[4; 7]; [9]]%nat [Some (0, 1); Some (0, 0); Some (0, 1)]%nat = Ok ([0; 1; 2]%nat, [9; 4; 9]%Z).
Proof. vmrefl. Qed.
