(** RunExamples.v -- concrete runs, output lists, file names. *)
From Coq Require Import Reals ZArith QArith Bool List String Ascii Sorted Lra Lia.
From Verif Require Import Base BaseFacts RunModel RunSpec RunProofs RunProofs2.
Import ListNotations.

(** ** The list of outputs *)
Lemma outputs_seq {N : Num} (cfg : config N) reread redep fuel : forall st es st' fin, run cfg reread redep fuel st = Ok (es, st', fin) -> (es <> [] -> c_output cfg <> 0%nat) ->
  map fst (map (fun e => (e_n e, e_to e)) (filter e_output es)) = filter (fun n => Nat.eqb (Nat.modulo n (c_output cfg)) 0) (seq (s_n st) (List.length es)).
Proof.
  induction fuel as [|f IH]; intros st es st' fin H NZ; apply run_cons in H.
  - destruct H as [(-> & -> & _)|(f & e & es' & st1 & F & _)]; [reflexivity|discriminate].
  - destruct H as [(-> & -> & _)|(f' & e & es' & st1 & F & _ & -> & S1 & R)]; [reflexivity|]. injection F as <-.
    assert (P0 : c_output cfg <> 0%nat) by (apply NZ; discriminate).
    destruct (step_schedule _ _ _ _ _ _ S1) as (E1 & E2 & _ & _ & _ & EO & _). assert (G := IH _ _ _ _ R (fun _ => P0)).
    rewrite E2 in G. replace (s_n st + 1)%nat with (S (s_n st)) in G by lia. cbn [List.length seq filter].
    assert (EQ : e_output e = Nat.eqb (Nat.modulo (s_n st) (c_output cfg)) 0).
    { destruct (e_output e) eqn:O; symmetry.
      - destruct (proj1 EO eq_refl) as [k K]. apply Nat.eqb_eq. rewrite K. apply Nat.mod_mul, P0.
      - apply Nat.eqb_neq. intros C. apply Nat.mod_divide in C; [|exact P0]. destruct C as [k C]. assert (false = true) by (apply EO; exists k; exact C). discriminate. }
    rewrite EQ. destruct (Nat.eqb (Nat.modulo (s_n st) (c_output cfg)) 0); cbn [map fst]; rewrite G; [rewrite E1|]; reflexivity.
Qed.
Lemma outputs_fresh {N : Num} (cfg : config N) reread redep ps dep fuel st es st' fin : start cfg None ps dep = Ok st -> run cfg reread redep fuel st = Ok (es, st', fin) -> c_output cfg <> 0%nat ->
  map fst (outputs st es) = filter (fun n => Nat.eqb (Nat.modulo n (c_output cfg)) 0) (seq 0 (List.length es + 1)).
Proof.
  intros S0 R NZ. unfold outputs. cbn [map]. rewrite (outputs_seq _ _ _ _ _ _ _ _ R (fun _ => NZ)).
  assert (E : s_n st = 1%nat). { unfold start in S0. destruct (startup_duration cfg ps) as [[e d]| |]; simpl in S0; try discriminate. injection S0 as <-. reflexivity. }
  rewrite E, Nat.add_1_r. cbn [seq filter]. rewrite Nat.mod_0_l by exact NZ. reflexivity.
Qed.
Lemma outputs_restart {N : Num} (cfg : config N) t n ps dep st es : start cfg (Some (t, n)) ps dep = Ok st -> exists l, outputs st es = (n, t) :: l.
Proof.
  intros S0. unfold start in S0. destruct (startup_duration cfg ps) as [[e d]| |]; simpl in S0; try discriminate. injection S0 as <-.
  unfold outputs. cbn [s_n s_time]. rewrite Nat.add_sub. eauto.
Qed.

(** ** The window of a pass *)
Lemma window_bounds (cfg : config RNum) reread redep (st st' : state RNum) (e : event RNum) j (tau : R) : regular cfg -> step cfg reread redep st = Ok (e, st') ->
  StronglySorted Rle (s_dep st) -> nth_error (s_dep st) j = Some tau -> activates e j ->
  (e_from e - s_dt st / 1000000 <= tau /\ tau < e_from e + Rmax (c_activation cfg) (e_dt e) /\ tau < s_duration st)%R.
Proof.
  intros REG S1 SS E A. destruct (step_regular cfg reread redep REG st) as (e0 & st0 & S0 & _ & EF & ED & _ & EW & _). rewrite S0 in S1. injection S1 as <- <-. cbv zeta in ED.
  unfold activates in A. rewrite EW in A. apply (in_window cfg st j tau SS E) in A. destruct A as (_ & L & U). unfold tol_of in L. rewrite EF, ED.
  assert (U1 := Rmin_l (s_time st + Rmax (c_activation cfg) (stepsize (s_time st) (s_dt st) (s_duration st))) (s_duration st)).
  assert (U2 := Rmin_r (s_time st + Rmax (c_activation cfg) (stepsize (s_time st) (s_dt st) (s_duration st))) (s_duration st)).
  cbn [num RNum] in *. repeat split; lra.
Qed.
(** From a fresh start. *)
Lemma cover_fresh (cfg : config RNum) reread redep ps dep fuel (st st' : state RNum) es (m : nat) : regular cfg -> (0 < (c_time_step cfg : R))%R -> (1 <= m)%nat ->
  Rmax (c_activation cfg) (c_time_step cfg) = (INR m * c_time_step cfg)%R -> StronglySorted Rle dep -> start cfg None ps dep = Ok st -> run cfg reread redep fuel st = Ok (es, st', true) ->
  forall j (tau : R), nth_error dep j = Some tau -> (0 <= tau < c_duration cfg)%R -> Exists (fun e => activates e j) es.
Proof.
  intros REG DT M1 ACT SS S0 R j tau E B. assert (SD := REG). destruct SD as (_ & SD & _). unfold start, startup_duration in S0. rewrite SD in S0. cbn [bind] in S0. injection S0 as <-.
  match type of R with run _ _ _ _ ?s = _ => refine (cover cfg reread redep REG 0%R (c_time_step cfg) m DT M1 ACT fuel s es st' 0%nat 0%R eq_refl _ SS _ R j tau E B) end; simpl; [lra|]. left. lra.
Qed.

(** ** File names *)
Local Open Scope string_scope.
Lemma append_length (a b : string) : String.length (a ++ b) = (String.length a + String.length b)%nat.
Proof. induction a as [|c a IH]; simpl; [reflexivity|]. rewrite IH. reflexivity. Qed.
Lemma append_self (a b : string) : a ++ b = b -> a = "".
Proof. intros H. apply (f_equal String.length) in H. rewrite append_length in H. destruct a; [reflexivity|simpl in H; lia]. Qed.
Lemma files_found overwrite prefix n output_dir rp : let p := checkpoint_prefix overwrite prefix n in
  (read_mesh rp = written_mesh output_dir p /\ read_time rp = written_time output_dir p) <-> (rp = p /\ output_dir = "").
Proof.
  cbv zeta. unfold read_mesh, written_mesh, read_time, written_time. split.
  - intros [-> H]. split; [reflexivity|]. apply (append_self output_dir (checkpoint_prefix overwrite prefix n ++ "_time.txt")). symmetry. exact H.
  - intros [-> ->]. split; reflexivity.
Qed.

(** ** Concrete runs *)
Local Open Scope Q_scope.
Definition ok {A} (d : A) (r : res A) : A := match r with Ok a => a | _ => d end.
Definition ex_cfg : config QNum := mkcfg (N := QNum) true true 2 3 4 (Some 2%nat) (3 # 2) false 1 (7 # 2).
Definition no_reread : nat -> nat -> path QNum := fun _ _ => mkpath (N := QNum) [] false.
Definition no_redep : nat -> list QNum := fun _ => [].
Definition ex_dep : list QNum := [1 # 2; 17 # 10; 5 # 2].
Definition ex_start : state QNum := mkst (N := QNum) 0 1 (7 # 2) 1 (-1) 0 [] ex_dep.
Definition ex_run : list (event QNum) :=
  [mkev (N := QNum) 1 0 1 1 (Some (0, 2)) (Some (0, 1)%nat) true false false false;
   mkev (N := QNum) 2 1 1 2 (Some (1, 3)) None true false true false;
   mkev (N := QNum) 3 2 1 3 None (Some (2, 3)%nat) true true false true;
   mkev (N := QNum) 4 3 (1 # 2) (7 # 2) (Some (3, 4)) None true true true false].
Lemma ex_start_ok : start ex_cfg None [] ex_dep = Ok ex_start.
Proof. exact (@eq_refl _ (Ok ex_start) <: start ex_cfg None [] ex_dep = Ok ex_start). Qed.
Definition ex_end : state QNum := mkst (N := QNum) (7 # 2) (1 # 2) (7 # 2) 5 (7 # 2) 0 [] ex_dep.
Lemma ex_run_is : run ex_cfg no_reread no_redep 10 ex_start = Ok (ex_run, ex_end, true).
Proof. exact (@eq_refl _ (Ok (ex_run, ex_end, true)) <: run ex_cfg no_reread no_redep 10 ex_start = Ok (ex_run, ex_end, true)). Qed.
Lemma ex_run_ok : exists st', run ex_cfg no_reread no_redep 10 ex_start = Ok (ex_run, st', true) /\ s_time st' = (7 # 2).
Proof. exists ex_end. split; [exact ex_run_is|reflexivity]. Qed.
(** Activation period 1.5 time steps: box number 1, at time 1.7, is in no window. *)
Lemma ex_skipped : exists st', run ex_cfg no_reread no_redep 10 ex_start = Ok (ex_run, st', true) /\ nth_error ex_dep 1 = Some (17 # 10) /\
  (0 <= 17 # 10 /\ 17 # 10 < c_duration ex_cfg)%Q /\ ~ Exists (fun e => activates e 1) ex_run.
Proof.
  exists ex_end. split; [exact ex_run_is|]. split; [reflexivity|]. split; [split; [discriminate|reflexivity]|].
  intros H. unfold ex_run in H. repeat (apply Exists_cons in H; destruct H as [(a & b & E & L)|H]; [try discriminate E; injection E as <- <-; lia|]). inversion H.
Qed.
Lemma ex_any_period : exists (cfg : config QNum) reread redep dep st es st' j (tau : Q), regular cfg /\ start cfg None [] dep = Ok st /\ run cfg reread redep 10 st = Ok (es, st', true) /\
  nth_error dep j = Some tau /\ (0 <= tau /\ tau < c_duration cfg)%Q /\ ~ Exists (fun e => activates e j) es.
Proof.
  destruct ex_skipped as (st' & R & E & B & X). exists ex_cfg, no_reread, no_redep, ex_dep, ex_start, ex_run, st', 1%nat, (17 # 10).
  split; [repeat split; discriminate|]. split; [exact ex_start_ok|]. auto.
Qed.

(** Activation period of two steps, checkpoint at each step: after a restart the windows are shifted. *)
Definition rs_cfg : config QNum := mkcfg (N := QNum) true false 10 1 1 (Some 1%nat) 2 false 1 4.
Definition rs_dep : list QNum := [5 # 2].
Definition rs_start : state QNum := Eval vm_compute in ok ex_start (start rs_cfg None [] rs_dep).
Definition rs_res : list (event QNum) * state QNum * bool := Eval vm_compute in ok ([], ex_start, false) (run rs_cfg no_reread no_redep 9 rs_start).
Definition rs_again : state QNum := Eval vm_compute in ok ex_start (start rs_cfg (Some (1%Q, 1%nat)) [] rs_dep).
Definition rs_res2 : list (event QNum) * state QNum * bool := Eval vm_compute in ok ([], ex_start, false) (run rs_cfg no_reread no_redep 9 rs_again).
Lemma rs_start_is : start rs_cfg None [] rs_dep = Ok rs_start. Proof. exact (@eq_refl _ (Ok rs_start) <: start rs_cfg None [] rs_dep = Ok rs_start). Qed.
Lemma rs_res_is : run rs_cfg no_reread no_redep 9 rs_start = Ok rs_res. Proof. exact (@eq_refl _ (Ok rs_res) <: run rs_cfg no_reread no_redep 9 rs_start = Ok rs_res). Qed.
Lemma rs_again_is : start rs_cfg (Some (1%Q, 1%nat)) [] rs_dep = Ok rs_again. Proof. exact (@eq_refl _ (Ok rs_again) <: start rs_cfg (Some (1%Q, 1%nat)) [] rs_dep = Ok rs_again). Qed.
Lemma rs_res2_is : run rs_cfg no_reread no_redep 9 rs_again = Ok rs_res2. Proof. exact (@eq_refl _ (Ok rs_res2) <: run rs_cfg no_reread no_redep 9 rs_again = Ok rs_res2). Qed.
Lemma rs_shifted : exists st es st', start rs_cfg None [] rs_dep = Ok st /\ run rs_cfg no_reread no_redep 9 st = Ok (es, st', true) /\
  exists e r esr st'', nth_error es 0 = Some e /\ e_checkpoint e = true /\ start rs_cfg (Some (checkpoint_content e)) [] rs_dep = Ok r /\ run rs_cfg no_reread no_redep 9 r = Ok (esr, st'', true) /\
  exists e1 e2, nth_error es 1 = Some e1 /\ nth_error esr 0 = Some e2 /\ e_n e1 = e_n e2 /\ e_window e1 = None /\ activates e2 0.
Proof.
  exists rs_start, (fst (fst rs_res)), (snd (fst rs_res)). split; [exact rs_start_is|]. split; [exact rs_res_is|].
  eexists _, rs_again, (fst (fst rs_res2)), (snd (fst rs_res2)). split; [reflexivity|]. split; [reflexivity|]. split; [exact rs_again_is|]. split; [exact rs_res2_is|].
  eexists _, _. split; [reflexivity|]. split; [reflexivity|]. split; [reflexivity|]. split; [reflexivity|]. exists 0%nat, 1%nat. split; [reflexivity|lia].
Qed.

(** Two finished paths that end at 1 and 5: the run ends at 1. *)
Definition sc_cfg : config QNum := mkcfg (N := QNum) true false 10 1 1 None 0 true (1 # 4) 0.
Definition sc_paths : list (path QNum) := [mkpath (N := QNum) [1 # 2; 1] true; mkpath (N := QNum) [2; 5] true].
Definition sc_reread : nat -> nat -> path QNum := fun _ i => nth i sc_paths (mkpath (N := QNum) [] false).
Definition sc_start : state QNum := Eval vm_compute in ok ex_start (start sc_cfg None sc_paths []).
Definition sc_res : list (event QNum) * state QNum * bool := Eval vm_compute in ok ([], ex_start, false) (run sc_cfg sc_reread no_redep 99 sc_start).
Lemma sc_start_is : start sc_cfg None sc_paths [] = Ok sc_start. Proof. exact (@eq_refl _ (Ok sc_start) <: start sc_cfg None sc_paths [] = Ok sc_start). Qed.
Lemma sc_res_is : run sc_cfg sc_reread no_redep 99 sc_start = Ok sc_res. Proof. exact (@eq_refl _ (Ok sc_res) <: run sc_cfg sc_reread no_redep 99 sc_start = Ok sc_res). Qed.
Lemma sc_early : exists st es st', start sc_cfg None sc_paths [] = Ok st /\ run sc_cfg sc_reread no_redep 99 st = Ok (es, st', true) /\
  (forall p, In p sc_paths -> p_finished p = true) /\ s_time st' = 1 /\ In (mkpath (N := QNum) [2; 5] true) sc_paths.
Proof.
  exists sc_start, (fst (fst sc_res)), (snd (fst sc_res)). split; [exact sc_start_is|]. split; [exact sc_res_is|]. split; [intros p [<-|[<-|[]]]; reflexivity|]. split; [reflexivity|]. right. left. reflexivity.
Qed.
(** A path unfinished at start-up and completed by the first re-reading: the run goes on after its end. *)
Definition gr_path (fin : bool) : path QNum := mkpath (N := QNum) [1] fin.
Definition gr_reread : nat -> nat -> path QNum := fun _ _ => gr_path true.
Definition gr_start : state QNum := Eval vm_compute in ok ex_start (start sc_cfg None [gr_path false] []).
Definition gr_res : list (event QNum) * state QNum * bool := Eval vm_compute in ok ([], ex_start, false) (run sc_cfg gr_reread no_redep 40 gr_start).
Lemma gr_start_is : start sc_cfg None [gr_path false] [] = Ok gr_start. Proof. exact (@eq_refl _ (Ok gr_start) <: start sc_cfg None [gr_path false] [] = Ok gr_start). Qed.
Lemma gr_res_is : run sc_cfg gr_reread no_redep 40 gr_start = Ok gr_res. Proof. exact (@eq_refl _ (Ok gr_res) <: run sc_cfg gr_reread no_redep 40 gr_start = Ok gr_res). Qed.
Lemma gr_goes_on : exists st es st', start sc_cfg None [gr_path false] [] = Ok st /\ run sc_cfg gr_reread no_redep 40 st = Ok (es, st', false) /\ s_time st' = 10 /\ s_paths st' = [gr_path true].
Proof. exists gr_start, (fst (fst gr_res)), (snd (fst gr_res)). split; [exact gr_start_is|]. split; [exact gr_res_is|]. split; reflexivity. Qed.

(** Zero periods. *)
Lemma zero_output : step (mkcfg (N := QNum) true false 2 0 1 None 0 false 1 2) no_reread no_redep ex_start = UB.
Proof. reflexivity. Qed.
(** Mechanical-only run with a checkpoint: the thermal physics does not exist. *)
Lemma mech_checkpoint : step (mkcfg (N := QNum) false true 2 1 1 (Some 1%nat) 0 false 1 2) no_reread no_redep ex_start = UB.
Proof. reflexivity. Qed.
