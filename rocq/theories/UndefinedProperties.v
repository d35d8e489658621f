(** UndefinedProperties.v -- more of C36, C38 and C44: what is not reported but undefined.  Only statements, witnesses and assumptions. *)
From Coq Require Import QArith List Bool Lia.
From Verif Require Import Base AssimilationModel StressModel RunModel UndefinedSpec UndefinedProofs.
Import ListNotations.

(** A process whose values do not fit into the vectors that the root makes (the parameters of the first process give the size of their block): undefined,
    not reported. *)
Theorem C36_out_of_range : forall (N : Num) (group : list (process N)) i p m, In p group -> nth_error (pr_members p) i = Some m ->
  ~ (fits (pr_set0 p) (fst m) (block_size0 group) /\ fits (pr_set1 p) (snd m) (block_size1 group)) -> gather_member group i = UB.
Proof. exact @gather_out_of_range. Qed.
Print Assumptions C36_out_of_range.
(** The second process has two parameters, the first one. *)
Theorem C36_out_of_range_case : let p1 := mkproc (N := QNum) [0%nat] [0%nat] [([1%Q], [7%Q])] in let p2 := mkproc (N := QNum) [1%nat] [0%nat; 1%nat] [([2%Q], [8%Q; 9%Q])] in
  In p2 [p1; p2] /\ nth_error (pr_members p2) 0 = Some ([2%Q], [8%Q; 9%Q]) /\ fits (pr_set0 p2) [2%Q] (block_size0 [p1; p2]) /\ ~ fits (pr_set1 p2) [8%Q; 9%Q] (block_size1 [p1; p2]).
Proof. exact out_of_range_case. Qed.
Print Assumptions C36_out_of_range_case.

(** A pass with a period of zero divides by zero, whatever else is in the input; the loop itself reports nothing. *)
Theorem C38_zero_period_undefined : forall (N : Num) cfg reread redep (st : state N), c_output cfg = 0%nat \/ c_checkpoint cfg = Some 0%nat \/ (c_mech cfg = true /\ c_mech_factor cfg = 0%nat) \/ (s_n st <> 1%nat /\ c_refine cfg = 0%nat) ->
  step cfg reread redep st = UB.
Proof. exact @zero_period. Qed.
Print Assumptions C38_zero_period_undefined.
Theorem C38_loop_reports_nothing : forall (N : Num) cfg reread redep fuel (st : state N), run cfg reread redep fuel st <> Throw.
Proof. exact @run_reports. Qed.
Print Assumptions C38_loop_reports_nothing.

(** A cell with material for which fewer stress states are stored than it has quadrature points, or none (as after the mesh or the material has changed
    without updating them): undefined, not reported, whatever the other cells have. *)
Theorem C44_missing_states_undefined : forall (N : Num) (cells : list (mech_cell N)) vars i c, nth_error cells i = Some c -> mc_active c = true ->
  (forall v, nth_error vars i = Some v -> (List.length v < List.length (mc_strain c))%nat) -> compute_stress cells vars = UB.
Proof. exact @stress_undefined. Qed.
Print Assumptions C44_missing_states_undefined.
