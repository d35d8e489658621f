(** MicrostructureProperties.v -- C30.  Only statements, witnesses and assumptions. *)
From Coq Require Import Reals ZArith QArith Bool List String Floats.
From Verif Require InputModel.
From Verif Require Import Base BaseFacts MicrostructureModel MicrostructureSpec MicrostructureProofs MicrostructureExamples.
Import ListNotations.
Local Open Scope R_scope.

(** A line is written exactly for every point of a cell that goes from above the liquidus to the liquidus or below, any mesh, any arithmetic. *)
Theorem C30_recorded_iff : forall (N : Num) n (old new : nat -> N) dt (cs : list (cell N)) sigma, (forall c, In c cs -> c_selected c = true -> interpolating n c sigma) ->
  forall l, In l (compute_G_and_R n old new dt cs) <-> exists c, In c cs /\ c_selected c = true /\ solidifies old new dt c sigma l.
Proof. exact @recorded_iff. Qed.
Print Assumptions C30_recorded_iff.
(** Whole run of a rank: exactly the solidification events of every thermal step, between the temperature before and after that step. *)
Theorem C30_whole_run : forall (N : Num) n (ps : list (pass N)) sigma, (forall p c, In p ps -> In c (p_cells p) -> c_selected c = true -> interpolating n c sigma) ->
  forall l, In l (rank_file n ps) <-> exists p c, In p ps /\ In c (p_cells p) /\ c_selected c = true /\ solidifies (p_before p) (p_after p) (p_dt p) c sigma l.
Proof. exact run_recorded_iff. Qed.
Print Assumptions C30_whole_run.
(** As many lines as degrees of freedom that solidify. *)
Theorem C30_once_per_cell : forall (N : Num) n (old new : nat -> N) dt (c : cell N) sigma, c_selected c = true -> interpolating n c sigma ->
  (forall q q', (q < n)%nat -> (q' < n)%nat -> sigma q = sigma q' -> q = q') ->
  List.length (compute_G_and_R n old new dt [c]) = List.length (filter (fun dof => nltb N (c_liquidus c) (old dof) && nleb N (new dof) (c_liquidus c)) (c_dofs c)).
Proof. exact @count_ok. Qed.
Print Assumptions C30_once_per_cell.
Example C30_element : forall a, interpolating 2 (mcell QNum a) sig /\ interpolating 2 (mcell RNum a) sig. Proof. exact (fun a => conj (mcell_interpolating a) (mcell_interpolating_R a)). Qed.
Example C30_element_injective : forall q q', (q < 2)%nat -> (q' < 2)%nat -> sig q = sig q' -> q = q'. Proof. exact sig_injective. Qed.
(** G is the norm of the gradient; the velocity is the rate divided by G (see solidifies and line_of). *)
Theorem C30_gradient_norm : forall g : pt RNum, 0 <= norm_G g /\ norm_G g * norm_G g = px g * px g + py g * py g + pz g * pz g.
Proof. exact norm_ok. Qed.
Print Assumptions C30_gradient_norm.
(** The gradient in that norm is the one of the interpolated new temperature at the point. *)
Theorem C30_gradient : forall (new : nat -> R) (c : cell RNum) q, is_gradient new c q (gradient (N := RNum) new c q).
Proof. exact gradient_ok. Qed.
Print Assumptions C30_gradient.
(** The recorded rate is the temperature drop divided by the time step only for a step of 1 or an old temperature of 0 ... *)
Theorem C30_rate_only_if : forall old new dt : R, dt <> 0 -> (cooling_rate (N := RNum) old new dt = (old - new) / dt <-> old = 0 \/ dt = 1).
Proof. exact rate_wrong. Qed.
Print Assumptions C30_rate_only_if.
Theorem C30_rate_negative : forall old new dt : R, 0 < dt -> dt * old < new -> cooling_rate (N := RNum) old new dt < 0.
Proof. exact rate_negative. Qed.
Print Assumptions C30_rate_negative.
(** ... a drop of 50 in a step of 1/10 is recorded as -8590, and twice, since two cells share the point. *)
Theorem C30_rate_refuted : map (fun l : line QNum => (Qred (px (l_point l)), Qred (l_G l), Qred (l_rate l))) (compute_G_and_R (N := QNum) 2 (t_old QNum) (t_new QNum) (1 # 10) [mcell QNum 0; mcell QNum 1]) =
  [(1%Q, 60%Q, (-8590)%Q); (1%Q, 60%Q, (-8590)%Q)].
Proof. exact ex_lines. Qed.
Print Assumptions C30_rate_refuted.
Example C30_velocity_infinite : map (fun l => l_R l) (compute_G_and_R (N := FNum) 2 (fun _ => nofZ FNum 1010) (fun _ => nofZ FNum 1000) (nofZ FNum 1) [mcell FNum 0]) = [infinity; infinity]. Proof. exact ex_infinite. Qed.
(** The final file holds the lines of all the ranks, in rank order; the temporary files are gone and nothing else has changed. *)
Theorem C30_files : forall (L : Type) prefix n (f : @fs L), (0 < n)%nat ->
  concatenate prefix n f (prefix ++ ".txt")%string = Some (List.concat (map (fun r => read_or_empty f (prefix ++ "_" ++ InputModel.to_string r ++ ".txt")%string) (seq 0 n))) /\
  (forall r, (r < n)%nat -> concatenate prefix n f (prefix ++ "_" ++ InputModel.to_string r ++ ".txt")%string = None) /\
  (forall name, name <> (prefix ++ ".txt")%string -> (forall r, (r < n)%nat -> name <> (prefix ++ "_" ++ InputModel.to_string r ++ ".txt")%string) -> concatenate prefix n f name = f name).
Proof. exact @concatenate_ok. Qed.
Print Assumptions C30_files.
