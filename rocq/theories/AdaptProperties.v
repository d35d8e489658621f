(** AdaptProperties.v -- C49 and C50.  Only statements, witnesses and assumptions. *)
From Coq Require Import Reals ZArith Bool List Floats Lia Lra.
From Verif Require Import Base BaseFacts AdaptModel AdaptSpec AdaptProofs AdaptFloat TimerModel TimerSpec TimerProofs AdaptExamples.
Import ListNotations.
Local Open Scope R_scope.

(** ** C49.  Refining: every point of every child receives the value of the first nearest quadrature point of the parent. *)
Theorem C49_refining_takes_nearest : forall (T : Type) (dflt : T) n dim coarse children vals,
  (0 < n)%nat -> quad_cell n dim coarse -> (forall ch, In ch children -> quad_cell n dim ch) ->
  in_range (concat children) coarse -> length vals = n ->
  exists out, coarse_to_fine (N := RNum) dflt coarse children vals = Ok out /\ length out = length children /\
    forall i pts, nth_error children i = Some pts -> exists row, nth_error out i = Some row /\ length row = n /\
      forall j f, nth_error pts j = Some f -> exists k, first_nearest coarse f k /\ nth_error row j = nth_error vals k /\ (k < n)%nat.
Proof. exact @coarse_to_fine_R. Qed.
Print Assumptions C49_refining_takes_nearest.
(** Coarsening: every point of the parent receives the value of the first nearest quadrature point of all children. *)
Theorem C49_coarsening_takes_nearest : forall (T : Type) n dim coarse children (vals : list (list T)),
  (0 < n)%nat -> quad_cell n dim coarse -> children <> [] -> (forall ch, In ch children -> quad_cell n dim ch) -> in_range coarse (concat children) ->
  length vals = length children -> (forall v, In v vals -> length v = n) ->
  exists out, fine_to_coarse (N := RNum) coarse children vals = Ok out /\ length out = n /\
    forall k c, nth_error coarse k = Some c -> exists i j v, first_nearest_child children c i j /\ nth_error vals i = Some v /\ nth_error out k = nth_error v j /\ (j < n)%nat.
Proof. exact @fine_to_coarse_R. Qed.
Print Assumptions C49_coarsening_takes_nearest.
Example C49_case : quad_cell 2 1 ex_coarse /\ (forall ch, In ch ex_children -> quad_cell 2 1 ch) /\ ex_children <> [] /\ in_range (concat ex_children) ex_coarse /\ in_range ex_coarse (concat ex_children).
Proof. destruct ex_cells as [A B]. destruct ex_small as [C D]. split; [exact A|]. split; [exact B|]. split; [intros E; discriminate E|]. split; [exact C|exact D]. Qed.
(** Refining and coarsening back gives the values back if each coarse point is the nearest one of the fine point nearest to it ... *)
Theorem C49_round_trip : forall (T : Type) (dflt : T) n dim coarse children vals,
  (0 < n)%nat -> quad_cell n dim coarse -> children <> [] ->
  (forall ch, In ch children -> quad_cell n dim ch) -> in_range coarse (concat children) -> in_range (concat children) coarse -> length vals = n ->
  (forall k c i j row f, nth_error coarse k = Some c -> first_nearest_child children c i j -> nth_error children i = Some row -> nth_error row j = Some f -> first_nearest coarse f k) ->
  (do fine <- coarse_to_fine (N := RNum) dflt coarse children vals; fine_to_coarse (N := RNum) coarse children fine) = Ok vals.
Proof. exact @round_trip_R. Qed.
Print Assumptions C49_round_trip.
Example C49_round_trip_case : forall k c i j row f, nth_error ex_coarse k = Some c -> first_nearest_child ex_children c i j -> nth_error ex_children i = Some row -> nth_error row j = Some f -> first_nearest ex_coarse f k.
Proof. exact ex_pairing. Qed.
(** ... and may lose values otherwise. *)
Theorem C49_round_trip_refuted : ~ (forall (coarse : list (list float)) children (vals : list nat), quad_cell 2 1 coarse -> (forall ch, In ch children -> quad_cell 2 1 ch) -> length vals = 2%nat -> children <> [] ->
  (do fine <- coarse_to_fine (N := FNum) 0%nat coarse children vals; fine_to_coarse (N := FNum) coarse children fine) = Ok vals).
Proof.
  intros H. specialize (H far_coarse far_children [7; 8]%nat). rewrite far_lost in H. assert (Ok [7; 7]%nat = Ok [7; 8]%nat) as C; [|discriminate].
  apply H; [split; [reflexivity|]; intros p [<-|[<-|[]]]; reflexivity| |reflexivity|discriminate]. intros ch [<-|[]]. split; [reflexivity|]. intros p [<-|[<-|[]]]; reflexivity.
Qed.
Print Assumptions C49_round_trip_refuted.
(** In binary64: the value of the first point of least computed squared distance among those below the largest double; NaN and overflowing
    distances are passed over; with no usable distance the behaviour is undefined. *)
Theorem C49_binary64_refining : forall (T : Type) (dflt : T) n dim coarse children vals,
  quad_cell n dim coarse -> (forall ch, In ch children -> quad_cell n dim ch) -> length vals = n ->
  (forall pts f, In pts children -> In f pts -> exists c, In c coarse /\ usable (computed f c)) ->
  exists out, coarse_to_fine (N := FNum) dflt coarse children vals = Ok out /\ length out = length children /\
    forall i pts, nth_error children i = Some pts -> exists row, nth_error out i = Some row /\ length row = n /\
      forall j f, nth_error pts j = Some f -> exists k c, nth_error coarse k = Some c /\ nth_error row j = nth_error vals k /\ (k < n)%nat /\
        usable (computed f c) /\ (forall c', In c' coarse -> PrimFloat.ltb (computed f c') (computed f c) = false) /\
        (forall k' c', nth_error coarse k' = Some c' -> (k' < k)%nat -> usable (computed f c') -> PrimFloat.ltb (computed f c) (computed f c') = true).
Proof. exact @coarse_to_fine_F. Qed.
Print Assumptions C49_binary64_refining.
Theorem C49_binary64_refining_UB : forall (T : Type) (dflt : T) n dim coarse children vals pts f,
  quad_cell n dim coarse -> (forall ch, In ch children -> quad_cell n dim ch) -> length vals = n ->
  In pts children -> In f pts -> (forall c, In c coarse -> ~ usable (computed f c)) ->
  coarse_to_fine (N := FNum) dflt coarse children vals = UB.
Proof. exact @coarse_to_fine_F_UB. Qed.
Print Assumptions C49_binary64_refining_UB.
Theorem C49_binary64_coarsening : forall (T : Type) n dim coarse children (vals : list (list T)), quad_cell n dim coarse ->
  (forall ch, In ch children -> quad_cell n dim ch) -> length vals = length children -> (forall v, In v vals -> length v = n) ->
  (forall c, In c coarse -> exists pts f, In pts children /\ In f pts /\ usable (computed f c)) ->
  exists out, fine_to_coarse (N := FNum) coarse children vals = Ok out /\ length out = n /\
    forall k c, nth_error coarse k = Some c -> exists i j pts f v, nth_error children i = Some pts /\ nth_error pts j = Some f /\ nth_error vals i = Some v /\
      nth_error out k = nth_error v j /\ (j < n)%nat /\ usable (computed f c) /\
      (forall pts' f', In pts' children -> In f' pts' -> PrimFloat.ltb (computed f' c) (computed f c) = false) /\
      (forall i' j' pts' f', nth_error children i' = Some pts' -> nth_error pts' j' = Some f' -> (i' < i \/ i' = i /\ j' < j)%nat ->
         usable (computed f' c) -> PrimFloat.ltb (computed f c) (computed f' c) = true).
Proof. exact @fine_to_coarse_F. Qed.
Print Assumptions C49_binary64_coarsening.
Theorem C49_binary64_coarsening_UB : forall (T : Type) coarse children (vals : list (list T)) c,
  In c coarse -> (forall pts f, In pts children -> In f pts -> ~ usable (computed f c)) -> fine_to_coarse (N := FNum) coarse children vals = UB.
Proof. exact @fine_to_coarse_F_UB. Qed.
Print Assumptions C49_binary64_coarsening_UB.
Example C49_nan_case : coarse_to_fine (N := FNum) 0%nat [[0x1p-1%float]] [[[nan]]] [7]%nat = UB /\
  coarse_to_fine (N := FNum) 0%nat [[nan]; [0x1p3%float]] [[[0%float]; [0x1p0%float]]] [7; 8]%nat = Ok [[8; 8]]%nat.
Proof. split; [exact nan_UB|exact nan_passed]. Qed.

(** ** C50.  The reading of a timer is the sum of the intervals from the last start before each stop to that stop, for the stops that no
    reset follows. *)
Local Open Scope Z_scope.
Theorem C50_reading : forall h, get_elapsed_time (history h) = total (measured h).
Proof. exact history_elapsed. Qed.
Print Assumptions C50_reading.
Theorem C50_alternating : forall l, get_elapsed_time (history (intervals l)) = total (map (fun ab => csub (snd ab) (fst ab)) l).
Proof. exact intervals_elapsed. Qed.
Print Assumptions C50_alternating.
Theorem C50_second_start_discards_first : forall h a b rest, history (h ++ Start a :: Start b :: rest) = history (h ++ Start b :: rest).
Proof. exact start_twice. Qed.
Print Assumptions C50_second_start_discards_first.
Example C50_case : measured [Start (at_ns 3); Stop (at_ns 5); Reset; Start (at_ns 7); Start (at_ns 8); Stop (at_ns 12); Stop (at_ns 13)] = [mkcpu 4 4 0; mkcpu 5 5 0].
Proof. reflexivity. Qed.
(** A reset does not forget the running start: time before the reset is counted; a stop without a start counts from the clock's epoch; two
    stops count the first interval twice. *)
Theorem C50_reset_clean_refuted : ~ (forall h rest, get_elapsed_time (history (h ++ Reset :: rest)) = get_elapsed_time (history rest)).
Proof. intros H. specialize (H [Start (at_ns 3)] [Stop (at_ns 5)]). discriminate H. Qed.
Print Assumptions C50_reset_clean_refuted.
Theorem C50_bounded_by_last_reading_refuted : ~ (forall a b c, 0 <= wall a -> cle a b -> cle b c -> cle (get_elapsed_time (history [Start a; Stop b; Stop c])) (csub c a)).
Proof. intros H. destruct (H (at_ns 3) (at_ns 5) (at_ns 6)) as [C _]; [cbn; lia|unfold cle; cbn; lia|unfold cle; cbn; lia|]. cbn in C. lia. Qed.
Print Assumptions C50_bounded_by_last_reading_refuted.
Theorem C50_stop_without_start : forall now, get_elapsed_time (history [Stop now]) = now.
Proof. intros now. apply cpu_eq; cbn; lia. Qed.
Print Assumptions C50_stop_without_start.
(** Only rank 0 prints, whole milliseconds of wall-clock time, rounded down. *)
Theorem C50_printed : forall rank h ms, print_timer rank (history h) = Some ms -> 0 <= wall (total (measured h)) ->
  rank = 0 /\ ms * 1000000 <= wall (total (measured h)) < (ms + 1) * 1000000.
Proof. exact printed_ms. Qed.
Print Assumptions C50_printed.
Theorem C50_other_ranks_silent : forall rank t, rank <> 0 -> print_timer rank t = None.
Proof. exact print_other. Qed.
Print Assumptions C50_other_ranks_silent.
Example C50_printed_case : print_timer 0 (history [Start (at_ns 5); Stop (at_ns 1999999)]) = Some 1.
Proof. reflexivity. Qed.
(** In an ensemble run every timer but one is started and stopped alternately: it reads the sum of its sections ... *)
Theorem C50_driver_sections : forall k n0 steps clock, k <> Cov_sparsity -> exists iv,
  calls_of k clock 0 (run_trace n0 steps) = intervals (map (fun ab => (clock (fst ab), clock (snd ab))) iv) /\
  in_order 0 iv (length (run_trace n0 steps)) /\
  get_elapsed_time (run_timer k clock (run_trace n0 steps)) = total (map (fun ab => csub (clock (snd ab)) (clock (fst ab))) iv).
Proof. exact run_intervals. Qed.
Print Assumptions C50_driver_sections.
(** ... which is between zero and the reading of the main timer, the whole run. *)
Theorem C50_driver_within_main : forall k n0 steps clock, monotone clock ->
  cle (mkcpu 0 0 0) (get_elapsed_time (run_timer k clock (run_trace n0 steps))) /\
  cle (get_elapsed_time (run_timer k clock (run_trace n0 steps))) (get_elapsed_time (run_timer Main clock (run_trace n0 steps))) /\
  get_elapsed_time (run_timer Main clock (run_trace n0 steps)) = csub (clock (pred (length (run_trace n0 steps)))) (clock 0%nat).
Proof. exact run_within_main. Qed.
Print Assumptions C50_driver_within_main.
(** The evaluation timers together do not exceed the time-step timer; the search timer does not exceed the activation timer. *)
Theorem C50_driver_nested : forall n0 steps clock, monotone clock ->
  let reading k := get_elapsed_time (run_timer k clock (run_trace n0 steps)) in
  cle (total [reading Eval_th_ph; reading Bound_mat]) (reading Evol) /\ cle (total [reading Search]) (reading Activate).
Proof. intros n0 steps clock M. split; [apply (run_covered [Eval_th_ph; Bound_mat] Evol)|apply (run_covered [Search] Activate)]; auto. Qed.
Print Assumptions C50_driver_nested.
(** The covariance-sparsity timer is never stopped: it reads zero whatever the run does, so it does not measure its section. *)
Theorem C50_sparsity_timer_reads_zero : forall n0 steps clock, get_elapsed_time (run_timer Cov_sparsity clock (run_trace n0 steps)) = mkcpu 0 0 0.
Proof. exact cov_never_stopped. Qed.
Print Assumptions C50_sparsity_timer_reads_zero.
Example C50_driver_case : monotone busy_clock /\ wall (get_elapsed_time (run_timer Eval_th_ph busy_clock (run_trace 2 [busy_step; busy_step]))) = 10 /\
  wall (get_elapsed_time (run_timer Evol busy_clock (run_trace 2 [busy_step; busy_step]))) = 42 /\ length (calls_of Cov_sparsity busy_clock 0 (run_trace 2 [busy_step; busy_step])) = 4%nat.
Proof. split; [exact busy_monotone|]. split; [|split]; vmrefl. Qed.
