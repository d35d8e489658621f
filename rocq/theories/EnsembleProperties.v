(** EnsembleProperties.v -- C26-C29.  Only statements, witnesses and assumptions. *)
From Coq Require Import Reals ZArith QArith Bool List String Floats Uint63.
From Flocq Require Import Core.
From Verif Require Import Base BaseFacts MaterialFloat InputModel EnsembleModel EnsembleSpec EnsembleProofs EnsembleProofs2 EnsembleExamples.
Import ListNotations.
Local Open Scope string_scope.

(** * C26 *)
(** Every member belongs to exactly one group, and the groups own nothing else. *)
Theorem C26_every_member_once : forall n_procs size m, (0 < n_procs)%nat -> (0 < size)%nat -> (n_procs <= size \/ Nat.modulo n_procs size = 0)%nat -> (m < size)%nat ->
  exists c, owns n_procs size c m /\ forall c', owns n_procs size c' m -> c' = c.
Proof. intros P N m P0 N0 D M. destruct (owned_exists P N m P0 N0 D M) as [c H]. exists c. split; [exact H|]. intros c' H'. exact (owned_unique P N c' c m H' H). Qed.
Print Assumptions C26_every_member_once.
Example C26_example : group 6 3 1 = [2; 3]%nat /\ group 2 5 0 = [0]%nat /\ split 2 5 0 = Ok (mkpart 0 3 0) /\ split 2 5 1 = Ok (mkpart 1 2 3) /\ split 6 3 4 = Ok (mkpart 2 1 2) /\ split 4 3 0 = Throw.
Proof. repeat split; vm_compute; reflexivity. Qed.
Theorem C26_owned_in_range : forall n_procs size c m, owns n_procs size c m -> (m < size)%nat /\ (c < n_procs)%nat /\ (c < size)%nat.
Proof. exact owned_bound. Qed.
Print Assumptions C26_owned_in_range.
(** The ranks of a group agree on the members of the group. *)
Theorem C26_group_agrees : forall n_procs size r r' p p', (r < n_procs)%nat -> (r' < n_procs)%nat -> split n_procs size r = Ok p -> split n_procs size r' = Ok p' -> part_color p = part_color p' ->
  part_size p = part_size p' /\ part_first p = part_first p'.
Proof. exact same_group. Qed.
Print Assumptions C26_group_agrees.
Theorem C26_refused : forall n_procs size r, (split n_procs size r = Throw <-> (size <> 0 /\ size < n_procs /\ Nat.modulo n_procs size <> 0)%nat) /\ (split n_procs size r = UB <-> size = 0%nat).
Proof. exact split_refused. Qed.
Print Assumptions C26_refused.
Theorem C26_equal_groups : forall n_procs size c, (size < n_procs)%nat -> (0 < size)%nat -> Nat.modulo n_procs size = 0%nat -> (c < size)%nat -> List.length (group n_procs size c) = Nat.div n_procs size.
Proof. exact equal_groups. Qed.
Print Assumptions C26_equal_groups.
Theorem C26_single_groups : forall n_procs size c, (n_procs <= size)%nat -> (0 < n_procs)%nat -> (c < n_procs)%nat -> group n_procs size c = [c].
Proof. exact single_groups. Qed.
Print Assumptions C26_single_groups.
(** The decisions are taken on a binary64 quotient: comparison with 1, equality with its floor, and the floor are those of the exact quotient. *)
Theorem C26_binary64_quotient : forall n_procs size : nat, (0 < size)%nat -> (Z.of_nat size < 2 ^ 32)%Z -> (Z.of_nat n_procs < 2 ^ 32)%Z ->
  let q := ndiv FNum (nofZ FNum (Z.of_nat n_procs)) (nofZ FNum (Z.of_nat size)) in
  Ffinite q /\ nltb FNum (nofZ FNum 1) q = Nat.ltb size n_procs /\ (Fval q = IZR (Zfloor (Fval q)) <-> Nat.modulo n_procs size = 0%nat) /\ Zfloor (Fval q) = Z.of_nat (Nat.div n_procs size).
Proof. exact quotient_binary64. Qed.
Print Assumptions C26_binary64_quotient.

(** * C27 *)
(** A group restarts from the files it wrote only if it is the first one ... *)
Theorem C27_restart_first_group : forall n_procs size r p prefix m, (r < n_procs)%nat -> split n_procs size r = Ok p -> (m < part_size p)%nat ->
  (loaded_file prefix p m = saved_file prefix p m <-> part_color p = 0%nat).
Proof. exact restart_member. Qed.
Print Assumptions C27_restart_first_group.
(** ... the others load the members of the first. *)
Theorem C27_others_load_first : forall n_procs size r p r0 p0 prefix m, (r < n_procs)%nat -> split n_procs size r = Ok p -> (r0 < n_procs)%nat -> split n_procs size r0 = Ok p0 -> part_color p0 = 0%nat ->
  (m < part_size p)%nat -> loaded_file prefix p m = saved_file prefix p0 m /\ (m < part_size p0)%nat.
Proof. exact loads_first. Qed.
Print Assumptions C27_others_load_first.
(** Different members are saved in different files. *)
Theorem C27_files_distinct : forall n_procs size r r' p p' prefix m m', (r < n_procs)%nat -> (r' < n_procs)%nat -> split n_procs size r = Ok p -> split n_procs size r' = Ok p' ->
  (m < part_size p)%nat -> (m' < part_size p')%nat -> saved_file prefix p m = saved_file prefix p' m' -> part_color p = part_color p' /\ m = m'.
Proof. exact saved_distinct. Qed.
Print Assumptions C27_files_distinct.
Theorem C27_reloads_own_member_refuted : exists n_procs size r p m, (r < n_procs)%nat /\ split n_procs size r = Ok p /\ (m < part_size p)%nat /\ saved_file "ck" p m = "ck_2" /\ loaded_file "ck" p m = "ck_0".
Proof. exists 2%nat, 4%nat, 1%nat, (mkpart 1 2 2), 0%nat. repeat split; vm_compute; auto. Qed.
Print Assumptions C27_reloads_own_member_refuted.

(** * C28 *)
(** Any arithmetic, any reader that reads back what was printed, any stream, any number of rejections. *)
Theorem C28_nonnegative : forall (N : Num) (tdouble : string -> option N) (fmt : N -> string) (z : nat -> N), (forall v, tdouble (fmt v) = Some v) -> forall fuel db first local global st,
  create_database_ensemble tdouble fmt z fuel db first local global = Ok (Some st) ->
  forall d key, In d (ts_dbs st) -> In key (ts_keys st) -> exists v, get tdouble d key = Ok v /\ nltb N v (nofZ N 0) = false.
Proof. exact @drawn_nonneg. Qed.
Print Assumptions C28_nonnegative.
(** Nothing rejected: the value of parameter i in global member first + m is variate first + m + i * size, wherever the member lives; all else is as in the input. *)
Theorem C28_partition_independent : forall (N : Num) (tdouble : string -> option N) (fmt : N -> string) (z : nat -> N), (forall v, tdouble (fmt v) = Some v) -> forall fuel db first local global ps,
  (1 <= local)%nat -> described tdouble db ps ->
  (forall i p g, nth_error ps i = Some p -> (first <= g < first + local)%nat -> nltb N (nadd N (nmul N (z (g + i * global)%nat) (pr_stddev p)) (pr_mean p)) (nofZ N 0) = false) ->
  exists st, create_database_ensemble tdouble fmt z (S fuel) db first local global = Ok (Some st) /\ List.length (ts_dbs st) = local /\ ts_keys st = map pr_key ps /\
  forall m d, nth_error (ts_dbs st) m = Some d ->
    (forall i p, nth_error ps i = Some p -> get tdouble d (pr_key p) = Ok (nadd N (nmul N (z (first + m + i * global)%nat) (pr_stddev p)) (pr_mean p))) /\
    (forall q, ~ In q (map pr_key ps) -> get_str_opt d q = get_str_opt db q).
Proof. exact @partition_independent. Qed.
Print Assumptions C28_partition_independent.
Example C28_reader : forall q, read_Q (print_Q q) = Some q. Proof. exact read_print. Qed.
Example C28_database : described (N := QNum) read_Q (en_db "100" "10") en_ps. Proof. exact en_described. Qed.
Example C28_no_rejection : forall i p g, nth_error en_ps i = Some p -> (0 <= g < 3)%nat -> nltb QNum (draw (N := QNum) en_z (pr_mean p) (pr_stddev p) (g + i * 3)) (nofZ QNum 0) = false. Proof. exact en_no_rejection. Qed.
Example C28_example : en_power (en_run (en_db "100" "10") 1 0) = [Ok 90%Q; Ok 110%Q; Ok 120%Q] /\ en_power (en_run (en_db "100" "10") 2 0) = [Ok 90%Q; Ok 110%Q] /\ en_power (en_run (en_db "100" "10") 2 1) = [Ok 120%Q].
Proof. exact en_independent. Qed.
(** One rejection: three members get 1, 2, 3 on one process but 1, 2 and 2 on two. *)
Theorem C28_rejections_refuted : en_power (en_run (en_db "0" "1") 1 0) = [Ok 1%Q; Ok 2%Q; Ok 3%Q] /\ en_power (en_run (en_db "0" "1") 2 0) = [Ok 1%Q; Ok 2%Q] /\ en_power (en_run (en_db "0" "1") 2 1) = [Ok 2%Q].
Proof. exact en_collision. Qed.
Print Assumptions C28_rejections_refuted.
(** A negative mean with no deviation: drawing never ends. *)
Theorem C28_never_ends : forall fuel (z : nat -> R) (mean : R) k, (mean < 0)%R -> draw_one (N := RNum) z fuel mean 0%R k = None.
Proof. exact never_drawn. Qed.
Print Assumptions C28_never_ends.

(** * C29 *)
(** Members with the same types of beams: a source per beam, of the same type, whose diameter is the largest of all the members; cubes are copied. *)
Theorem C29_bounds_diameter : forall (local : list (list (beam RNum))) all m0 rest r, local = m0 :: rest -> Forall known m0 -> (forall rank m, In rank all -> In m rank -> same_types m0 m) ->
  bounding_heat_sources local all = Ok r -> List.length r = List.length m0 /\
  forall i b, nth_error m0 i = Some b -> exists s, nth_error r i = Some (Some s) /\ b_type s = b_type b /\ (b_type b = "cube" -> s = b) /\
  (moving b -> forall rank m b', In rank all -> In m rank -> nth_error m i = Some b' -> (b_diameter b' <= b_diameter s /\ b_diameter b' <= b_depth s)%R).
Proof. exact bounding_all. Qed.
Print Assumptions C29_bounds_diameter.
Theorem C29_attained : forall (local : list (list (beam RNum))) all m0 rest r, local = m0 :: rest -> Forall known m0 -> (forall rank m, In rank all -> In m rank -> same_types m0 m) ->
  (exists rank, In rank all /\ In m0 rank) -> Forall (fun b : beam RNum => (-1 < b_diameter b)%R) m0 -> bounding_heat_sources local all = Ok r ->
  forall i b s, nth_error m0 i = Some b -> moving b -> nth_error r i = Some (Some s) ->
  exists rank m b', In rank all /\ In m rank /\ nth_error m i = Some b' /\ b_diameter s = b_diameter b'.
Proof. exact bounding_attained. Qed.
Print Assumptions C29_attained.
Theorem C29_total : forall (local : list (list (beam RNum))) all m0 rest, local = m0 :: rest -> Forall known m0 -> (forall rank m, In rank all -> In m rank -> same_types m0 m) ->
  exists r, bounding_heat_sources local all = Ok r.
Proof. exact bounding_total. Qed.
Print Assumptions C29_total.
Example C29_known : Forall known (hd [] en_local) /\ Forall (fun b : beam RNum => (-1 < b_diameter b)%R) (hd [] en_local). Proof. exact (conj en_known en_pos). Qed.
Example C29_same : forall rank m, In rank en_all -> In m rank -> same_types (hd [] en_local) m. Proof. exact en_same. Qed.
(** Diameter 1, depth 2 in every member: bounding depth 1. *)
Theorem C29_bounds_depth_refuted : bounding_heat_sources (N := QNum) [[en_beam QNum 1%Q 2%Q]] [[[en_beam QNum 1%Q 2%Q]]; [[en_beam QNum (1 # 2) 2%Q]]] = Ok [Some (en_beam QNum 1%Q 1%Q)].
Proof. exact en_depth. Qed.
Print Assumptions C29_bounds_depth_refuted.
