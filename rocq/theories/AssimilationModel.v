(** AssimilationModel.v -- the ensemble Kalman filter: source/DataAssimilator.cc and its use in application/adamantine.hh.

    Vectors are functions from indices, used below their size; matrices are functions of two indices.  Not modelled: the GMRES
    iteration (the solution of the linear system is an argument), the ArborX search (its result is an argument), the generator
    of normal variates (the sequence of draws is an argument), the Cholesky factor of a non diagonal R (the program only builds
    diagonal ones: adamantine.hh:2271-2287; see CholeskyModel). *)
From Coq Require Import Reals ZArith QArith Bool List Floats.
From Verif Require Import Base.
Import ListNotations.

Section Covariance.
  Context {N : Num}.
  Local Open Scope num_scope.

  (** std::pow(r, n) for a small integer n, exact in R and Q (repeated product). *)
  Fixpoint ipow (r : N) (n : nat) : N := match n with O => nZ 1 | S O => r | S n' => ipow r n' * r end.
  (** DataAssimilator.cc:672-688 *)
  Definition gaspari_cohn (r : N) : N :=
    if r <? nZ 1 then
      nZ 1 - nZ 5 / nZ 3 * ipow r 2 + nZ 5 / nZ 8 * ipow r 3 + nZ 1 / nZ 2 * ipow r 4 - nZ 1 / nZ 4 * ipow r 5
    else if r <? nZ 2 then
      nZ 4 - nZ 5 * r + nZ 5 / nZ 3 * ipow r 2 + nZ 5 / nZ 8 * ipow r 3 - nZ 1 / nZ 2 * ipow r 4 + nZ 1 / nZ 12 * ipow r 5 - nZ 2 / (nZ 3 * r)
    else nZ 0.

  (** DataAssimilator.cc:697-708: sum of the members, first one first, divided by their number.  vec_ensemble[0] of an empty ensemble is undefined. *)
  Definition mean (ens : list (nat -> N)) (i : nat) : res N :=
    match ens with
    | [] => UB
    | x :: rest => Ok (fold_left (fun s y => s + y i) rest (x i) / nZ (Z.of_nat (List.length ens)))
    end.
  (** DataAssimilator.cc:719-727 *)
  Definition cov_element (ens : list (nat -> N)) (i j : nat) : res N :=
    do mi <- mean ens i;
    do mj <- mean ens j;
    Ok (fold_left (fun acc x => acc + (x i - mi) * (x j - mj)) ens (nZ 0) / (nZ (Z.of_nat (List.length ens)) - nZ 1)).

  (** DataAssimilator.hh:36-41 *)
  Inductive cutoff_function := gaspari_cohn_cutoff | step_cutoff | no_cutoff.
  (** DataAssimilator.cc:730-744: factor for two degrees of freedom of the simulation at distance [dist]. *)
  Definition localization (fn : cutoff_function) (cutoff dist : N) : N :=
    match fn with
    | gaspari_cohn_cutoff => gaspari_cohn (nZ 2 * dist / cutoff)
    | step_cutoff => if cutoff <? dist then nZ 0 else nZ 1
    | no_cutoff => nZ 1
    end.

  (** _covariance_distance_map: the last insertion of a key counts; it is never cleared. *)
  Definition distance_map := list ((nat * nat) * N).
  Definition key_eqb (a b : nat * nat) : bool := Nat.eqb (fst a) (fst b) && Nat.eqb (snd a) (snd b).
  Definition map_insert (m : distance_map) (k : nat * nat) (d : N) : distance_map := (k, d) :: m.
  Definition map_find (m : distance_map) (k : nat * nat) : option N :=
    match find (fun e => key_eqb (fst e) k) m with Some e => Some (snd e) | None => None end.

  (** DataAssimilator.cc:710-751: the entries of the sparsity pattern; find()->second of a missing key is undefined; an entry outside of the
      pattern is zero. *)
  Definition cov_value (fn : cutoff_function) (cutoff : N) (sim_size : nat) (m : distance_map) (ens : list (nat -> N)) (i j : nat) : res N :=
    do e <- cov_element ens i j;
    if Nat.ltb i sim_size && Nat.ltb j sim_size then
      match map_find m (i, j) with Some d => Ok (e * localization fn cutoff d) | None => UB end
    else Ok (e * nZ 1).
  Definition sample_covariance (fn : cutoff_function) (cutoff : N) (sim_size : nat) (pattern : list (nat * nat)) (m : distance_map)
             (ens : list (nat -> N)) (i j : nat) : res N :=
    if existsb (key_eqb (i, j)) pattern then cov_value fn cutoff sim_size m ens i j else Ok (nZ 0).

  (** DataAssimilator.cc:513-612 update_covariance_sparsity_pattern, on global rank 0.  Gathered from the ranks of the communicator: the sorted
      locally owned degrees of freedom, the support points in the order of get_dof_to_support_mapping (ExperimentModel), the
      offsets and the (index, rank) pairs of the sphere query. *)
  Record pattern_data := mkpd { pd_owned : list (list nat); pd_points : list (list (pt N)); pd_offsets : list (list nat); pd_hits : list (list (nat * nat)) }.
  Fixpoint loop_from {A} (f : A -> nat -> res A) (start n : nat) (a : A) : res A :=
    match n with O => Ok a | S n' => do a' <- f a start; loop_from f (S start) n' a' end.
  (** 565-588: state of the loops is the distance map and the list of the added entries. *)
  Definition pattern_entry (d : pattern_data) (rank i : nat) (st : distance_map * list (nat * nat)) (j : nat) : res (distance_map * list (nat * nat)) :=
    do owned <- at_ (pd_owned d) rank;
    do row <- at_ owned i;
    do hits <- at_ (pd_hits d) rank;
    do hit <- at_ hits j;
    do other_owned <- at_ (pd_owned d) (snd hit);
    do column <- at_ other_owned (fst hit);
    do points <- at_ (pd_points d) rank;
    do p <- at_ points i;
    do other_points <- at_ (pd_points d) (snd hit);
    do q <- at_ other_points (fst hit);
    Ok (map_insert (fst st) (row, column) (pdist p q), (snd st ++ [(row, column)])%list).
  Definition pattern_row (d : pattern_data) (rank : nat) (st : distance_map * list (nat * nat)) (i : nat) : res (distance_map * list (nat * nat)) :=
    do offsets <- at_ (pd_offsets d) rank;
    do a <- at_ offsets i;
    do b <- at_ offsets (S i);
    loop_from (pattern_entry d rank i) a (b - a) st.
  Definition pattern_rank (d : pattern_data) (st : distance_map * list (nat * nat)) (rank : nat) : res (distance_map * list (nat * nat)) :=
    do offsets <- at_ (pd_offsets d) rank;
    if Nat.eqb (List.length offsets) 0 then Ok st else loop_from (pattern_row d rank) 0 (List.length offsets - 1) st.
  (** 590-605: rows and columns of the parameters. *)
  Definition parameter_entries (sim_size parameter_size : nat) : list (nat * nat) :=
    (list_prod (seq sim_size parameter_size) (seq 0 (sim_size + parameter_size)) ++ list_prod (seq 0 sim_size) (seq sim_size parameter_size))%list.
  Definition sparsity_pattern (d : pattern_data) (comm_size sim_size parameter_size : nat) (m : distance_map) : res (distance_map * list (nat * nat)) :=
    do st <- loop_from (pattern_rank d) 0 comm_size (m, []);
    Ok (fst st, (snd st ++ parameter_entries sim_size parameter_size)%list).
End Covariance.
Arguments pattern_data : clear implicits.
Arguments distance_map : clear implicits.

Section Observation.
  Context {N : Num}.
  Local Open Scope num_scope.

  Definition nsum (n : nat) (f : nat -> N) : N := fold_left (fun s i => s + f i) (seq 0 n) (nZ 0).
  Definition apply (cols : nat) (A : nat -> nat -> N) (x : nat -> N) (i : nat) : N := nsum cols (fun j => A i j * x j).
  Definition transpose (A : nat -> nat -> N) (i j : nat) : N := A j i.

  (** DataAssimilator.cc:478-502 calc_H: H.add accumulates.  [mapping]: experimental index, degree of freedom. *)
  Definition calc_H (mapping : list (nat * nat)) (e s : nat) : N :=
    fold_left (fun h (p : nat * nat) => if Nat.eqb (fst p) e && Nat.eqb (snd p) s then h + nZ 1 else h) mapping (nZ 0).
  (** DataAssimilator.cc:614-628 calc_Hx: assignment; the vector starts at zero. *)
  Definition calc_Hx (mapping : list (nat * nat)) (x : nat -> N) (e : nat) : N :=
    fold_left (fun out (p : nat * nat) => if Nat.eqb (fst p) e then x (snd p) else out) mapping (nZ 0).

  (** DataAssimilator.cc:630-670 fill_noise_vector for a diagonal R; [draws] is the sequence of normal variates, [k] the number already used. *)
  Definition noise (R : nat -> nat -> N) (draws : nat -> N) (k i : nat) : N := draws (k + i)%nat * nsqrt N (R i i).
  (** DataAssimilator.cc:133-147: perturbed innovation, member by member. *)
  Definition perturbed_innovation (mapping : list (nat * nat)) (expt_data : nat -> N) (R : nat -> nat -> N) (draws : nat -> N)
             (expt_size k member : nat) (x : nat -> N) (i : nat) : N :=
    noise R draws (k + member * expt_size) i + (expt_data i - calc_Hx mapping x i).

  (** DataAssimilator.cc:403-476 apply_kalman_gain: [w] is what GMRES returns for the right hand side [innovation]. *)
  Definition HPH_plus_R (n expt_size : nat) (P : nat -> nat -> N) (mapping : list (nat * nat)) (R : nat -> nat -> N) (w : nat -> N) (i : nat) : N :=
    apply n (calc_H mapping) (apply n P (apply expt_size (transpose (calc_H mapping)) w)) i + apply expt_size R w i.
  Definition forecast_shift (n expt_size : nat) (P : nat -> nat -> N) (mapping : list (nat * nat)) (w : nat -> N) (i : nat) : N :=
    apply n P (apply expt_size (transpose (calc_H mapping)) w) i.
  (** DataAssimilator.cc:95-189 update_ensemble on global rank 0: [solve] stands for GMRES.  The experimental data must have as many values as the
      mapping has entries. *)
  Fixpoint update_from (n expt_size : nat) (P : nat -> nat -> N) (mapping : list (nat * nat)) (R : nat -> nat -> N) (expt_data draws : nat -> N) (k : nat)
             (solve : (nat -> N) -> nat -> N) (member : nat) (ens : list (nat -> N)) : list (nat -> N) :=
    match ens with
    | [] => []
    | x :: rest =>
        (fun i => x i + forecast_shift n expt_size P mapping (solve (perturbed_innovation mapping expt_data R draws expt_size k member x)) i)
          :: update_from n expt_size P mapping R expt_data draws k solve (S member) rest
    end.
  Definition update_ensemble (n : nat) (P : nat -> nat -> N) (mapping : list (nat * nat)) (R : nat -> nat -> N) (expt_data : list N) (draws : nat -> N) (k : nat)
             (solve : (nat -> N) -> nat -> N) (ens : list (nat -> N)) : res (list (nat -> N)) :=
    if negb (Nat.eqb (List.length mapping) (List.length expt_data)) then Throw
    else Ok (update_from n (List.length mapping) P mapping R (fun i => nth i expt_data (nZ 0)) draws k solve 0 ens).
  (** DataAssimilator.cc:95-189 with the covariance of apply_kalman_gain (421): the entries of the pattern are computed first. *)
  Definition assimilate (fn : cutoff_function) (cutoff : N) (sim_size parameter_size : nat) (pattern : list (nat * nat)) (m : distance_map N) (mapping : list (nat * nat))
             (R : nat -> nat -> N) (expt_data : list N) (draws : nat -> N) (k : nat) (solve : (nat -> N) -> nat -> N) (ens : list (nat -> N)) : res (list (nat -> N)) :=
    do _ <- fold_left (fun acc (p : nat * nat) => do _ <- acc; do _ <- sample_covariance fn cutoff sim_size pattern m ens (fst p) (snd p); Ok tt) pattern (Ok tt);
    update_ensemble (sim_size + parameter_size) (fun i j => match sample_covariance fn cutoff sim_size pattern m ens i j with Ok x => x | _ => nZ 0 end) mapping R expt_data draws k solve ens.
  (** adamantine.hh:2271-2287 *)
  Definition observation_covariance (uncertainty : N) (i j : nat) : N := if Nat.eqb i j then uncertainty * uncertainty else nZ 0.
End Observation.

(** ** Gathering and scattering (DataAssimilator.cc:191-401) *)
Section Gather.
  Context {N : Num}.
  (** A process: global indices of its entries of the two blocks (locally_owned_elements of member 0) and its members, each with
      the values of its entries.  The block of the parameters is a vector of the process alone (adamantine.hh:1675-1677). *)
  Record process := mkproc { pr_set0 : list nat; pr_set1 : list nat; pr_members : list (list N * list N) }.
  Fixpoint write (l : list N) (i : nat) (v : N) : res (list N) :=
    match l, i with
    | [], _ => UB
    | _ :: l', O => Ok (v :: l')
    | x :: l', S i' => do r <- write l' i' v; Ok (x :: r)
    end.
  (** DataAssimilator.cc:250-267: data of one process into the member; nth_index_in_set of a missing index is undefined. *)
  Fixpoint place (set : list nat) (data : list N) (l : list N) : res (list N) :=
    match data, set with
    | [], _ => Ok l
    | v :: data', p :: set' => do l' <- write l p v; place set' data' l'
    | _ :: _, [] => UB
    end.
  Definition block_size0 (group : list process) : nat := fold_left (fun s p => s + List.length (pr_set0 p))%nat group 0%nat.
  Definition block_size1 (group : list process) : nat := match group with p :: _ => List.length (pr_set1 p) | [] => 0%nat end.
  Definition gather_member (group : list process) (i : nat) : res (list N * list N) :=
    fold_left (fun acc p =>
      do '(b0, b1) <- acc;
      do m <- at_ (pr_members p) i;
      do b0' <- place (pr_set0 p) (fst m) b0;
      do b1' <- place (pr_set1 p) (snd m) b1;
      Ok (b0', b1')) group (Ok (repeat (nofZ N 0) (block_size0 group), repeat (nofZ N 0) (block_size1 group))).
  Fixpoint collect {A} (f : nat -> res A) (start n : nat) : res (list A) :=
    match n with O => Ok [] | S n' => do a <- f start; do r <- collect f (S start) n'; Ok (a :: r) end.
  Definition gather_group (group : list process) : res (list (list N * list N)) :=
    match group with
    | [] => Ok []
    | root :: _ => collect (gather_member group) 0 (List.length (pr_members root))
    end.

  (** The processes of the global communicator with their colour, in rank order.  The local communicator of a colour has them in
      the same order (MPI_Comm_split with the same key, adamantine.hh:1490). *)
  Definition world := list (nat * process).
  Definition group_of (w : world) (color : nat) : list process := map snd (filter (fun p => Nat.eqb (fst p) color) w).
  (** Rank in the local communicator of the process in position [g]. *)
  Definition local_rank (w : world) (g color : nat) : nat := List.length (group_of (firstn g w) color).
  (** DataAssimilator.cc:270-302: the root of every group sends its members, the others nothing; rank 0 builds vectors with its own block sizes. *)
  Definition sent_by (w : world) (g : nat) (color : nat) : res (list (list N * list N)) :=
    if Nat.eqb (local_rank w g color) 0 then gather_group (group_of w color) else Ok [].
  Definition copy_block (size : nat) (data : list N) : res (list N) := place (seq 0 (List.length data)) data (repeat (nofZ N 0) size).
  Fixpoint all_res {A} (l : list (res A)) : res (list A) :=
    match l with [] => Ok [] | r :: rest => do x <- r; do xs <- all_res rest; Ok (x :: xs) end.
  (** Result: members of the global ensemble, number of members received from every rank. *)
  Definition gather_ensemble (w : world) : res (list (list N * list N) * list nat) :=
    do received <- all_res (map (fun '(g, (c, _)) => sent_by w g c) (combine (seq 0 (List.length w)) w));
    match w with
    | [] => Ok ([], [])
    | (c0, _) :: _ =>
        let s0 := block_size0 (group_of w c0) in
        let s1 := block_size1 (group_of w c0) in
        do members <- all_res (map (fun m => do a <- copy_block s0 (fst m); do b <- copy_block s1 (snd m); Ok (a, b)) (List.concat received));
        Ok (members, map (@List.length _) received)
    end.

  (** DataAssimilator.cc:305-360: rank 0 sends to every rank as many members as it received from it, block 0 then block 1. *)
  Fixpoint send_buffers (counts : list nat) (ens : list (list N * list N)) : res (list (list (list N))) :=
    match counts with
    | [] => Ok []
    | n :: rest =>
        if Nat.ltb (List.length ens) n then UB
        else do r <- send_buffers rest (skipn n ens); Ok (map (fun m => (fst m ++ snd m)%list) (firstn n ens) :: r)
    end.
  (** DataAssimilator.cc:381-400 for a process: [root_buffer] is what the root of its group received.  Block 0 is distributed over the group: the root
      imports all its entries into it.  Block 1 belongs to the process alone, and block_sizes is zero except on the roots. *)
  Definition scatter_member (is_root : bool) (root_sizes : nat * nat) (root_buffer : list (list N)) (p : process) (i : nat) : res (list N * list N) :=
    do buf <- at_ root_buffer i;
    do b0 <- all_res (map (fun k => if Nat.ltb k (fst root_sizes) then at_ buf k else Ok (nofZ N 0)) (pr_set0 p));
    do b1 <- all_res (map (fun k => if is_root && Nat.ltb k (snd root_sizes) then at_ buf (fst root_sizes + k)%nat else Ok (nofZ N 0)) (pr_set1 p));
    Ok (b0, b1).
  (** Position in the world of the root of a group. *)
  Fixpoint root_of (w : world) (color : nat) : nat :=
    match w with [] => 0%nat | (c, _) :: rest => if Nat.eqb c color then 0%nat else S (root_of rest color) end.
  Definition scatter_process (w : world) (buffers : list (list (list N))) (g : nat) (cp : nat * process) : res (nat * process) :=
    let '(c, p) := cp in
    do root_buffer <- at_ buffers (root_of w c);
    let group := group_of w c in
    do ms <- collect (scatter_member (Nat.eqb (local_rank w g c) 0) (block_size0 group, block_size1 group) root_buffer p) 0 (List.length (pr_members p));
    Ok (c, mkproc (pr_set0 p) (pr_set1 p) ms).
  Definition scatter_ensemble (w : world) (counts : list nat) (ens : list (list N * list N)) : res world :=
    do buffers <- send_buffers counts ens;
    all_res (map (fun '(g, cp) => scatter_process w buffers g cp) (combine (seq 0 (List.length w)) w)).
End Gather.
Arguments process : clear implicits.
Arguments world : clear implicits.

(** adamantine.hh:1606-1623, 1679-1698, 2306-2332: the parameters of a member are read from its database into the block and, after an
    update, written back.  A database is reduced to the two entries concerned. *)
Section Parameters.
  Context {N : Num}.
  Inductive parameter := beam_0_absorption | beam_0_max_power.
  Record beam_entry := mkbeam { absorption_efficiency : N; max_power : N }.
  Definition selected (absorption power : bool) : list parameter :=
    ((if absorption then [beam_0_absorption] else []) ++ (if power then [beam_0_max_power] else []))%list.
  Definition read_parameters (ps : list parameter) (b : beam_entry) : list N :=
    map (fun p => match p with beam_0_absorption => absorption_efficiency b | beam_0_max_power => max_power b end) ps.
  Fixpoint put_parameters (ps : list parameter) (values : list N) (b : beam_entry) : res beam_entry :=
    match ps, values with
    | [], _ => Ok b
    | p :: ps', v :: vs => put_parameters ps' vs (match p with beam_0_absorption => mkbeam v (max_power b) | beam_0_max_power => mkbeam (absorption_efficiency b) v end)
    | _ :: _, [] => UB
    end.
End Parameters.
Arguments beam_entry : clear implicits.
