(** CholeskyModel.v -- perturbations of observations with correlated errors: DataAssimilator.cc:630-670 (both branches of fill_noise_vector) and
    95-189 for any matrix R.  The factorisation is deal.II's FullMatrix::cholesky (not in the repository), modelled after its documented loops;
    its debug-mode symmetry assertion is left out.  A zero pivot: (1./L(j,j)) is infinite in binary64, the entry of the next rows is infinite or not
    a number, so that the test of the diagonal entry of that row fails; modelled by that failure. *)
From Coq Require Import Reals ZArith QArith Bool List.
From Verif Require Import Base AssimilationModel.
Import ListNotations.

Section Cholesky.
  Context {N : Num}.
  Local Open Scope num_scope.
  Definition dot (a b : list N) : N := fold_left (fun s (p : N * N) => s + fst p * snd p) (combine a b) (nZ 0).
  (** Row [i] so far is [acc]; [rows] are the rows j = |acc|, |acc|+1, ... above it.  [ai] j is A(i,j). *)
  Fixpoint chol_row (ai : nat -> N) (rows : list (list N)) (acc : list N) : res (list N) :=
    match rows with
    | [] => Ok acc
    | r :: rest =>
        let j := List.length acc in
        let ljj := nth j r (nZ 0) in
        if ljj =? nZ 0 then Throw
        else chol_row ai rest (acc ++ [nZ 1 / ljj * (ai j - dot acc r)])%list
    end.
  (** [m] rows still to do. *)
  Fixpoint chol_rows (A : nat -> nat -> N) (m : nat) (rows : list (list N)) : res (list (list N)) :=
    match m with
    | O => Ok rows
    | S m' =>
        let i := List.length rows in
        do l <- chol_row (A i) rows [];
        let d := A i i - dot l l in
        if nZ 0 <=? d then chol_rows A m' (rows ++ [(l ++ [nsqrt N d])%list])%list else Throw
    end.
  Definition cholesky (n : nat) (A : nat -> nat -> N) : res (list (list N)) := chol_rows A n [].
  (** Entry of the factor; the part above the diagonal was set to zero by reinit. *)
  Definition factor_entry (L : list (list N)) (i j : nat) : N := nth j (nth i L []) (nZ 0).
  (** DataAssimilator.cc:645-669.  [diagonal]: the bandwidth of the sparsity pattern of R is zero (118-119). *)
  Definition fill_noise (diagonal : bool) (n : nat) (R : nat -> nat -> N) (draws : nat -> N) (k : nat) : res (nat -> N) :=
    if diagonal then Ok (noise R draws k)
    else do L <- cholesky n R; Ok (fun i => apply n (factor_entry L) (fun j => draws (k + j)%nat) i).
  (** DataAssimilator.cc:130-149: perturbed innovations of all the members, in order. *)
  Fixpoint innovations (diagonal : bool) (n : nat) (mapping : list (nat * nat)) (expt_data : nat -> N) (R : nat -> nat -> N) (draws : nat -> N) (k member : nat) (ens : list (nat -> N)) : res (list (nat -> N)) :=
    match ens with
    | [] => Ok []
    | x :: rest =>
        do v <- fill_noise diagonal n R draws (k + member * n);
        do r <- innovations diagonal n mapping expt_data R draws k (S member) rest;
        Ok ((fun i => v i + (expt_data i - calc_Hx mapping x i)) :: r)
    end.
  (** DataAssimilator.cc:95-189 on global rank 0, 403-476 for the entries of the covariance (cf. AssimilationModel.assimilate, which is about a diagonal R). *)
  Definition assimilate_general (diagonal : bool) (fn : cutoff_function) (cutoff : N) (sim_size parameter_size : nat) (pattern : list (nat * nat)) (m : distance_map N) (mapping : list (nat * nat))
             (R : nat -> nat -> N) (expt_data : list N) (draws : nat -> N) (k : nat) (solve : (nat -> N) -> nat -> N) (ens : list (nat -> N)) : res (list (nat -> N)) :=
    if negb (Nat.eqb (List.length mapping) (List.length expt_data)) then Throw
    else
      do bs <- innovations diagonal (List.length mapping) mapping (fun i => nth i expt_data (nZ 0)) R draws k 0 ens;
      do _ <- fold_left (fun acc (p : nat * nat) => do _ <- acc; do _ <- sample_covariance fn cutoff sim_size pattern m ens (fst p) (snd p); Ok tt) pattern (Ok tt);
      Ok (map (fun (xb : (nat -> N) * (nat -> N)) i => fst xb i + forecast_shift (sim_size + parameter_size) (List.length mapping)
                 (fun i j => match sample_covariance fn cutoff sim_size pattern m ens i j with Ok x => x | _ => nZ 0 end) mapping (solve (snd xb)) i) (combine ens bs)).
End Cholesky.
