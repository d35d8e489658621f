(** AssimilationSpec.v -- textbook notions used by the statements of C33-C36, C56, C57. *)
From Coq Require Import Reals ZArith Bool List.
From Verif Require Import Base AssimilationModel.
Import ListNotations.
Local Open Scope R_scope.

(** Gaspari and Cohn 1999, equation (4.10): compactly supported fifth order piecewise rational function of z/c. *)
Definition gaspari_cohn_4_10 (z c : R) : R :=
  let t := Rabs z / c in
  if Rle_dec (Rabs z) c then - / 4 * t ^ 5 + / 2 * t ^ 4 + 5 / 8 * t ^ 3 - 5 / 3 * t ^ 2 + 1
  else if Rle_dec (Rabs z) (2 * c) then / 12 * t ^ 5 - / 2 * t ^ 4 + 5 / 8 * t ^ 3 + 5 / 3 * t ^ 2 - 5 * t + 4 - 2 / 3 * (c / Rabs z)
  else 0.

(** Sums. *)
Definition Rsum (l : list R) : R := fold_right Rplus 0 l.
Definition Rsum_to (n : nat) (f : nat -> R) : R := Rsum (map f (seq 0 n)).

(** Sample mean and unbiased sample covariance of the coordinates i and j over a list of vectors. *)
Definition sample_mean (ens : list (nat -> R)) (i : nat) : R := Rsum (map (fun x => x i) ens) / INR (List.length ens).
Definition unbiased_covariance (ens : list (nat -> R)) (i j : nat) : R :=
  Rsum (map (fun x => (x i - sample_mean ens i) * (x j - sample_mean ens j)) ens) / (INR (List.length ens) - 1).

(** Quadratic form of a matrix of size n. *)
Definition quadratic (n : nat) (A : nat -> nat -> R) (v : nat -> R) : R := Rsum_to n (fun i => Rsum_to n (fun j => v i * A i j * v j)).
Definition positive_semidefinite (n : nat) (A : nat -> nat -> R) : Prop := forall v, 0 <= quadratic n A v.

(** Localisation: two degrees of freedom of the simulation (index below [sim], at position [pos]) farther apart than the cutoff are not
    correlated, closer ones by the covariance times a taper; the parameters are not localised. *)
Definition taper (fn : cutoff_function) (cutoff dist : R) : R :=
  match fn with gaspari_cohn_cutoff => gaspari_cohn_4_10 dist (cutoff / 2) | step_cutoff => if Rle_dec dist cutoff then 1 else 0 | no_cutoff => 1 end.
Definition distance (p q : pt RNum) : R := sqrt (Rsqr (px p - px q) + Rsqr (py p - py q) + Rsqr (pz p - pz q)).
Definition localized_covariance (fn : cutoff_function) (cutoff : R) (pos : nat -> pt RNum) (sim : nat) (ens : list (nat -> R)) (i j : nat) : R :=
  if (i <? sim)%nat && (j <? sim)%nat then
    if Rle_dec (distance (pos i) (pos j)) cutoff then unbiased_covariance ens i j * taper fn cutoff (distance (pos i) (pos j)) else 0
  else unbiased_covariance ens i j.

(** [w] solves the system of the Kalman gain for [b]: (H P H^T + R) w = b, where row e of H picks degree of freedom [s e]. *)
Definition solves_kalman (expt : nat) (P : nat -> nat -> R) (s : nat -> nat) (Ro : nat -> nat -> R) (w b : nat -> R) : Prop :=
  forall e, (e < expt)%nat -> Rsum_to expt (fun f => P (s e) (s f) * w f) + Rsum_to expt (fun f => Ro e f * w f) = b e.

(** The query of a rank returned, for each of its points in order, the points of all the ranks within the cutoff. *)
Definition csr_offsets (hits : list (list (nat * nat))) : list nat := map (fun k => List.length (List.concat (firstn k hits))) (seq 0 (S (List.length hits))).
Definition query_ok {N : Num} (cutoff : N) (points : list (list (pt N))) (hits : list (list (list (nat * nat)))) : Prop :=
  Forall2 (fun ps hs => Forall2 (fun p h => forall k r, In (k, r) h <-> exists q, nth_error (nth r points []) k = Some q /\ nleb N (pdist p q) cutoff = true) ps hs) points hits.

(** A group of processes that holds complete members: the entries of block 0 are shared out without overlap, every process has a
    copy of the parameters, and all hold their part of the same members. *)
Definition part_of {N : Num} (full : list N) (set : list nat) (data : list N) : Prop :=
  Forall2 (fun k v => nth_error full k = Some v) set data.
Definition holds {N : Num} (group : list (process N)) (n0 n1 : nat) (full : list (list N * list N)) : Prop :=
  NoDup (List.concat (map pr_set0 group)) /\ (forall k, In k (List.concat (map pr_set0 group)) <-> (k < n0)%nat) /\
  (forall m, In m full -> List.length (fst m) = n0 /\ List.length (snd m) = n1) /\
  forall p, In p group -> pr_set1 p = seq 0 n1 /\ Forall2 (fun m mine => part_of (fst m) (pr_set0 p) (fst mine) /\ snd mine = snd m) full (pr_members p).
(** The same, except that the processes other than the first one have zeros for parameters. *)
Definition holds_at_root {N : Num} (group : list (process N)) (n0 n1 : nat) (full : list (list N * list N)) : Prop :=
  NoDup (List.concat (map pr_set0 group)) /\ (forall k, In k (List.concat (map pr_set0 group)) <-> (k < n0)%nat) /\
  (forall m, In m full -> List.length (fst m) = n0 /\ List.length (snd m) = n1) /\
  forall r p, nth_error group r = Some p -> pr_set1 p = seq 0 n1 /\
    Forall2 (fun m mine => part_of (fst m) (pr_set0 p) (fst mine) /\ snd mine = if Nat.eqb r 0 then snd m else repeat (nofZ N 0) n1) full (pr_members p).

(** The ensemble, rank by rank: the members [F c] of group [c] are on its first process. *)
Definition owners {N : Num} (w : world N) (F : nat -> list (list N * list N)) : list (list (list N * list N)) :=
  map (fun gp : nat * (nat * process N) => if Nat.eqb (local_rank w (fst gp) (fst (snd gp))) 0 then F (fst (snd gp)) else []) (combine (seq 0 (List.length w)) w).
(** The mapping of the program (C55): experimental point e < E observes degree of freedom [s e]. *)
Definition obs (E : nat) (s : nat -> nat) : list (nat * nat) := map (fun e => (e, s e)) (seq 0 E).
