(** EnsembleSpec.v -- what C26-C29 mean. *)
From Coq Require Import ZArith Bool List String.
From Verif Require Import Base InputModel EnsembleModel.
Import ListNotations.
Local Open Scope string_scope.

(** Process group [c] (the ranks that were given colour c) works on member [m]. *)
Definition owns (n_procs ensemble_size c m : nat) : Prop :=
  exists r p, (r < n_procs)%nat /\ split n_procs ensemble_size r = Ok p /\ part_color p = c /\ (part_first p <= m < part_first p + part_size p)%nat.
(** The ranks of group [c]. *)
Definition group (n_procs ensemble_size c : nat) : list nat :=
  filter (fun r => match split n_procs ensemble_size r with Ok p => Nat.eqb (part_color p) c | _ => false end) (seq 0 n_procs).

(** The entries of the ensemble section, depth first, in file order. *)
Fixpoint leaves (path : list string) (t : ptree) : list (list string) :=
  match t with Node _ ks =>
    (fix go ks := match ks with
                  | [] => []
                  | (k, c) :: rest => ((match c with Node _ [] => [path ++ [k]] | Node _ (_ :: _) => leaves (path ++ [k]) c end) ++ go rest)%list
                  end) ks end.
(** The uncertain parameters: all the entries but the two that describe the ensemble. *)
Definition is_param (p : list string) : bool :=
  if list_eq_dec string_dec p ["ensemble_simulation"] then false else if list_eq_dec string_dec p ["ensemble_size"] then false else true.
Definition params (ens : ptree) : list (list string) := filter is_param (leaves [] ens).

(** Parameter: key in the database, mean, standard deviation. *)
Record param (N : Num) := mkparam { pr_key : list string; pr_mean : N; pr_stddev : N }.
Arguments pr_key {N}. Arguments pr_mean {N}. Arguments pr_stddev {N}.
(** [ps] are the parameters of the database, with means and deviations given in it. *)
Definition described {N : Num} (tdouble : string -> option N) (db : ptree) (ps : list (param N)) : Prop :=
  exists ens, child_opt db ["ensemble"] = Some ens /\
  Forall2 (fun path p => strip_stddev path = Ok (pr_key p) /\ get tdouble db ("ensemble" :: path) = Ok (pr_stddev p) /\ get tdouble db (pr_key p) = Ok (pr_mean p)) (params ens) ps /\
  NoDup (map pr_key ps) /\ forall p rest, In p ps -> pr_key p <> "ensemble" :: rest.

(** Beams: those that move along a scan path, and all the supported types. *)
Definition moving (b : beam RNum) : Prop := b_type b = "goldak" \/ b_type b = "electron_beam".
Definition known (b : beam RNum) : Prop := moving b \/ b_type b = "cube".
(** Members with the same types of beams, beam by beam. *)
Definition same_types (m m' : list (beam RNum)) : Prop := Forall2 (fun b b' => b_type b = b_type b') m m'.
