(** ParallelSpec.v -- distributing a mesh over processes, and renumbering it. *)
From Coq Require Import Reals List Permutation.
From Verif Require Import Base MaterialModel InputModel HeatModel HeatSpec ParallelModel.
Import ListNotations.
Open Scope R_scope.

(** The degrees of freedom behind a node: itself, or those of its constraint. *)
Definition behind (C : constraints RNum) (k j : nat) : Prop :=
  match find (fun e => Nat.eqb (fst e) k) C with None => j = k | Some e => In j (map fst (snd e)) end.
Definition known (s : share RNum) (j : nat) : Prop := In j (sh_owned s) \/ In j (sh_ghosts s).
(** A process can work on a cell if it knows everything behind its nodes. *)
Definition workable (C : constraints RNum) (s : share RNum) (c : hcell RNum) : Prop := forall k j, In k (c_dofs c) -> behind C k j -> known s j.
(** A distribution of the mesh: every cell, every face and every degree of freedom has one process, which can work on it. *)
Definition distributes (m : heat_mesh RNum) (ss : list (share RNum)) : Prop :=
  Permutation (flat_map sh_cells ss) (indexed (m_cells m)) /\ Permutation (flat_map sh_faces ss) (indexed (m_faces m)) /\ Permutation (flat_map sh_mass ss) (m_mass m) /\
  Permutation (flat_map sh_owned ss) (seq 0 (m_n m)) /\
  Forall (fun s => Forall (fun ic => workable (m_C m) s (snd ic)) (sh_cells s) /\ Forall (fun jf => on_boundary (snd jf) = true -> workable (m_C m) s (active_side (snd jf))) (sh_faces s) /\
                   Forall (workable (m_C m) s) (sh_mass s)) ss.
(** Steps of the given lengths. *)
Definition steps (s : scheme) (f : nat -> nat -> R -> list R -> list R) (dts : list R) (t : R) (y : list R) : R * list R :=
  fold_left (fun ty ndt => evolve (N := RNum) s (f (fst ndt)) (fst ty) (snd ndt) (snd ty)) (indexed dts) (t, y).

(** The same mesh with degree of freedom [p j] for [j], cell [a i] for [i] and face [b i] for [i], and the constraints in any order. *)
Definition renamed (p : nat -> nat) (c : hcell RNum) : hcell RNum := mkhc (map p (c_dofs c)) (c_quads c).
Definition renamed_face (p : nat -> nat) (f : hface RNum) : hface RNum := mkhf (hf_first f) (hf_second f) (renamed p (hf_inner f)) (renamed p (hf_outer f)) (hf_type f).
Definition renamed_line (p : nat -> nat) (e : nat * list (nat * R)) : nat * list (nat * R) := (p (fst e), map (fun w => (p (fst w), snd w)) (snd e)).
Definition renumbered (p a b : nat -> nat) (m m' : heat_mesh RNum) : Prop :=
  m_n m' = m_n m /\ Permutation (map p (seq 0 (m_n m))) (seq 0 (m_n m)) /\
  Permutation (map (fun ic => (a (fst ic), renamed p (snd ic))) (indexed (m_cells m))) (indexed (m_cells m')) /\
  Permutation (map (fun jf => (b (fst jf), renamed_face p (snd jf))) (indexed (m_faces m))) (indexed (m_faces m')) /\
  Permutation (map (renamed p) (m_mass m)) (m_mass m') /\ Permutation (map (renamed_line p) (m_C m)) (m_C m').
(** The same field in the two numberings. *)
Definition same_field (p : nat -> nat) (n : nat) (y y' : list R) : Prop := List.length y = n /\ List.length y' = n /\ forall j, (j < n)%nat -> entry y' (p j) = entry y j.
