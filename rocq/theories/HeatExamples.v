(** HeatExamples.v -- a mesh with a hanging node, and counterexamples. *)
From Coq Require Import Reals QArith List Bool String ZArith Lra Lia.
From Verif Require Import Base BaseFacts MaterialModel MaterialSpec InputModel HeatModel HeatSpec.
Import ListNotations.

Section Mesh.
  Context {N : Num}.
  Local Open Scope num_scope.
  Definition zero : N := nZ 0.
  Definition one : N := nZ 1.
  (** A bilinear square of edge [h] in two dimensions (x and z): corners for the mass, one point for the operator. *)
  Definition corner (h : N) (i : nat) : hquad N :=
    mkhq (N := N) (h * h / nZ 4) (MaterialModel.set_nth (repeat zero 4) i one) (repeat (mkpt zero zero zero) 4).
  Definition middle (h : N) : hquad N :=
    let q := nZ 1 / nZ 4 in let g := nZ 1 / (nZ 2 * h) in
    mkhq (N := N) (h * h) [q; q; q; q] [mkpt (- g) zero (- g); mkpt g zero (- g); mkpt (- g) zero g; mkpt g zero g].
  Definition side (h : N) (i : nat) : hquad N := mkhq (N := N) (h / nZ 2) (MaterialModel.set_nth (repeat zero 4) i one) (repeat (mkpt zero zero zero) 4).
  Definition msquare (h : N) (d : list nat) : hcell N := mkhc (N := N) d (map (corner h) [0; 1; 2; 3]%nat).
  Definition square (h : N) (d : list nat) : hcell N := mkhc (N := N) d [middle h].
  (** A square of edge one, two squares of edge one half at its right; node 5 hangs between 1 and 3.  The right sides of the small squares are faces:
      the first at the end of the mesh, the second next to inactive material and numbered from it; a third face is inside. *)
  Definition hf := nZ 1 / nZ 2 : N.
  Definition cells3 : list (hcell N) := [square one [0; 1; 2; 3]%nat; square hf [1; 4; 5; 6]%nat; square hf [5; 6; 3; 7]%nat].
  Definition mass3 : list (hcell N) := [msquare one [0; 1; 2; 3]%nat; msquare hf [1; 4; 5; 6]%nat; msquare hf [5; 6; 3; 7]%nat].
  Definition none : hcell N := mkhc (N := N) [] [].
  Definition faces3 (ty : BinNums.N) : list (hface N) :=
    [mkhf (N := N) 0 7 (mkhc (N := N) [1; 4; 5; 6]%nat (map (side hf) [1; 3]%nat)) none ty;
     mkhf (N := N) 1 0 none (mkhc (N := N) [5; 6; 3; 7]%nat (map (side hf) [1; 3]%nat)) ty;
     mkhf (N := N) 0 0 (mkhc (N := N) [1; 4; 5; 6]%nat (map (side hf) [2; 3]%nat)) (mkhc (N := N) [5; 6; 3; 7]%nat (map (side hf) [0; 1]%nat)) ty].
  Definition mesh3 (ty : BinNums.N) : heat_mesh N := mkhm (N := N) 8 [(5, [(1%nat, hf); (3%nat, hf)])]%nat cells3 mass3 (faces3 ty).
  Definition K3 : laws N := fun c q T => mkpl (N := N) one (nZ 2) one one one zero [nZ 3; nZ 1].
  Definition F3 : face_laws N := fun j q T => mkfl (N := N) one (nZ 5) (nZ 10) one (nZ 20).
End Mesh.
Local Open Scope R_scope.
Ltac calc := cbv -[Rplus Rmult Rminus Rdiv Ropp Rinv IZR Rlt Rle]; try lra.
Lemma Forall_list {A} (P : A -> Prop) a l : P a -> Forall P l -> Forall P (a :: l). Proof. auto. Qed.
Ltac shape := split; [repeat (apply Forall_list; [cbn; lia|]); apply Forall_nil|repeat (apply Forall_list; [repeat split; try reflexivity; calc|]); apply Forall_nil].
Lemma mesh3_ok ty : mesh_ok (mesh3 (N := RNum) ty).
Proof.
  split; [|split; [|split]].
  - split; [cbn; repeat constructor; cbn; intuition lia|]. apply Forall_list; [|apply Forall_nil]. cbn [fst snd]. split; [cbn; lia|]. split; [|calc].
    repeat (apply Forall_list; [cbn; split; [lia|intuition lia]|]). apply Forall_nil.
  - repeat (apply Forall_list; [shape|]). apply Forall_nil.
  - repeat (apply Forall_list; [shape|]). apply Forall_nil.
  - repeat (apply Forall_list; [split; shape|]). apply Forall_nil.
Qed.
Lemma mesh3_massive ty : massive (mesh3 (N := RNum) ty).
Proof.
  intros j [L N]. cbn in L, N. unfold nodal_mass. do 5 (destruct j as [|j]; [calc|]). destruct j as [|j]; [exfalso; apply N; auto|]. do 2 (destruct j as [|j]; [calc|]). lia.
Qed.
Lemma mesh3_conducting ty : conducting false (mesh3 (N := RNum) ty) K3.
Proof.
  split; [intros i q T; calc; repeat split; lra|].
  repeat (apply Forall_list; [repeat (apply Forall_list; [split; [calc|intros _; repeat (apply Forall_list; [calc|]); apply Forall_nil]|]); apply Forall_nil|]). apply Forall_nil.
Qed.

(** The rates for given temperatures; the hanging node gets its own temperature. *)
Local Open Scope Q_scope.
Definition y3 : list Q := [10; 20; 10; 40; 30; 999; 30; 50]%Q.
Definition shown (l : list Q) : list Q := map Qred l.
Definition rates3 (on ad : bool) (ty : BinNums.N) : list Q := shown (evaluate (N := QNum) false on ad (mesh3 (N := QNum) ty) K3 F3 y3).
Example rates3_conduction : rates3 false true adiabatic = [100; 0; 60; -160 # 3; -40; 999; -40; -200].
Proof. vm_compute. reflexivity. Qed.
Example rates3_sources : rates3 true true adiabatic = [104; 4; 64; -148 # 3; -36; 999; -36; -196].
Proof. vm_compute. reflexivity. Qed.
Example rates3_convective : rates3 true false convective = [104; 4; 64; -148 # 3; -436; 999; -436; -996].
Proof. vm_compute. reflexivity. Qed.
Example heat_input3 : Qred (heat_input (N := QNum) cells3 (fun _ _ => 4)) = 6.
Proof. vm_compute. reflexivity. Qed.
Definition result (r : res (list Q)) : list Q := match r with Ok v => shown v | _ => [] end.
Example device3 : result (evaluate_device (N := QNum) false true (mesh3 (N := QNum) adiabatic) K3 y3) = [104; 4; 64; -148 # 3; -36; 0; -36; -196].
Proof. vm_compute. reflexivity. Qed.
(** A square with an edge of ten nanometres: the host conducts, the device does nothing. *)
Definition small : heat_mesh QNum :=
  mkhm (N := QNum) 4 [] [square (N := QNum) (1 # 100000000) [0; 1; 2; 3]%nat] [msquare (N := QNum) (1 # 100000000) [0; 1; 2; 3]%nat] [].
Example small_device : result (evaluate_device (N := QNum) false true small K3 [1; 2; 1; 2]) = [0; 0; 0; 0].
Proof. vm_compute. reflexivity. Qed.
Example small_host : shown (evaluate (N := QNum) false true true small K3 F3 [1; 2; 1; 2]) = [40000000000000004; -39999999999999996; 40000000000000004; -39999999999999996].
Proof. vm_compute. reflexivity. Qed.
Example steps3 : map (fun s => let r := evolve (N := QNum) s (fun i t v => map (fun x : Q => -1 * x) v) 1 (1 # 2) [1; 2] in (Qred (fst r), shown (snd r))) [ForwardEuler; RungeKutta3; RungeKutta4] =
  [(3 # 2, [1 # 2; 1]); (3 # 2, [29 # 48; 29 # 24]); (3 # 2, [233 # 384; 233 # 192])].
Proof. vm_compute. reflexivity. Qed.

Local Open Scope R_scope.
(** Two squares with different heat capacities. *)
Definition pair_mesh : heat_mesh RNum :=
  mkhm (N := RNum) 6 [] [square (N := RNum) 1 [0; 1; 2; 3]%nat; square (N := RNum) 1 [1; 4; 3; 5]%nat] [msquare (N := RNum) 1 [0; 1; 2; 3]%nat; msquare (N := RNum) 1 [1; 4; 3; 5]%nat] [].
Definition pair_rc (c : nat) : R := match c with O => 1 | _ => 2 end.
Definition pair_laws : laws RNum := fun c q T => mkpl (N := RNum) (/ pair_rc c) 1 1 1 1 0 [].
Lemma pair_ok : mesh_ok pair_mesh.
Proof.
  split; [|split; [|split]].
  - split; [constructor|apply Forall_nil].
  - repeat (apply Forall_list; [shape|]). apply Forall_nil.
  - repeat (apply Forall_list; [shape|]). apply Forall_nil.
  - apply Forall_nil.
Qed.
Lemma pair_massive : massive pair_mesh.
Proof. intros j [L _]. cbn in L. unfold nodal_mass. do 6 (destruct j as [|j]; [calc|]). lia. Qed.
Lemma pair_conducting : conducting false pair_mesh pair_laws.
Proof.
  split.
  - intros i q T. assert (0 < / pair_rc i) by (apply Rinv_0_lt_compat; destruct i; cbn; lra). cbv zeta. unfold pair_laws. cbn [pl_inv pl_kx pl_ky pl_kz pl_cos pl_sin]. repeat split; cbn [num RNum] in *; lra.
  - repeat (apply Forall_list; [repeat (apply Forall_list; [split; [calc|intros _; repeat (apply Forall_list; [calc|]); apply Forall_nil]|]); apply Forall_nil|]). apply Forall_nil.
Qed.
Lemma pair_content (F : face_laws RNum) : heat_content (m_C pair_mesh) (m_mass pair_mesh) pair_rc (entry (evaluate (N := RNum) false false true pair_mesh pair_laws F [0; 1; 0; 1; 1; 1])) <> 0.
Proof. calc. Qed.
(** "convective,adiabatic": whether heat is lost depends on the other boundaries. *)
Definition mixed : BinNums.N := 5%N.
Lemma mixed_line : parse_boundary_line "convective,adiabatic" = Ok mixed. Proof. vm_compute. reflexivity. Qed.
Definition yR : list R := [10; 20; 10; 40; 30; 0; 30; 50].
Lemma mixed_differs : entry (evaluate (N := RNum) false false (adiabatic_only [mixed; mixed]) (mesh3 (N := RNum) mixed) K3 F3 yR) 4 = -40 /\
  entry (evaluate (N := RNum) false false (adiabatic_only [mixed; convective]) (mesh3 (N := RNum) mixed) K3 F3 yR) 4 = -440.
Proof.
  change (adiabatic_only [mixed; mixed]) with true. change (adiabatic_only [mixed; convective]) with false. split; calc.
Qed.
(** A bound on the rates. *)
Lemma pair_bound (F : face_laws RNum) : let y := [0; 1; 0; 1; 1; 1] : list R in let r := evaluate (N := RNum) false false true pair_mesh pair_laws F y in
  mass_product pair_mesh (entry r) (entry r) <= 8 * - mass_product pair_mesh (entry y) (entry r) /\ mass_product pair_mesh (entry y) (entry r) < 0.
Proof. cbv zeta. split; calc. Qed.
