(** ParallelExamples.v -- the mesh with a hanging node on two processes, and renumbered; rounding. *)
From Coq Require Import Reals QArith List Bool ZArith Lra Lia Permutation Floats.
From Verif Require Import Base BaseFacts MaterialModel MaterialSpec InputModel HeatModel HeatSpec HeatProofs HeatExamples ParallelModel ParallelSpec.
Import ListNotations.

Section Mesh.
  Context {N : Num}.
  (** The first process has the big square and one small square, the second the other small square; each needs entries of the other. *)
  Definition first_share (ghosts : list nat) (ty : BinNums.N) : share N :=
    mkshare (N := N) [(2, square hf [5; 6; 3; 7]); (0, square one [0; 1; 2; 3])]%nat (firstn 1 (skipn 1 (numbered (faces3 ty)))) [msquare hf [5; 6; 3; 7]%nat; msquare one [0; 1; 2; 3]%nat]
      [0; 1; 2; 3; 7]%nat ghosts.
  Definition second_share (ty : BinNums.N) : share N :=
    mkshare (N := N) [(1, square hf [1; 4; 5; 6])]%nat (skipn 2 (numbered (faces3 ty)) ++ firstn 1 (numbered (faces3 ty))) [msquare hf [1; 4; 5; 6]%nat] [6; 5; 4]%nat [3; 1]%nat.
  Definition two (ty : BinNums.N) : list (share N) := [first_share [6]%nat ty; second_share ty].
  (** Without its ghost the first process does not see the temperature at node 6. *)
  Definition forgotten (ty : BinNums.N) : list (share N) := [first_share [] ty; second_share ty].
  Definition junk (s : share N) : list N := repeat (nofZ N 77) 8.
  (** The nodes numbered backwards, the squares rotated, two faces exchanged. *)
  Definition back (j : nat) : nat := if Nat.leb j 7 then (7 - j)%nat else j.
  Definition turn (i : nat) : nat := match i with 0 => 1 | 1 => 2 | 2 => 0 | i => i end%nat.
  Definition unturn (i : nat) : nat := match i with 0 => 2 | 1 => 0 | 2 => 1 | i => i end%nat.
  Definition swap (i : nat) : nat := match i with 0 => 1 | 1 => 0 | i => i end%nat.
  Definition cells3' : list (hcell N) := [square hf [2; 1; 4; 0]%nat; square one [7; 6; 5; 4]%nat; square hf [6; 3; 2; 1]%nat].
  Definition mass3' : list (hcell N) := [msquare hf [2; 1; 4; 0]%nat; msquare one [7; 6; 5; 4]%nat; msquare hf [6; 3; 2; 1]%nat].
  Definition faces3' (ty : BinNums.N) : list (hface N) :=
    [mkhf (N := N) 1 0 none (mkhc (N := N) [2; 1; 4; 0]%nat (map (side hf) [1; 3]%nat)) ty;
     mkhf (N := N) 0 7 (mkhc (N := N) [6; 3; 2; 1]%nat (map (side hf) [1; 3]%nat)) none ty;
     mkhf (N := N) 0 0 (mkhc (N := N) [6; 3; 2; 1]%nat (map (side hf) [2; 3]%nat)) (mkhc (N := N) [2; 1; 4; 0]%nat (map (side hf) [0; 1]%nat)) ty].
  Definition mesh3' (ty : BinNums.N) : heat_mesh N := mkhm (N := N) 8 [(2, [(6%nat, hf); (4%nat, hf)])]%nat cells3' mass3' (faces3' ty).
  (** A law that depends on the square. *)
  Definition K4 : laws N := fun c q T => mkpl (N := N) one (nofZ N (2 + Z.of_nat c)) one one one zero [nofZ N 3; nofZ N (Z.of_nat c)].
End Mesh.

Lemma mesh3'_ok ty : mesh_ok (mesh3' (N := RNum) ty).
Proof.
  split; [|split; [|split]].
  - split; [cbn; repeat constructor; cbn; intuition lia|]. apply Forall_list; [|apply Forall_nil]. cbn [fst snd]. split; [cbn; lia|]. split; [|calc].
    repeat (apply Forall_list; [cbn; split; [lia|intuition lia]|]). apply Forall_nil.
  - repeat (apply Forall_list; [shape|]). apply Forall_nil.
  - repeat (apply Forall_list; [shape|]). apply Forall_nil.
  - repeat (apply Forall_list; [split; shape|]). apply Forall_nil.
Qed.
Ltac all_list := repeat (apply Forall_list; [|]); try apply Forall_nil.
Ltac work := let k := fresh in let j := fresh in let I := fresh in intros k j I; cbn in I; repeat destruct I as [<-|I]; try contradiction; unfold behind, known; cbn; intros; intuition lia.
Lemma two_distributes ty : distributes (mesh3 (N := RNum) ty) (two ty).
Proof.
  unfold distributes. split; [|split; [|split; [|split]]].
  - cbn [two flat_map sh_cells first_share second_share List.app mesh3 m_cells cells3]. change (indexed cells3) with [(0%nat, square (N := RNum) one [0; 1; 2; 3]%nat); (1%nat, square (N := RNum) hf [1; 4; 5; 6]%nat); (2%nat, square (N := RNum) hf [5; 6; 3; 7]%nat)].
    etransitivity; [apply perm_swap|]. apply perm_skip. apply perm_swap.
  - cbn [two flat_map sh_faces first_share second_share mesh3 m_faces]. unfold faces3. cbn [numbered indexed List.length seq combine firstn skipn List.app].
    match goal with |- Permutation [?a; ?b; ?c] _ => apply (Permutation_trans (l' := [a; c; b])); [apply perm_skip, perm_swap|apply perm_swap] end.
  - cbn [two flat_map sh_mass first_share second_share List.app mesh3 m_mass]. unfold mass3.
    etransitivity; [apply perm_swap|]. apply perm_skip. apply perm_swap.
  - cbn [two flat_map sh_owned first_share second_share List.app mesh3 m_n seq]. do 4 apply perm_skip.
    change [4; 5; 6; 7]%nat with (rev [7; 6; 5; 4]%nat). apply Permutation_rev.
  - unfold two, first_share, second_share. cbn [mesh3 m_C sh_cells sh_faces sh_mass numbered faces3 List.length seq combine firstn skipn List.app]. all_list; (split; [|split]); all_list; cbn [snd]; try (intros E; vm_compute in E; discriminate); try intros _; work.
Qed.
Lemma back_renumbers ty : renumbered back turn swap (mesh3 (N := RNum) ty) (mesh3' ty).
Proof.
  unfold renumbered. split; [reflexivity|]. split; [|split; [|split; [|split]]].
  - cbn [mesh3 m_n seq map back]. change (Permutation (rev [0; 1; 2; 3; 4; 5; 6; 7]%nat) [0; 1; 2; 3; 4; 5; 6; 7]%nat). symmetry. apply Permutation_rev.
  - unfold mesh3, mesh3', cells3, cells3'. cbn [m_cells indexed List.length seq combine map fst snd turn renamed back square c_dofs c_quads Nat.leb Nat.sub].
    match goal with |- Permutation [?a; ?b; ?c] _ => apply (Permutation_trans (l' := [a; c; b])); [apply perm_skip, perm_swap|]; apply (Permutation_trans (l' := [c; a; b])); [apply perm_swap|reflexivity] end.
  - unfold mesh3, mesh3', faces3, faces3'. cbn [m_faces indexed List.length seq combine map fst snd swap renamed_face renamed back square none hf_first hf_second hf_inner hf_outer hf_type c_dofs c_quads Nat.leb Nat.sub].
    apply perm_swap.
  - unfold mesh3, mesh3', mass3, mass3'. cbn [m_mass map renamed back msquare c_dofs c_quads Nat.leb Nat.sub].
    match goal with |- Permutation [?a; ?b; ?c] _ => apply (Permutation_trans (l' := [a; c; b])); [apply perm_skip, perm_swap|]; apply (Permutation_trans (l' := [c; a; b])); [apply perm_swap|reflexivity] end.
  - cbn [mesh3 mesh3' m_C map renamed_line back fst snd Nat.leb Nat.sub]. reflexivity.
Qed.
Lemma same3 : same_field back 8 [10; 20; 10; 40; 30; 999; 30; 50]%R [50; 30; 999; 30; 40; 10; 20; 10]%R.
Proof. split; [reflexivity|]. split; [reflexivity|]. intros j L. do 8 (destruct j as [|j]; [reflexivity|]). lia. Qed.

Local Open Scope Q_scope.
Definition parallel3 (ss : list (share QNum)) : list Q := shown (parallel_evaluate (N := QNum) false true false 8 [(5%nat, [(1%nat, hf); (3%nat, hf)])] K4 F3 junk junk ss y3).
(** The values of the two processes are those of one; without the ghost they are not. *)
Example two_processes : parallel3 (two (N := QNum) convective) = shown (evaluate (N := QNum) false true false (mesh3 (N := QNum) convective) K4 F3 y3).
Proof. vm_compute. reflexivity. Qed.
Example ghost_forgotten : parallel3 (forgotten (N := QNum) convective) <> shown (evaluate (N := QNum) false true false (mesh3 (N := QNum) convective) K4 F3 y3).
Proof. vm_compute. discriminate. Qed.
Example two_heat : Qred (parallel_heat (N := QNum) (fun c q => inject_Z (4 + Z.of_nat c)) (two (N := QNum) convective)) = 27 # 4.
Proof. vm_compute. reflexivity. Qed.
Example numbered_back : shown (evaluate (N := QNum) false true false (mesh3' (N := QNum) convective) (fun c => K4 (unturn c)) F3 (rev y3)) = rev (shown (evaluate (N := QNum) false true false (mesh3 (N := QNum) convective) K4 F3 y3)).
Proof. vm_compute. reflexivity. Qed.

(** In binary64 the order of the additions shows: three cells that share their node, with sources 0.1, 0.2 and 0.3. *)
Local Open Scope float_scope.
Definition point_cell : hcell FNum := mkhc (N := FNum) [0%nat] [mkhq (N := FNum) 1 [1] [mkpt (N := FNum) 0 0 0]].
Definition three_sources : laws FNum := fun c q T => mkpl (N := FNum) 1 1 1 1 1 0 [match c with O => 0.1 | S O => 0.2 | _ => 0.3 end].
Definition no_losses : face_laws FNum := fun j q T => mkfl (N := FNum) 1 0 0 0 0.
Definition alone : list (share FNum) := [mkshare (N := FNum) [(0%nat, point_cell); (1%nat, point_cell); (2%nat, point_cell)] [] [point_cell] [0%nat] []].
Definition shared : list (share FNum) :=
  [mkshare (N := FNum) [(0%nat, point_cell)] [] [point_cell] [0%nat] []; mkshare (N := FNum) [(1%nat, point_cell); (2%nat, point_cell)] [] [] [] [0%nat]].
Definition rounded (ss : list (share FNum)) : list float := parallel_evaluate (N := FNum) false true true 1 [] three_sources no_losses (fun _ => []) (fun _ => []) ss [300].
Lemma rounded_alone : rounded alone = [0x1.3333333333334p-1]. Proof. vm_compute. reflexivity. Qed.
Lemma rounded_shared : rounded shared = [0x1.3333333333333p-1]. Proof. vm_compute. reflexivity. Qed.
Lemma rounded_differ : rounded alone <> rounded shared.
Proof. rewrite rounded_alone, rounded_shared. intros E. injection E as E. apply (f_equal (fun x => PrimFloat.eqb x 0x1.3333333333333p-1)) in E. vm_compute in E. discriminate. Qed.
