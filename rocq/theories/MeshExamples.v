(** MeshExamples.v -- an input that meets the hypotheses of the theorems of C76, and the inputs of its refuted claims. *)
From Coq Require Import Reals Lra Lia List ZArith String Bool.
From Verif Require Import Base BaseFacts MaterialModel ScanPathModel InputModel GeometryModel CellModel MeshModel MeshSpec MeshProofs MeshProofs2.
Import ListNotations.
Local Open Scope string_scope.

Definition ms_leaf (k v : string) : string * ptree := (k, Node v []).
Definition ms_bool (s : string) : option bool := if String.eqb s "true" then Some true else if String.eqb s "false" then Some false else None.
Definition ms_int (s : string) : option Z := if String.eqb s "20" then Some 20%Z else if String.eqb s "4" then Some 4%Z else if String.eqb s "0" then Some 0%Z else if String.eqb s "-1" then Some (-1)%Z else None.
Definition ms_double (s : string) : option R := if String.eqb s "2" then Some 2%R else if String.eqb s "1" then Some 1%R else if String.eqb s "0.5" then Some (/ 2)%R else None.
Definition ms_stl (f : string) (s : R) : res (list (triangle RNum)) := Throw.
(** A brick of 2 x 1 x 1 with 20 x 10 x 4 cells, half a metre above the ground. *)
Definition ms_g : ptree := Node "" [ms_leaf "import_mesh" "false"; ms_leaf "length" "2"; ms_leaf "width" "1"; ms_leaf "height" "1"; ms_leaf "height_origin" "0.5";
  ms_leaf "length_divisions" "20"; ms_leaf "height_divisions" "4"].
Definition ms_axes : list (axis (N := RNum)) := [mkaxis (N := RNum) 0%R (2 + 0)%R 20; mkaxis (N := RNum) 0%R (1 + 0)%R 10; mkaxis (N := RNum) (/ 2)%R (1 + / 2)%R 4].
Lemma ms_box : (do m <- make_mesh (N := RNum) ms_bool ms_int ms_double 3 ms_stl None ms_g; axes_of m) = Ok ms_axes.
Proof. apply (box_3d ms_bool ms_int ms_double ms_stl None ms_g 2 1 1 0 0 (/ 2) 20 10 4); try reflexivity; try lra; try lia. Qed.
Lemma ms_good : Forall good ms_axes.
Proof.
  repeat constructor; simpl; try lia; lra.
Qed.
Lemma ms_cells : List.length (indices ms_axes) = 800%nat.
Proof. rewrite indices_length. reflexivity. Qed.
(** Divisions that are not integers count as missing, a negative number wraps around, zero is not refused. *)
Definition ms_bad (n : string) : ptree := Node "" [("geometry", Node "" [ms_leaf "import_mesh" "false"; ms_leaf "length" "2"; ms_leaf "height" "1"; ms_leaf "length_divisions" n])].
Definition ms_mesh (n : string) : res (mesh (N := RNum)) := do g <- child (ms_bad n) ["geometry"]; make_mesh (N := RNum) ms_bool ms_int ms_double 2 ms_stl None g.
Lemma ms_divisions :
  (forall n, check_geometry (N := RNum) ms_bool ms_double (ms_bad n) 2 = Ok tt) /\
  ms_mesh "20.5" = Ok (Generated (N := RNum) [10; 10]%Z [0; 0]%R [2 + 0; 1 + 0]%R) /\
  ms_mesh "-1" = Ok (Generated (N := RNum) [4294967295; 10]%Z [0; 0]%R [2 + 0; 1 + 0]%R) /\
  (do m <- ms_mesh "0"; axes_of m) = UB.
Proof.
  split; [intros n; reflexivity|]. split; [reflexivity|]. split; [reflexivity|].
  change (axes_of (Generated (N := RNum) [0; 10]%Z [0; 0]%R [2 + 0; 1 + 0]%R) = UB). apply division_zero; try reflexivity. left. reflexivity.
Qed.
(** The unit of the mesh is millimetre; the brick is still 2 metres long. *)
Definition ms_units : option ptree := Some (Node "" [ms_leaf "mesh" "millimeter"]).
Lemma ms_units_unused : make_mesh (N := RNum) ms_bool ms_int ms_double 3 ms_stl ms_units ms_g = make_mesh (N := RNum) ms_bool ms_int ms_double 3 ms_stl None ms_g /\ scaling (N := RNum) ms_units ["mesh"] = (/ 1000)%R.
Proof. split; [apply units_unused; reflexivity|]. unfold scaling, ms_units, unit_factor. simpl. lra. Qed.
