(** MeshProofs2.v -- proofs of C76: from the input to the mesh. *)
From Coq Require Import Reals Lra Lia Psatz List ZArith String Bool.
From Verif Require Import Base BaseFacts MaterialModel ScanPathModel InputModel GeometryModel CellModel MeshModel MeshSpec MeshProofs.
Import ListNotations.
Local Open Scope R_scope.

Lemma entry_def {A} (tr : string -> option A) g key d v : entry tr g key d v -> get_def tr d g [key] = v.
Proof. unfold entry, get_def, get_opt. destruct (get_str_opt g [key]) as [s|]; [intros ->; reflexivity|intros ->; reflexivity]. Qed.
Lemma divisions_entry tint g key n : entry tint g key 10%Z n -> (0 < n < 2 ^ 31)%Z -> divisions tint g key = n.
Proof. intros E B. unfold divisions. rewrite (entry_def _ _ _ _ _ E). apply Z.mod_small. lia. Qed.
Lemma make_axis_up (o L : R) n : 0 < L -> make_axis (N := RNum) o (L + o) n = mkaxis (N := RNum) o (L + o) (Z.to_nat n).
Proof.
  intros H. unfold make_axis. change (nltb RNum) with Rltb. destruct (Rltb (L + o) o) eqn:E; [apply Rltb_true in E; lra|]. destruct (Rltb o (L + o)) eqn:F; [reflexivity|apply Rltb_false in F; lra].
Qed.
Lemma good_axis (o L : R) n : 0 < L -> (0 < n)%Z -> ((0 <? ax_n (mkaxis (N := RNum) o (L + o)%R (Z.to_nat n)))%nat && nltb RNum (ax_low (mkaxis (N := RNum) o (L + o)%R (Z.to_nat n))) (ax_high (mkaxis (N := RNum) o (L + o)%R (Z.to_nat n))))%bool = true.
Proof. intros H P. cbn [ax_n ax_low ax_high]. change (nltb RNum) with Rltb. apply andb_true_intro. split; [apply Nat.ltb_lt; lia|]. apply Rltb_true. lra. Qed.
Section Read.
Variables (tbool : string -> option bool) (tint : string -> option Z) (tdouble : string -> option R) (stl : string -> R -> res (list (triangle RNum))).
Lemma box_3d units g (L W H ol ow oh : R) nl nw nh : get tbool g ["import_mesh"%string] = Ok false -> get_str_opt g ["stl_filename"%string] = None ->
  get tdouble g ["length"%string] = Ok L -> get tdouble g ["width"%string] = Ok W -> get tdouble g ["height"%string] = Ok H ->
  entry tdouble g "length_origin" 0 ol -> entry tdouble g "width_origin" 0 ow -> entry tdouble g "height_origin" 0 oh ->
  entry tint g "length_divisions" 10%Z nl -> entry tint g "width_divisions" 10%Z nw -> entry tint g "height_divisions" 10%Z nh ->
  0 < L -> 0 < W -> 0 < H -> (0 < nl < 2 ^ 31)%Z -> (0 < nw < 2 ^ 31)%Z -> (0 < nh < 2 ^ 31)%Z ->
  (do m <- make_mesh (N := RNum) tbool tint tdouble 3 stl units g; axes_of m) =
  Ok [mkaxis (N := RNum) ol (L + ol) (Z.to_nat nl); mkaxis (N := RNum) ow (W + ow) (Z.to_nat nw); mkaxis (N := RNum) oh (H + oh) (Z.to_nat nh)].
Proof.
  intros I S EL EW EH OL OW OH NL NW NH PL PW PH BL BW BH. unfold make_mesh. rewrite I, S. cbn [bind].
  etransitivity. { refine (f_equal (fun r => bind r _) _). refine (f_equal (fun r => bind r _) EL). } cbn [bind].
  etransitivity. { refine (f_equal (fun r => bind r _) _). refine (f_equal (fun r => bind r _) EH). } cbn [bind Nat.eqb].
  etransitivity. { refine (f_equal (fun r => bind r _) _). refine (f_equal (fun r => bind r _) _). refine (f_equal (fun r => bind r _) EW). } cbn [bind List.app].
  rewrite (divisions_entry _ _ _ _ NL BL), (divisions_entry _ _ _ _ NW BW), (divisions_entry _ _ _ _ NH BH).
  etransitivity.
  { refine (f_equal (fun o => axes_of (Generated [nl; nw; nh] o (map (fun so => nadd RNum (fst so) (snd so)) (combine [L; W; H] o)))) _).
    exact (f_equal2 cons (entry_def tdouble g _ _ _ OL) (f_equal2 cons (entry_def tdouble g _ _ _ OW) (f_equal2 cons (entry_def tdouble g _ _ _ OH) eq_refl))). }
  cbn [combine map fst snd axes_of]. change (nadd RNum) with Rplus. rewrite !make_axis_up by assumption. cbn [forallb].
  rewrite !good_axis by (assumption || lia). reflexivity.
Qed.
Lemma box_2d units g (L H ol oh : R) nl nh : get tbool g ["import_mesh"%string] = Ok false -> get_str_opt g ["stl_filename"%string] = None ->
  get tdouble g ["length"%string] = Ok L -> get tdouble g ["height"%string] = Ok H ->
  entry tdouble g "length_origin" 0 ol -> entry tdouble g "height_origin" 0 oh ->
  entry tint g "length_divisions" 10%Z nl -> entry tint g "height_divisions" 10%Z nh ->
  0 < L -> 0 < H -> (0 < nl < 2 ^ 31)%Z -> (0 < nh < 2 ^ 31)%Z ->
  (do m <- make_mesh (N := RNum) tbool tint tdouble 2 stl units g; axes_of m) =
  Ok [mkaxis (N := RNum) ol (L + ol) (Z.to_nat nl); mkaxis (N := RNum) oh (H + oh) (Z.to_nat nh)].
Proof.
  intros I S EL EH OL OH NL NH PL PH BL BH. unfold make_mesh. rewrite I, S. cbn [bind].
  etransitivity. { refine (f_equal (fun r => bind r _) _). refine (f_equal (fun r => bind r _) EL). } cbn [bind].
  etransitivity. { refine (f_equal (fun r => bind r _) _). refine (f_equal (fun r => bind r _) EH). } cbn [bind Nat.eqb List.app].
  rewrite (divisions_entry _ _ _ _ NL BL), (divisions_entry _ _ _ _ NH BH).
  etransitivity.
  { refine (f_equal (fun o => axes_of (Generated [nl; nh] o (map (fun so => nadd RNum (fst so) (snd so)) (combine [L; H] o)))) _).
    exact (f_equal2 cons (entry_def tdouble g _ _ _ OL) (f_equal2 cons (entry_def tdouble g _ _ _ OH) eq_refl)). }
  cbn [combine map fst snd axes_of]. change (nadd RNum) with Rplus. rewrite !make_axis_up by assumption. cbn [forallb].
  rewrite !good_axis by (assumption || lia). reflexivity.
Qed.
End Read.
Section Units.
Context {N : Num}.
Variables (tbool : string -> option bool) (tint : string -> option Z) (tdouble : string -> option N) (stl : string -> N -> res (list (triangle N))).
Lemma units_unused dim u1 u2 g : get tbool g ["import_mesh"%string] = Ok false -> get_str_opt g ["stl_filename"%string] = None ->
  make_mesh tbool tint tdouble dim stl u1 g = make_mesh tbool tint tdouble dim stl u2 g.
Proof. intros I S. unfold make_mesh. rewrite I, S. reflexivity. Qed.
Lemma imported dim units g file fmt : get tbool g ["import_mesh"%string] = Ok true -> get_str_opt g ["stl_filename"%string] = None ->
  get_str g ["mesh_file"%string] = Ok file -> get_str g ["mesh_format"%string] = Ok fmt ->
  make_mesh tbool tint tdouble dim stl units g = Ok (Imported file (grid_in_format fmt) (scaling units ["mesh"%string]) (get_def tbool false g ["reset_material_id"%string])).
Proof. intros I S F M. unfold make_mesh. rewrite I, S. cbn [bind]. rewrite F. cbn [bind]. rewrite M. reflexivity. Qed.
End Units.
Lemma format_known fmt : (In fmt ["abaqus"; "assimp"; "unv"; "ucd"; "dbmesh"; "tecplot"; "xda"; "vtk"; "vtu"; "exodusii"]%string -> grid_in_format fmt = Named fmt) /\ (fmt = "gmsh"%string -> grid_in_format fmt = Named "msh") /\
  (~ In fmt ["abaqus"; "assimp"; "unv"; "ucd"; "dbmesh"; "tecplot"; "xda"; "vtk"; "vtu"; "exodusii"; "gmsh"]%string -> grid_in_format fmt = Default).
Proof.
  split; [|split].
  - intros H. cbn [In] in H. decompose [or] H; try contradiction; subst; reflexivity.
  - intros ->. reflexivity.
  - intros H. unfold grid_in_format. cbn [existsb]. repeat match goal with |- context [String.eqb fmt ?k] => destruct (String.eqb_spec fmt k) as [->|]; [exfalso; apply H; cbn [In]; tauto|] end. reflexivity.
Qed.
Lemma import_scaled (factor : R) reset cells : List.length (import_cells (N := RNum) factor reset cells) = List.length cells /\
  forall i vs m, nth_error cells i = Some (vs, m) -> nth_error (import_cells (N := RNum) factor reset cells) i = Some (map (map (Rmult factor)) vs, if reset then 0%nat else m).
Proof.
  unfold import_cells. split; [apply map_length|]. intros i vs m E. rewrite nth_error_map, E. reflexivity.
Qed.
Lemma import_collapsed reset cells vs m : In (vs, m) (import_cells (N := RNum) (unit_factor (N := RNum) "mm") reset cells) -> forall v x, In v vs -> In x v -> (x : R) = 0.
Proof.
  unfold import_cells. intros H v x Hv Hx. apply in_map_iff in H. destruct H as ([vs' m'] & E & _). injection E as <- _.
  apply in_map_iff in Hv. destruct Hv as (v' & <- & _). apply in_map_iff in Hx. destruct Hx as (y & <- & _).
  assert (X : unit_factor (N := RNum) "mm" = 0) by reflexivity. rewrite X. apply Rmult_0_l.
Qed.
Lemma division_malformed tint g key s : get_str_opt g [key] = Some s -> tint s = None -> divisions tint g key = 10%Z.
Proof. intros E F. unfold divisions, get_def, get_opt. rewrite E, F. reflexivity. Qed.
Lemma division_negative tint g key s : get_str_opt g [key] = Some s -> tint s = Some (-1)%Z -> divisions tint g key = 4294967295%Z.
Proof. intros E F. unfold divisions, get_def, get_opt. rewrite E, F. reflexivity. Qed.
Lemma division_zero {N : Num} ns (p1 p2 : list N) : List.length p1 = List.length ns -> List.length p2 = List.length ns -> In 0%Z ns -> axes_of (Generated ns p1 p2) = UB.
Proof.
  intros A B H. unfold axes_of. destruct (forallb _ _) eqn:E; [exfalso|reflexivity]. rewrite forallb_forall in E.
  assert (X : exists a, In a (map (fun '(pq, n) => make_axis (fst pq) (snd pq) n) (combine (combine p1 p2) ns)) /\ ax_n a = 0%nat).
  { clear E. revert p1 p2 A B. induction ns as [|n ns IH]; [destruct H|]. intros [|x p1] [|y p2]; try discriminate. simpl. intros A B. destruct H as [->|H].
    - eexists. split; [left; reflexivity|reflexivity].
    - destruct (IH H p1 p2) as (a & Ha & E); [lia|lia|]. exists a. split; [right; exact Ha|exact E]. }
  destruct X as (a & Ha & Ea). specialize (E a Ha). rewrite Ea in E. discriminate.
Qed.
