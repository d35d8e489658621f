(** RefineModel.v -- which cells are refined and coarsened (application/adamantine.hh: compute_cells_to_refine, refine_mesh).

    Simplifications: coordinates are exact real numbers (ArborX stores single precision boxes); the result of ArborX for a box
    with NaN coordinates is not modelled (UB). *)
From Coq Require Import Reals ZArith Bool List.
From Verif Require Import Base ScanPathModel QuaternionModel HeatSourceModel CellModel.
Import ListNotations.
Local Open Scope R_scope.

Definition box : Type := pt RNum * pt RNum.
(** The heat sources: Goldak and electron beams have the same bounding box. *)
Inductive heat_source := Beam (b : beam) (sp : scan_path RNum) | Cube (c : cube).
Definition source_box (dim3 : bool) (s : heat_source) (t scaling : R) : res (option box) :=
  match s with Beam b sp => beam_bounding_box dim3 b sp t scaling | Cube c => Ok (Some (cube_bounding_box dim3 c)) end.

(** adamantine.hh:569-571 *)
Definition sample_time (time next : R) (n i : nat) : R := time + INR i / INR n * (next - time).
(** 564-579 *)
Definition sampled_boxes (dim3 : bool) (sources : list heat_source) (time next : R) (n : nat) : res (list box) :=
  let bounding_box_scaling := 2 in
  mapR (fun ts => do b <- source_box dim3 (snd ts) (fst ts) bounding_box_scaling; match b with Some x => Ok x | None => UB end)
       (flat_map (fun i => map (fun s => (sample_time time next n i, s)) sources) (seq 0 n)).

(** ArborX: two boxes intersect unless they are separated along an axis. *)
Definition intersects (dim3 : bool) (a b : box) : bool :=
  let sep (f : pt RNum -> R) := Rltb (f (snd b)) (f (fst a)) || Rltb (f (snd a)) (f (fst b)) in
  negb (sep (fun p => px p) || sep (fun p => py p) || (dim3 && sep (fun p => pz p))).

(** A locally owned cell: bounding box and level. *)
Definition tria_cell : Type := box * nat.
(** 552-605: positions of the cells to refine. *)
Definition compute_cells_to_refine (dim3 : bool) (cells : list tria_cell) (time next : R) (n : nat) (sources : list heat_source) : res (list nat) :=
  do boxes <- sampled_boxes dim3 sources time next n;
  Ok (map fst (filter (fun pc => existsb (fun b => intersects dim3 (fst (snd pc)) b) boxes) (combine (seq 0 (List.length cells)) cells))).

(** 639-664: the refine and coarsen flags of one pass. *)
Definition flags : Type := list (bool * bool).
Definition flag_cell (n_refinements : nat) (coarsen_after_beam : bool) (levels : list nat) (fl : flags) (pos : nat) : res flags :=
  do f <- at_ fl pos;
  do l <- at_ levels pos;
  update fl pos (if Nat.ltb l n_refinements then true else fst f, if coarsen_after_beam then false else snd f).
Definition refine_mesh_flags (dim3 : bool) (cells : list tria_cell) (time next : R) (n : nat) (sources : list heat_source)
           (n_refinements : nat) (coarsen_after_beam : bool) : res flags :=
  do to_refine <- compute_cells_to_refine dim3 cells time next n sources;
  let levels := map snd cells in
  foldR (flag_cell n_refinements coarsen_after_beam levels) to_refine
        (map (fun l => (false, if coarsen_after_beam then Nat.ltb 0 l else false)) levels).

(** adamantine.hh:1115-1125: the window of the next refinement. *)
Definition next_refinement_time (time time_step : R) (time_steps_refinement : nat) : R := time + INR time_steps_refinement * time_step.
