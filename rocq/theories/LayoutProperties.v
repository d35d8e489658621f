(** LayoutProperties.v -- C84: the data at the quadrature points are those of their cells. *)
From Coq Require Import ZArith Bool List Reals.
From Verif Require Import Base CellModel MaterialModel MaterialSpec LayoutModel LayoutSpec LayoutProofs LayoutProofs2 LayoutProofs3 LayoutExamples.
Import ListNotations.

(** * C84 *)
(** Liquid and powder ratios and material at every point of every lane of the host are those of the cell in the lane; other entries are not touched. *)
Theorem C84_cells : forall (A : Type) (batches : list (list nat)) (n_q : nat) (value : nat -> A) (t0 : tab A),
  (forall b q i c, lane batches b i c -> q < n_q -> host_cells batches n_q value t0 b q i = value c) /\
  (forall b q i, (forall c, ~ lane batches b i c) \/ n_q <= q -> host_cells batches n_q value t0 b q i = t0 b q i).
Proof. exact @host_cells_at. Qed.
Print Assumptions C84_cells.
(** The map from cells to lanes gives back the lane of each cell. *)
Theorem C84_map : forall (batches : list (list nat)), NoDup (List.concat batches) ->
  (forall b i c, lane batches b i c -> host_map batches c = Some (b, i)) /\ (forall c, ~ In c (List.concat batches) -> host_map batches c = None).
Proof. exact host_map_at. Qed.
Print Assumptions C84_map.
(** Spreading the state of the cells over the points and writing it back with this map changes nothing. *)
Theorem C84_round_trip : forall k (state : nat -> ratios RNum) (batches : list (list nat)) (n_q : nat) (cells : list nat) (c : nat) (t0 t1 : mf_table RNum),
  NoDup (List.concat batches) -> In c (List.concat batches) -> In c cells -> 0 < n_q -> partition (state c) -> only_states k (state c) ->
  set_state k (host_cells batches n_q (fun c => r_liquid (state c)) t0) (host_cells batches n_q (fun c => r_powder (state c)) t1) n_q (host_map batches) cells state c = state c.
Proof. exact round_trip_host. Qed.
Print Assumptions C84_round_trip.
(** The angles of deposition, one for each cell of the process with material in the order of the mesh, arrive at the points of their cells. *)
Theorem C84_orientation : forall (A : Type) (cells : list lcell) (batches : list (list nat)) (n_q : nat) (angle : nat -> A) (l : list nat) (t0 : tab A),
  in_order cells l -> (forall b i c, lane batches b i c -> owned_cell cells c) ->
  exists t, host_orientation cells batches n_q (map angle l) t0 = Ok t /\
    (forall b q i c, lane batches b i c -> q < n_q -> active_cell cells c -> t b q i = angle c) /\
    (forall b q i c, lane batches b i c -> q < n_q -> ~ active_cell cells c -> t b q i = t0 b q i).
Proof. exact @orientation_at. Qed.
Print Assumptions C84_orientation.
(** With fewer angles than cells with material the code reads past their end. *)
Theorem C84_too_few_angles : forall (A : Type) (cells : list lcell) (batches : list (list nat)) (n_q : nat) (angles : list A) (t0 : tab A) (l : list nat) (b i c k : nat),
  in_order cells l -> lane batches b i c -> nth_error l k = Some c -> List.length angles <= k -> 0 < n_q -> (forall b i c, lane batches b i c -> owned_cell cells c) ->
  host_orientation cells batches n_q angles t0 = UB.
Proof. exact @orientation_too_few. Qed.
Print Assumptions C84_too_few_angles.
(** On the device: all accesses are within the views, and the entry of each point has the data of its cell, so those of the host. *)
Theorem C84_device_cells : forall (A : Type) (cells : list lcell) (n_q : nat) (colours : list (list nat)) (value : nat -> A), coloured cells colours ->
  exists a, device_cells cells n_q colours value = Ok a /\ List.length a = n_q * List.length (filter lc_owned cells) /\
    forall c q p, place colours n_q c q p -> nth_error a p = Some (Some (value c)).
Proof. exact @device_cells_at. Qed.
Print Assumptions C84_device_cells.
Theorem C84_device_orientation : forall (A : Type) (cells : list lcell) (n_q : nat) (colours : list (list nat)) (angle : nat -> A) (l : list nat), in_order cells l -> coloured cells colours ->
  exists a, device_orientation cells n_q colours (map angle l) = Ok a /\ List.length a = n_q * List.length (filter lc_owned cells) /\
    forall c q p, place colours n_q c q p -> nth_error a p = Some (Some (angle c)).
Proof. exact @device_orientation_at. Qed.
Print Assumptions C84_device_orientation.
(** The value of a cell that the sources on the device use is the mean over its points. *)
Theorem C84_device_mean : forall (n_q : nat) (colours : list (list nat)) (inv : nat -> R) (old : nat -> option R), NoDup (List.concat colours) ->
  (forall k c, nth_error (List.concat colours) k = Some c ->
     inv_rho_cp_cells (N := RNum) n_q colours inv old c = Some (fold_left (fun s q => (s + inv (k * n_q + q)%nat)%R) (seq 0 n_q) 0%R / INR n_q)%R) /\
  (forall c, ~ In c (List.concat colours) -> inv_rho_cp_cells (N := RNum) n_q colours inv old c = old c).
Proof. exact inv_cells_at. Qed.
Print Assumptions C84_device_mean.
Example C84_witness : in_order ex_cells [1; 3; 4] /\ coloured ex_cells ex_colours /\ NoDup (List.concat ex_batches) /\ (forall b i c, lane ex_batches b i c -> owned_cell ex_cells c) /\
  lane ex_batches 0 1 3 /\ place ex_colours 4 3 2 10.
Proof. exact (conj ex_order (conj ex_coloured (conj ex_nodup (conj ex_owned (conj ex_lane ex_place))))). Qed.
(** Faces of the boundary of the active material have the data of their side with material if that cell belongs to the process, and keep the initial zeros otherwise. *)
Theorem C84_faces : forall (A : Type) (cells : list lcell) (inner : list (list (nat * nat))) (boundary : list (list nat)) (n_q : nat) (value : nat -> A) (t0 : tab A),
  (forall f i l, lane inner f i l -> on_mesh cells (fst l) /\ on_mesh cells (snd l)) -> (forall f i c, lane boundary f i c -> on_mesh cells c) ->
  exists t, host_faces cells inner boundary n_q value t0 = Ok t /\
    (forall f q i l c, lane inner f i l -> q < n_q -> inner_boundary cells l c -> t f q i = if match nth_error cells c with Some x => lc_owned x | None => false end then value c else t0 f q i) /\
    (forall f q i l, lane inner f i l -> q < n_q -> (forall c, ~ inner_boundary cells l c) -> t f q i = t0 f q i) /\
    (forall f q i c, lane boundary f i c -> q < n_q -> active_cell cells c ->
       t (List.length inner + f) q i = if match nth_error cells c with Some x => lc_owned x | None => false end then value c else t0 (List.length inner + f) q i).
Proof. exact @faces_at. Qed.
Print Assumptions C84_faces.
Example C84_faces_witness : lane [[(0, 1)]; [(0, 2)]] 0 0 (0, 1) /\ inner_boundary ex_cells (0, 1) 1 /\ owned_cell ex_cells 1.
Proof. exact ex_face. Qed.
(** So a face between a cell without material of the process and a cell with material of another one is treated as if it were of the first material, whatever it is. *)
Theorem C84_faces_of_other_processes_refuted : inner_boundary ex_cells (0, 2) 2 /\ ~ owned_cell ex_cells 2 /\ owned_cell ex_cells 0 /\
  exists t, host_faces ex_cells [[(0, 2)]] [] 1 (fun c => nth c (map lc_material ex_cells) 0) (fun _ _ _ => 0) = Ok t /\ t 0 0 0 = 0 /\ nth 2 (map lc_material ex_cells) 0 = 1.
Proof. exact ghost_face. Qed.
Print Assumptions C84_faces_of_other_processes_refuted.
