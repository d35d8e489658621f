(** DepositionSpec.v -- what C12-C14 and C53 mean. *)
From Coq Require Import Reals ZArith Bool List String Sorted Permutation.
From Verif Require Import Base QuaternionModel ScanPathModel ScanPathSpec DepositionModel.
Import ListNotations.

(** One row of the four lists. *)
Record row (N : Num) : Type := mkrow { r_box : pt N * pt N; r_time : N; r_cos : N; r_sin : N }.
Arguments mkrow {N} _ _ _ _.
Arguments r_box {N} _.
Arguments r_time {N} _.
Arguments r_cos {N} _.
Arguments r_sin {N} _.

(** The four lists are the columns of the rows: equal lengths, entries belong together. *)
Definition columns {N} (d : dep N) (rows : list (row N)) : Prop :=
  d_boxes d = map r_box rows /\ d_times d = map r_time rows /\ d_cos d = map r_cos rows /\ d_sin d = map r_sin rows.

(** A line "center(dim) size(dim) time angle" (anything after is ignored). *)
Definition row_of_line {N} (P : parser N) (ncos nsin : N -> N) (dim3 : bool) (line : string) (r : row N) : Prop :=
  exists toks, split is_space line = toks /\
  if dim3 then
    exists cx cy cz sx sy sz t a rest vcx vcy vcz vsx vsy vsz va,
      toks = cx :: cy :: cz :: sx :: sy :: sz :: t :: a :: rest /\
      stod P cx = Some vcx /\ stod P cy = Some vcy /\ stod P cz = Some vcz /\
      stod P sx = Some vsx /\ stod P sy = Some vsy /\ stod P sz = Some vsz /\
      stod P t = Some (r_time r) /\ stod P a = Some va /\
      r_cos r = ncos va /\ r_sin r = nsin va /\
      r_box r = (mkpt (vcx - half * vsx) (vcy - half * vsy) (vcz - half * vsz),
                 mkpt (vcx + half * vsx) (vcy + half * vsy) (vcz + half * vsz))%num
  else
    exists cx cy sx sy t a rest vcx vcy vsx vsy va,
      toks = cx :: cy :: sx :: sy :: t :: a :: rest /\
      stod P cx = Some vcx /\ stod P cy = Some vcy /\ stod P sx = Some vsx /\ stod P sy = Some vsy /\
      stod P t = Some (r_time r) /\ stod P a = Some va /\
      r_cos r = ncos va /\ r_sin r = nsin va /\
      r_box r = (mkpt (vcx - half * vsx) (vcy - half * vsy) (nofZ N 0), mkpt (vcx + half * vsx) (vcy + half * vsy) (nofZ N 0))%num.

(** No time is smaller than the one before it. *)
Definition never_decreases {N : Num} (ts : list N) : Prop :=
  forall i a b, nth_error ts i = Some a -> nth_error ts (S i) = Some b -> nleb N a b = true.

(** ** Deposition along a path, over the reals. *)
Local Open Scope R_scope.

(** The legs of a path: (start point, start time, segment). *)
Fixpoint legs_from (p : pt RNum) (t : R) (segs : list (seg RNum)) : list (pt RNum * R * seg RNum) :=
  match segs with
  | [] => []
  | s :: rest => (p, t, s) :: legs_from (end_point s) (end_time s) rest
  end.
Definition legs (segs : list (seg RNum)) : list (pt RNum * R * seg RNum) :=
  match segs with [] => [] | s :: _ => legs_from (end_point s) 0 segs end.

Definition powered (s : seg RNum) : Prop := / 10000000000 < (power_modifier s : R).

Definition in_dep_box (dim3 : bool) (box : pt RNum * pt RNum) (p : pt RNum) : Prop :=
  (px (fst box) : R) <= px p <= px (snd box) /\ (py (fst box) : R) <= py p <= py (snd box) /\
  (dim3 = true -> (pz (fst box) : R) <= pz p <= pz (snd box)).

(** The leg stays in a horizontal plane and takes time. *)
Definition flat_leg (dim3 : bool) (leg : pt RNum * R * seg RNum) : Prop :=
  let '(p, t, s) := leg in
  t < end_time s /\ (dim3 = true -> (pz p : R) = pz (end_point s)) /\ (dim3 = false -> (py p : R) = py (end_point s) /\ (pz p : R) = pz (end_point s)) /\
  end_rotation s = None.

(** The time at which the beam is at fraction [u] of the leg, minus the lead time, never below 1e-10. *)
Definition leg_time (dp : dep_params RNum) (leg : pt RNum * R * seg RNum) (u : R) : R :=
  let '(p, t, s) := leg in Rmax (t + u * (end_time s - t) - dp_lead dp) (/ 10000000000).

(** Direction of the leg: unit vector towards the end point; (1,0) for a spot. *)
Definition leg_direction (leg : pt RNum * R * seg RNum) (c s : R) : Prop :=
  let '(p, t, sg) := leg in
  (end_point sg = p -> c = 1 /\ s = 0) /\
  (end_point sg <> p -> exists l, 0 < l /\ l * l = (px (end_point sg) - px p) * (px (end_point sg) - px p) + (py (end_point sg) - py p) * (py (end_point sg) - py p) + (pz (end_point sg) - pz p) * (pz (end_point sg) - pz p) /\
     c * l = px (end_point sg) - px p /\ s * l = py (end_point sg) - py p).

(** Size of the axis-aligned box around a stretch of length [w] in direction (c,s): the footprint of a w-by-width
    rectangle; top at the beam height, [height] deep. *)
Definition box_around (dim3 : bool) (dp : dep_params RNum) (c s w : R) (m : pt RNum) (box : pt RNum * pt RNum) : Prop :=
  (if dim3 then
    (px (fst box) + px (snd box)) / 2 = px m /\ px (snd box) - px (fst box) = Rabs c * w + Rabs s * dp_width dp /\
    (py (fst box) + py (snd box)) / 2 = py m /\ py (snd box) - py (fst box) = Rabs c * dp_width dp + Rabs s * w /\
    (pz (snd box) : R) = pz m /\ pz (snd box) - pz (fst box) = dp_height dp
  else
    (px (fst box) + px (snd box)) / 2 = px m /\ px (snd box) - px (fst box) = w /\
    (py (snd box) : R) = py m /\ py (snd box) - py (fst box) = dp_height dp).

(** A row produced by a leg. *)
Definition row_on_leg (dim3 : bool) (dp : dep_params RNum) (leg : pt RNum * R * seg RNum) (r : row RNum) : Prop :=
  let '(p, t, s) := leg in
  exists u w, 0 <= u <= 1 /\ 0 <= w <= dp_length dp /\ (r_time r : R) = leg_time dp leg u /\ leg_direction leg (r_cos r) (r_sin r) /\
    box_around dim3 dp (r_cos r) (r_sin r) w (between u p (end_point s)) (r_box r).

(** Parameters: box length at least twice the tolerance 1e-10, nonnegative width and height. *)
Definition dp_ok (dp : dep_params RNum) : Prop :=
  2 * / 10000000000 <= (dp_length dp : R) /\ 0 <= (dp_width dp : R) /\ 0 <= (dp_height dp : R).

(** Time never runs backwards, no rotations, powered legs are flat. *)
Definition path_ok (dim3 : bool) (ls : list (pt RNum * R * seg RNum)) : Prop :=
  Forall (fun leg : pt RNum * R * seg RNum => let '(p, t, s) := leg in
    t <= (end_time s : R) /\ end_rotation s = None /\ (powered s -> flat_leg dim3 leg)) ls.

(** ** Sorting *)
Definition strict_weak (lt : nat -> nat -> bool) : Prop :=
  (forall i, lt i i = false) /\ (forall i j k, lt i j = true -> lt j k = true -> lt i k = true) /\
  (forall i j k, lt j i = false -> lt k j = false -> lt k i = false).
(** The contract of std::sort. *)
Definition std_sort (sort : (nat -> nat -> bool) -> list nat -> list nat) : Prop :=
  forall lt l, strict_weak lt -> Permutation l (sort lt l) /\ StronglySorted (fun i j => lt j i = false) (sort lt l).
