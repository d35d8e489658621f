(** ScanPathSpec.v -- what the scan path properties C01-C06 mean, without the cursor of the code. *)
From Coq Require Import Reals ZArith Bool List String Ascii Sorted Lra.
From Verif Require Import Base QuaternionModel ScanPathModel.
Import ListNotations.

(** Answers of objects that are each asked a single question. *)
Fixpoint fresh_answers {N} pow (sp : scan_path N) (qs : list (query N)) : res (list (answer N)) :=
  match qs with
  | [] => Ok []
  | q :: qs' =>
      do r <- ask pow sp q;
      do rest <- fresh_answers pow sp qs';
      Ok (fst r :: rest)
  end.

(** Segment [i] is the first one whose end time is not before [t]. *)
Definition current {N} (segs : list (seg N)) (t : N) (i : nat) (s : seg N) : Prop :=
  nth_error segs i = Some s /\
  nltb N (end_time s) t = false /\
  (forall j s', (j < i)%nat -> nth_error segs j = Some s' -> nltb N (end_time s') t = true).

(** Where and when segment [i] starts: at the end of its predecessor; the first one starts at time 0 at
    its own point. *)
Definition segment_start {N} (segs : list (seg N)) (i : nat) (s : seg N) (p0 : pt N) (t0 : N) : Prop :=
  match i with
  | O => p0 = end_point s /\ t0 = nofZ N 0
  | S k => exists s', nth_error segs k = Some s' /\ p0 = end_point s' /\ t0 = end_time s'
  end.

Definition last_segment {N} (segs : list (seg N)) (s : seg N) : Prop :=
  exists l, segs = l ++ [s].

(** Queries interleaved with re-reading the (changed) file. *)
Inductive sp_op (N : Num) := OQuery (q : query N) | OReread (lines : list string).
Arguments OQuery {N} q.
Arguments OReread {N} lines.

Section Ops.
  Context {N : Num} (P : parser N) (pow : quat N -> N -> option (quat N)).

  (** One long-lived object. *)
  Fixpoint run_ops (sp : scan_path N) (ops : list (sp_op N)) : res (list (answer N)) :=
    match ops with
    | [] => Ok []
    | OQuery q :: ops' =>
        do r <- ask pow sp q;
        do rest <- run_ops (snd r) ops';
        Ok (fst r :: rest)
    | OReread lines :: ops' =>
        do sp' <- read_file P sp lines;
        run_ops sp' ops'
    end.

  (** A new object, built from the file as it is now, for every question. *)
  Fixpoint run_fresh (fmt : string) (ds vs : N) (lines : list string) (ops : list (sp_op N))
    : res (list (answer N)) :=
    match ops with
    | [] => Ok []
    | OQuery q :: ops' =>
        do sp <- new_scan_path P fmt ds vs lines;
        do r <- ask pow sp q;
        do rest <- run_fresh fmt ds vs lines ops';
        Ok (fst r :: rest)
    | OReread lines' :: ops' =>
        do sp <- new_scan_path P fmt ds vs lines';
        run_fresh fmt ds vs lines' ops'
    end.

  (** The new file only adds lines.  In the segment format the announced number of segments may grow
      too, and the old file held no more lines than it announced. *)
  Definition appended (fmt : string) (old new : list string) : Prop :=
    if String.eqb fmt "segment" then
      exists h c th body h' c' th' extra n n',
        old = h :: c :: th :: body /\ new = h' :: c' :: th' :: body ++ extra /\
        stoi P c = Some n /\ stoi P c' = Some n' /\
        (Z.of_nat (List.length body) <= n mod 2 ^ 32 <= n' mod 2 ^ 32)%Z
    else exists extra, new = old ++ extra.

  Fixpoint only_appended (fmt : string) (lines : list string) (ops : list (sp_op N)) : Prop :=
    match ops with
    | [] => True
    | OQuery _ :: ops' => only_appended fmt lines ops'
    | OReread lines' :: ops' => appended fmt lines lines' /\ only_appended fmt lines' ops'
    end.

  Fixpoint op_times (ops : list (sp_op N)) : list N :=
    match ops with
    | [] => []
    | OQuery q :: ops' => query_time q :: op_times ops'
    | OReread _ :: ops' => op_times ops'
    end.

  (** Every end time found in any version of the file lies in the domain [dom]. *)
  Fixpoint files_in (dom : N -> Prop) (fmt : string) (ds vs : N) (ops : list (sp_op N)) : Prop :=
    match ops with
    | [] => True
    | OQuery _ :: ops' => files_in dom fmt ds vs ops'
    | OReread lines :: ops' =>
        (forall sp, new_scan_path P fmt ds vs lines = Ok sp -> Forall (fun s => dom (end_time s)) (sp_segs sp)) /\
        files_in dom fmt ds vs ops'
    end.
End Ops.

(** The lines of a file that describe the path: those before the first end marker among the first [n]. *)
Fixpoint before_marker (lines : list string) : list string :=
  match lines with
  | [] => []
  | l :: rest => if has_end_marker l then [] else l :: before_marker rest
  end.

Section LineSpecs.
  Context {N : Num} (P : parser N).
  Local Open Scope num_scope.

  (** What one line of a segment-format file means, given the preceding segment. *)
  Definition segment_of_line (ds vs : N) (prev : option (seg N)) (line : string) (s : seg N) : Prop :=
    exists m sx sy sz spm sv rest x y z pm v,
      split is_space line = m :: sx :: sy :: sz :: spm :: sv :: rest /\
      stod P sx = Some x /\ stod P sy = Some y /\ stod P sz = Some z /\ stod P spm = Some pm /\
      stod P sv = Some v /\
      end_point s = mkpt (x * ds) (y * ds) (z * ds) /\ power_modifier s = pm /\ end_rotation s = None /\
      match prev with
      | None => m = "1"%string /\ end_time s = v
      | Some p =>
          (m = "1"%string /\ end_time s = end_time p + v) \/
          (m = "0"%string /\ end_time s = end_time p + nabs (pdist (end_point s) (end_point p) / (v * vs)))
      end.

  (** What one line of an event-series file means, given the power column of the preceding line
      (0 for the first). *)
  Definition event_of_line (ds : N) (prev_power : N) (line : string) (s : seg N) : Prop :=
    exists st sx sy sz rest t x y z,
      split is_space_comma line = st :: sx :: sy :: sz :: rest /\
      stod P st = Some t /\ stod P sx = Some x /\ stod P sy = Some y /\ stod P sz = Some z /\
      end_time s = t /\ end_point s = mkpt (x * ds) (y * ds) (z * ds) /\ power_modifier s = prev_power /\
      (if Nat.eqb (List.length rest) 5 then
         exists sa sb sc sd a b c d tail, rest = sa :: sb :: sc :: sd :: tail /\
         stod P sa = Some a /\ stod P sb = Some b /\ stod P sc = Some c /\ stod P sd = Some d /\
         end_rotation s = Some (mkq a b c d)
       else end_rotation s = None).

  (** The power column of a line: its last token. *)
  Definition power_column (line : string) (pw : N) : Prop :=
    exists l tok, split is_space_comma line = l ++ [tok] /\ stod P tok = Some pw.
End LineSpecs.

Definition predecessor {A} (l : list A) (i : nat) : option A :=
  match i with O => None | S k => nth_error l k end.

(** Times in increasing order. *)
Definition nondecreasing (l : list R) : Prop := StronglySorted Rle l.

(** The point at fraction [u] of the way from [a] to [b]. *)
Definition between (u : R) (a b : pt RNum) : pt RNum :=
  mkpt (N := RNum) ((1 - u) * px a + u * px b)%R ((1 - u) * py a + u * py b)%R ((1 - u) * pz a + u * pz b)%R.
