(** MalformedSpec.v -- what C88 means: reading a column that a line does not have.  Independent of the loaders. *)
From Coq Require Import ZArith Bool List String Ascii.
From Verif Require Import Base ScanPathModel ScanPathSpec MaterialModel MaterialSpec DepositionModel DepositionSpec.
Import ListNotations.

Section Columns.
  Context {N : Num} (P : parser N).
  (** Reading the columns [cols], in that order, gets to one that is not there; the ones read before are numbers. *)
  Inductive runs_out (toks : list string) : list nat -> Prop :=
  | runs_here c cols : (List.length toks <= c)%nat -> runs_out toks (c :: cols)
  | runs_later c cols s v : nth_error toks c = Some s -> stod P s = Some v -> runs_out toks cols -> runs_out toks (c :: cols).
  (** The columns are all there and are all numbers. *)
  Definition all_numbers (toks : list string) (cols : list nat) : Prop := forall c, In c cols -> exists s v, nth_error toks c = Some s /\ stod P s = Some v.

  (** The first [i] lines of a segment file describe the segments [segs]. *)
  Definition describe (ds vs : N) (body : list string) (i : nat) (segs : list (seg N)) : Prop :=
    List.length segs = i /\ forall j l s, nth_error body j = Some l -> nth_error segs j = Some s -> segment_of_line P ds vs (predecessor segs j) l s.
  (** The first [i] lines of an event file are events. *)
  Definition events (ds : N) (body : list string) (i : nat) : Prop :=
    forall j l, (j < i)%nat -> nth_error body j = Some l -> exists pw s, power_column P l pw /\ event_of_line P ds (nofZ N 0) l s.
  (** First field of a line of a segment file: a line needs a predecessor, a point does not. *)
  Definition mode_accepted (i : nat) (line : string) : Prop :=
    exists m, nth_error (split is_space line) 0 = Some m /\ (m = "1"%string \/ (m = "0"%string /\ (0 < i)%nat)).

  (** Columns before the time, and the column of the time, of a line of a deposition file. *)
  Definition until_time (dim3 : bool) : list nat := if dim3 then [0; 1; 2; 3; 4; 5; 6]%nat else [0; 1; 2; 3; 4]%nat.
  Definition time_column (dim3 : bool) : nat := if dim3 then 6%nat else 4%nat.
  (** The rows before have the time [prev] last, or there are none. *)
  Definition not_before (rows : list (row N)) (t : N) : Prop := forall r, nth_error rows (List.length rows - 1) = Some r -> nleb N (r_time r) t = true.
  (** The line stops before the time, or after a time that is not smaller than the one before. *)
  Definition deposition_runs_out (dim3 : bool) (before : list (row N)) (line : string) : Prop :=
    let toks := split is_space line in
    runs_out toks (until_time dim3) \/
    (all_numbers toks (until_time dim3) /\ (List.length toks <= S (time_column dim3))%nat /\
     exists s t, nth_error toks (time_column dim3) = Some s /\ stod P s = Some t /\ not_before before t).
  Definition times_increase (rows : list (row N)) : Prop := never_decreases (map r_time rows).
End Columns.

(** std::isspace in the C locale: space, tab, newline, vertical tab, form feed, carriage return. *)
Definition white : list ascii := [" "; "009"; "010"; "011"; "012"; "013"]%char.
