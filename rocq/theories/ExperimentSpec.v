(** ExperimentSpec.v -- what C31, C32, C54 and C55 mean; independent of the functions of ExperimentModel. *)
From Coq Require Import Reals ZArith Bool List String Ascii.
From Verif Require Import Base ScanPathModel MaterialModel InputModel InputSpec ExperimentModel.
Import ListNotations.
Local Open Scope string_scope.

(** ** Log *)
Definition blank (s : string) : Prop := forall c, In c (list_ascii_of_string s) -> is_blank c = true.
(** [t] is [s] without its leading and trailing blanks. *)
Definition trimmed (s t : string) : Prop :=
  exists a b, s = a ++ t ++ b /\ blank a /\ blank b /\
    (forall c u, t = String c u -> is_blank c = false) /\ (forall c u, t = u ++ String c "" -> is_blank c = false).
(** Column [k] of a comma separated line. *)
Definition column (line : string) (k : nat) (s : string) : Prop :=
  exists ws w, words_of line ws /\ nth_error ws k = Some w /\ trimmed w s.

Section Log.
  Context {N : Num} (P : parser N) (cfg : log_config N).
  Definition wanted (line : string) : Prop :=
    exists s z, column line 0 s /\ stoi P s = Some z /\ (lg_first cfg <= z mod 2 ^ 32 <= lg_last cfg)%Z.
  Definition has_entry (line : string) (camera : nat) : Prop := exists s, column line (S camera) s /\ s <> "".
  (** The stamps of a camera, in file order. *)
  Inductive stamps (camera : nat) : list string -> list N -> Prop :=
  | stamps_nil : stamps camera [] []
  | stamps_take : forall line rest s x xs, wanted line -> column line (S camera) s -> s <> "" -> stod P s = Some x ->
      stamps camera rest xs -> stamps camera (line :: rest) (nadd N x (lg_offset cfg) :: xs)
  | stamps_skip : forall line rest xs, ~ (wanted line /\ has_entry line camera) -> stamps camera rest xs -> stamps camera (line :: rest) xs.
End Log.

(** ** Frames.  Frame [j] is due in pass [k] of the loop, that goes from the previous time to [times[k]]: the first pass takes everything before it too. *)
Definition due (ts times : list R) (k j : nat) : Prop :=
  exists x t, nth_error ts j = Some x /\ nth_error times k = Some t /\ (x <= t)%R /\
    forall k' t', (k' < k)%nat -> nth_error times k' = Some t' -> (t' < x)%R.
Definition increasing (l : list R) : Prop := forall i j x y, (i < j)%nat -> nth_error l i = Some x -> nth_error l j = Some y -> (x < y)%R.
(** No pass has two frames. *)
Definition apart (ts times : list R) : Prop := forall k j j', due ts times k j -> due ts times k j' -> j = j'.
(** A sufficient condition: stamps are further apart than any time step, and the second one is after the first pass. *)
Definition spaced (ts times : list R) : Prop :=
  (forall j x y k t t', nth_error ts j = Some x -> nth_error ts (S j) = Some y -> nth_error times k = Some t -> nth_error times (S k) = Some t' -> (t' - t < y - x)%R) /\
  (forall y t, nth_error ts 1 = Some y -> nth_error times 0 = Some t -> (t < y)%R).

(** ** Point clouds *)
Definition last_error {A} (l : list A) : option A := nth_error l (List.length l - 1).
Definition nonempty (s : string) : bool := negb (String.eqb s "").
(** The row says: coordinate [i] is field number [i], the value is the last field after the coordinates; absent numbers are 0. *)
Definition row_means {N : Num} (strtod : string -> N) (zero : N) (dim : nat) (fields : list string) (p : sample N) : Prop :=
  List.length (s_coords p) = dim /\
  (forall i, (i < dim)%nat -> nth_error (s_coords p) i = Some (match nth_error fields i with Some f => strtod f | None => zero end)) /\
  s_value p = (if Nat.ltb dim (List.length fields) then match last_error fields with Some f => strtod f | None => zero end else zero).
Definition no_hash (s : string) : Prop := ~ In "#"%char (list_ascii_of_string s).
(** A file name pattern: text, "#camera" and "#frame". *)
Inductive piece := Text (s : string) | Cam | Frm.
Fixpoint render_with (camera frame : string) (ps : list piece) : string :=
  match ps with
  | [] => ""
  | Text s :: rest => s ++ render_with camera frame rest
  | Cam :: rest => camera ++ render_with camera frame rest
  | Frm :: rest => frame ++ render_with camera frame rest
  end.
