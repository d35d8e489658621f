(** MeshSpec.v -- what C76 means. *)
From Coq Require Import Reals List ZArith String.
From Verif Require Import Base InputModel MeshModel.
Import ListNotations.
Local Open Scope R_scope.

(** [p] lies in the box, whose sides are half-open intervals. *)
Definition inside (p : list R) (box : list (R * R)) : Prop := Forall2 (fun x b => fst b <= x < snd b) p box.
Definition whole (axes : list (axis (N := RNum))) : list (R * R) := map (fun a => (ax_low a, ax_high a)) axes.
Definition volume (box : list (R * R)) : R := fold_right (fun b v => (snd b - fst b) * v) 1 box.
(** The lowest (highest) coordinate along axis number [d]. *)
Definition side (box : list (R * R)) (d : nat) (upper : bool) : option R := option_map (fun b => if upper then snd b else fst b) (nth_error box d).
(** The cell next to [k] across axis number [d]. *)
Definition next_to (k : list nat) (d : nat) (upper : bool) (k' : list nat) : Prop :=
  List.length k' = List.length k /\ (forall e, e <> d -> nth_error k' e = nth_error k e) /\
  exists i j, nth_error k d = Some i /\ nth_error k' d = Some j /\ (if upper then j = S i else i = S j).
(** An entry given with the value [v], or the default [v] when the entry is missing. *)
Definition entry {A} (tr : string -> option A) (g : ptree) (key : string) (d v : A) : Prop :=
  match get_str_opt g [key] with None => v = d | Some s => tr s = Some v end.
(** The same with its sides. *)
Definition touches (p : list R) (box : list (R * R)) : Prop := Forall2 (fun x b => fst b <= x <= snd b) p box.
