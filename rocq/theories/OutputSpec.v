(** OutputSpec.v -- what C63 and C64 say. *)
From Coq Require Import ZArith Bool List String Ascii.
From Verif Require Import Base InputModel OutputModel.
Import ListNotations.
Local Open Scope string_scope.

(** ** Paths *)
(** The directory part of a path: everything up to the last '/'. *)
Fixpoint dir_of (s : string) : string :=
  match s with
  | EmptyString => EmptyString
  | String c rest => match dir_of rest with
                     | EmptyString => if Ascii.eqb c "/" then String c EmptyString else EmptyString
                     | d => String c d
                     end
  end.
Definition absolute (s : string) : Prop := exists rest, s = "/" ++ rest.
(** What a reader of file [base] opens when it finds the reference [name]: absolute paths as they are, others from the directory of [base]. *)
Definition resolves (base name target : string) : Prop := (absolute name /\ target = name) \/ (~ absolute name /\ target = dir_of base ++ name).
(** A directory as it has to be written: nothing, or ending with '/'. *)
Definition ends_with_slash (d : string) : Prop := d = "" \/ exists d', d = d' ++ "/".
Definition no_slash (s : string) : Prop := ~ In "/"%char (list_ascii_of_string s).

(** ** Files *)
Definition vtu_file (dir prefix : string) (step rank : nat) : string := dir ++ prefix ++ "." ++ to_string step ++ "." ++ to_string rank ++ ".vtu".
Definition pvtu_file (dir prefix : string) (step : nat) : string := dir ++ prefix ++ "." ++ to_string step ++ ".pvtu".
Definition pvd_file (dir prefix : string) : string := dir ++ prefix ++ ".pvd".
(** The file system after the files have been written in the order of the list: the last one counts. *)
Fixpoint lookup {N : Num} (name : string) (fs : list (file N)) : option (content N) :=
  match fs with
  | [] => None
  | (n, c) :: rest => match lookup name rest with Some c' => Some c' | None => if String.eqb n name then Some c else None end
  end.

(** ** Fields *)
(** The entry of row [j], column [k] of a tensor stored row by row. *)
Definition entry {A} (dim : nat) (v : list A) (j k : nat) : option A := nth_error v (j * dim + k).
(** Number of owned cells before cell [i]. *)
Definition owned_before (cells : list (bool * nat)) (i : nat) : nat := List.length (filter fst (firstn i cells)).
