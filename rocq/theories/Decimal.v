(** Decimal.v -- an executable std::stod/std::stoi for the examples: decimal literals such as
    "-0.25" or "1e-6".  (The theorems hold for every parser.) *)
From Coq Require Import ZArith QArith List String Ascii Bool Floats.
From Verif Require Import Base ScanPathModel.
Import ListNotations.
Local Open Scope Z_scope.

Definition digit (c : ascii) : option Z :=
  let n := Z.of_nat (nat_of_ascii c) in
  if (48 <=? n) && (n <=? 57) then Some (n - 48) else None.

(** Value and number of leading digits, and what follows. *)
Fixpoint digits (acc n : Z) (s : string) : Z * Z * string :=
  match s with
  | EmptyString => (acc, n, EmptyString)
  | String c s' => match digit c with Some d => digits (10 * acc + d) (n + 1) s' | None => (acc, n, s) end
  end.

Definition signed (s : string) : Z * string :=
  match s with
  | String "-" s' => (-1, s')
  | String "+" s' => (1, s')
  | _ => (1, s)
  end.

Definition parse_Z (s : string) : option Z :=
  let '(sg, s1) := signed s in
  let '(v, n, _) := digits 0 0 s1 in
  if n =? 0 then None else Some (sg * v).

(** (mantissa, decimal exponent) *)
Definition parse_dec (s : string) : option (Z * Z) :=
  let '(sg, s1) := signed s in
  let '(v, n, s2) := digits 0 0 s1 in
  let '(v', n', s3) := match s2 with String "." s2' => digits v 0 s2' | _ => (v, 0, s2) end in
  if n + n' =? 0 then None
  else
    let e := match s3 with
             | String "e" s4 => let '(sg', s5) := signed s4 in let '(x, _, _) := digits 0 0 s5 in sg' * x
             | _ => 0
             end in
    Some (sg * v', e - n').

Definition parse_Q (s : string) : option Q :=
  match parse_dec s with
  | Some (m, e) => Some (Qred (if e <? 0 then m # Z.to_pos (10 ^ (- e)) else inject_Z (m * 10 ^ e)))
  | None => None
  end.

(** Correctly rounded when the numerator and the denominator are exactly representable. *)
Definition parse_F (s : string) : option float :=
  match parse_Q s with
  | Some q => Some (F_ofZ (Qnum q) / F_ofZ (Zpos (Qden q)))%float
  | None => None
  end.

Definition QParser : parser QNum := mkparser QNum parse_Q parse_Z.
Definition FParser : parser FNum := mkparser FNum parse_F parse_Z.

(** For witnesses: the value of a successful outcome, and equality decided by the kernel's virtual machine. *)
Definition got {A} (r : res A) (d : A) : A := match r with Ok a => a | _ => d end.
Ltac vmrefl := match goal with |- ?a = ?b => vm_cast_no_check (eq_refl b) end.
