(** Base.v -- outcomes, the abstract number carrier and its three instances.

    The C++ code computes in IEEE binary64 ("double").  Every modelled function that
    computes with doubles is written once, over an abstract carrier [Num]:
      - [RNum] : the real numbers (exact arithmetic, used by most theorems),
      - [QNum] : the rationals (executable exact arithmetic, used by examples and counterexamples),
      - [FNum] : Coq's primitive binary64 floats (executable, bit-exact: +,-,*,/,sqrt and comparisons
                 are the IEEE operations the C++ code performs, NaN and infinities included). *)
From Coq Require Import Reals ZArith QArith Bool List Floats Uint63.
Import ListNotations.
Open Scope bool_scope.

(** Outcome of a C++ call: a value, a thrown exception, or undefined behaviour
    (out-of-bounds access, back() of an empty vector, null dereference, division of integers by 0). *)
Inductive res (A : Type) : Type :=
| Ok (a : A)
| Throw
| UB.
Arguments Ok {A} a.
Arguments Throw {A}.
Arguments UB {A}.

Definition bind {A B} (r : res A) (f : A -> res B) : res B :=
  match r with Ok a => f a | Throw => Throw | UB => UB end.
Notation "'do' x <- r ; k" := (bind r (fun x => k)) (at level 200, x name, r at level 100, k at level 200).
Notation "'do' ' p <- r ; k" := (bind r (fun x => match x with p => k end))
  (at level 200, p pattern, r at level 100, k at level 200).

(** [v[i]] on a std::vector: out of bounds is undefined behaviour. *)
Definition at_ {A} (l : list A) (i : nat) : res A :=
  match nth_error l i with Some a => Ok a | None => UB end.

(** [v.back()]: undefined behaviour on an empty vector. *)
Definition back {A} (l : list A) : res A :=
  match rev l with a :: _ => Ok a | [] => UB end.

(** Number carrier.  [nmax] is std::numeric_limits<double>::max(). *)
Record Num : Type := mkNum {
  num :> Type;
  nofZ : Z -> num;
  nadd : num -> num -> num;
  nsub : num -> num -> num;
  nmul : num -> num -> num;
  ndiv : num -> num -> num;
  nopp : num -> num;
  nsqrt : num -> num;
  nltb : num -> num -> bool;
  nleb : num -> num -> bool;
  neqb : num -> num -> bool;
  nmax : num
}.

Declare Scope num_scope.
Delimit Scope num_scope with num.
Notation "x + y" := (nadd _ x y) : num_scope.
Notation "x - y" := (nsub _ x y) : num_scope.
Notation "x * y" := (nmul _ x y) : num_scope.
Notation "x / y" := (ndiv _ x y) : num_scope.
Notation "- x" := (nopp _ x) : num_scope.
Notation "x <? y" := (nltb _ x y) : num_scope.
Notation "x <=? y" := (nleb _ x y) : num_scope.
Notation "x =? y" := (neqb _ x y) : num_scope.
Notation "x >? y" := (nltb _ y x) (at level 70, only parsing) : num_scope.
Notation "x >=? y" := (nleb _ y x) (at level 70, only parsing) : num_scope.
Notation nZ := (nofZ _).

(** std::min(a,b) = (b < a) ? b : a;  std::max(a,b) = (a < b) ? b : a;  std::abs. *)
Definition nmin {N : Num} (a b : N) : N := if nltb N b a then b else a.
Definition nmaxi {N : Num} (a b : N) : N := if nltb N a b then b else a.
Definition nabs {N : Num} (a : N) : N := if nltb N a (nofZ N 0) then nopp N a else a.

(** Real numbers. *)
Definition Rltb (x y : R) : bool := if Rlt_dec x y then true else false.
Definition Rleb (x y : R) : bool := if Rle_dec x y then true else false.
Definition Reqb (x y : R) : bool := if Req_EM_T x y then true else false.
Definition dblmaxZ : Z := (2 ^ 1024 - 2 ^ 971)%Z.
Definition RNum : Num :=
  mkNum R IZR Rplus Rminus Rmult Rdiv Ropp R_sqrt.sqrt Rltb Rleb Reqb (IZR dblmaxZ).

(** Rational numbers; the square root is exact on squares only (used in examples only). *)
Definition Qltb (x y : Q) : bool := negb (Qle_bool y x).
Definition Qsqrt_exact (x : Q) : Q :=
  let x' := Qred x in Qred (Z.sqrt (Qnum x' * Zpos (Qden x')) # Qden x').
Definition QNum : Num :=
  mkNum Q inject_Z (fun x y => Qred (x + y)) (fun x y => Qred (x - y)) (fun x y => Qred (x * y))
    (fun x y => Qred (x / y)) Qopp Qsqrt_exact
    Qltb Qle_bool Qeq_bool (inject_Z dblmaxZ).

(** Binary64.  [nofZ] is only used on small literals, which are exactly representable. *)
Definition F_ofZ (z : Z) : float :=
  match z with
  | Z0 => 0%float
  | Zpos p => PrimFloat.of_uint63 (Uint63.of_Z (Zpos p))
  | Zneg p => PrimFloat.opp (PrimFloat.of_uint63 (Uint63.of_Z (Zpos p)))
  end.
Definition F_max : float := 0x1.fffffffffffffp+1023%float.
Definition FNum : Num :=
  mkNum float F_ofZ PrimFloat.add PrimFloat.sub PrimFloat.mul PrimFloat.div PrimFloat.opp PrimFloat.sqrt
    PrimFloat.ltb PrimFloat.leb PrimFloat.eqb F_max.

(** Points of R^3 (dealii::Point<3>, dealii::Tensor<1,3>). *)
Record pt (N : Num) : Type := mkpt { px : N; py : N; pz : N }.
Arguments mkpt {N} _ _ _.
Arguments px {N} _.
Arguments py {N} _.
Arguments pz {N} _.

Section Points.
  Context {N : Num}.
  Local Open Scope num_scope.
  Definition padd (a b : pt N) : pt N := mkpt (px a + px b) (py a + py b) (pz a + pz b).
  Definition psub (a b : pt N) : pt N := mkpt (px a - px b) (py a - py b) (pz a - pz b).
  Definition pscale (s : N) (a : pt N) : pt N := mkpt (px a * s) (py a * s) (pz a * s).
  Definition pdivs (a : pt N) (s : N) : pt N := mkpt (px a / s) (py a / s) (pz a / s).
  Definition pdot (a b : pt N) : N := px a * px b + py a * py b + pz a * pz b.
  Definition pnorm (a : pt N) : N := nsqrt N (pdot a a).
  (** dealii::Point::distance *)
  Definition pdist (a b : pt N) : N := pnorm (psub a b).
End Points.
