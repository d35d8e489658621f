(** QuaternionModel.v -- model of source/Quaternion.{hh,cc}. *)
From Coq Require Import Reals ZArith Bool List.
From Verif Require Import Base.
Local Open Scope num_scope.

(** Quaternion::_quaternion (Quaternion.hh:115).  The two rotation matrices stored next to it
    (Quaternion.hh:119-132) are always rebuilt from it (build_rotation_matrices is the last action of every
    mutating member), so the model recomputes them.  A default-constructed Quaternion (Quaternion.cc:15-29) is
    invalid (all NaN); the model represents it by [None] where a quaternion is stored. *)
Record quat (N : Num) : Type := mkq { qr : N; qi : N; qj : N; qk : N }.
Arguments mkq {N} _ _ _ _.
Arguments qr {N} _.
Arguments qi {N} _.
Arguments qj {N} _.
Arguments qk {N} _.

Section Q.
  Context {N : Num}.

  (** Quaternion(1.0, 0.0, 0.0, 0.0), e.g. ScanPath.cc:294. *)
  Definition qone : quat N := mkq (nZ 1) (nZ 0) (nZ 0) (nZ 0).

  (** Quaternion::operator== (Quaternion.cc:53-59), std::array equality. *)
  Definition qeqb (p q : quat N) : bool :=
    (qr p =? qr q) && (qi p =? qi q) && (qj p =? qj q) && (qk p =? qk q).

  (** Quaternion::operator*=(Quaternion) (Quaternion.cc:61-83). *)
  Definition qmul (p q : quat N) : quat N :=
    mkq (qr p * qr q - qi p * qi q - qj p * qj q - qk p * qk q)
        (qr p * qi q + qi p * qr q + qj p * qk q - qk p * qj q)
        (qr p * qj q - qi p * qk q + qj p * qr q + qk p * qi q)
        (qr p * qk q + qi p * qj q - qj p * qi q + qk p * qr q).

  (** Quaternion::operator*=(double) (Quaternion.cc:85-95). *)
  Definition qscale (q : quat N) (s : N) : quat N :=
    mkq (qr q * s) (qi q * s) (qj q * s) (qk q * s).

  (** Quaternion::operator/= (Quaternion.cc:97-107): multiply by the conjugate. *)
  Definition qdiv (p q : quat N) : quat N :=
    qmul p (mkq (qr q) (- qi q) (- qj q) (- qk q)).

  (** dot_product (Quaternion.cc:179-183), std::inner_product started at 0. *)
  Definition qdot (p q : quat N) : N :=
    nZ 0 + qr p * qr q + qi p * qi q + qj p * qj q + qk p * qk q.

  (** Squared norm tested by reinit (Quaternion.cc:40-41; a debug-only assert). *)
  Definition qnorm2 (q : quat N) : N :=
    qr q * qr q + qi q * qi q + qj q * qj q + qk q * qk q.

  (** Rows of _rotation_matrix (Quaternion.cc:137-145) times a point:
      Quaternion::rotate (Quaternion.hh:135-139).  The vectorised overload (Quaternion.hh:141-146) uses
      the same entries in every lane (Quaternion.cc:148-154). *)
  Definition rotate (q : quat N) (p : pt N) : pt N :=
    let r := qr q in let i := qi q in let j := qj q in let k := qk q in
    let two := nZ 2 in
    mkpt ((nZ 1 - two * (j * j + k * k)) * px p + two * (i * j - k * r) * py p + two * (i * k + j * r) * pz p)
         (two * (i * j + k * r) * px p + (nZ 1 - two * (i * i + k * k)) * py p + two * (j * k - i * r) * pz p)
         (two * (i * k - j * r) * px p + two * (j * k + i * r) * py p + (nZ 1 - two * (i * i + j * j)) * pz p).

  (** Rows of _inv_rotation_matrix (Quaternion.cc:159-167) times a point:
      Quaternion::inv_rotate (Quaternion.hh:148-152). *)
  Definition inv_rotate (q : quat N) (p : pt N) : pt N :=
    let r := qr q in let i := qi q in let j := qj q in let k := qk q in
    let two := nZ 2 in
    mkpt ((nZ 1 - two * (j * j + k * k)) * px p + two * (i * j + k * r) * py p + two * (i * k - j * r) * pz p)
         (two * (i * j - k * r) * px p + (nZ 1 - two * (i * i + k * k)) * py p + two * (j * k + i * r) * pz p)
         (two * (i * k + j * r) * px p + two * (j * k - i * r) * py p + (nZ 1 - two * (i * i + j * j)) * pz p).
End Q.

(** std::atan2(y, x) for y >= 0 (the only use, Quaternion.cc:119), over the reals. *)
Definition atan2_nn (y x : R) : R :=
  if Rltb 0 x then atan (y / x)
  else if Rltb x 0 then (atan (y / x) + PI)%R
  else if Rltb 0 y then (PI / 2)%R else 0%R.

(** Quaternion::pow (Quaternion.cc:109-127) over the reals.  When the imaginary part is zero the
    code computes 0/0 = NaN in the three imaginary components: outcome [None]. *)
Definition qpow (q : quat RNum) (e : R) : option (quat RNum) :=
  let pn := sqrt (qi q * qi q + qj q * qj q + qk q * qk q)%R in
  if Reqb pn 0 then None
  else
    let th := atan2_nn pn (qr q) in
    Some (mkq (N := RNum) (cos (e * th))
              (qi q / pn * sin (e * th))%R (qj q / pn * sin (e * th))%R (qk q / pn * sin (e * th))%R).
