(** Extended numbers: finite values plus the IEEE special values, with the
    IEEE 754 rules for them but without rounding.  The code relies on
    [np.inf] for step-size bounds, tolerance and remaining time
    (error_controller.py:50, error_controllers.py:19,
    runge_kutta_integrator.py:258) and on numpy's division by zero giving
    inf/nan (error_controller.py:245-251). *)
From Coq Require Import List QArith Reals Bool Rpower.
From Verif Require Import Base.
Import ListNotations.

Inductive ext (T : Type) : Type :=
| Fin (t : T)
| PInf
| NInf
| NaN.
Arguments Fin {T} t.
Arguments PInf {T}.
Arguments NInf {T}.
Arguments NaN {T}.

Section ExtOps.
Context {T : Type} {N : Num T}.

(** Sign test used for products and quotients with infinities. *)
Definition sgn_inf (pos : bool) : ext T := if pos then PInf else NInf.

(** IEEE negation. *)
Definition xopp (x : ext T) : ext T :=
  match x with
  | Fin t => Fin (nopp t) | PInf => NInf | NInf => PInf | NaN => NaN
  end.

(** IEEE addition. *)
Definition xadd (x y : ext T) : ext T :=
  match x, y with
  | NaN, _ | _, NaN => NaN
  | PInf, NInf | NInf, PInf => NaN
  | PInf, _ | _, PInf => PInf
  | NInf, _ | _, NInf => NInf
  | Fin a, Fin b => Fin (nadd a b)
  end.

(** IEEE subtraction. *)
Definition xsub (x y : ext T) : ext T :=
  match x, y with
  | Fin a, Fin b => Fin (nsub a b)
  | _, _ => xadd x (xopp y)
  end.

(** IEEE multiplication; 0 * inf is nan. *)
Definition xmul (x y : ext T) : ext T :=
  match x, y with
  | NaN, _ | _, NaN => NaN
  | Fin a, Fin b => Fin (nmul a b)
  | Fin a, PInf | PInf, Fin a =>
      if neqb a n0 then NaN else sgn_inf (nltb n0 a)
  | Fin a, NInf | NInf, Fin a =>
      if neqb a n0 then NaN else sgn_inf (nltb a n0)
  | PInf, PInf | NInf, NInf => PInf
  | PInf, NInf | NInf, PInf => NInf
  end.

(** numpy division: x/0 is inf with the sign of x, 0/0 and inf/inf are nan,
    x/inf is 0.  (Signed zeros are not modelled: the divisor 0 counts as +0.) *)
Definition xdiv (x y : ext T) : ext T :=
  match x, y with
  | NaN, _ | _, NaN => NaN
  | Fin a, Fin b =>
      if neqb b n0
      then if neqb a n0 then NaN else sgn_inf (nltb n0 a)
      else Fin (ndiv a b)
  | Fin _, PInf | Fin _, NInf => Fin n0
  | PInf, Fin b => sgn_inf (nleb n0 b)
  | NInf, Fin b => sgn_inf (nltb b n0)
  | _, _ => NaN
  end.

(** numpy power for finite exponents: x**0 is 1 even for nan; positive bases
    use the finite power; 0**y is 0 or inf.  Negative bases and infinite
    exponents do not occur in /repo's formulas (all bases are quotients of
    nonnegative quantities) and give nan here. *)
Definition xpow (x y : ext T) : ext T :=
  match y with
  | Fin e =>
      if neqb e n0 then Fin n1 else
      match x with
      | NaN => NaN
      | PInf => if nltb n0 e then PInf else Fin n0
      | NInf => NaN
      | Fin a =>
          if nltb n0 a then Fin (npow a e)
          else if neqb a n0 then (if nltb n0 e then Fin n0 else PInf)
          else NaN
      end
  | _ => NaN
  end.

(** IEEE comparisons: every comparison with nan is false. *)
Definition xleb (x y : ext T) : bool :=
  match x, y with
  | NaN, _ | _, NaN => false
  | Fin a, Fin b => nleb a b
  | NInf, _ => true
  | _, PInf => true
  | _, _ => false
  end.
Definition xltb (x y : ext T) : bool :=
  match x, y with
  | NaN, _ | _, NaN => false
  | Fin a, Fin b => nltb a b
  | NInf, NInf | PInf, PInf => false
  | NInf, _ => true
  | _, PInf => true
  | _, _ => false
  end.
Definition xeqb (x y : ext T) : bool :=
  match x, y with
  | Fin a, Fin b => neqb a b
  | PInf, PInf | NInf, NInf => true
  | _, _ => false
  end.

#[global] Instance ExtNum : Num (ext T) := {|
  n0 := Fin n0; n1 := Fin n1;
  nadd := xadd; nsub := xsub; nmul := xmul; ndiv := xdiv; nopp := xopp;
  npow := xpow; nleb := xleb; nltb := xltb; neqb := xeqb;
  nlit := fun q => Fin (nlit q)
|}.

#[global] Instance ExtInf : NumInf (ext T) := {| ninf := PInf; nninf := NInf |}.
End ExtOps.

(** The real instance: exact arithmetic, comparisons decided by the standard
    library's classical reals.  [npow] is [x ** y] for a positive base. *)
Definition Rleb (x y : R) : bool := if Rle_dec x y then true else false.
Definition Rltb (x y : R) : bool := if Rlt_dec x y then true else false.
Definition Reqb (x y : R) : bool := if Req_EM_T x y then true else false.

#[global] Instance RNum : Num R := {|
  n0 := 0%R; n1 := 1%R;
  nadd := Rplus; nsub := Rminus; nmul := Rmult; ndiv := Rdiv; nopp := Ropp;
  npow := Rpower; nleb := Rleb; nltb := Rltb; neqb := Reqb;
  nlit := Q2R
|}.
