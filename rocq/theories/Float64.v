(** IEEE double precision as scalars of the model: the executable definition of
    binary64 in the standard library ([Coq.Floats.SpecFloat], rounding to
    nearest, ties to even), which needs no axioms.  Powers are not defined
    there; they are nan here and no statement uses them. *)
From Coq Require Import ZArith QArith SpecFloat.
From Verif Require Import Base.

(** Precision and largest exponent of binary64. *)
Definition prec : Z := 53%Z.
Definition emax : Z := 1024%Z.

(** An integer, rounded. *)
Definition fint (z : Z) : spec_float := binary_normalize prec emax z 0 false.

(** A decimal literal: the quotient of two integers below 2^53 is rounded once,
    as the literal is. *)
Definition flit (q : Q) : spec_float := SFdiv prec emax (fint (Qnum q)) (fint (Zpos (Qden q))).

#[global] Instance F64 : Num spec_float := {|
  n0 := S754_zero false; n1 := fint 1;
  nadd := SFadd prec emax; nsub := SFsub prec emax; nmul := SFmul prec emax; ndiv := SFdiv prec emax;
  nopp := SFopp; npow := fun _ _ => S754_nan;
  nleb := SFleb; nltb := SFltb; neqb := SFeqb; nlit := flit |}.
