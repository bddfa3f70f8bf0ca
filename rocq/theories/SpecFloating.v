(** Arithmetic with rounding errors. *)
From Coq Require Import ZArith QArith Reals SpecFloat List.
From Verif Require Import Base Ext M_Tableau M_ODE SpecRK SpecConvergence SpecLocal.
Import ListNotations.
Open Scope R_scope.

(** Numbers [x] of an arithmetic stand for real numbers [value x].  Sums and
    products of regular numbers are regular and correct up to the relative error
    [u] (or the absolute error [u], for results next to zero), unless they
    exceed [big]. *)
Record rounded {T} (N : Num T) (value : T -> R) (regular : T -> Prop) (u big : R) : Prop := {
  rd_zero : regular n0 /\ value n0 = 0;
  rd_add : forall x y, regular x -> regular y -> Rabs (value x + value y) <= big ->
    regular (nadd x y) /\ Rabs (value (nadd x y) - (value x + value y)) <= u * (1 + Rabs (value x + value y));
  rd_mul : forall x y, regular x -> regular y -> Rabs (value x * value y) <= big ->
    regular (nmul x y) /\ Rabs (value (nmul x y) - value x * value y) <= u * (1 + Rabs (value x * value y))
}.

(** Binary floating point numbers. *)
Definition float_value (x : spec_float) : R :=
  match x with
  | S754_finite s m e => IZR (if s then Zneg m else Zpos m) * powerRZ 2 e
  | _ => 0
  end.
Definition float_finite (prec emax : Z) (x : spec_float) : Prop :=
  match x with
  | S754_zero _ => True
  | S754_finite _ _ _ => valid_binary prec emax x = true
  | _ => False
  end.

(** Arithmetic of the binary format with [prec] digits and exponents below
    [emax], of the standard library; [F64] of Float64.v has 53 and 1024. *)
Definition binary (prec emax : Z) : Num spec_float :=
  let int z := binary_normalize prec emax z 0 false in {|
  n0 := S754_zero false; n1 := int 1%Z;
  nadd := SFadd prec emax; nsub := SFsub prec emax; nmul := SFmul prec emax; ndiv := SFdiv prec emax;
  nopp := SFopp; npow := fun _ _ => S754_nan;
  nleb := SFleb; nltb := SFltb; neqb := SFeqb;
  nlit := fun q => SFdiv prec emax (int (Qnum q)) (int (Zpos (Qden q))) |}.

(** The coefficients of a tableau stand for [a], [b] and [c] up to [dl]. *)
Record holds_values {T} {N : Num T} (value : T -> R) (regular : T -> Prop) (dl : R) (bt : tableau T)
    (s : nat) (a : nat -> nat -> R) (b c : nat -> R) : Prop := {
  hv_stages : t_stages bt = s;
  hv_A : forall i j, (i < s)%nat -> (j < s)%nat -> regular (entry (t_A bt) i j) /\ Rabs (value (entry (t_A bt) i j) - a i j) <= dl;
  hv_b : forall i, (i < s)%nat -> regular (nth i (t_b bt) n0) /\ Rabs (value (nth i (t_b bt) n0) - b i) <= dl;
  hv_c : forall i, (i < s)%nat -> regular (nth i (t_c bt) n0) /\ Rabs (value (nth i (t_c bt) n0) - c i) <= dl
}.

(** What a stage solve is given, as real numbers. *)
Definition in_values {T} (value : T -> R) (inp : ode_in T) : ode_in R := {|
  step_input := map value (step_input inp);
  stage_input := map value (stage_input inp);
  independent_input := map value (independent_input inp);
  time := value (time inp)
|}.

(** What is asked of the stage solves (as [nearly_solves], of the values): from
    regular numbers in the box they find regular updates that solve the stage equation up
    to [tol]. *)
Definition nearly_solves_rounded {T} {N : Num T} (value : T -> R) (regular : T -> Prop) (o : ode T) (n : nat)
    (f : R -> list R -> list R) (xi : list T) (X : box) (rho H tol : R) (a : T) : Prop :=
  forall inp h r lp, length (step_input inp) = n -> length (stage_input inp) = n -> independent_input inp = xi ->
    Forall regular (step_input inp) -> Forall regular (stage_input inp) -> regular (time inp) -> regular h ->
    0 < value h <= H ->
    inside n X rho (value (time inp)) (map value (step_input inp)) ->
    inside n X rho (value (time inp)) (known_part n (in_values value inp) (value h)) ->
    compute_update o inp h a = Ok (r, lp) ->
    let z := stage_value n (in_values value inp) (value h) (value a) (map value (stage_update r)) in
    Forall regular (stage_update r) /\
    inside n X 0 (value (time inp)) z /\
    within n tol (map value (stage_update r)) (f (value (time inp)) z).
