(** The shipped tableaux of /repo/src/rkopenmdao/butcher_tableaux.py as they are
    computed: every operation in a binary format, rounded to nearest (M_Tableaux.v
    has the same expressions with exact arithmetic).  The code uses binary64, with
    53 digits and exponents below 1024. *)
From Coq Require Import String.
From Coq Require Import List ZArith QArith SpecFloat.
From Verif Require Import Base M_Tableau M_Tableaux SpecFloating.
Import ListNotations.

(** A decimal literal of butcher_tableaux.py:52-981 (Python reads literals
    correctly rounded); integer literals are small and therefore exact. *)
Definition literal (prec emax : Z) (q : Q) : spec_float :=
  match Qnum q with
  | Z0 => S754_zero false
  | Zpos m => let '(z, e, l) := SFdiv_core_binary prec emax (Zpos m) 0 (Zpos (Qden q)) 0 in binary_round_aux prec emax false z e l
  | Zneg m => let '(z, e, l) := SFdiv_core_binary prec emax (Zpos m) 0 (Zpos (Qden q)) 0 in binary_round_aux prec emax true z e l
  end.

(** The expressions of butcher_tableaux.py:52-981.  Addition, multiplication,
    division and [np.sqrt] are those of IEEE 754; [**] is the power function of
    the C library, whose result is not fixed by a standard: [pow] stands for it. *)
Fixpoint eval_float (prec emax : Z) (pow : spec_float -> nat -> spec_float) (e : expr) : spec_float :=
  let N := binary prec emax in
  match e with
  | Lit q => literal prec emax q
  | Neg x => nopp (eval_float prec emax pow x)
  | Add x y => nadd (eval_float prec emax pow x) (eval_float prec emax pow y)
  | Sub x y => nsub (eval_float prec emax pow x) (eval_float prec emax pow y)
  | Mul x y => nmul (eval_float prec emax pow x) (eval_float prec emax pow y)
  | Div x y => ndiv (eval_float prec emax pow x) (eval_float prec emax pow y)
  | Pow x n => pow (eval_float prec emax pow x) n
  | Sqrt x => SFsqrt prec emax (eval_float prec emax pow x)
  end.

(** The constructor call with these values (butcher_tableau.py:54-86, 251-272). *)
Definition shipped_init_float (prec emax : Z) (pow : spec_float -> nat -> spec_float) (x : shipped)
    : res (tableau spec_float * list tableau_warning) :=
  let N := binary prec emax in
  let ev := eval_float prec emax pow in
  let A := {| mrows := List.length (s_A x); mcols := List.length (nth 0 (s_A x) []);
              mdata := map (map ev) (s_A x) |} in
  let b := map ev (s_b x) in
  let c := map ev (s_c x) in
  match s_hat x with
  | None => tableau_init A b (Some c) (Some (s_p x)) (s_name x)
  | Some (bh, phat) => embedded_init A b (map ev bh) (Some c) (Some (s_p x)) (Some phat) (s_name x)
  end.
