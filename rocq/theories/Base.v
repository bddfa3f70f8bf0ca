(** Basic vocabulary of the model: Python exceptions as values, an operation
    class for scalars, and numpy-like operations on lists.  Nothing here is
    specific to rkopenmdao; each definition says which Python/numpy construct
    of /repo it stands for. *)
From Coq Require Import List ZArith QArith Bool.
Import ListNotations.

(** Exceptions raised by, or passing through, the code in
    /repo/src/rkopenmdao.  [SolverError] is any exception coming out of the
    user's stage problem (discretized_ode/openmdao_ode.py:135,173,207).
    [OutOfFuel] is not a Python exception: it marks a loop that has not ended
    within the fuel given to the model (a [while] or recursion in the code). *)
Inductive exn : Type :=
| ValueError | AssertionError | TypeError | KeyError | AttributeError
| IndexError | NotImplementedError | SetupError
| OuterErrorControllerError | InnerErrorControllerError
| SolverError | FileError
| OutOfFuel.

(** Result of a Python call: a value or a raised exception. *)
Inductive res (A : Type) : Type :=
| Ok (a : A)
| Err (e : exn).
Arguments Ok {A} a.
Arguments Err {A} e.

(** Sequencing of Python statements: an exception skips the rest. *)
Definition bind {A B} (m : res A) (k : A -> res B) : res B :=
  match m with
  | Ok a => k a
  | Err e => Err e
  end.
Notation "'let*' x ':=' m 'in' k" := (bind m (fun x => k))
  (at level 200, x pattern, m at level 100, k at level 200, right associativity).

(** Scalar operations used by the code (numpy float64 / Python float).
    No laws: a statement for every instance covers floating point too.
    [nlit] reads a decimal literal such as [1e-10]. *)
Class Num (T : Type) : Type := {
  n0 : T;
  n1 : T;
  nadd : T -> T -> T;
  nsub : T -> T -> T;
  nmul : T -> T -> T;
  ndiv : T -> T -> T;
  nopp : T -> T;
  npow : T -> T -> T;
  nleb : T -> T -> bool;
  nltb : T -> T -> bool;
  neqb : T -> T -> bool;
  nlit : Q -> T
}.

(** Instances that have an infinity ([np.inf]). *)
Class NumInf (T : Type) : Type := { ninf : T; nninf : T }.

Section Scalars.
Context {T : Type} {N : Num T}.

(** [np.abs(x)] on a scalar (butcher_tableau.py:68, error_controller.py:192). *)
Definition nabs (x : T) : T := if nltb x n0 then nopp x else x.

(** Builtin [max(a, b)]: the first argument unless the second is larger
    (error_controller.py:210). *)
Definition pymax (a b : T) : T := if nltb a b then b else a.

(** Builtin [min(a, b)]: the first argument unless the second is smaller
    (error_controller.py:211,213). *)
Definition pymin (a b : T) : T := if nltb b a then b else a.

(** One-dimensional arrays are lists. [np.zeros(n)]. *)
Definition vzeros (n : nat) : list T := repeat n0 n.

(** Elementwise binary operation on arrays of equal length. (numpy raises on
    unequal lengths; here the longer one is cut, so statements carry length
    hypotheses.) *)
Fixpoint map2 {A B C} (f : A -> B -> C) (xs : list A) (ys : list B) : list C :=
  match xs, ys with
  | x :: xs', y :: ys' => f x y :: map2 f xs' ys'
  | _, _ => []
  end.

(** [x + y], [x - y] on arrays. *)
Definition vadd : list T -> list T -> list T := map2 nadd.
Definition vsub : list T -> list T -> list T := map2 nsub.

(** [c * x] for a scalar [c] and an array [x]. *)
Definition vscale (c : T) (x : list T) : list T := map (nmul c) x.

(** [np.einsum("ij,i", field, w)]: sum over rows [i] of [field[i,:] * w[i]],
    [n] is the number of columns.  numpy does not fix the order of summation;
    the model adds rows first to last. *)
Definition einsum_ij_i (n : nat) (field : list (list T)) (w : list T) : list T :=
  fold_left (fun acc rw => vadd acc (map (fun x => nmul x (snd rw)) (fst rw)))
            (combine field w) (vzeros n).

(** [np.sum(x)]. *)
Definition vsum (x : list T) : T := fold_left nadd x n0.

End Scalars.

(** [x[i] = v] on an array (no effect out of range, where numpy raises). *)
Fixpoint upd {A} (i : nat) (v : A) (l : list A) : list A :=
  match l, i with
  | [], _ => []
  | _ :: l', O => v :: l'
  | x :: l', S i' => x :: upd i' v l'
  end.

(** [a[start:end]]. *)
Definition slice {A} (start stop : nat) (l : list A) : list A :=
  firstn (stop - start) (skipn start l).

(** [a[start:end] = v] with [v] of length [end - start]. *)
Definition slice_set {A} (start stop : nat) (v : list A) (l : list A) : list A :=
  firstn start l ++ v ++ skipn stop l.

(** The instance used to run the model: rationals.  Powers are exact for
    integer exponents only; other exponents are not used with this instance. *)
Definition Qpow_int (x y : Q) : Q :=
  if (Zpos (Qden (Qred y)) =? 1)%Z then Qpower x (Qnum (Qred y)) else 0%Q.

#[global] Instance QNum : Num Q := {|
  n0 := 0%Q;
  n1 := 1%Q;
  nadd := fun x y => Qred (Qplus x y);
  nsub := fun x y => Qred (Qminus x y);
  nmul := fun x y => Qred (Qmult x y);
  ndiv := fun x y => Qred (Qdiv x y);
  nopp := fun x => Qred (Qopp x);
  npow := fun x y => Qred (Qpow_int x y);
  nleb := Qle_bool;
  nltb := fun x y => negb (Qle_bool y x);
  neqb := Qeq_bool;
  nlit := fun q => q
|}.
