(** Model of /repo/src/rkopenmdao/butcher_tableau.py. *)
From Coq Require Import String.
From Coq Require Import List Bool QArith.
From Verif Require Import Base.
Import ListNotations.

Section Tableau.
Context {T : Type} {N : Num T}.

(** A two-dimensional numpy array: [shape = (mrows, mcols)] and its rows.
    (An array without rows still has a column count.) *)
Record mat : Type := { mrows : nat; mcols : nat; mdata : list (list T) }.

(** The data of a numpy array really has the stated shape. *)
Definition mat_wf (m : mat) : Prop :=
  length (mdata m) = mrows m /\ Forall (fun r => length r = mcols m) (mdata m).

(** [m[i, j]]; out of range is not used by the code. *)
Definition entry (m : list (list T)) (i j : nat) : T := nth j (nth i m []) n0.

(** butcher_tableau.py:20-86 (attributes set by __init__), 226-272 for the
    embedded subclass.  The [name] attribute is kept as a string.  [t_hat] is
    [Some (butcher_adaptive_weights, _phat)] for an EmbeddedButcherTableau. *)
Record tableau : Type := {
  t_A : list (list T);
  t_b : list T;
  t_c : list T;
  t_stages : nat;
  t_p : option nat;
  t_name : string;
  t_hat : option (list T * option nat)
}.

(** The two warnings of butcher_tableau.py:69 and 75. *)
Inductive tableau_warning : Type := WeightsDoNotSum | RowSumsDiffer.

(** numpy broadcasting of two one-dimensional shapes. *)
Definition broadcastable (n m : nat) : bool :=
  Nat.eqb n m || Nat.eqb n 1 || Nat.eqb m 1.

(** Elementwise difference with broadcasting of length-1 operands. *)
Definition bsub (x y : list T) : list T :=
  match x, y with
  | [a], _ => map (nsub a) y
  | _, [b] => map (fun a => nsub a b) x
  | _, _ => vsub x y
  end.

(** butcher_tableau.py:68-69. *)
Definition warn_weights (b : list T) : bool :=
  nltb (nlit (1 # 100000)) (nabs (nsub (vsum b) n1)).

(** butcher_tableau.py:74: [np.all(rowsums - c) >= 1e-5].  [np.all] yields a
    boolean (every difference is nonzero), and [True >= 1e-5] is true,
    [False >= 1e-5] false. *)
Definition warn_rows (A : list (list T)) (c : list T) : bool :=
  forallb (fun d => negb (neqb d n0)) (bsub (map vsum A) c).

(** butcher_tableau.py:54-86, ButcherTableau.__init__. Returns the object and
    the warnings issued.  Line 74 raises ValueError when the row sums and [c]
    cannot be broadcast. *)
Definition tableau_init (A : mat) (b : list T) (c : option (list T))
    (p : option nat) (name : string) : res (tableau * list tableau_warning) :=
  if negb (Nat.eqb (mrows A) (mcols A)) then Err ValueError else
  let w1 := if warn_weights b then [WeightsDoNotSum] else [] in
  let* (cs, w2) :=
    match c with
    | None => Ok (map vsum (mdata A), [])
    | Some cs =>
        if negb (broadcastable (mrows A) (length cs)) then Err ValueError
        else Ok (cs, if warn_rows (mdata A) cs then [RowSumsDiffer] else [])
    end in
  let stages := length b in
  if negb (Nat.eqb (mrows A) stages && Nat.eqb (mcols A) stages)
     || negb (Nat.eqb (length b) (length cs))
  then Err AssertionError
  else Ok ({| t_A := mdata A; t_b := b; t_c := cs; t_stages := stages;
              t_p := p; t_name := name; t_hat := None |}, w1 ++ w2).

(** butcher_tableau.py:251-272, EmbeddedButcherTableau.__init__. *)
Definition embedded_init (A : mat) (b bhat : list T) (c : option (list T))
    (p phat : option nat) (name : string)
    : res (tableau * list tableau_warning) :=
  let* (t, w) := tableau_init A b c p name in
  if negb (Nat.eqb (length bhat) (length (t_b t))) then Err AssertionError
  else Ok ({| t_A := t_A t; t_b := t_b t; t_c := t_c t;
              t_stages := t_stages t; t_p := t_p t; t_name := t_name t;
              t_hat := Some (bhat, phat) |}, w).

(** butcher_tableau.py:88-99, property [p]. *)
Definition get_p (t : tableau) : res nat :=
  match t_p t with None => Err ValueError | Some p => Ok p end.

(** butcher_tableau.py:310-320, property [phat] (AttributeError on the base
    class, which has no such attribute). *)
Definition get_phat (t : tableau) : res nat :=
  match t_hat t with
  | None => Err AttributeError
  | Some (_, None) => Err ValueError
  | Some (_, Some p) => Ok p
  end.

(** butcher_tableau.py:105-113 and 330-338, [min_p_order].  The base class
    returns [_p] (possibly None); the embedded class takes [min], a TypeError
    when one of the orders is None. *)
Definition min_p_order (t : tableau) : res (option nat) :=
  match t_hat t with
  | None => Ok (t_p t)
  | Some (_, phat) =>
      match t_p t, phat with
      | Some p, Some q => Ok (Some (Nat.min p q))
      | _, _ => Err TypeError
      end
  end.

(** butcher_tableau.py:115-125 and 326-328. *)
Definition is_embedded (t : tableau) : bool :=
  match t_hat t with None => false | Some _ => true end.

(** butcher_tableau.py:127-135. *)
Definition number_of_stages (t : tableau) : nat := t_stages t.

(** butcher_tableau.py:137-149: the double loop over [j in range(i, stages)]. *)
Definition is_explicit (t : tableau) : bool :=
  forallb (fun i =>
    forallb (fun j => neqb (entry (t_A t) i j) n0)
            (seq i (t_stages t - i)))
    (seq 0 (t_stages t)).

(** butcher_tableau.py:151-167. *)
Definition is_diagonally_implicit (t : tableau) : bool :=
  if is_explicit t then false else
  forallb (fun i =>
    forallb (fun j => neqb (entry (t_A t) i j) n0)
            (seq (i + 1) (t_stages t - (i + 1))))
    (seq 0 (t_stages t)).

(** butcher_tableau.py:169-180. *)
Definition is_implicit (t : tableau) : bool :=
  if is_explicit t || is_diagonally_implicit t then false else true.

(** Reading back the attributes of an existing tableau as constructor
    arguments. *)
Definition t_mat (t : tableau) : mat :=
  {| mrows := length (t_A t); mcols := length (t_A t); mdata := t_A t |}.

(** butcher_tableau.py:274-308, EmbeddedButcherTableau.from_butchertableau
    (raises when the order of the given tableau is unknown, through [.p]). *)
Definition from_butchertableau (t : tableau) (bhat : list T)
    (phat : option nat) (name : option string)
    : res (tableau * list tableau_warning) :=
  let nm := match name with
            | None => ("Adaptive " ++ t_name t)%string
            | Some s => s
            end in
  let* p := get_p t in
  embedded_init (t_mat t) (t_b t) bhat (Some (t_c t)) (Some p) phat nm.

(** butcher_tableau.py:340-354, property [main_method] (embedded class only). *)
Definition main_method (t : tableau) : res (tableau * list tableau_warning) :=
  match t_hat t with
  | None => Err AttributeError
  | Some _ =>
      tableau_init (t_mat t) (t_b t) (Some (t_c t)) (t_p t)
                   ("Main: " ++ t_name t)%string
  end.

(** butcher_tableau.py:356-370, property [embedded_method]. *)
Definition embedded_method (t : tableau) : res (tableau * list tableau_warning) :=
  match t_hat t with
  | None => Err AttributeError
  | Some (bhat, phat) =>
      tableau_init (t_mat t) bhat (Some (t_c t)) phat
                   ("Embedded: " ++ t_name t)%string
  end.

End Tableau.
Arguments mat T : clear implicits.
Arguments tableau T : clear implicits.
