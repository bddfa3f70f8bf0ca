(** Notions for the statements about the shipped OpenMDAO components. *)
From Coq Require Import String.
From Coq Require Import List Reals.
From Verif Require Import Base Ext SpecRK M_Components.
Import ListNotations.
Local Open Scope string_scope.
Local Open Scope R_scope.
Local Open Scope list_scope.

Definition names {E} (v : omvec E) : list string := map fst v.

(** Inner product of two vectors over the same variables. *)
Fixpoint inner {E} (e : E -> E -> R) (v w : omvec E) : R :=
  match v, w with
  | (_, x) :: v', (_, y) :: w' => e x y + inner e v' w'
  | _, _ => 0
  end.
Definition vinner : omvec (list R) -> omvec (list R) -> R := inner dot.
Definition sinner : omvec R -> omvec R -> R := inner Rmult.

(** Every array has the size the variable was declared with. *)
Definition sized (sz : string -> nat) (v : omvec (list R)) : Prop :=
  Forall (fun p => length (snd p) = sz (fst p)) v.

(** Component [i] of variable [n]; zero where the vector does not have it. *)
Definition look (n : string) (i : nat) (v : omvec (list R)) : R :=
  match get n v with Ok x => nth i x 0 | Err _ => 0 end.
Definition slook (n : string) (v : omvec R) : R :=
  match get n v with Ok x => x | Err _ => 0 end.

(** [x'] is [x] moved by [d]; what [d] does not hold is not moved. *)
Definition moved (x d x' : omvec (list R)) : Prop :=
  names x' = names x /\ forall n i, look n i x' = look n i x + look n i d.
Definition smoved (s : R) (x d x' : omvec R) : Prop :=
  names x' = names x /\ forall n, slook n x' = slook n x + s * slook n d.

Definition all_zero (v : omvec R) : Prop := forall n, slook n v = 0.

(** [lin] applied to a vector over the two outputs has no kernel. *)
Definition nonsingular (outs : list string) (lin : omvec R -> res (omvec R)) : Prop :=
  forall d r, names d = outs -> lin d = Ok r -> all_zero r -> all_zero d.

(** The four arrays of one quantity have one size. *)
Definition quantity_sizes (sz : string -> nat) (qs : list string) : Prop :=
  forall q, In q qs -> sz (q ++ "_update")%string = sz q /\ sz (q ++ "_old")%string = sz q
                       /\ sz (q ++ "_acc_stages")%string = sz q.

(** The outputs of the two Kaps components. *)
Definition outs1 := ["y_1"; "y_1_stage"].
Definition outs2 := ["y_2"; "y_2_stage"].
(** All declared inputs and outputs are there. *)
Definition kaps1_vectors (inp out : omvec R) : Prop :=
  names inp = ["y_1_old"; "y_1_accumulated_stages"; "y_2"] /\ names out = outs1.
Definition kaps2_vectors (inp out : omvec R) : Prop :=
  names inp = ["y_2_old"; "y_2_accumulated_stages"; "y_1"] /\ names out = outs2.
(** The linearization with respect to the outputs. *)
Definition lin1 eps ex inp d := kaps1_apply_fwd eps ex inp [] d [("y_1", 0); ("y_1_stage", 0)].
Definition lin2 ex out d := kaps2_apply_fwd ex out [] d [("y_2", 0); ("y_2_stage", 0)].

(** Evaluating the right-hand side itself: no step, no implicit part. *)
Definition at_once : exchange := {| x_step_size := 0; x_stage_factor := 0 |}.
(** The residuals of both components with the derivative in the place of the
    stage update. *)
Definition kaps_residuals eps (y k : R * R) : res (omvec R * omvec R) :=
  let* r1 := kaps1_apply_nonlinear eps at_once [("y_1_old", fst y); ("y_1_accumulated_stages", 0); ("y_2", snd y)]
       [("y_1", fst y); ("y_1_stage", fst k)] [("y_1", 0); ("y_1_stage", 0)] in
  let* r2 := kaps2_apply_nonlinear at_once [("y_2_old", snd y); ("y_2_accumulated_stages", 0); ("y_1", fst y)]
       [("y_2", snd y); ("y_2_stage", snd k)] [("y_2", 0); ("y_2_stage", 0)] in
  Ok (r1, r2).
