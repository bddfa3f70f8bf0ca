(** The stage problems [Problem.execute] builds for the shipped explicit
    components (/repo/src/rkopenmdao/utils/problems.py:111-118, cited as PB): an
    OpenMDAO problem with the component as only subsystem "test_comp", inputs
    neither promoted nor connected.

    OpenMDAO itself is not part of /repo.  Assumed about it: every unconnected
    input gets an output "_auto_ivc.v<k>" as source, numbered in the order in which
    the inputs are declared; the vector of outputs has these sources and then
    the outputs of the component.  [run_solve_nonlinear] copies the sources to
    the inputs and calls [compute].  [run_solve_linear] makes one sweep over the
    two subsystems: the linear system of a source is - x = r, that of the
    component is - x + J d = r, with d the inputs and J d what
    [compute_jacvec_product] adds to zeros; the reverse sweep does the same with
    transposes.  All variables are scalars.  A quotient by zero, inf or nan in
    numpy, is an error here. *)
From Coq Require Import String.
From Coq Require Import List Reals Bool Arith.
From Verif Require Import Base Ext M_ODE M_Metadata M_Components M_Packing.
Import ListNotations.
Local Open Scope string_scope.
Local Open Scope R_scope.
Local Open Scope list_scope.

(** The shipped component as the problem sees it: declared inputs and outputs
    ([setup]), whether a quotient in its methods is by zero, [compute] and
    [compute_jacvec_product] in both modes. *)
Record explicit : Type := {
  e_inputs : list string;
  e_outputs : list string;
  e_singular : exchange -> bool;
  e_compute : exchange -> omvec R -> omvec R -> res (omvec R);
  e_fwd : exchange -> omvec R -> omvec R -> res (omvec R);
  e_rev : exchange -> omvec R -> omvec R -> res (omvec R)
}.

(** odes/simple_linear_ode.py:8-48. *)
Definition simple_component : explicit := {|
  e_inputs := ["y_old"; "y_accumulated_stages"];
  e_outputs := ["y_stage"];
  e_singular := fun ex => neqb (1 + x_step_size ex * x_stage_factor ex) 0;
  e_compute := simple_compute; e_fwd := simple_fwd; e_rev := simple_rev |}.

(** odes/prothero_robinson_ode.py:19-55; no derivatives are given, so the
    Jacobian is empty. *)
Definition prothero_component (lambda : R) : explicit := {|
  e_inputs := ["time"; "x"; "acc_stages"];
  e_outputs := ["x_stage"];
  e_singular := fun ex => neqb (1 - lambda * x_step_size ex * x_stage_factor ex) 0;
  e_compute := prothero_compute lambda;
  e_fwd := fun _ => prothero_fwd; e_rev := fun _ i _ => Ok i |}.

Section Problem.
Variable c : explicit.

(** Absolute names in the problem (PB:113-118). *)
Definition abs_name (n : string) : string := ("test_comp." ++ n)%string.
Definition digit (k : nat) : string := nth k ["0"; "1"; "2"; "3"; "4"; "5"; "6"; "7"; "8"; "9"] "".
Definition ivc_names : list string := map (fun k => ("_auto_ivc.v" ++ digit k)%string) (seq 0 (length (e_inputs c))).
Definition in_names : list string := map abs_name (e_inputs c).
Definition out_names : list string := ivc_names ++ map abs_name (e_outputs c).

(** A vector of scalars (OpenMDAO's vectors are arrays with named parts). *)
Definition vec_of (ns : list string) (xs : list R) : vec R := map2 (fun n x => (n, [x])) ns xs.
(** Whether the vector has the scalars [ns]; OpenMDAO's always do. *)
Definition has (ns : list string) (v : vec R) : bool :=
  if list_eq_dec string_dec (map fst v) ns then forallb (fun p => Nat.eqb (length (snd p)) 1) v else false.

(** [get_source] for the inputs of the component. *)
Definition stage_source (n : string) : res string :=
  match find (fun p => String.eqb n (fst p)) (combine in_names ivc_names) with
  | Some p => Ok (snd p)
  | None => Err KeyError
  end.

Notation k := (length (e_inputs c)).

(** [run_solve_nonlinear]: sources to inputs, then [compute]. *)
Definition stage_nonlinear (h a : R) (i o : vec R) : res (vec R * vec R) :=
  let ex := {| x_step_size := h; x_stage_factor := a |} in
  if has in_names i && has out_names o then
    if e_singular c ex then Err SolverError
    else
      let xs := firstn k (flat o) in
      let* u := e_compute c ex (combine (e_inputs c) xs) (combine (e_outputs c) (skipn k (flat o))) in
      Ok (vec_of in_names xs, vec_of out_names (xs ++ map snd u))
  else Err ValueError.

(** [run_solve_linear("fwd")]: [x] are the d_outputs, [r] the d_residuals. *)
Definition stage_linear_fwd (h a : R) (i o x r : vec R) : res (vec R * vec R) :=
  let ex := {| x_step_size := h; x_stage_factor := a |} in
  if has out_names x && has out_names r then
    if e_singular c ex then Err SolverError
    else
      let d := map Ropp (firstn k (flat r)) in
      let* u := e_fwd c ex (combine (e_inputs c) d) (map (fun n => (n, 0)) (e_outputs c)) in
      let s := vsub (skipn k (flat r)) (map snd u) in
      Ok (vec_of out_names (d ++ map Ropp s), vec_of out_names (firstn k (flat r) ++ s))
  else Err ValueError.

(** [run_solve_linear("rev")]: [w] are the d_outputs, [y] the d_residuals. *)
Definition stage_linear_rev (h a : R) (i o w y : vec R) : res (vec R * vec R) :=
  let ex := {| x_step_size := h; x_stage_factor := a |} in
  if has out_names w && has out_names y then
    if e_singular c ex then Err SolverError
    else
      let s := map Ropp (skipn k (flat w)) in
      let* u := e_rev c ex (map (fun n => (n, 0)) (e_inputs c)) (combine (e_outputs c) s) in
      let b := vsub (firstn k (flat w)) (map snd u) in
      Ok (vec_of out_names (b ++ skipn k (flat w)), vec_of out_names (map Ropp b ++ s))
  else Err ValueError.

(** PB:111-118. *)
Definition stage_problem : problem R := {|
  p_source := stage_source; p_nonlinear := stage_nonlinear;
  p_linear_fwd := stage_linear_fwd; p_linear_rev := stage_linear_rev |}.

(** Its vectors, with all values [x]. *)
Definition stage_vectors (x : R) : om_state R := {|
  om_in := vec_of in_names (map (fun _ => x) in_names);
  om_out := vec_of out_names (map (fun _ => x) out_names);
  om_dout := vec_of out_names (map (fun _ => x) out_names);
  om_dres := vec_of out_names (map (fun _ => x) out_names) |}.
End Problem.

(** The declared variables with their tags (one process). *)
Definition scalar_variable (n : string) (out : bool) (tags : list string) : variable :=
  {| v_name := abs_name n; v_output := out; v_tags := tags; v_parts := [Some [1%nat]]; v_global_shape := [1%nat] |}.
(** odes/simple_linear_ode.py:11-16. *)
Definition simple_variables : list variable :=
  [scalar_variable "y_old" false ["y"; "step_input_var"];
   scalar_variable "y_accumulated_stages" false ["y"; "accumulated_stage_var"];
   scalar_variable "y_stage" true ["y"; "stage_output_var"]].
(** odes/prothero_robinson_ode.py:22-26. *)
Definition prothero_variables : list variable :=
  [scalar_variable "time" false ["time_variable"];
   scalar_variable "x" false ["step_input_var"; "x"];
   scalar_variable "acc_stages" false ["accumulated_stage_var"; "x"];
   scalar_variable "x_stage" true ["stage_output_var"; "x"]].
