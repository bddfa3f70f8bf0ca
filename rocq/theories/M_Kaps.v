(** The stage problem [Problem.execute] builds for Kaps' problem
    (/repo/src/rkopenmdao/utils/problems.py:111-118, cited as PB): an OpenMDAO
    problem with [KapsGroup] (/repo/src/rkopenmdao/odes/kaps.py, cited as KP) as only
    subsystem "test_comp".

    OpenMDAO itself is not part of /repo.  Assumed about it: each of the four
    unconnected inputs gets an output "_auto_ivc.v<k>" as source; y_1 and y_2 are
    promoted (KP:309-321), so the input y_2 of Kaps1 is connected to the output of
    Kaps2 and the input y_1 of Kaps2 to the output of Kaps1.  The nonlinear solve
    copies the sources and runs the Newton solver of the group (KP:322-330); the
    linear solve sweeps over sources and group, whose coupled system is left to
    the Krylov solver (KP:332-335).  Both solvers are parameters: functions
    of the data they are called with, returning the four outputs of the group or
    raising. *)
From Coq Require Import String.
From Coq Require Import List Reals Bool Arith.
From Verif Require Import Base Ext M_ODE M_Metadata M_Components M_Packing M_Stage.
Import ListNotations.
Local Open Scope string_scope.
Local Open Scope R_scope.
Local Open Scope list_scope.

(** The names of the variables (KP:19-26, 143-150; PB:113-118). *)
Definition kaps_ivc : list string := ["_auto_ivc.v0"; "_auto_ivc.v1"; "_auto_ivc.v2"; "_auto_ivc.v3"].
Definition kaps_free : list string :=
  ["test_comp.Kaps1.y_1_old"; "test_comp.Kaps1.y_1_accumulated_stages";
   "test_comp.Kaps2.y_2_old"; "test_comp.Kaps2.y_2_accumulated_stages"].
Definition kaps_in : list string :=
  ["test_comp.Kaps1.y_1_old"; "test_comp.Kaps1.y_1_accumulated_stages"; "test_comp.Kaps1.y_2";
   "test_comp.Kaps2.y_2_old"; "test_comp.Kaps2.y_2_accumulated_stages"; "test_comp.Kaps2.y_1"].
Definition kaps_out : list string :=
  kaps_ivc ++ ["test_comp.Kaps1.y_1"; "test_comp.Kaps1.y_1_stage"; "test_comp.Kaps2.y_2"; "test_comp.Kaps2.y_2_stage"].

(** [get_source] for the unconnected inputs. *)
Definition kaps_source (n : string) : res string :=
  match find (fun p => String.eqb n (fst p)) (combine kaps_free kaps_ivc) with
  | Some p => Ok (snd p)
  | None => Err KeyError
  end.

(** The inputs and outputs of the two components for given sources [xs] and
    outputs [z] of the group. *)
Definition kaps1_in (xs z : list R) : omvec R :=
  [("y_1_old", nth 0 xs 0); ("y_1_accumulated_stages", nth 1 xs 0); ("y_2", nth 2 z 0)].
Definition kaps1_out (z : list R) : omvec R := [("y_1", nth 0 z 0); ("y_1_stage", nth 1 z 0)].
Definition kaps2_in (xs z : list R) : omvec R :=
  [("y_2_old", nth 2 xs 0); ("y_2_accumulated_stages", nth 3 xs 0); ("y_1", nth 0 z 0)].
Definition kaps2_out (z : list R) : omvec R := [("y_2", nth 2 z 0); ("y_2_stage", nth 3 z 0)].
Definition all_zeros (v : omvec R) : omvec R := map (fun p => (fst p, 0)) v.

(** The residuals of the group (KP:28-45, 152-165). *)
Definition group_residuals (eps : R) (ex : exchange) (xs z : list R) : res (list R) :=
  let* r1 := kaps1_apply_nonlinear eps ex (kaps1_in xs z) (kaps1_out z) (all_zeros (kaps1_out z)) in
  let* r2 := kaps2_apply_nonlinear ex (kaps2_in xs z) (kaps2_out z) (all_zeros (kaps2_out z)) in
  Ok (map snd r1 ++ map snd r2).

(** The linearized residuals of the group at outputs [z], for changes [dx] of the
    sources and [dz] of the outputs (KP:64-88, 205-228). *)
Definition group_fwd (eps : R) (ex : exchange) (xs z dx dz : list R) : res (list R) :=
  let* r1 := kaps1_apply_fwd eps ex (kaps1_in xs z) (kaps1_in dx dz) (kaps1_out dz) (all_zeros (kaps1_out z)) in
  let* r2 := kaps2_apply_fwd ex (kaps2_out z) (kaps2_in dx dz) (kaps2_out dz) (all_zeros (kaps2_out z)) in
  Ok (map snd r1 ++ map snd r2).

(** The transposed linearization: weights [w] of the residuals to sources and
    outputs (KP:89-108, 229-249). *)
Definition group_rev (eps : R) (ex : exchange) (xs z w : list R) : res (list R * list R) :=
  let* (i1, o1) := kaps1_apply_rev eps ex (kaps1_in xs z) (all_zeros (kaps1_in xs z)) (all_zeros (kaps1_out z)) (kaps1_out w) in
  let* (i2, o2) := kaps2_apply_rev ex (kaps2_out z) (all_zeros (kaps2_in xs z)) (all_zeros (kaps2_out z)) (kaps2_out w) in
  let a := map snd i1 in let b := map snd i2 in let c := map snd o1 in let d := map snd o2 in
  Ok ([nth 0 a 0; nth 1 a 0; nth 0 b 0; nth 1 b 0],
      [nth 0 c 0 + nth 2 b 0; nth 1 c 0; nth 0 d 0 + nth 2 a 0; nth 1 d 0]).

Section Problem.
Variable epsilon : R.
(** Newton's method (KP:322-330): data exchange, sources, start. *)
Variable newton : exchange -> list R -> list R -> res (list R).
(** The Krylov method (KP:332-335): data exchange, sources and outputs at which
    the system is linearized, right hand side, start. *)
Variables krylov_fwd krylov_rev : exchange -> list R -> list R -> list R -> list R -> res (list R).

(** Arrays of four numbers. *)
Definition four (z : list R) : res (list R) := if Nat.eqb (length z) 4 then Ok z else Err ValueError.

(** [run_solve_nonlinear]. *)
Definition kaps_nonlinear (h a : R) (i o : vec R) : res (vec R * vec R) :=
  if has kaps_in i && has kaps_out o then
    let xs := firstn 4 (flat o) in
    let* z := newton {| x_step_size := h; x_stage_factor := a |} xs (skipn 4 (flat o)) in
    let* z := four z in
    Ok (vec_of kaps_in (map snd (kaps1_in xs z) ++ map snd (kaps2_in xs z)), vec_of kaps_out (xs ++ z))
  else Err ValueError.

(** [run_solve_linear("fwd")]: [x] are the d_outputs, [r] the d_residuals. *)
Definition kaps_linear_fwd (h a : R) (i o x r : vec R) : res (vec R * vec R) :=
  let ex := {| x_step_size := h; x_stage_factor := a |} in
  if has kaps_out x && has kaps_out r && has kaps_out o then
    let xs := firstn 4 (flat o) in let z := skipn 4 (flat o) in
    let d := map Ropp (firstn 4 (flat r)) in
    let* u := group_fwd epsilon ex xs z d [0; 0; 0; 0] in
    let s := vsub (skipn 4 (flat r)) u in
    let* dz := krylov_fwd ex xs z s (skipn 4 (flat x)) in
    let* dz := four dz in
    Ok (vec_of kaps_out (d ++ dz), vec_of kaps_out (firstn 4 (flat r) ++ s))
  else Err ValueError.

(** [run_solve_linear("rev")]: [w] are the d_outputs, [y] the d_residuals. *)
Definition kaps_linear_rev (h a : R) (i o w y : vec R) : res (vec R * vec R) :=
  let ex := {| x_step_size := h; x_stage_factor := a |} in
  if has kaps_out w && has kaps_out y && has kaps_out o then
    let xs := firstn 4 (flat o) in let z := skipn 4 (flat o) in
    let* s := krylov_rev ex xs z (skipn 4 (flat w)) (skipn 4 (flat y)) in
    let* s := four s in
    let* (g, _) := group_rev epsilon ex xs z s in
    let b := vsub (firstn 4 (flat w)) g in
    Ok (vec_of kaps_out (b ++ skipn 4 (flat w)), vec_of kaps_out (map Ropp b ++ s))
  else Err ValueError.

(** PB:111-118. *)
Definition kaps_problem : problem R := {|
  p_source := kaps_source; p_nonlinear := kaps_nonlinear;
  p_linear_fwd := kaps_linear_fwd; p_linear_rev := kaps_linear_rev |}.
End Problem.

(** The vectors of the problem, with all values [x]. *)
Definition kaps_vectors (x : R) : om_state R := {|
  om_in := vec_of kaps_in (map (fun _ => x) kaps_in);
  om_out := vec_of kaps_out (map (fun _ => x) kaps_out);
  om_dout := vec_of kaps_out (map (fun _ => x) kaps_out);
  om_dres := vec_of kaps_out (map (fun _ => x) kaps_out) |}.

(** The declared variables with their tags (KP:19-26, 143-150; one process). *)
Definition kaps_variable (n : string) (out : bool) (tags : list string) : variable :=
  {| v_name := n; v_output := out; v_tags := tags; v_parts := [Some [1%nat]]; v_global_shape := [1%nat] |}.
Definition kaps_variables : list variable :=
  [kaps_variable "test_comp.Kaps1.y_1_old" false ["y_1"; "step_input_var"];
   kaps_variable "test_comp.Kaps1.y_1_accumulated_stages" false ["y_1"; "accumulated_stage_var"];
   kaps_variable "test_comp.Kaps1.y_2" false [];
   kaps_variable "test_comp.Kaps1.y_1" true [];
   kaps_variable "test_comp.Kaps1.y_1_stage" true ["y_1"; "stage_output_var"];
   kaps_variable "test_comp.Kaps2.y_2_old" false ["y_2"; "step_input_var"];
   kaps_variable "test_comp.Kaps2.y_2_accumulated_stages" false ["y_2"; "accumulated_stage_var"];
   kaps_variable "test_comp.Kaps2.y_1" false [];
   kaps_variable "test_comp.Kaps2.y_2" true [];
   kaps_variable "test_comp.Kaps2.y_2_stage" true ["y_2"; "stage_output_var"]].
