(** Model of the OpenMDAO components shipped with rkopenmdao:
    utils/utility_components.py, odes/simple_linear_ode.py,
    odes/prothero_robinson_ode.py, odes/kaps.py (all under
    /repo/src/rkopenmdao).  Real arithmetic; a quotient by zero has no meaning
    here, where numpy gives inf or nan. *)
From Coq Require Import String.
From Coq Require Import List Reals.
From Verif Require Import Base Ext.
Import ListNotations.
Local Open Scope string_scope.
Local Open Scope R_scope.
Local Open Scope list_scope.

(** An OpenMDAO vector as the components see it: named arrays, each a list of
    reals, or a single real where the component declares a scalar.  Access by
    a name that is not there raises KeyError. *)
Section Vectors.
Context {E : Type}.
Definition omvec : Type := list (string * E).
(** [name in vec]. *)
Definition mem (n : string) (v : omvec) : bool := existsb (fun p => String.eqb n (fst p)) v.
(** [vec[name]]. *)
Fixpoint get (n : string) (v : omvec) : res E :=
  match v with
  | [] => Err KeyError
  | (m, x) :: v' => if String.eqb n m then Ok x else get n v'
  end.
(** [vec[name] op= x]: [f old x] is the new entry or an exception. *)
Fixpoint update (f : E -> E -> res E) (n : string) (x : E) (v : omvec) : res omvec :=
  match v with
  | [] => Err KeyError
  | (m, y) :: v' =>
      if String.eqb n m then let* z := f y x in Ok ((m, z) :: v')
      else let* w := update f n x v' in Ok ((m, y) :: w)
  end.
End Vectors.
Arguments omvec E : clear implicits.

(** [=], [+=], [-=] on arrays; unequal lengths raise ValueError (broadcasting
    is not modelled). *)
Definition same_len (f : list R -> list R -> list R) (y x : list R) : res (list R) :=
  if Nat.eqb (length y) (length x) then Ok (f y x) else Err ValueError.
Definition put : string -> list R -> omvec (list R) -> res (omvec (list R)) := update (same_len (fun _ x => x)).
Definition iadd : string -> list R -> omvec (list R) -> res (omvec (list R)) := update (same_len vadd).
Definition isub : string -> list R -> omvec (list R) -> res (omvec (list R)) := update (same_len vsub).
(** The same on scalars. *)
Definition sput : string -> R -> omvec R -> res (omvec R) := update (fun _ x => Ok x).
Definition siadd : string -> R -> omvec R -> res (omvec R) := update (fun y x => Ok (y + x)).
Definition sisub : string -> R -> omvec R -> res (omvec R) := update (fun y x => Ok (y - x)).

(** [if n in src: dst[m] op= f(src[n])]. *)
Definition transfer {E} (op : string -> E -> omvec E -> res (omvec E)) (f : E -> E)
    (n : string) (src : omvec E) (m : string) (dst : omvec E) : res (omvec E) :=
  if mem n src then let* x := get n src in op m (f x) dst else Ok dst.

(** om_data_exchange.py:9-26. *)
Record exchange : Type := { x_step_size : R; x_stage_factor : R }.
Definition vdivs (x : list R) (c : R) : list R := map (fun y => y / c) x.

(** ** utility_components.py, StageValueComponent *)

(** utility_components.py:40-46, [compute]. *)
Definition stage_value_compute (ex : exchange) (inputs outputs : omvec (list R)) : res (omvec (list R)) :=
  let* old := get "old_value" inputs in
  let* acc := get "acc_stages" inputs in
  let* slope := get "stage_slope" inputs in
  put "stage_value"
    (vadd old (vscale (x_step_size ex) (vadd acc (vscale (x_stage_factor ex) slope)))) outputs.

(** utility_components.py:53-62, [compute_jacvec_product], mode fwd. *)
Definition stage_value_fwd (ex : exchange) (d_inputs d_outputs : omvec (list R)) : res (omvec (list R)) :=
  if mem "stage_value" d_outputs then
    let* d := transfer iadd (fun x => x) "old_value" d_inputs "stage_value" d_outputs in
    let* d := transfer iadd (vscale (x_step_size ex)) "acc_stages" d_inputs "stage_value" d in
    transfer iadd (vscale (x_step_size ex * x_stage_factor ex)) "stage_slope" d_inputs "stage_value" d
  else Ok d_outputs.

(** utility_components.py:63-72, mode rev. *)
Definition into {E} (op : string -> E -> omvec E -> res (omvec E)) (f : E -> E)
    (m : string) (src : omvec E) (n : string) (dst : omvec E) : res (omvec E) :=
  if mem n dst then let* x := get m src in op n (f x) dst else Ok dst.
Definition stage_value_rev (ex : exchange) (d_inputs d_outputs : omvec (list R)) : res (omvec (list R)) :=
  if mem "stage_value" d_outputs then
    let* d := into iadd (fun x => x) "stage_value" d_outputs "old_value" d_inputs in
    let* d := into iadd (vscale (x_step_size ex)) "stage_value" d_outputs "acc_stages" d in
    into iadd (vscale (x_step_size ex * x_stage_factor ex)) "stage_value" d_outputs "stage_slope" d
  else Ok d_inputs.

(** ** utility_components.py, StageUpdateComponent *)

(** utility_components.py:112-120, [compute]: one pass of the loop, then the
    loop over [quantity_list]. *)
Definition stage_update_one (ex : exchange) (inputs : omvec (list R)) (q : string) (outputs : omvec (list R))
    : res (omvec (list R)) :=
  let* x := get q inputs in
  let* old := get (q ++ "_old") inputs in
  let* acc := get (q ++ "_acc_stages") inputs in
  put (q ++ "_update")
    (vdivs (vsub (vsub x old) (vscale (x_step_size ex) acc)) (x_step_size ex * x_stage_factor ex)) outputs.
Fixpoint loop {A} (body : string -> A -> res A) (qs : list string) (a : A) : res A :=
  match qs with
  | [] => Ok a
  | q :: qs' => let* a' := body q a in loop body qs' a'
  end.
Definition stage_update_compute (qs : list string) (ex : exchange) (inputs outputs : omvec (list R)) : res (omvec (list R)) :=
  loop (stage_update_one ex inputs) qs outputs.

(** utility_components.py:127-141, [compute_jacvec_product], mode fwd. *)
Definition stage_update_fwd (qs : list string) (ex : exchange) (d_inputs d_outputs : omvec (list R)) : res (omvec (list R)) :=
  let h := x_step_size ex in let a := x_stage_factor ex in
  loop (fun q d =>
    if mem (q ++ "_update") d then
      let* d := transfer iadd (fun x => vdivs x (h * a)) q d_inputs (q ++ "_update") d in
      let* d := transfer isub (fun x => vdivs x (h * a)) (q ++ "_old") d_inputs (q ++ "_update") d in
      transfer isub (fun x => vdivs x a) (q ++ "_acc_stages") d_inputs (q ++ "_update") d
    else Ok d) qs d_outputs.

(** utility_components.py:142-156, mode rev. *)
Definition stage_update_rev (qs : list string) (ex : exchange) (d_inputs d_outputs : omvec (list R)) : res (omvec (list R)) :=
  let h := x_step_size ex in let a := x_stage_factor ex in
  loop (fun q d =>
    if mem (q ++ "_update") d_outputs then
      let* d := into iadd (fun x => vdivs x (h * a)) (q ++ "_update") d_outputs q d in
      let* d := into isub (fun x => vdivs x (h * a)) (q ++ "_update") d_outputs (q ++ "_old") d in
      into isub (fun x => vdivs x a) (q ++ "_update") d_outputs (q ++ "_acc_stages") d
    else Ok d) qs d_inputs.

(** ** simple_linear_ode.py (all variables are scalars, lines 11-16) *)

(** simple_linear_ode.py:18-29, [compute]. *)
Definition simple_compute (ex : exchange) (inputs outputs : omvec R) : res (omvec R) :=
  let h := x_step_size ex in let a := x_stage_factor ex in
  let* old := get "y_old" inputs in
  let* acc := get "y_accumulated_stages" inputs in
  sput "y_stage" (- (old + h * acc) / (1 + h * a)) outputs.

(** simple_linear_ode.py:40-45, [compute_jacvec_product], mode fwd: no tests
    whether the names are present. *)
Definition simple_fwd (ex : exchange) (d_inputs d_outputs : omvec R) : res (omvec R) :=
  let h := x_step_size ex in let factor := / (1 + h * x_stage_factor ex) in
  let* x := get "y_old" d_inputs in
  let* d := sisub "y_stage" (factor * x) d_outputs in
  let* x := get "y_accumulated_stages" d_inputs in
  sisub "y_stage" (h * factor * x) d.

(** simple_linear_ode.py:46-48, mode rev. *)
Definition simple_rev (ex : exchange) (d_inputs d_outputs : omvec R) : res (omvec R) :=
  let h := x_step_size ex in let factor := / (1 + h * x_stage_factor ex) in
  let* w := get "y_stage" d_outputs in
  let* d := sisub "y_old" (factor * w) d_inputs in
  sisub "y_accumulated_stages" (h * factor * w) d.

(** simple_linear_ode.py:50-57, [simple_linear_solution]. *)
Definition simple_solution (time initial_values initial_time : R) : R :=
  initial_values / exp (- initial_time) * exp (- time).

(** ** prothero_robinson_ode.py *)

(** prothero_robinson_ode.py:27-39, [phi] and [d_phi]. *)
Definition phi (time : R) : R := sin (time + PI / 4).
Definition d_phi (time : R) : R := cos (time + PI / 4).

(** prothero_robinson_ode.py:41-55, [compute]. *)
Definition prothero_compute (lambda : R) (ex : exchange) (inputs outputs : omvec R) : res (omvec R) :=
  let h := x_step_size ex in
  let* t := get "time" inputs in
  let* x := get "x" inputs in
  let* acc := get "acc_stages" inputs in
  sput "x_stage" ((lambda * (x + h * acc - phi t) + d_phi t) / (1 - lambda * h * x_stage_factor ex)) outputs.

(** The component neither overrides [compute_jacvec_product] nor declares
    partial derivatives, so OpenMDAO takes its Jacobian to be empty: products
    add nothing. *)
Definition prothero_fwd (d_inputs d_outputs : omvec R) : res (omvec R) := Ok d_outputs.

(** prothero_robinson_ode.py:57-60, [get_initial_values]. *)
Definition prothero_initial : R := sin (PI / 4).

(** prothero_robinson_ode.py:62-72, [solution]. *)
Definition prothero_solution (time initial_values initial_time : R) : R :=
  phi time + (initial_values - phi initial_time) / exp initial_time * exp time.

(** ** kaps.py, KapsComponent1 (scalars, lines 19-26) *)

(** kaps.py:28-45, [apply_nonlinear]. *)
Definition kaps1_apply_nonlinear (eps : R) (ex : exchange) (inputs outputs residuals : omvec R) : res (omvec R) :=
  let h := x_step_size ex in let a := x_stage_factor ex in
  let* old := get "y_1_old" inputs in
  let* acc := get "y_1_accumulated_stages" inputs in
  let* k := get "y_1_stage" outputs in
  let* y := get "y_1" outputs in
  let* r := sput "y_1" (old + h * acc + h * a * k - y) residuals in
  let* y2 := get "y_2" inputs in
  sput "y_1_stage" (- (1 + 2 * eps) * y + y2 ^ 2 - eps * k) r.

(** kaps.py:47-62, [solve_nonlinear]. *)
Definition kaps1_solve_nonlinear (eps : R) (ex : exchange) (inputs outputs : omvec R) : res (omvec R) :=
  let h := x_step_size ex in let a := x_stage_factor ex in
  let* old := get "y_1_old" inputs in
  let* acc := get "y_1_accumulated_stages" inputs in
  let* y2 := get "y_2" inputs in
  let* o := sput "y_1_stage"
     ((- (1 + 2 * eps) * (old + h * acc) + y2 ^ 2) / (eps + a * h * (1 + 2 * eps))) outputs in
  let* k := get "y_1_stage" o in
  sput "y_1" (old + h * (acc + a * k)) o.

(** kaps.py:64-88, [apply_linear], mode fwd.  [inputs] and [outputs] always hold
    all declared variables, so reading them before a membership test changes
    nothing. *)
Definition kaps1_apply_fwd (eps : R) (ex : exchange) (inputs d_inputs d_outputs d_residuals : omvec R) : res (omvec R) :=
  let h := x_step_size ex in let a := x_stage_factor ex in
  let* d :=
    if mem "y_1" d_residuals then
      let* d := transfer siadd (fun x => x) "y_1_old" d_inputs "y_1" d_residuals in
      let* d := transfer siadd (fun x => h * x) "y_1_accumulated_stages" d_inputs "y_1" d in
      let* d := transfer siadd (fun x => h * a * x) "y_1_stage" d_outputs "y_1" d in
      transfer sisub (fun x => x) "y_1" d_outputs "y_1" d
    else Ok d_residuals in
  if mem "y_1_stage" d then
    let* y2 := get "y_2" inputs in
    let* d := transfer siadd (fun x => 2 * y2 * x) "y_2" d_inputs "y_1_stage" d in
    let* d := transfer sisub (fun x => eps * x) "y_1_stage" d_outputs "y_1_stage" d in
    transfer sisub (fun x => (1 + 2 * eps) * x) "y_1" d_outputs "y_1_stage" d
  else Ok d.

(** kaps.py:89-108, mode rev: changes [d_inputs] and [d_outputs]. *)
Definition kaps1_apply_rev (eps : R) (ex : exchange) (inputs d_inputs d_outputs d_residuals : omvec R)
    : res (omvec R * omvec R) :=
  let h := x_step_size ex in let a := x_stage_factor ex in
  let* io :=
    if mem "y_1" d_residuals then
      let* i := into siadd (fun x => x) "y_1" d_residuals "y_1_old" d_inputs in
      let* i := into siadd (fun x => h * x) "y_1" d_residuals "y_1_accumulated_stages" i in
      let* o := into siadd (fun x => h * a * x) "y_1" d_residuals "y_1_stage" d_outputs in
      let* o := into sisub (fun x => x) "y_1" d_residuals "y_1" o in
      Ok (i, o)
    else Ok (d_inputs, d_outputs) in
  if mem "y_1_stage" d_residuals then
    let* y2 := get "y_2" inputs in
    let* i := into siadd (fun x => 2 * y2 * x) "y_1_stage" d_residuals "y_2" (fst io) in
    let* o := into sisub (fun x => eps * x) "y_1_stage" d_residuals "y_1_stage" (snd io) in
    let* o := into sisub (fun x => (1 + 2 * eps) * x) "y_1_stage" d_residuals "y_1" o in
    Ok (i, o)
  else Ok io.

(** kaps.py:110-124, [solve_linear], mode fwd. *)
Definition kaps1_solve_fwd (eps : R) (ex : exchange) (d_outputs d_residuals : omvec R) : res (omvec R) :=
  let h := x_step_size ex in let a := x_stage_factor ex in
  let factor := 1 / (eps + (1 + 2 * eps) * h * a) in
  let* rs := get "y_1_stage" d_residuals in
  let* r := get "y_1" d_residuals in
  let* d := sput "y_1_stage" (factor * (- rs + (1 + 2 * eps) * r)) d_outputs in
  sput "y_1" (factor * (- h * a * rs - eps * r)) d.

(** kaps.py:125-133, mode rev. *)
Definition kaps1_solve_rev (eps : R) (ex : exchange) (d_outputs d_residuals : omvec R) : res (omvec R) :=
  let h := x_step_size ex in let a := x_stage_factor ex in
  let factor := 1 / (eps + (1 + 2 * eps) * h * a) in
  let* os := get "y_1_stage" d_outputs in
  let* o := get "y_1" d_outputs in
  let* d := sput "y_1_stage" (factor * (- os - h * a * o)) d_residuals in
  sput "y_1" (factor * ((1 + 2 * eps) * os - eps * o)) d.

(** ** kaps.py, KapsComponent2 *)

(** kaps.py:152-165, [apply_nonlinear]. *)
Definition kaps2_apply_nonlinear (ex : exchange) (inputs outputs residuals : omvec R) : res (omvec R) :=
  let h := x_step_size ex in let a := x_stage_factor ex in
  let* old := get "y_2_old" inputs in
  let* acc := get "y_2_accumulated_stages" inputs in
  let* k := get "y_2_stage" outputs in
  let* y := get "y_2" outputs in
  let* r := sput "y_2" (old + h * acc + h * a * k - y) residuals in
  let* y1 := get "y_1" inputs in
  sput "y_2_stage" (y1 - y - y ^ 2 - k) r.

(** kaps.py:167-200, [solve_nonlinear] (a negative radicand gives nan in numpy
    and has no meaning here). *)
Definition kaps2_radicand (h a old acc y1 : R) : R :=
  4 * a ^ 2 * h ^ 2 * y1 + a ^ 2 * h ^ 2 + 4 * a * h ^ 2 * acc + 4 * a * h * old + 2 * a * h + 1.
Definition kaps2_solve_nonlinear (ex : exchange) (inputs outputs : omvec R) : res (omvec R) :=
  let h := x_step_size ex in let a := x_stage_factor ex in
  let* acc := get "y_2_accumulated_stages" inputs in
  let* old := get "y_2_old" inputs in
  let* y1 := get "y_1" inputs in
  let* o :=
    if negb (neqb a 0) then
      sput "y_2_stage"
        (- (h * acc + old + (a * h + 1) / (2 * a * h) - sqrt (kaps2_radicand h a old acc y1) / (2 * a * h)) / (a * h))
        outputs
    else sput "y_2_stage" (y1 - (old + h * acc) - (old + h * acc) ^ 2) outputs in
  let* k := get "y_2_stage" o in
  sput "y_2" (old + h * (acc + a * k)) o.

(** kaps.py:205-228, [apply_linear], mode fwd. *)
Definition kaps2_apply_fwd (ex : exchange) (outputs d_inputs d_outputs d_residuals : omvec R) : res (omvec R) :=
  let h := x_step_size ex in let a := x_stage_factor ex in
  let* d :=
    if mem "y_2" d_residuals then
      let* d := transfer siadd (fun x => x) "y_2_old" d_inputs "y_2" d_residuals in
      let* d := transfer siadd (fun x => h * x) "y_2_accumulated_stages" d_inputs "y_2" d in
      let* d := transfer siadd (fun x => h * a * x) "y_2_stage" d_outputs "y_2" d in
      transfer sisub (fun x => x) "y_2" d_outputs "y_2" d
    else Ok d_residuals in
  if mem "y_2_stage" d then
    let* y := get "y_2" outputs in
    let* d := transfer siadd (fun x => x) "y_1" d_inputs "y_2_stage" d in
    let* d := transfer sisub (fun x => (1 + 2 * y) * x) "y_2" d_outputs "y_2_stage" d in
    transfer sisub (fun x => x) "y_2_stage" d_outputs "y_2_stage" d
  else Ok d.

(** kaps.py:229-249, mode rev. *)
Definition kaps2_apply_rev (ex : exchange) (outputs d_inputs d_outputs d_residuals : omvec R)
    : res (omvec R * omvec R) :=
  let h := x_step_size ex in let a := x_stage_factor ex in
  let* io :=
    if mem "y_2" d_residuals then
      let* i := into siadd (fun x => x) "y_2" d_residuals "y_2_old" d_inputs in
      let* i := into siadd (fun x => h * x) "y_2" d_residuals "y_2_accumulated_stages" i in
      let* o := into siadd (fun x => h * a * x) "y_2" d_residuals "y_2_stage" d_outputs in
      let* o := into sisub (fun x => x) "y_2" d_residuals "y_2" o in
      Ok (i, o)
    else Ok (d_inputs, d_outputs) in
  if mem "y_2_stage" d_residuals then
    let* y := get "y_2" outputs in
    let* i := into siadd (fun x => x) "y_2_stage" d_residuals "y_1" (fst io) in
    let* o := into sisub (fun x => (1 + 2 * y) * x) "y_2_stage" d_residuals "y_2" (snd io) in
    let* o := into sisub (fun x => x) "y_2_stage" d_residuals "y_2_stage" o in
    Ok (i, o)
  else Ok io.

(** kaps.py:251-272, [solve_linear], mode fwd; [y_2] is the attribute stored by
    [linearize] (kaps.py:202-203). *)
Definition kaps2_solve_fwd (ex : exchange) (y_2 : R) (d_outputs d_residuals : omvec R) : res (omvec R) :=
  let h := x_step_size ex in let a := x_stage_factor ex in
  let* rs := get "y_2_stage" d_residuals in
  let* r := get "y_2" d_residuals in
  let* d := sput "y_2_stage" ((- rs + 2 * r * y_2 + r) / (2 * a * h * y_2 + a * h + 1)) d_outputs in
  sput "y_2" ((- rs * a * h - r) / (2 * a * h * y_2 + a * h + 1)) d.

(** kaps.py:274-299, mode rev. *)
Definition kaps2_solve_rev (ex : exchange) (y_2 : R) (d_outputs d_residuals : omvec R) : res (omvec R) :=
  let h := x_step_size ex in let a := x_stage_factor ex in
  let* o := get "y_2" d_outputs in
  let* os := get "y_2_stage" d_outputs in
  let* d := sput "y_2_stage" ((- a * h * o - os) / (2 * a * h * y_2 * a * h + 1)) d_residuals in
  sput "y_2" ((2 * os * y_2 + os - o) / (2 * a * h * y_2 * a * h + 1)) d.

(** kaps.py:336-339, [get_initial_values]; 341-360, [kaps_solution]
    ([initial_time] is not used). *)
Definition kaps_initial : R * R := (1, 1).
Definition kaps_solution (time : R) (initial_values : R * R) (initial_time : R) : R * R :=
  let '(y1, y2) := initial_values in
  (y2 * exp (- 2 * time) + (y1 - y2 ^ 2) * exp (- 2 * time),
   (y2 - y1 + y2 ^ 2) * exp (- time) + y1 * exp (- 2 * time) - y2 ^ 2 * exp (- 2 * time)).
