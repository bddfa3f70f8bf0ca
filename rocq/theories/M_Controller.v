(** Model of /repo/src/rkopenmdao/error_controller.py ("EC") and
    /repo/src/rkopenmdao/error_controllers.py ("ECS"). *)
From Coq Require Import List Bool QArith.
From Verif Require Import Base.
Import ListNotations.

Section Controller.
Context {T : Type} {N : Num T}.

(** EC:11-27, ErrorControllerStatus. *)
Record status : Type := { step_size_suggestion : T; acceptance : bool }.

(** EC:30-52, ErrorControllerConfig. *)
Record config : Type := {
  tol : T;
  lower_bound : T;
  upper_bound : T;
  safety_factor : T;
  max_iter : nat
}.

(** EC:86-107: the five exponents. *)
Record exponents : Type := { x_alpha : T; x_beta : T; x_gamma : T; x_a : T; x_b : T }.

(** Keyword arguments of one call (EC:113-121). *)
Record call_args : Type := {
  error_measure : T;
  delta_t : T;
  remaining_time : T;
  error_history : list T;
  step_size_history : list T
}.

(** EC:216-252, [_estimate_next_step_function]. *)
Definition estimate_next_step (cfg : config) (x : exponents) (q : call_args) : T :=
  let eh0 := nth 0 (error_history q) n0 in
  let eh1 := nth 1 (error_history q) n0 in
  let sh0 := nth 0 (step_size_history q) n0 in
  let sh1 := nth 1 (step_size_history q) n0 in
  let d := nmul (safety_factor cfg) (delta_t q) in
  let d := nmul d (npow (ndiv (tol cfg) (error_measure q)) (x_alpha x)) in
  let d := nmul d (npow (ndiv eh0 (tol cfg)) (x_beta x)) in
  let d := nmul d (npow (ndiv (tol cfg) eh1) (x_gamma x)) in
  if negb (neqb sh0 n0) then
    let d := nmul d (npow (ndiv (delta_t q) sh0) (x_a x)) in
    if negb (neqb sh1 n0) then nmul d (npow (ndiv sh0 sh1) (x_b x)) else d
  else d.

(** EC:191-197, the acceptance test of [_run]. *)
Definition run_success (cfg : config) (q : call_args) : bool :=
  nltb (nabs (nsub (delta_t q) (lower_bound cfg))) (nlit (1 # 10000000000))
  || nltb (nabs (nsub (delta_t q) (remaining_time q))) (nlit (1 # 10000000000))
  || nleb (error_measure q) (tol cfg).

(** EC:158-214, [ErrorController._run]. The warning of EC:207 is not modelled. *)
Definition base_run (cfg : config) (x : exponents) (q : call_args) : status :=
  let success := run_success cfg q in
  let d := if negb (neqb (error_measure q) n0)
           then estimate_next_step cfg x q else delta_t q in
  let d := pymax (lower_bound cfg) (pymin (upper_bound cfg) d) in
  let d := pymin (nadd (remaining_time q)
                       (nmul (nsub n1 (if success then n1 else n0)) (delta_t q))) d in
  {| step_size_suggestion := d; acceptance := success |}.

(** A controller object.  [Plain] is an ErrorController (EC:55-111),
    [Decorated] an ErrorControllerDecorator (EC:287-336) around
    [error_controller].  Fields: exponents, [_inner_most], and for decorators
    [_is_not_inner] and [_outer_counter].  The configuration of a decorator is
    the object it wraps (EC:333), so one configuration serves the whole chain
    and is kept beside it. *)
Inductive controller : Type :=
| Plain (x : exponents) (inner_most : bool)
| Decorated (x : exponents) (inner_most : bool) (is_not_inner : bool)
            (outer_counter : nat) (error_controller : controller).

(** EC:322, [error_controller._inner_most = False]. *)
Definition clear_inner_most (c : controller) : controller :=
  match c with
  | Plain x _ => Plain x false
  | Decorated x _ f n c' => Decorated x false f n c'
  end.

(** EC:86-111 and 310-336, construction of a base controller or a decorator. *)
Definition mk_plain (x : exponents) : controller := Plain x true.
Definition mk_decorated (x : exponents) (c : controller) : controller :=
  Decorated x true true 0 (clear_inner_most c).

(** EC:392-416, [ErrorControllerDecorator._run]: new [_is_not_inner], result. *)
Definition decorator_run (cfg : config) (x : exponents) (inner_most : bool)
    (q : call_args) : bool * res status :=
  let st := base_run cfg x q in
  if acceptance st then (true, Ok st)
  else if nltb (delta_t q) (step_size_suggestion st) && inner_most
       then (false, Err InnerErrorControllerError)
       else (false, Ok st).

(** EC:113-156 and 338-383, [__call__].  The object is updated also when the
    call raises. *)
Fixpoint ctl_call (cfg : config) (c : controller) (q : call_args)
    : controller * res status :=
  match c with
  | Plain x im =>
      let st := base_run cfg x q in
      if negb (acceptance st) && (nltb (delta_t q) (step_size_suggestion st) && im)
      then (c, Err OuterErrorControllerError)
      else (c, Ok st)
  | Decorated x im nin cnt c1 =>
      if nin then
        let '(c1', r) := ctl_call cfg c1 q in
        match r with
        | Ok st =>
            if acceptance st then (Decorated x im true 0 c1', Ok st)
            else
              let cnt' := S cnt in
              if nltb (step_size_suggestion st) (delta_t q)
                 && Nat.leb cnt' (max_iter cfg)
              then (Decorated x im true 0 c1', Ok st)
              else let '(f, r') := decorator_run cfg x im q in
                   (Decorated x im f cnt' c1', r')
        | Err OuterErrorControllerError =>
            let '(f, r') := decorator_run cfg x im q in
            (Decorated x im f cnt c1', r')
        | Err e => (Decorated x im nin cnt c1', Err e)
        end
      else
        let '(f, r') := decorator_run cfg x im q in
        (Decorated x im f cnt c1, r')
  end.

(** The catalogue, ECS:17-481: exponents as functions of the order [p].
    (Division by [p]: Python raises ZeroDivisionError for p = 0, TypeError for
    p = None; statements take p > 0.) *)
Definition lit (z : Z) : T := nlit (inject_Z z).
Definition zero_x (alpha : T) : exponents :=
  {| x_alpha := alpha; x_beta := lit 0; x_gamma := lit 0; x_a := lit 0; x_b := lit 0 |}.

(** ECS:17-29. *)
Definition pseudo (p : T) : exponents := zero_x (lit 0).
(** ECS:32-49. *)
Definition integral (p : T) : exponents := zero_x (ndiv (lit 1) (nadd (lit 1) p)).
(** ECS:52-63. *)
Definition h0_110 (p : T) : exponents := integral p.
(** ECS:66-89. *)
Definition h_211 (p : T) : exponents :=
  {| x_alpha := ndiv (lit 1) (nmul (lit 4) p); x_beta := ndiv (lit (-1)) (nmul (lit 4) p);
     x_gamma := lit 0; x_a := ndiv (lit (-1)) (lit 4); x_b := lit 0 |}.
(** ECS:92-115. *)
Definition h0_211 (p : T) : exponents :=
  {| x_alpha := ndiv (lit 1) (nmul (lit 2) p); x_beta := ndiv (lit (-1)) (nmul (lit 2) p);
     x_gamma := lit 0; x_a := ndiv (lit (-1)) (lit 2); x_b := lit 0 |}.
(** ECS:118-141. *)
Definition pc (p : T) : exponents :=
  {| x_alpha := ndiv (lit 2) p; x_beta := ndiv (lit 1) p;
     x_gamma := lit 0; x_a := lit 1; x_b := lit 0 |}.
(** ECS:144-155. *)
Definition h0_220 (p : T) : exponents := pc p.
(** ECS:158-181. *)
Definition pid (p : T) : exponents :=
  {| x_alpha := ndiv (lit 1) (nmul (lit 18) p); x_beta := ndiv (lit (-1)) (nmul (lit 9) p);
     x_gamma := ndiv (lit 1) (nmul (lit 18) p); x_a := lit 0; x_b := lit 0 |}.
(** ECS:184-213. *)
Definition h_312 (p : T) : exponents :=
  {| x_alpha := ndiv (lit 1) (nmul (lit 8) p); x_beta := ndiv (lit (-1)) (nmul (lit 4) p);
     x_gamma := ndiv (lit 1) (nmul (lit 8) p); x_a := ndiv (lit (-3)) (lit 8);
     x_b := ndiv (lit (-1)) (lit 8) |}.
(** ECS:216-245. *)
Definition h0_312 (p : T) : exponents :=
  {| x_alpha := ndiv (lit 1) (nmul (lit 4) p); x_beta := ndiv (lit (-1)) (nmul (lit 2) p);
     x_gamma := ndiv (lit 1) (nmul (lit 4) p); x_a := ndiv (lit (-3)) (lit 4);
     x_b := ndiv (lit (-1)) (lit 4) |}.
(** ECS:248-279. *)
Definition h_312_general (p var_alpha a b : T) : exponents :=
  {| x_alpha := ndiv var_alpha p; x_beta := ndiv (nmul (lit (-2)) var_alpha) p;
     x_gamma := ndiv var_alpha p; x_a := a; x_b := b |}.
(** ECS:282-308. *)
Definition ppid (p : T) : exponents :=
  {| x_alpha := ndiv (lit 6) (nmul (lit 20) p); x_beta := ndiv (lit (-1)) (nmul (lit 20) p);
     x_gamma := ndiv (lit (-5)) (nmul (lit 20) p); x_a := lit 1; x_b := lit 0 |}.
(** ECS:311-340. *)
Definition h_321 (p : T) : exponents :=
  {| x_alpha := ndiv (lit 1) (nmul (lit 3) p); x_beta := ndiv (lit (-1)) (nmul (lit 18) p);
     x_gamma := ndiv (lit (-5)) (nmul (lit 18) p); x_a := ndiv (lit 5) (lit 6);
     x_b := ndiv (lit 1) (lit 6) |}.
(** ECS:343-372. *)
Definition h0_321 (p : T) : exponents :=
  {| x_alpha := ndiv (lit 1) (nmul (lit 3) p); x_beta := ndiv (lit (-1)) (nmul (lit 2) p);
     x_gamma := ndiv (lit (-3)) (nmul (lit 4) p); x_a := ndiv (lit 1) (lit 4);
     x_b := ndiv (lit 3) (lit 4) |}.
(** ECS:375-407. *)
Definition h_321_general (p var_alpha var_beta a : T) : exponents :=
  {| x_alpha := ndiv var_alpha p; x_beta := ndiv var_beta p;
     x_gamma := ndiv (nopp (nadd var_alpha var_beta)) p;
     x_a := a; x_b := nsub (lit 1) a |}.
(** ECS:410-439. *)
Definition h0_330 (p : T) : exponents :=
  {| x_alpha := ndiv (lit 3) p; x_beta := ndiv (lit 3) p; x_gamma := ndiv (lit 1) p;
     x_a := lit 2; x_b := lit (-1) |}.
(** ECS:442-474. *)
Definition h_330_general (p var_alpha var_beta var_gamma : T) : exponents :=
  {| x_alpha := ndiv var_alpha p; x_beta := ndiv var_beta p; x_gamma := ndiv var_gamma p;
     x_a := lit 2; x_b := lit (-1) |}.

(** runge_kutta_integrator.py:393-403: the listed controllers are nested, the
    first one innermost in the call chain ("base"); an empty list leaves None. *)
Definition build_chain (xs : list exponents) : option controller :=
  fold_left (fun base x =>
      match base with
      | None => Some (mk_plain x)
      | Some c => Some (mk_decorated x c)
      end) xs None.

End Controller.
Arguments status T : clear implicits.
Arguments config T : clear implicits.
Arguments exponents T : clear implicits.
Arguments call_args T : clear implicits.
Arguments controller T : clear implicits.

(** ECS:19, configuration used by [pseudo] when none is given; EC:48-52, the
    general default. *)
Definition pseudo_config {T} {N : Num T} {I : NumInf T} : config T :=
  {| tol := ninf; lower_bound := nlit 0; upper_bound := ninf;
     safety_factor := nlit 1; max_iter := Z.to_nat 1000 |}.
Definition default_config {T} {N : Num T} {I : NumInf T} : config T :=
  {| tol := nlit (1 # 1000000); lower_bound := nlit 0; upper_bound := ninf;
     safety_factor := nlit (95 # 100); max_iter := 5 |}.
