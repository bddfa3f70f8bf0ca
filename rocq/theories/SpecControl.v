(** Vocabulary for statements about error control: order on extended reals,
    the textbook acceptance rule and step-size limits.  Independent of the
    model's boolean comparisons. *)
From Coq Require Import List Reals.
From Verif Require Import Base Ext M_Controller.
Import ListNotations.
Open Scope R_scope.

(** Order on extended reals; nan is not comparable to anything. *)
Definition xle (x y : ext R) : Prop :=
  match x, y with
  | NaN, _ | _, NaN => False
  | NInf, _ => True
  | _, PInf => True
  | Fin a, Fin b => a <= b
  | _, _ => False
  end.
Definition xlt (x y : ext R) : Prop := xle x y /\ ~ xle y x.
Definition is_num (x : ext R) : Prop := x <> NaN.

(** Two finite values closer than 1e-10. *)
Definition near (x y : ext R) : Prop :=
  match x, y with
  | Fin a, Fin b => Rabs (a - b) < / 10 ^ 10
  | _, _ => False
  end.

(** The acceptance rule in words of property C13. *)
Definition accept_rule (cfg : config (ext R)) (q : call_args (ext R)) : Prop :=
  xle (error_measure q) (tol cfg) \/
  near (delta_t q) (lower_bound cfg) \/
  near (delta_t q) (remaining_time q).

(** Largest suggestion allowed by the time left: the remaining time after an
    accepted step, plus the rejected step otherwise. *)
Definition time_limit (q : call_args (ext R)) (accepted : bool) : ext R :=
  match remaining_time q, delta_t q with
  | Fin r, Fin d => Fin (if accepted then r else r + d)
  | r, _ => r
  end.

(** [y] is [x] cut to the interval [lo, hi] and then to at most [lim]. *)
Definition is_cut (lo hi lim x y : ext R) : Prop :=
  xle y hi /\ xle y lim /\ (xle lo y \/ y = lim) /\
  (xle lo x -> xle x hi -> xle x lim -> y = x) /\
  (xle x lo -> xle lo lim -> y = lo) /\
  (xle hi x -> xle hi lim -> y = hi) /\
  (xle lim x -> xle lim hi -> y = lim).

(** The step-size formula of the controllers
    (Kennedy and Carpenter; docstring of error_controller.py:55-66) for
    positive arguments and a filled history. *)
Definition step_formula (kappa eps alpha beta gamma a b : R) (e e1 e2 h h1 h2 : R) : R :=
  kappa * h * Rpower (eps / e) alpha * Rpower (e1 / eps) beta * Rpower (eps / e2) gamma
  * Rpower (h / h1) a * Rpower (h1 / h2) b.

(** Arguments of a controller call with finite entries. *)
Definition fin_args (e h rem e1 e2 h1 h2 : R) : call_args (ext R) :=
  {| error_measure := Fin e; delta_t := Fin h; remaining_time := Fin rem;
     error_history := [Fin e1; Fin e2]; step_size_history := [Fin h1; Fin h2] |}.

(** The outermost controller of a chain, as built by the integrator. *)
Definition outermost (c : controller (ext R)) : Prop :=
  match c with
  | Plain _ im => im = true
  | Decorated _ im _ _ _ => im = true
  end.

(** The answers of a controller object to a sequence of calls. *)
Fixpoint answers (cfg : config (ext R)) (c : controller (ext R)) (qs : list (call_args (ext R)))
    : list (res (status (ext R))) :=
  match qs with
  | [] => []
  | q :: qs' => let '(c', r) := ctl_call cfg c q in r :: answers cfg c' qs'
  end.

(** [qs] are consecutive trials of one step, all rejected: each answer is
    "rejected", and the next trial uses the suggested step size. *)
Fixpoint rejected_trials (qs : list (call_args (ext R))) (rs : list (res (status (ext R)))) : Prop :=
  match qs, rs with
  | [], [] => True
  | q :: qs', Ok st :: rs' =>
      acceptance st = false /\
      (match qs' with [] => True | q' :: _ => delta_t q' = step_size_suggestion st end) /\
      rejected_trials qs' rs'
  | _, _ => False
  end.

(** The named controllers of the catalogue with fixed coefficients, for order [p]. *)
Definition catalogue (p : ext R) : list (exponents (ext R)) :=
  [pseudo p; integral p; h0_110 p; h_211 p; h0_211 p; pc p; h0_220 p; pid p; h_312 p;
   h0_312 p; ppid p; h_321 p; h0_321 p; h0_330 p].

(** A call with finite positive error, error history and step size; the step
    history may still be empty (zeros). *)
Record positive_args (q : call_args (ext R)) (e h e1 e2 h1 h2 : R) : Prop := {
  pa_err : error_measure q = Fin e; pa_e : 0 < e;
  pa_step : delta_t q = Fin h; pa_h : 0 < h;
  pa_ehist : error_history q = [Fin e1; Fin e2]; pa_e1 : 0 < e1; pa_e2 : 0 < e2;
  pa_shist : step_size_history q = [Fin h1; Fin h2]; pa_h1 : 0 <= h1; pa_h2 : 0 <= h2;
  pa_rem : remaining_time q <> NaN; pa_rem' : remaining_time q <> NInf
}.

(** Replacing the error measure in a call. *)
Definition with_error (e : R) (q : call_args (ext R)) : call_args (ext R) :=
  {| error_measure := Fin e; delta_t := delta_t q; remaining_time := remaining_time q;
     error_history := error_history q; step_size_history := step_size_history q |}.

(** Usable settings: ordered bounds, positive tolerance and safety factor. *)
Record sane (cfg : config (ext R)) (eps kappa : R) : Prop := {
  sane_tol : tol cfg = Fin eps; sane_eps : 0 < eps;
  sane_safety : safety_factor cfg = Fin kappa; sane_kappa : 0 < kappa;
  sane_bounds : xle (lower_bound cfg) (upper_bound cfg)
}.

(** A call in which current and past errors are exactly [C] times the [q]-th
    power of the respective step sizes. *)
Definition power_law_args (C q h h1 h2 : R) (rem : ext R) : call_args (ext R) :=
  {| error_measure := Fin (C * Rpower h q); delta_t := Fin h; remaining_time := rem;
     error_history := [Fin (C * Rpower h1 q); Fin (C * Rpower h2 q)];
     step_size_history := [Fin h1; Fin h2] |}.

(** The H0 controllers whose coefficients meet the dead-beat conditions, and
    the error exponent for which they do. *)
Inductive deadbeat : (R -> exponents (ext R)) -> (R -> R) -> Prop :=
| db_110 : deadbeat (fun p => h0_110 (Fin p)) (fun p => p + 1)
| db_211 : deadbeat (fun p => h0_211 (Fin p)) (fun p => p)
| db_220 : deadbeat (fun p => h0_220 (Fin p)) (fun p => p)
| db_312 : deadbeat (fun p => h0_312 (Fin p)) (fun p => p)
| db_330 : deadbeat (fun p => h0_330 (Fin p)) (fun p => p).

