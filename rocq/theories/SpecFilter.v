(** Vocabulary for statements on the signal-processing properties of the
    catalogue controllers (Soederlind, "Digital filters in adaptive
    time-stepping") and on the state of nested controllers. *)
From Coq Require Import List Reals.
From Verif Require Import Base Ext M_Controller.
Import ListNotations.
Local Open Scope R_scope.

(** A call with current error [e] and step [h], past errors [e1], [e2] and
    past steps [h1], [h2]. *)
Definition history_args (e e1 e2 h h1 h2 : R) (rem : ext R) : call_args (ext R) :=
  {| error_measure := Fin e; delta_t := Fin h; remaining_time := rem;
     error_history := [Fin e1; Fin e2]; step_size_history := [Fin h1; Fin h2] |}.

(** Errors jumping between above and below the tolerance at constant steps. *)
Definition alternating (eps r h : R) (rem : ext R) : call_args (ext R) :=
  history_args (eps * r) (eps / r) (eps * r) h h h rem.
(** The same with growing swings. *)
Definition growing_alternation (eps r s h : R) (rem : ext R) : call_args (ext R) :=
  history_args (eps * (r * s * s)) (eps / (r * s)) (eps * r) h h h rem.
(** Errors at the tolerance while the step size changes by a constant factor. *)
Definition trend (eps rho h : R) (rem : ext R) : call_args (ext R) :=
  history_args eps eps eps h (h / rho) (h / rho / rho) rem.
(** Errors at the tolerance while that factor itself changes by a constant one. *)
Definition curved_trend (eps rho sigma h : R) (rem : ext R) : call_args (ext R) :=
  history_args eps eps eps h (h / (rho * sigma)) (h / (rho * sigma) / rho) rem.

(** Controllers with a filter of order 1 or more (last digit of the H names). *)
Inductive filtering : (R -> exponents (ext R)) -> Prop :=
| fl_211 : filtering (fun p => h_211 (Fin p))
| fl_0211 : filtering (fun p => h0_211 (Fin p))
| fl_pid : filtering (fun p => pid (Fin p))
| fl_312 : filtering (fun p => h_312 (Fin p))
| fl_0312 : filtering (fun p => h0_312 (Fin p))
| fl_312g va a b : filtering (fun p => h_312_general (Fin p) (Fin va) (Fin a) (Fin b))
| fl_ppid : filtering (fun p => ppid (Fin p))
| fl_321 : filtering (fun p => h_321 (Fin p))
| fl_321g va vb a : filtering (fun p => h_321_general (Fin p) (Fin va) (Fin vb) (Fin a)).
(** Order 2. *)
Inductive filtering2 : (R -> exponents (ext R)) -> Prop :=
| f2_pid : filtering2 (fun p => pid (Fin p))
| f2_312 : filtering2 (fun p => h_312 (Fin p))
| f2_0312 : filtering2 (fun p => h0_312 (Fin p))
| f2_312g va a b : filtering2 (fun p => h_312_general (Fin p) (Fin va) (Fin a) (Fin b)).
(** Controllers of adaptivity order 2 or more (middle digit). *)
Inductive predicting : (R -> exponents (ext R)) -> Prop :=
| pr_pc : predicting (fun p => pc (Fin p))
| pr_220 : predicting (fun p => h0_220 (Fin p))
| pr_ppid : predicting (fun p => ppid (Fin p))
| pr_321 : predicting (fun p => h_321 (Fin p))
| pr_0321 : predicting (fun p => h0_321 (Fin p))
| pr_321g va vb a : predicting (fun p => h_321_general (Fin p) (Fin va) (Fin vb) (Fin a))
| pr_330 : predicting (fun p => h0_330 (Fin p))
| pr_330g va vb vc : predicting (fun p => h_330_general (Fin p) (Fin va) (Fin vb) (Fin vc)).
(** Order 3. *)
Inductive predicting3 : (R -> exponents (ext R)) -> Prop :=
| p3_330 : predicting3 (fun p => h0_330 (Fin p))
| p3_330g va vb vc : predicting3 (fun p => h_330_general (Fin p) (Fin va) (Fin vb) (Fin vc)).

(** The controller object after a sequence of calls. *)
Definition after {T} {N : Num T} (cfg : config T) (c : controller T) (qs : list (call_args T)) : controller T :=
  fold_left (fun c q => fst (ctl_call cfg c q)) qs c.
(** The answers to a sequence of calls. *)
Fixpoint replies {T} {N : Num T} (cfg : config T) (c : controller T) (qs : list (call_args T)) : list (res (status T)) :=
  match qs with
  | [] => []
  | q :: qs' => snd (ctl_call cfg c q) :: replies cfg (fst (ctl_call cfg c q)) qs'
  end.
(** The answer of a controller with exponents [x] used on its own. *)
Definition alone {T} {N : Num T} (cfg : config T) (x : exponents T) (q : call_args T) : res (status T) :=
  snd (ctl_call cfg (mk_plain x) q).
(** A rejection with a smaller suggestion. *)
Definition shrinking {T} {N : Num T} (q : call_args T) (r : res (status T)) : Prop :=
  exists st, r = Ok st /\ acceptance st = false /\ nltb (step_size_suggestion st) (delta_t q) = true.
(** An accepting answer. *)
Definition accepted {T} (r : res (status T)) : Prop := exists st, r = Ok st /\ acceptance st = true.
