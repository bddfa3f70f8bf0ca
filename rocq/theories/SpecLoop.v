(** Notions for the interplay of controller and error: step sizes when the error
    of every step is a fixed multiple of a power of its step size. *)
From Coq Require Import List Reals QArith Qreals.
From Verif Require Import Base Ext M_State M_Controller M_Measure M_Integrator SpecControl SpecAdaptive.
Import ListNotations.
Local Open Scope R_scope.

(** Successive step sizes [hs] answered by a controller, each call made with the
    step size answered last and all calls accepted; before the first call, the
    step sizes were [h], [h1], [h2]. *)
Inductive closed_loop (cfg : config (ext R)) (C q : R) :
    controller (ext R) -> R -> R -> R -> list R -> Prop :=
| cl_nil c h h1 h2 : closed_loop cfg C q c h h1 h2 []
| cl_step c c' h h1 h2 st h' hs :
    ctl_call cfg c (power_law_args C q h h1 h2 PInf) = (c', Ok st) ->
    acceptance st = true -> step_size_suggestion st = Fin h' ->
    closed_loop cfg C q c' h' h h1 hs -> closed_loop cfg C q c h h1 h2 (h' :: hs).

(** No bounds on the step size. *)
Definition unlimited (cfg : config (ext R)) : Prop :=
  xle (lower_bound cfg) (Fin 0) /\ upper_bound cfg = PInf.

(** The step size whose error [C h^q] is the tolerance, but for a power of the
    safety factor. *)
Definition balance (C q eps kappa s : R) : R := Rpower (eps * Rpower kappa (/ s) / C) (/ q).
(** Relative distance from it, on the logarithmic scale. *)
Definition away (hb h : R) : R := Rabs (ln (h / hb)).

(** Controllers of order [p] for errors with exponent [r p]: the weight [w / p]
    of a constant error, and after how many steps deviations have halved.  The
    ratio is 1 if errors behave like h^p and (p + 1) / p, p = 1, ..., 4, if they
    behave like h^(p + 1). *)
Definition settling : list ((R -> exponents (ext R)) * (Q * list (Q * nat))) := [
  (fun p => h_211 (Fin p), (1 # 2, [(1, 3%nat); (2, 3%nat); (3 # 2, 3%nat); (4 # 3, 3%nat); (5 # 4, 3%nat)]));
  (fun p => h0_211 (Fin p), (1, [(1, 3%nat); (2, 4%nat); (3 # 2, 3%nat); (4 # 3, 3%nat); (5 # 4, 3%nat)]));
  (fun p => pc (Fin p), (1, [(1, 3%nat); (5 # 4, 5%nat)]));
  (fun p => h0_220 (Fin p), (1, [(1, 3%nat); (5 # 4, 5%nat)]));
  (fun p => pid (Fin p), (2 # 9, [(1, 7%nat); (2, 5%nat); (3 # 2, 6%nat); (4 # 3, 6%nat); (5 # 4, 6%nat)]));
  (fun p => h_312 (Fin p), (1 # 2, [(1, 3%nat); (2, 4%nat); (3 # 2, 4%nat); (4 # 3, 4%nat); (5 # 4, 4%nat)]));
  (fun p => h0_312 (Fin p), (1, [(1, 3%nat); (2, 5%nat); (3 # 2, 3%nat); (4 # 3, 3%nat); (5 # 4, 3%nat)]));
  (fun p => ppid (Fin p), (1 # 10, [(1, 11%nat); (2, 10%nat); (3 # 2, 11%nat); (4 # 3, 9%nat); (5 # 4, 9%nat)]));
  (fun p => h_321 (Fin p), (1 # 9, [(1, 11%nat); (2, 5%nat); (3 # 2, 8%nat); (4 # 3, 9%nat); (5 # 4, 9%nat)]));
  (fun p => h0_321 (Fin p), (1 # 12, [(1, 10%nat); (2, 14%nat); (3 # 2, 10%nat); (4 # 3, 10%nat); (5 # 4, 10%nat)]));
  (fun p => h0_330 (Fin p), (1, [(1, 3%nat)]))]%Q.

(** The controller of order [p] settles within [k] steps when errors have the
    exponent [q]; [s] is the weight of a constant error. *)
Definition settles (ctl : R -> exponents (ext R)) (p q s : R) (k : nat) : Prop :=
  0 < p /\
  ((exists w rows r, In (ctl, (w, rows)) settling /\ In (r, k) rows /\ q = Q2R r * p /\ s = Q2R w / p) \/
   ((ctl = (fun p => integral (Fin p)) \/ ctl = (fun p => h0_110 (Fin p))) /\ q = p + 1 /\ s = / (p + 1) /\ k = 3%nat)).

(** Controllers that do not settle when errors behave like h^(p + 1). *)
Definition swinging : list ((R -> exponents (ext R)) * list R) := [
  (fun p => pc (Fin p), [1; 2]);
  (fun p => h0_220 (Fin p), [1; 2]);
  (fun p => h0_330 (Fin p), [1; 2; 3; 4])].

(** Steps of the integrator along [states], each accepted in its first trial and
    with error measure [C h^q]. *)
Inductive at_once (op : options (ext R) (controller (ext R))) (C q : R) :
    controller (ext R) -> tistate (ext R) -> list (tistate (ext R)) -> Prop :=
| ao_nil c st : at_once op C q c st []
| ao_step c st c' st' l :
    (forall tmp em, trial op st tmp em -> exists h, suggestion st = Fin h /\ em = Fin (C * Rpower h q)) ->
    iterate_on_step op 1 c st = (c', st', Ok tt) -> at_once op C q c' st' l -> at_once op C q c st (st' :: l).

(** [st] remembers the two step sizes before the one it suggests, and their
    errors. *)
Definition remembers (st : tistate (ext R)) (C q h h1 h2 : R) : Prop :=
  suggestion st = Fin h /\ step_hist st = [Fin h1; Fin h2] /\
  err_hist st = [Fin (C * Rpower h1 q); Fin (C * Rpower h2 q)].

(** Error control with configuration [cfg] and no prescribed final time. *)
Record open_ended (op : options (ext R) (controller (ext R))) (cfg : config (ext R)) : Prop := {
  oe_ctl : o_ctl op = ctl_call cfg;
  oe_adaptive : o_adaptive op = true;
  oe_crit : exists n, o_crit op = PredefinedNumberOfSteps n;
  oe_inf : o_inf op = PInf
}.
