(** Property theorems about fixed-step runs in rounding arithmetic: C56. *)
From Coq Require Import String.
From Coq Require Import List Reals Lra Lia Bool Arith QArith SpecFloat.
From Verif Require Import Base M_Tableau M_State M_ODE M_Step M_Controller M_Measure M_Integrator
  SpecRun SpecRounding Float64 WitnessRun L_Rounding.
Import ListNotations.
Local Open Scope nat_scope.

(** ** C56 *)

(** In any arithmetic the number of steps is the smallest one for which the
    steps, added up one by one in that arithmetic, leave nothing of the final
    time. *)
Theorem C56_steps_in_any_arithmetic :
  forall (T : Type) (N : Num T) (C : Type) (op : options T C) tf i w w' out,
  o_adaptive op = false -> o_crit op = PredefinedFinalTime tf -> loops op ->
  compute op i w = (w', Ok out) ->
  exists n a l, length l = n /\ starts_at op i a /\ trajectory op a l /\
    log w' = log w ++ bracketed Compute (length (o_callbacks op Compute)) 1 a l /\
    time_final out = added n (time_initial i) (o_step op) /\
    nothing_left tf (added n (time_initial i) (o_step op)) = true /\
    (forall k, k < n -> nothing_left tf (added k (time_initial i) (o_step op)) = false).
Proof. exact (fun T N C op tf i w w' out Hf Hc HL H => @any_final_time T N C op tf Hf Hc i w w' out HL H). Qed.
Print Assumptions C56_steps_in_any_arithmetic.

(** Missing for the full statement: sums that are rounded. *)
Theorem C56_exact_sums_partial :
  forall (T : Type) (N : Num T) (C : Type) (op : options T C) tf (val : T -> R) n i w w' out,
  o_adaptive op = false -> o_crit op = PredefinedFinalTime tf -> loops op ->
  compute op i w = (w', Ok out) ->
  (forall k, k <= n -> val (added k (time_initial i) (o_step op)) = (val (time_initial i) + INR k * val (o_step op))%R) ->
  (forall k, k <= n -> nothing_left tf (added k (time_initial i) (o_step op)) = true <->
                       (val tf <= val (added k (time_initial i) (o_step op)))%R) ->
  (val tf = val (time_initial i) + INR n * val (o_step op))%R -> (0 < val (o_step op))%R ->
  val (time_final out) = val tf /\
  exists a l, length l = n /\ starts_at op i a /\ trajectory op a l /\
    log w' = log w ++ bracketed Compute (length (o_callbacks op Compute)) 1 a l.
Proof. exact (@exact_sums). Qed.
Print Assumptions C56_exact_sums_partial.

(** Runs with doubles: y' = t*y + p by the explicit Euler method from 0 to [tf]
    with step [h]. *)
Definition fop (h tf : Q) : options spec_float unit := {|
  o_bt := euler; o_ode := gode never never; o_ckpt := AllCheckpointer; o_adaptive := false;
  o_step := flit h; o_crit := PredefinedFinalTime (flit tf); o_inf := n0; o_meas := SimpleErrorMeasurer;
  o_tol := n1; o_ctl := halving n1; o_callbacks := fun _ => [quiet_cb]; retry_limit := 1; loop_limit := 30 |}.
Definition fin : inputs spec_float := gin (flit 0) (flit 1) (flit 1).

(** A quarter is a double; four steps reach 1. *)
Definition q4 : spec_float := S754_finite false 4503599627370496 (-54).
Lemma q4_sums k : k <= 4 -> value (added k (flit 0) q4) = (INR k / 4)%R /\
  (nothing_left (flit 1) (added k (flit 0) q4) = true <-> k = 4).
Proof.
  intros Hk; assert (E : added k (flit 0) q4 = nth k [S754_zero false; q4;
      S754_finite false 4503599627370496 (-53); S754_finite false 6755399441055744 (-53);
      S754_finite false 4503599627370496 (-52)] S754_nan)
    by (do 5 (destruct k as [|k]; [vm_compute; reflexivity|]); lia).
  split.
  - rewrite E; do 5 (destruct k as [|k]; [unfold value, q4, nth; simpl; lra|]); lia.
  - rewrite E; do 5 (destruct k as [|k]; [vm_compute; split; congruence|]); lia.
Qed.

Example C56_quarters_meet_hypotheses :
  exists w' out, compute (fop (1 # 4) 1) fin (setup (fop (1 # 4) 1) tt) = (w', Ok out) /\
  value (time_final out) = value (flit 1).
Proof.
  destruct (returns (compute (fop (1 # 4) 1) fin (setup (fop (1 # 4) 1) tt))) as (w' & out & H);
    [vm_compute; reflexivity|].
  exists w', out; split; [exact H|].
  assert (Eh : o_step (fop (1 # 4) 1) = q4) by (vm_compute; reflexivity).
  assert (V0 : value (flit 0) = 0%R) by reflexivity.
  assert (V1 : value (flit 1) = 1%R)
    by (replace (flit 1) with (S754_finite false 4503599627370496 (-52)) by (vm_compute; reflexivity);
        unfold value; simpl; lra).
  assert (V4 : value q4 = (1 / 4)%R) by (unfold value, q4; simpl; lra).
  refine (proj1 (C56_exact_sums_partial _ _ _ (fop (1 # 4) 1) (flit 1) value 4 fin _ w' out eq_refl eq_refl I H _ _ _ _));
    change (time_initial fin) with (flit 0); rewrite ?Eh.
  - intros k Hk; rewrite (proj1 (q4_sums k Hk)), V0, V4; lra.
  - intros k Hk; rewrite (proj2 (q4_sums k Hk)), (proj1 (q4_sums k Hk)), V1.
    split; [intros ->; simpl; lra|].
    do 5 (destruct k as [|k]; [simpl; intros; first [reflexivity|lra]|]); lia.
  - rewrite V0, V1, V4; simpl; lra.
  - rewrite V4; lra.
Qed.

(** Ten steps of 0.1 are to reach 1, but in doubles the sum is below 1: an
    eleventh step is made and the run ends at 1.0999999999999999. *)
Theorem C56_refuted :
  (inject_Z 10 * (1 # 10) == 1)%Q /\
  exists w' out, compute (fop (1 # 10) 1) fin (setup (fop (1 # 10) 1) tt) = (w', Ok out) /\
    (exists a l, length l = 11 /\ trajectory (fop (1 # 10) 1) a l /\ log w' = bracketed Compute 1 1 a l) /\
    nltb (flit (109 # 100)) (time_final out) = true.
Proof.
  split; [reflexivity|].
  destruct (returns (compute (fop (1 # 10) 1) fin (setup (fop (1 # 10) 1) tt))) as (w' & out & H);
    [vm_compute; reflexivity|].
  exists w', out; split; [exact H|].
  destruct (C56_steps_in_any_arithmetic _ _ _ (fop (1 # 10) 1) (flit 1) fin _ w' out eq_refl eq_refl I H)
    as (n & a & l & Hn & _ & Tr & Lg & Tf & P1 & P2).
  assert (n = 11) as ->.
  { destruct (Nat.lt_trichotomy n 11) as [Hl|[Hl|Hl]]; [|exact Hl|].
    - exfalso; do 11 (destruct n as [|n]; [vm_compute in P1; discriminate|]); lia.
    - specialize (P2 11 Hl); vm_compute in P2; discriminate. }
  split; [exists a, l; auto|].
  rewrite Tf; vm_compute; reflexivity.
Qed.
Print Assumptions C56_refuted.
