(** Reverse products, and the shipped tableaux. *)
From Coq Require Import List Reals Lia Lra Bool Arith QArith Qreals.
From Verif Require Import Base Ext M_Tableau M_State M_ODE M_Step M_Controller M_Measure M_Integrator M_Tableaux M_TableauxInit
  SpecRK SpecDeriv SpecShape SpecRun SpecRevolve SpecTree SpecOrder SpecNodes SpecConvergence SpecSmooth SpecLocal SpecSensitivity
  L_Vec L_Convergence L_RunProps L_WholeR L_Order L_Rows L_OrderConv L_RunOrder L_Local3 L_Component2 L_Kaps4 L_Sensitivity2.
Import ListNotations.
Open Scope nat_scope.
Open Scope R_scope.
Local Open Scope list_scope.

Lemma dot_near n u x y r : length u = n -> length x = n -> length y = n -> within n r x y ->
  Rabs (dot u x - dot u y) <= r * rsum n (fun m => Rabs (vnth m u)).
Proof.
  intros Lu Lx Ly W. rewrite (dot_rsum n u x), (dot_rsum n u y) by assumption.
  replace (rsum n (fun m => vnth m u * vnth m x) - rsum n (fun m => vnth m u * vnth m y))
    with (rsum n (fun m => vnth m u * (vnth m x - vnth m y))).
  - eapply Rle_trans; [apply rsum_abs|].
    replace (r * rsum n (fun m => Rabs (vnth m u))) with (rsum n (fun m => Rabs (vnth m u) * r)).
    + apply rsum_le. intros m Hm. rewrite Rabs_mult. apply Rmult_le_compat_l; [apply Rabs_pos|auto].
    + clear. induction n as [|n IH]; cbn [rsum]; [ring|rewrite IH; ring].
  - clear. induction n as [|n IH]; cbn [rsum]; [ring|rewrite IH; ring].
Qed.

Section Order.
Variables (bt : tableau R) (n : nat) (f : R -> list R -> list R) (g : R -> list R -> list R -> list R) (X : box) (p : nat)
  (eps nu L rho t0 t1 : R) (xi : list R) (dt : R) (dxi : list R) (Y D : R -> list R).
Hypothesis Hbt : tableau_wf bt.
Hypothesis Himp : is_implicit bt = false.
Hypothesis Hp : (0 < p)%nat.
Hypothesis Hord : order_conditions (t_stages bt) (entry (t_A bt)) (weights bt) p eps.
Hypothesis Hnu : 0 <= nu.
Hypothesis Hrow : row_conditions (t_stages bt) (entry (t_A bt)) (nodes bt) nu.
Hypothesis HL0 : 0 <= L.
Hypothesis HL : lipschitz_in (n + n) X L (paired n f g).
Hypothesis Hrho : 0 < rho <= 1.
Hypothesis Ht : t0 <= t1.
Hypothesis HlY : forall t, length (Y t) = n.
Hypothesis HY : solution (n + n) (paired n f g) t0 t1 (fun t => Y t ++ D t).
Hypothesis HT : forall t, t0 <= t <= t1 -> inside (n + n) X (3 * rho) t (Y t ++ D t).
Hypothesis Hsm : smooth_close rho (n + n) p (paired n f g) t0 t1 (fun t => Y t ++ D t).

Lemma sensitivity_reverse : t0 < t1 -> exists K H, 1 <= K /\ 0 < H /\
  forall C (op : options R C) c1 c2 h1 h2 i d u w1 dout w2 out w3 gr N tol,
  o_bt op = bt -> state_size (o_ode op) = n -> sized_ode (o_ode op) ->
  ode_transposed (o_ode op) -> ignores_stage_state_weights (o_ode op) -> o_ckpt op = AllCheckpointer -> o_adaptive op = false ->
  (0 < N)%nat -> o_crit op = PredefinedNumberOfSteps N -> o_step op = (t1 - t0) / INR N -> o_step op <= H ->
  Forall (call_sized (o_ode op)) h1 -> Forall (call_sized (o_ode op)) h2 ->
  ctl (run_calls op h1 (setup op c1)) = ctl (run_calls op h2 (setup op c2)) ->
  inputs_sized (o_ode op) i -> independent i = xi -> time_initial i = t0 -> initial i = Y t0 ->
  inputs_sized (o_ode op) d -> independent d = dxi -> time_initial d = dt -> initial d = D t0 ->
  outputs_sized (o_ode op) u -> 0 <= tol ->
  (forall k, (k < t_stages bt)%nat -> nearly_differentiates (o_ode op) n f g xi dt dxi X rho (o_step op) tol (entry (t_A bt) k k)) ->
  K * (o_step op ^ p + nu + eps + tol) <= rho ->
  compute_jacvec_product_fwd op i d (run_calls op h1 (setup op c1)) = (w1, Ok dout) ->
  compute op i (run_calls op h2 (setup op c2)) = (w2, Ok out) ->
  compute_jacvec_product_rev op i u w2 = (w3, Ok gr) ->
  Rabs (dot_inputs gr d - (time_final u * dt + dot (final u) (D t1)))
    <= K * (o_step op ^ p + nu + eps + tol) * rsum n (fun m => Rabs (vnth m (final u))).
Proof.
  intros H01. destruct (sensitivity_fixed bt n f g X p eps nu L rho t0 t1 xi dt dxi Y D Hbt Himp Hp Hord Hnu Hrow HL0 HL Hrho Ht HlY HY HT Hsm H01)
    as (K & H & K0 & H0 & HK). exists K, H. split; [exact K0|]. split; [exact H0|].
  intros C op c1 c2 h1 h2 i d u w1 dout w2 out w3 gr N tol Eb En Hs Htr Hig Hck Had HN Hcr Hst HH F1 F2 Ec Hi Ei Et E0 Hd Ed Etd Ed0 Hu Htol Hf Hsmall EF EC ER.
  assert (R1 : reachable op c1 (run_calls op h1 (setup op c1))) by (exists h1; auto).
  destruct (HK C op c1 _ i d w1 dout N tol Eb En Hs Had HN Hcr Hst HH R1 Hi Ei Et E0 Hd Ed Etd Ed0 Htol Hf Hsmall EF) as [T1 W].
  pose proof (transposed_after_compute op ltac:(now rewrite Eb) (proj1 Hs) (proj1 (proj2 Hs)) (proj2 (proj2 Hs))
    c1 c2 h1 h2 i d u w1 dout w2 out w3 gr Htr Hig Hck F1 F2 Hi Hd Hu Ec EF EC ER) as Q.
  rewrite <- Q. unfold dot_outputs. rewrite T1.
  replace (time_final u * dt + dot (final u) (final dout) - (time_final u * dt + dot (final u) (D t1))) with (dot (final u) (final dout) - dot (final u) (D t1)) by ring.
  assert (So : outputs_sized (o_ode op) dout).
  { pose proof (reachable_wf op c1 _ Hs R1) as Hw. exact (fwd_sized op Hs i d _ w1 dout Hw Hi Hd EF). }
  apply dot_near; auto.
  - rewrite <- En. exact Hu.
  - rewrite <- En. exact So.
  - pose proof (proj1 HY t1) as LL. cbv beta in LL. rewrite app_length, HlY in LL. lia.
Qed.
End Order.

(** The shipped tableaux. *)
Lemma shipped_sensitivity x e eh nu (bt : tableau R) n f g X L rho t0 t1 xi dt dxi (Y D : R -> list R) :
  In (x, (e, eh)) precision -> In (x, nu) node_precision -> shipped_init x = Ok (bt, []) ->
  0 <= L -> lipschitz_in (n + n) X L (paired n f g) -> 0 < rho <= 1 -> t0 < t1 ->
  (forall t, length (Y t) = n) -> solution (n + n) (paired n f g) t0 t1 (fun t => Y t ++ D t) ->
  (forall t, t0 <= t <= t1 -> inside (n + n) X (3 * rho) t (Y t ++ D t)) ->
  smooth_close rho (n + n) (s_p x) (paired n f g) t0 t1 (fun t => Y t ++ D t) ->
  exists K H, 1 <= K /\ 0 < H /\
  forall C (op : options R C) c w i d w' out N tol, o_bt op = bt -> state_size (o_ode op) = n -> sized_ode (o_ode op) ->
  o_adaptive op = false ->
  (0 < N)%nat -> o_crit op = PredefinedNumberOfSteps N -> o_step op = (t1 - t0) / INR N -> o_step op <= H ->
  reachable op c w ->
  inputs_sized (o_ode op) i -> independent i = xi -> time_initial i = t0 -> initial i = Y t0 ->
  inputs_sized (o_ode op) d -> independent d = dxi -> time_initial d = dt -> initial d = D t0 ->
  0 <= tol ->
  (forall k, (k < t_stages bt)%nat -> nearly_differentiates (o_ode op) n f g xi dt dxi X rho (o_step op) tol (entry (t_A bt) k k)) ->
  K * (o_step op ^ s_p x + Q2R nu + Q2R e + tol) <= rho ->
  compute_jacvec_product_fwd op i d w = (w', Ok out) ->
  time_final out = dt /\ within n (K * (o_step op ^ s_p x + Q2R nu + Q2R e + tol)) (final out) (D t1).
Proof.
  intros Hx Hn Hi HL0 HL Hr Ht HlY HY HT Hsm. destruct (shipped_facts x e eh nu bt Hx Hn Hi) as (W & I & P & O & R' & Nu).
  apply (sensitivity_fixed bt n f g X (s_p x) (Q2R e) (Q2R nu) L rho t0 t1 xi dt dxi Y D); auto. lra.
Qed.
