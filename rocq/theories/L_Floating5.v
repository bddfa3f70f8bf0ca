(** Whole calls in arithmetic with rounding errors, and binary floating point. *)
From Coq Require Import ZArith QArith Qreals List Reals Lia Lra Psatz Bool Arith SpecFloat.
From Verif Require Import Base Ext Float64 M_Tableau M_State M_ODE M_Step M_Controller M_Measure M_Integrator M_Tableaux M_TableauxInit
  SpecRK SpecShape SpecRun SpecRevolve SpecTree SpecOrder SpecNodes SpecConvergence SpecSmooth SpecLocal SpecFloating
  L_Vec L_Step L_Tableau L_Order L_Kaps4 L_Iter L_Run L_Log L_RunProps L_Convergence L_Series L_OrderConv L_Local L_Local2 L_StepT L_Float L_Floating L_Floating2 L_Floating3 L_Floating4.
Import ListNotations.
Open Scope nat_scope.
Open Scope R_scope.

(** With fixed steps every step has the chosen size. *)
Lemma fixed_sizes {T} {N : Num T} {A} (op : options T A) l : forall st, result_sizes (o_ode op) -> o_adaptive op = false ->
  trajectory op st l -> wf_ti op st -> Forall (fun x => step_size (disc x) = suggestion st) l.
Proof.
  induction l as [|st1 l IH]; intros st Hsz Hfix Ht Hw; [constructor|].
  destruct Ht as [(c & c1 & I) Ht].
  pose proof (iterate_wf op Hsz _ _ _ _ _ _ Hw I) as Hw1.
  destruct (iterate_fixed op _ _ _ _ _ Hfix I) as (s' & E & _ & Es); subst st1.
  destruct (step_fieldsT (o_bt op) (o_ode op) _ _ _ _ Hsz (wt_shape _ _ Hw) E) as (_ & Z).
  constructor; [exact Z|]; exact (IH _ Hsz Hfix Ht Hw1).
Qed.
Lemma covered_same {T} (value : T -> R) (h : T) l : Forall (fun x => step_size (disc x) = h) l ->
  covered (sizes value l) = INR (length l) * value h.
Proof.
  induction 1 as [|x l E _ IH]; [cbn; lra|]; unfold sizes in *; cbn [map covered length]; rewrite IH, E, S_INR; ring.
Qed.

Lemma rounded_mono {T} (N : Num T) value regular u v big : u <= v -> rounded N value regular u big -> rounded N value regular v big.
Proof.
  intros Huv [Z A M]; constructor; [exact Z| |]; intros x y Hx Hy HB;
    [destruct (A x y Hx Hy HB) as [I J]|destruct (M x y Hx Hy HB) as [I J]]; (split; [exact I|]);
    (eapply Rle_trans; [exact J|]); (apply Rmult_le_compat_r; [|exact Huv]);
    [pose proof (Rabs_pos (value x + value y))|pose proof (Rabs_pos (value x * value y))]; lra.
Qed.
Lemma values_mono {T} {N : Num T} value regular dl dl' (bt : tableau T) s a b c : dl <= dl' ->
  holds_values value regular dl bt s a b c -> holds_values value regular dl' bt s a b c.
Proof.
  intros H [S A B C]; constructor; [exact S|intros i j Hi Hj; destruct (A i j Hi Hj)|intros i Hi; destruct (B i Hi)|intros i Hi; destruct (C i Hi)];
    (split; [assumption|lra]).
Qed.

Section Calls.
Variables (n p : nat) (f : R -> list R -> list R) (X : box) (L rho : R) (t0 t1 : R) (Y : R -> list R)
  (s : nat) (a : nat -> nat -> R) (b c : nat -> R) (eps nu : R).
Hypothesis Hp : (0 < p)%nat.
Hypothesis HL0 : 0 <= L.
Hypothesis HL : lipschitz_in n X L f.
Hypothesis Hrho : 0 < rho <= 1.
Hypothesis Ht : t0 <= t1.
Hypothesis HY : solution n f t0 t1 Y.
Hypothesis HT : forall t, t0 <= t <= t1 -> inside n X (3 * rho) t (Y t).
Hypothesis Hsm : smooth_close rho n p f t0 t1 Y.
Hypothesis Hord : order_conditions s a b p eps.
Hypothesis Hrow : row_conditions s a c nu.
Hypothesis Hnu : 0 <= nu.
Hypothesis Hup : forall i j, (i < j < s)%nat -> a i j = 0.

Lemma rounded_calls : exists K H, 1 <= K /\ 0 < H /\
  forall T (N : Num T) value regular u big, rounded N value regular u big -> 0 <= u -> K <= big ->
  forall A (op : options T A) x w i w' out d dl, tableau_wf (o_bt op) ->
  holds_values value regular dl (o_bt op) s a b c -> 0 <= dl -> u + dl <= 1 ->
  state_size (o_ode op) = n -> sized_ode (o_ode op) -> loops op -> reachable op x w ->
  inputs_sized (o_ode op) i -> Forall regular (initial i) -> regular (time_initial i) -> value (time_initial i) = t0 ->
  0 <= d -> within n d (map value (initial i)) (Y t0) ->
  compute op i w = (w', Ok out) ->
  exists st l, starts_at op i st /\ trajectory op st l /\ stops op st l /\
    log w' = (log w ++ bracketed Compute (length (o_callbacks op Compute)) 1 st l)%list /\
    (o_adaptive op = false -> Forall (fun x => step_size (disc x) = o_step op) l) /\
    let t := t0 + covered (map (fun x => value (step_size (disc x))) l) in
    forall hmin hmax tol,
    Forall (fun x => regular (step_size (disc x)) /\ hmin <= value (step_size (disc x)) <= hmax) l ->
    0 < hmin <= hmax -> hmax <= H -> t <= t1 -> 0 <= tol ->
    (forall k, (k < s)%nat ->
       nearly_solves_rounded value regular (o_ode op) n f (independent i) X rho hmax tol (entry (t_A (o_bt op)) k k)) ->
    K * (d + hmax ^ p + nu + eps + tol + (u + dl) / hmin) <= rho ->
    Forall regular (final out) /\ regular (time_final out) /\
    Rabs (value (time_final out) - t) <= K * ((u + dl) / hmin) /\
    within n (K * (d + hmax ^ p + nu + eps + tol + (u + dl) / hmin)) (map value (final out)) (Y t).
Proof.
  destruct (rounded_trajectory n p f X L rho Hp HL0 HL Hrho t0 t1 Y Ht HY HT Hsm s a b c eps nu Hord Hrow Hnu Hup) as (K & H & K0 & H0 & HK).
  exists K, H; split; [exact K0|]; split; [exact H0|].
  intros T N value regular u big Hr Hu HB A op x w i w' out d dl Hbt Hv Hdl Hud Hn Hs Lo HR Hi Rf Rt Et Hd W E.
  pose proof (reachable_wf op x w Hs HR) as Hw.
  destruct (compute_ok op i w w' out Lo E) as (l & c' & st' & Hc & Hl & -> & Ew).
  pose proof (wf_live _ _ (wf_prepare op i w Hi Hw)) as Ha.
  pose proof (chain_trajectory op _ _ _ _ _ _ Hc) as Htr.
  exists (live (prepare op i w)), l.
  split; [apply starts_prepare|].
  split; [exact Htr|]; split; [eapply chain_stops; eauto|].
  split; [rewrite Ew, <- run_events_bracketed; unfold after_run; destruct (keeps op); reflexivity|].
  destruct (starts_prepare op i w) as (A1 & A2 & A3 & A4).
  split; [intros Hfix; rewrite <- A4; apply (fixed_sizes op); auto; apply Hs|].
  rewrite (chain_last op _ _ _ _ _ _ Hc).
  intros t hmin hm tol HF Hm HH Q1 Htol Hsol Hsmall.
  apply (HK T N value regular (u + dl) big (rounded_mono N value regular u (u + dl) big ltac:(lra) Hr) ltac:(lra) HB A op (independent i) Hbt
    (values_mono value regular dl (u + dl) _ _ _ _ _ ltac:(lra) Hv) Hn Hs l (live (prepare op i w)) d tol hm hmin); auto;
    rewrite ?A1, ?A2, ?A3; auto.
Qed.

Lemma rounded_fixed : exists K H, 1 <= K /\ 0 < H /\
  forall T (N : Num T) value regular u big, rounded N value regular u big -> 0 <= u -> K <= big ->
  forall A (op : options T A) x w i w' out d dl M tol, tableau_wf (o_bt op) ->
  holds_values value regular dl (o_bt op) s a b c -> 0 <= dl -> u + dl <= 1 ->
  state_size (o_ode op) = n -> sized_ode (o_ode op) -> loops op -> reachable op x w ->
  o_adaptive op = false -> o_crit op = PredefinedNumberOfSteps M ->
  let h := value (o_step op) in
  regular (o_step op) -> 0 < h <= H -> t0 + INR M * h <= t1 ->
  inputs_sized (o_ode op) i -> Forall regular (initial i) -> regular (time_initial i) -> value (time_initial i) = t0 ->
  0 <= d -> within n d (map value (initial i)) (Y t0) -> 0 <= tol ->
  (forall k, (k < s)%nat ->
     nearly_solves_rounded value regular (o_ode op) n f (independent i) X rho h tol (entry (t_A (o_bt op)) k k)) ->
  K * (d + h ^ p + nu + eps + tol + (u + dl) / h) <= rho ->
  compute op i w = (w', Ok out) ->
  Forall regular (final out) /\ regular (time_final out) /\
  Rabs (value (time_final out) - (t0 + INR M * h)) <= K * ((u + dl) / h) /\
  within n (K * (d + h ^ p + nu + eps + tol + (u + dl) / h)) (map value (final out)) (Y (t0 + INR M * h)).
Proof.
  destruct rounded_calls as (K & H & K0 & H0 & HK).
  exists K, H; split; [exact K0|]; split; [exact H0|].
  intros T N value regular u big Hr Hu HB A op x w i w' out d dl M tol Hbt Hv Hdl Hud Hn Hs Lo HR Hfix Hcrit h Rh Hh Q1 Hi Rf Rt Et Hd W Htol Hsol Hsmall E.
  destruct (HK T N value regular u big Hr Hu HB A op x w i w' out d dl Hbt Hv Hdl Hud Hn Hs Lo HR Hi Rf Rt Et Hd W E)
    as (st & l & A1 & A2 & A3 & _ & A5 & A6); cbv zeta in A6.
  specialize (A5 Hfix).
  assert (Len : length l = M).
  { unfold stops, is_iteration_finished in A3; rewrite Hcrit in A3; destruct A3 as [S2 S1].
    apply Nat.leb_le in S2; apply Nat.le_antisymm; [|exact S2].
    destruct (Nat.le_gt_cases (length l) M) as [Q|Q]; [exact Q|].
    specialize (S1 M Q); apply Nat.leb_gt in S1; lia. }
  pose proof (covered_same value (o_step op) l A5) as Cv; unfold sizes in Cv; rewrite Len in Cv; rewrite Cv in A6.
  apply (A6 h h tol); auto; [|split|..]; try lra.
  rewrite Forall_forall in A5 |- *; intros y Hy; rewrite (A5 y Hy); fold h; split; [exact Rh|lra].
Qed.
End Calls.

(** *** Binary floating point *)
Lemma binary_rounded prec emax : (2 <= prec < emax)%Z ->
  rounded (binary prec emax) float_value (float_finite prec emax) (powerRZ 2 (- prec)) (powerRZ 2 (emax - 1)).
Proof.
  intros H; constructor; cbn.
  - auto.
  - intros x y Hx Hy HB; apply (float_add prec emax); auto; lia.
  - intros x y Hx Hy HB; apply (float_mul prec emax); auto; lia.
Qed.
Lemma binary64 : binary 53 1024 = F64.
Proof. reflexivity. Qed.

(** *** The shipped tableaux *)
Lemma rounded_shipped x e eh nu (bt : tableau R) n f X L rho t0 t1 Y :
  In (x, (e, eh)) precision -> In (x, nu) node_precision -> shipped_init x = Ok (bt, []) ->
  0 <= L -> lipschitz_in n X L f -> 0 < rho <= 1 -> t0 <= t1 -> solution n f t0 t1 Y ->
  (forall t, t0 <= t <= t1 -> inside n X (3 * rho) t (Y t)) -> smooth_close rho n (s_p x) f t0 t1 Y ->
  exists K H, 1 <= K /\ 0 < H /\
  forall prec emax, (2 <= prec < emax)%Z -> K <= powerRZ 2 (emax - 1) ->
  let N := binary prec emax in let value := float_value in let regular := float_finite prec emax in let u := powerRZ 2 (- prec) in
  forall A (op : options spec_float A) z w i w' out d dl M tol, tableau_wf (o_bt op) ->
  holds_values value regular dl (o_bt op) (t_stages bt) (entry (t_A bt)) (fun k => vnth k (t_b bt)) (fun k => vnth k (t_c bt)) ->
  0 <= dl -> u + dl <= 1 ->
  state_size (o_ode op) = n -> sized_ode (o_ode op) -> loops op -> reachable op z w ->
  o_adaptive op = false -> o_crit op = PredefinedNumberOfSteps M ->
  let h := value (o_step op) in
  regular (o_step op) -> 0 < h <= H -> t0 + INR M * h <= t1 ->
  inputs_sized (o_ode op) i -> Forall regular (initial i) -> regular (time_initial i) -> value (time_initial i) = t0 ->
  0 <= d -> within n d (map value (initial i)) (Y t0) -> 0 <= tol ->
  (forall k, (k < t_stages bt)%nat ->
     nearly_solves_rounded value regular (o_ode op) n f (independent i) X rho h tol (entry (t_A (o_bt op)) k k)) ->
  K * (d + h ^ s_p x + Q2R nu + Q2R e + tol + (u + dl) / h) <= rho ->
  compute op i w = (w', Ok out) ->
  Forall regular (final out) /\ regular (time_final out) /\
  Rabs (value (time_final out) - (t0 + INR M * h)) <= K * ((u + dl) / h) /\
  within n (K * (d + h ^ s_p x + Q2R nu + Q2R e + tol + (u + dl) / h)) (map value (final out)) (Y (t0 + INR M * h)).
Proof.
  intros Hx Hn Hi HL0 HL Hrho Ht HY HT Hsm.
  destruct (shipped_facts x e eh nu bt Hx Hn Hi) as (W & Im & Pp & Ho & Hr & Hnu).
  destruct (rounded_fixed n (s_p x) f X L rho t0 t1 Y (t_stages bt) (entry (t_A bt)) (fun k => vnth k (t_b bt)) (fun k => vnth k (t_c bt))
    (Q2R e) (Q2R nu) Pp HL0 HL Hrho Ht HY HT Hsm Ho Hr Hnu) as (K & H & K0 & H0 & HK).
  { intros i j Hij; apply (is_implicit_false_no_upper bt Im); lia. }
  exists K, H; split; [exact K0|]; split; [exact H0|].
  intros prec emax Hp HB N value regular u.
  apply (HK spec_float N value regular u _ (binary_rounded prec emax Hp)); [|exact HB].
  left; apply pw_pos.
Qed.
