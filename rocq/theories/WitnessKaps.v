(** Solvers for the stage problem of Kaps' problem: the stage equations come down
    to one quadratic equation, the linearized ones to two linear equations. *)
From Coq Require Import String.
From Coq Require Import List Bool Arith Reals Lia Lra.
From Verif Require Import Base Ext M_ODE M_Metadata M_Components SpecRK SpecTotal M_Packing M_Stage M_Kaps SpecKaps
  L_Vec L_Components L_Deriv L_Stage2 L_Local L_Kaps L_Kaps2 L_Kaps5 L_Kaps6 L_Kaps8.
Import ListNotations.
Local Open Scope R_scope.
Local Open Scope list_scope.

Section Solvers.
Variables eps dl : R.
Hypothesis He : 0 < eps.

Definition constant (q b1 b2 : R) : R := b2 + q * eps * b1 / pivot eps q.
Definition quadratic (q : R) : R := q * (1 - q / pivot eps q).
Definition radicand (q b1 b2 : R) : R := (1 + q) ^ 2 + 4 * quadratic q * constant q b1 b2.
Definition root (q b1 b2 : R) : R := 2 * constant q b1 b2 / ((1 + q) + sqrt (radicand q b1 b2)).
Definition first (q b1 y2 : R) : R := (eps * b1 + q * y2 ^ 2) / pivot eps q.

(** Solves the stage equations, except for an error [dl] in the update of y_1;
    raises where there is no solution and for large steps. *)
Definition direct_newton (ex : exchange) (xs g : list R) : res (list R) :=
  let h := x_step_size ex in let q := h * x_stage_factor ex in
  let b1 := vnth 0 xs + h * vnth 1 xs in let b2 := vnth 2 xs + h * vnth 3 xs in
  let y2 := root q b1 b2 in let y1 := first q b1 y2 in
  if Rle_dec 0 q then if Rle_dec q 1 then if Rle_dec 0 (radicand q b1 b2) then
    Ok [y1; (- (1 + 2 * eps) * y1 + y2 ^ 2) / eps + dl; y2; y1 - y2 - y2 ^ 2]
  else Err SolverError else Err SolverError else Err SolverError.

Definition direct_fwd (ex : exchange) (xs z s g : list R) : res (list R) :=
  let q := x_step_size ex * x_stage_factor ex in let y2 := vnth 2 z in let D := determinant eps q (2 * y2) in
  let al := - eps * vnth 0 s - q * vnth 1 s in let be := - vnth 2 s - q * vnth 3 s in
  let d0 := (al * (1 + q + q * (2 * y2)) + q * (2 * y2) * be) / D in
  let d2 := (pivot eps q * be + q * al) / D in
  if Req_EM_T D 0 then Err SolverError else
  Ok [d0; (2 * y2 * d2 - (1 + 2 * eps) * d0 - vnth 1 s) / eps; d2; d0 - (1 + 2 * y2) * d2 - vnth 3 s].
Definition direct_rev (ex : exchange) (xs z w g : list R) : res (list R) :=
  let q := x_step_size ex * x_stage_factor ex in let y2 := vnth 2 z in let D := determinant eps q (2 * y2) in
  let al := - eps * (vnth 0 w + vnth 3 w) + (1 + 2 * eps) * vnth 1 w in
  let be := - eps * vnth 2 w + eps * (1 + 2 * y2) * vnth 3 w - 2 * y2 * vnth 1 w in
  let s0 := (al * (1 + q + q * (2 * y2)) + q * be) / D in
  let s2 := (pivot eps q * be + q * (2 * y2) * al) / (eps * D) in
  if Req_EM_T D 0 then Err SolverError else
  Ok [s0; (q * s0 - vnth 1 w) / eps; s2; q * s2 - vnth 3 w].

Lemma pivot_pos q : 0 <= q -> eps <= pivot eps q /\ q * (1 + 2 * eps) <= pivot eps q.
Proof. unfold pivot. intros. nra. Qed.
Lemma share q : 0 <= q -> 0 <= q / pivot eps q <= 1 /\ 0 <= eps / pivot eps q <= 1 /\ 0 <= q * eps / pivot eps q <= 1 / 2.
Proof.
  intros H. destruct (pivot_pos q H) as [A B]. assert (P : 0 < / pivot eps q) by (apply Rinv_0_lt_compat; lra).
  assert (I : pivot eps q * / pivot eps q = 1) by (apply Rinv_r; lra).
  unfold Rdiv. repeat split; try (apply Rmult_le_pos; nra).
  - rewrite <- I. apply Rmult_le_compat_r; nra.
  - rewrite <- I. apply Rmult_le_compat_r; nra.
  - apply Rle_trans with (pivot eps q / 2 * / pivot eps q); [apply Rmult_le_compat_r; nra|]. unfold Rdiv. nra.
Qed.
Lemma root_solves q b1 b2 : 0 <= q -> 0 <= radicand q b1 b2 ->
  quadratic q * root q b1 b2 ^ 2 + (1 + q) * root q b1 b2 = constant q b1 b2.
Proof.
  intros H R0. set (s := sqrt (radicand q b1 b2)). assert (S0 : 0 <= s) by apply sqrt_pos.
  assert (SS : s * s = radicand q b1 b2) by (now apply sqrt_sqrt). unfold radicand in SS. unfold root. fold s.
  set (c := constant q b1 b2) in *. set (A := quadratic q) in *.
  apply (Rmult_eq_reg_r (((1 + q) + s) ^ 2)); [|apply pow_nonzero; lra].
  transitivity (A * (2 * c) ^ 2 + (1 + q) * (2 * c) * ((1 + q) + s)); [field; lra|].
  assert (E : 4 * A * c = s * s - (1 + q) ^ 2) by lra.
  transitivity (c * (4 * A * c) + (1 + q) * (2 * c) * (1 + q + s)); [ring|]. rewrite E. ring.
Qed.

Lemma direct_converged : converged eps ((1 + eps) * Rabs dl) direct_newton.
Proof.
  intros [h a] xs g z Lx E. apply len4 in Lx as (x0 & x1 & x2 & x3 & ->). unfold direct_newton in E. cbn [x_step_size x_stage_factor vnth nth] in E.
  set (q := h * a) in *. set (b1 := x0 + h * x1) in *. set (b2 := x2 + h * x3) in *.
  destruct (Rle_dec 0 q) as [Q0|]; [|discriminate]. destruct (Rle_dec q 1) as [Q1|]; [|discriminate]. destruct (Rle_dec 0 (radicand q b1 b2)) as [R0|]; [|discriminate].
  injection E as <-. rewrite residuals_eq. eexists; split; [reflexivity|]. fold q b1 b2.
  pose proof (root_solves q b1 b2 Q0 R0) as Rt. set (y2 := root q b1 b2) in *. set (y1 := first q b1 y2) in *.
  destruct (pivot_pos q Q0) as [P0 _].
  assert (Y1 : pivot eps q * y1 = eps * b1 + q * y2 ^ 2) by (unfold y1, first; field; lra).
  assert (K1 : b1 + q * ((- (1 + 2 * eps) * y1 + y2 ^ 2) / eps + dl) - y1 = q * dl).
  { apply (Rmult_eq_reg_l eps); [|lra]. transitivity (eps * b1 + q * y2 ^ 2 - pivot eps q * y1 + eps * (q * dl)); [unfold pivot; field; lra|rewrite Y1; ring]. }
  assert (K2 : b2 + q * (y1 - y2 - y2 ^ 2) - y2 = 0).
  { unfold constant, quadratic in Rt. unfold y1, first in *.
    transitivity ((b2 + q * eps * b1 / pivot eps q) - (q * (1 - q / pivot eps q) * y2 ^ 2 + (1 + q) * y2)); [field; lra|rewrite Rt; ring]. }
  pose proof (Rabs_pos dl) as Pd.
  assert (T0 : 0 <= (1 + eps) * Rabs dl) by nra.
  constructor; [|constructor; [|constructor; [|constructor; [|constructor]]]].
  - match goal with |- Rabs ?x <= _ => replace x with (q * dl) by (rewrite <- K1; ring) end. rewrite Rabs_mult, (Rabs_pos_eq q) by exact Q0. nra.
  - match goal with |- Rabs ?x <= _ => replace x with (- (eps * dl)) by (field; lra) end. rewrite Rabs_Ropp, Rabs_mult, (Rabs_pos_eq eps) by lra. nra.
  - match goal with |- Rabs ?x <= _ => replace x with 0 by (rewrite <- K2; ring) end. rewrite Rabs_R0. exact T0.
  - match goal with |- Rabs ?x <= _ => replace x with 0 by ring end. rewrite Rabs_R0. exact T0.
Qed.

Definition large : R := (52 + 54 * eps) / eps + 57 + Rabs dl.
Lemma direct_moderate H a : moderate H a large direct_newton.
Proof.
  intros h xs g z Hh Lx B1 B2 E. apply len4 in Lx as (x0 & x1 & x2 & x3 & ->). unfold direct_newton in E. cbn [x_step_size x_stage_factor vnth nth] in *.
  set (q := h * a) in *. set (b1 := x0 + h * x1) in *. set (b2 := x2 + h * x3) in *.
  destruct (Rle_dec 0 q) as [Q0|]; [|discriminate]. destruct (Rle_dec q 1) as [Q1|]; [|discriminate]. destruct (Rle_dec 0 (radicand q b1 b2)) as [R0|]; [|discriminate].
  injection E as <-. set (y2 := root q b1 b2) in *. set (y1 := first q b1 y2) in *.
  destruct (share q Q0) as (S1 & S2 & S3). destruct (pivot_pos q Q0) as [P0 _].
  assert (Cb : Rabs (constant q b1 b2) <= 5 / 2).
  { unfold constant. replace (q * eps * b1 / pivot eps q) with ((q * eps / pivot eps q) * b1) by (field; lra).
    assert (- (1 / 2 * (5 / 3)) <= q * eps / pivot eps q * b1 <= 1 / 2 * (5 / 3)) by (apply mult_bound; apply Rabs_bound; lra).
    apply Rabs_bound. lra. }
  assert (Y2 : Rabs y2 <= 5).
  { unfold y2, root. pose proof (sqrt_pos (radicand q b1 b2)) as Sp.
    unfold Rdiv. rewrite Rabs_mult. set (s := 1 + q + sqrt (radicand q b1 b2)) in *.
    assert (Hs : 1 <= s) by (unfold s; lra).
    assert (Is : Rabs (/ s) <= 1).
    { rewrite Rabs_pos_eq by (left; apply Rinv_0_lt_compat; lra). rewrite <- Rinv_1. apply Rinv_le_contravar; lra. }
    rewrite (Rabs_mult 2), (Rabs_pos_eq 2) by lra. pose proof (Rabs_pos (constant q b1 b2)). pose proof (Rabs_pos (/ s)). nra. }
  assert (Sq : - (5 * 5) <= y2 * y2 <= 5 * 5) by (now apply mult_bound).
  assert (Y1 : - (80 / 3) <= y1 <= 80 / 3).
  { unfold y1, first. replace ((eps * b1 + q * y2 ^ 2) / pivot eps q) with (eps / pivot eps q * b1 + q / pivot eps q * (y2 * y2)) by (field; lra).
    assert (- (1 * (5 / 3)) <= eps / pivot eps q * b1 <= 1 * (5 / 3)) by (apply mult_bound; apply Rabs_bound; lra).
    assert (- (1 * (5 * 5)) <= q / pivot eps q * (y2 * y2) <= 1 * (5 * 5)) by (apply mult_bound; apply Rabs_bound; lra). lra. }
  apply Rabs_le_inv in Y2. unfold large.
  assert (F0 : 0 <= (52 + 54 * eps) / eps) by (unfold Rdiv; apply Rmult_le_pos; [lra|left; now apply Rinv_0_lt_compat]).
  pose proof (Rabs_pos dl). cbn [vnth nth]. split.
  - eapply Rle_trans; [apply Rabs_triang|].
    assert (Rabs ((- (1 + 2 * eps) * y1 + y2 ^ 2) / eps) <= (52 + 54 * eps) / eps) as K; [|eapply Rle_trans; [apply Rplus_le_compat_r, K|lra]].
    apply div_bound; [exact He|]. apply Rabs_bound.
    assert (eps * y1 <= eps * (80 / 3)) by (apply Rmult_le_compat_l; lra). assert (eps * (- (80 / 3)) <= eps * y1) by (apply Rmult_le_compat_l; lra).
    replace (- (1 + 2 * eps) * y1 + y2 ^ 2) with (- y1 - 2 * (eps * y1) + y2 * y2) by ring. lra.
  - apply Rle_trans with 57; [|lra]. apply Rabs_bound. replace (y2 ^ 2) with (y2 * y2) by ring. lra.
Qed.

Lemma direct_follows : follows_branch direct_newton.
Proof.
  intros [h a] del xs g z D0 Cx _ E. set (q := h * a) in *.
  set (b1 := fun e => vnth 0 (xs e) + h * vnth 1 (xs e)). set (b2 := fun e => vnth 2 (xs e) + h * vnth 3 (xs e)).
  assert (K : forall e, Rabs e < del -> 0 <= q /\ 0 <= radicand q (b1 e) (b2 e) /\ vnth 2 (z e) = root q (b1 e) (b2 e)).
  { intros e B. destruct (E e B) as [_ F]. unfold direct_newton in F. cbn [x_step_size x_stage_factor] in F. fold q in F. fold (b1 e) (b2 e) in F.
    destruct (Rle_dec 0 q) as [Q0|]; [|discriminate]. destruct (Rle_dec q 1) as [Q1|]; [|discriminate]. destruct (Rle_dec 0 (radicand q (b1 e) (b2 e))) as [R0|]; [|discriminate].
    injection F as F. rewrite <- F. auto. }
  assert (C1 : continuity_pt b1 0).
  { apply (continuity_pt_plus (fun e => vnth 0 (xs e)) (fun e => h * vnth 1 (xs e))); [apply Cx|]. apply scaled_cont, Cx. }
  assert (C2 : continuity_pt b2 0).
  { apply (continuity_pt_plus (fun e => vnth 2 (xs e)) (fun e => h * vnth 3 (xs e))); [apply Cx|]. apply scaled_cont, Cx. }
  assert (CC : continuity_pt (fun e => constant q (b1 e) (b2 e)) 0).
  { unfold constant. apply (continuity_pt_plus b2 (fun e => q * eps * b1 e / pivot eps q)); [exact C2|].
    apply (cont_near (fun e => q * eps / pivot eps q * b1 e) _ 1); [lra|intros; unfold Rdiv; ring|]. now apply scaled_cont. }
  assert (CR : continuity_pt (fun e => radicand q (b1 e) (b2 e)) 0) by (unfold radicand; now apply shifted_cont, scaled_cont).
  destruct (K 0) as (Q0 & R0 & _); [rewrite Rabs_R0; exact D0|].
  apply (cont_near (fun e => root q (b1 e) (b2 e)) _ del D0).
  { intros e B. symmetry. apply K, B. }
  unfold root. apply (continuity_pt_div (fun e => 2 * constant q (b1 e) (b2 e)) (fun e => 1 + q + sqrt (radicand q (b1 e) (b2 e)))).
  - now apply scaled_cont.
  - apply shifted_cont. apply (continuity_pt_comp (fun e => radicand q (b1 e) (b2 e)) sqrt); [exact CR|]. now apply continuity_pt_sqrt.
  - pose proof (sqrt_pos (radicand q (b1 0) (b2 0))). lra.
Qed.

Lemma direct_group : solves_group eps direct_fwd direct_rev.
Proof.
  split.
  - intros [h a] xs z s g dz L1 L2 L3 E. lens4. unfold direct_fwd in E. cbn [x_step_size x_stage_factor vnth nth] in E. set (q := h * a) in *.
    destruct (Req_EM_T _ 0) as [|D]; [discriminate|]. injection E as <-. rewrite group_fwd_eq. fold q. f_equal.
    unfold determinant, pivot in *. f_equal; [|f_equal; [|f_equal; [|f_equal]]]; try (field; split; [exact D|lra]); try (field; exact D); try ring.
  - intros [h a] xs z s g dz L1 L2 L3 E. lens4. unfold direct_rev in E. cbn [x_step_size x_stage_factor vnth nth] in E. set (q := h * a) in *.
    destruct (Req_EM_T _ 0) as [|D]; [discriminate|]. injection E as <-. eexists. rewrite group_rev_eq. fold q. f_equal. f_equal.
    unfold determinant, pivot in *. f_equal; [|f_equal; [|f_equal; [|f_equal]]]; try (field; split; [exact D|lra]); try (field; exact D); try ring.
Qed.
Lemma direct_regular : solves_regular eps direct_fwd.
Proof.
  intros [h a] xs z s g dz dz' L1 L2 L3 L4 L5 E F.
  pose proof (proj1 direct_group _ _ _ _ _ _ L1 L2 L3 E) as G. unfold direct_fwd in E. cbn [x_step_size x_stage_factor] in E.
  destruct (Req_EM_T _ 0) as [|D]; [discriminate|]. clear E. lens4. cbn [vnth nth] in D. rewrite group_fwd_eq in F, G.
  injection F as F0 F1 F2 F3. injection G as G0 G1 G2 G3.
  match goal with |- [?e0; ?e1; ?e2; ?e3] = [?f0; ?f1; ?f2; ?f3] =>
    match type of D with determinant _ _ (2 * ?y) <> _ =>
      destruct (solve_linear eps (h * a) y He 0 0 (e0 - f0) (e1 - f1) (e2 - f2) (e3 - f3) D) as (T0 & T1 & T2 & T3); try lra end end.
  assert (Z0 : forall x : R, (eps * 0 * x + 0 * 0) = 0) by (intros; ring).
  rewrite !Rmult_0_r, Rmult_0_l, Rplus_0_l in T0. rewrite !Rmult_0_r, Rplus_0_l in T2. unfold Rdiv in T0, T2. rewrite Rmult_0_l in T0, T2.
  rewrite T0, T2 in T1, T3. rewrite !Rmult_0_r, Rminus_0_r in T1. unfold Rdiv in T1. rewrite Rmult_0_l in T1. rewrite Rmult_0_r, Rminus_0_r in T3.
  f_equal; [lra|]. f_equal; [lra|]. f_equal; [lra|]. f_equal. lra.
Qed.

(** Explicit stages never raise. *)
Lemma direct_answers x norm h a : h * a = 0 ->
  answers (openmdao_ode (kaps_problem eps direct_newton direct_fwd direct_rev) kaps_md (kaps_vectors x) norm) h a.
Proof.
  intros Z. assert (D : forall y, determinant eps 0 y <> 0) by (intros y; unfold determinant, pivot; nra).
  apply kaps_answers.
  - intros xs g _. unfold direct_newton. cbn [x_step_size x_stage_factor]. rewrite Z.
    destruct (Rle_dec 0 0) as [|N]; [|lra]. destruct (Rle_dec 0 1) as [|N]; [|lra]. destruct (Rle_dec 0 (radicand _ _ _)) as [|N].
    + do 4 eexists; reflexivity.
    + exfalso. apply N. unfold radicand, quadratic. nra.
  - intros xs z s g _ _ _. unfold direct_fwd. cbn [x_step_size x_stage_factor]. rewrite Z.
    destruct (Req_EM_T _ 0) as [N|]; [now apply D in N|]. do 4 eexists; reflexivity.
  - intros xs z s g _ _ _. unfold direct_rev. cbn [x_step_size x_stage_factor]. rewrite Z.
    destruct (Req_EM_T _ 0) as [N|]; [now apply D in N|]. do 4 eexists; reflexivity.
Qed.
End Solvers.
