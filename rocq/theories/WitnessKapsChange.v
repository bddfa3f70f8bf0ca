(** Kaps' problem with the direct solvers, changed in the direction of time. *)
From Coq Require Import String.
From Coq Require Import List Bool Arith Reals Lia Lra.
From Verif Require Import Base Ext M_ODE M_Metadata M_Components SpecRK SpecConvergence M_Packing M_Stage M_Kaps SpecKaps SpecKapsChange
  L_Vec L_Components L_Deriv L_Stage2 L_Local L_Kaps L_Kaps2 L_Kaps5 L_Kaps6 WitnessKaps.
Import ListNotations.
Local Open Scope R_scope.
Local Open Scope list_scope.

Definition shift_change (t : R) : list R := [- 2 * exp (- 2 * t); - exp (- t)].
Lemma shift_solution eps t0 t1 : 0 < eps -> solution 2 (fun t => kaps_change eps t (kaps_exact t)) t0 t1 shift_change.
Proof.
  intros He. split; [reflexivity|]. intros t m _ Hm.
  assert (E : exp (- t) * exp (- t) = exp (- 2 * t)) by (rewrite <- exp_plus; f_equal; ring).
  apply two in Hm as [-> | ->]; cbn [shift_change kaps_change kaps_exact vnth nth].
  - apply (derivable_pt_lim_value _ _ (- 2 * (exp (- 2 * t) * - 2))).
    + apply (derivable_pt_lim_scal (fun u => exp (- 2 * u))).
      apply (derivable_pt_lim_comp (fun u => - 2 * u) exp); [|apply derivable_pt_lim_exp].
      apply (derivable_pt_lim_value _ _ (- 2 * 1)); [|ring]. apply (derivable_pt_lim_scal (fun u => u)), derivable_pt_lim_id.
    + replace (2 * exp (- t) * - exp (- t)) with (- 2 * (exp (- t) * exp (- t))) by ring. rewrite E. field. lra.
  - apply (derivable_pt_lim_value _ _ (- (exp (- t) * - (1)))).
    + apply (derivable_pt_lim_opp (fun u => exp (- u))).
      apply (derivable_pt_lim_comp Ropp exp); [|apply derivable_pt_lim_exp]. apply derivable_pt_lim_opp, derivable_pt_lim_id.
    + replace (2 * exp (- t) * - exp (- t)) with (- 2 * (exp (- t) * exp (- t))) by ring. rewrite E. ring.
Qed.
Lemma shift_0 : shift_change 0 = [- 2; - (1)].
Proof. unfold shift_change. rewrite Rmult_0_r, Ropp_0, exp_0, Rmult_1_r. reflexivity. Qed.

Section Solvers.
Variable eps : R.
Hypothesis He : 0 < eps.
Definition steep : R := (8 + 2 * eps) / eps + 9.
Lemma steep_parts : 0 <= (8 + 2 * eps) / eps.
Proof. unfold Rdiv. apply Rmult_le_pos; [lra|left; now apply Rinv_0_lt_compat]. Qed.
Lemma direct_moderate_change H : moderate_change H 0 steep (direct_fwd eps).
Proof.
  intros h xs z s g dz b Hh L1 L2 L3 Z2 S E. lens4. unfold direct_fwd in E. cbn [x_step_size x_stage_factor vnth nth] in *. rewrite Rmult_0_r in E.
  destruct (Req_EM_T _ 0) as [|D]; [discriminate|]. injection E as <-. cbn [vnth nth].
  match type of Z2 with Rabs ?y <= _ => set (y2 := y) in * end.
  pose proof (S 0%nat ltac:(lia)) as S0. pose proof (S 1%nat ltac:(lia)) as S1. pose proof (S 2%nat ltac:(lia)) as S2. pose proof (S 3%nat ltac:(lia)) as S3. cbn [vnth nth] in S0, S1, S2, S3.
  match type of S0 with Rabs ?y <= _ => set (s0 := y) in * end. match type of S1 with Rabs ?y <= _ => set (s1 := y) in * end.
  match type of S2 with Rabs ?y <= _ => set (s2 := y) in * end. match type of S3 with Rabs ?y <= _ => set (s3 := y) in * end.
  assert (Dv : determinant eps 0 (2 * y2) = eps) by (unfold determinant, pivot; ring).
  assert (b0 : 0 <= b) by (pose proof (Rabs_pos s0); lra).
  assert (M : - (6 * b) <= (2 * y2) * s2 <= 6 * b) by (apply mult_bound; [rewrite Rabs_mult, (Rabs_pos_eq 2) by lra; lra|exact S2]).
  apply Rabs_le_inv in S0, S1, S2, S3. pose proof steep_parts as SP.
  assert (E0 : ((- eps * s0 - 0 * s1) * (1 + 0 + 0 * (2 * y2)) + 0 * (2 * y2) * (- s2 - 0 * s3)) / determinant eps 0 (2 * y2) = - s0) by (rewrite Dv; field; lra).
  assert (E2 : (pivot eps 0 * (- s2 - 0 * s3) + 0 * (- eps * s0 - 0 * s1)) / determinant eps 0 (2 * y2) = - s2) by (rewrite Dv; unfold pivot; field; lra).
  rewrite E0, E2. unfold steep. split.
  - apply Rle_trans with ((8 + 2 * eps) / eps * b); [|apply Rmult_le_compat_r; lra].
    replace ((8 + 2 * eps) / eps * b) with ((8 + 2 * eps) * b / eps) by (field; lra). apply div_bound; [exact He|].
    assert (Q : - (eps * b) <= eps * s0 <= eps * b) by (split; nra). apply Rabs_bound. split; lra.
  - apply Rle_trans with (9 * b); [|apply Rmult_le_compat_r; lra]. apply Rabs_bound. split; lra.
Qed.
Definition both (dl : R) : R := large eps dl + steep.
Lemma both_pos dl : 0 <= both dl.
Proof.
  pose proof steep_parts. assert (F0 : 0 <= (52 + 54 * eps) / eps) by (unfold Rdiv; apply Rmult_le_pos; [lra|left; now apply Rinv_0_lt_compat]).
  unfold both, large, steep. pose proof (Rabs_pos dl). lra.
Qed.
Lemma direct_both H dl m : Rabs dl <= m -> moderate H 0 (both m) (direct_newton eps dl) /\ moderate_change H 0 (both m) (direct_fwd eps).
Proof.
  intros Hd. pose proof steep_parts as SP. assert (F0 : 0 <= (52 + 54 * eps) / eps) by (unfold Rdiv; apply Rmult_le_pos; [lra|left; now apply Rinv_0_lt_compat]).
  assert (Hm : 0 <= m) by (pose proof (Rabs_pos dl); lra).
  split.
  - intros h xs g z H1 H2 H3 H4 H5. destruct (direct_moderate eps dl He H 0 h xs g z H1 H2 H3 H4 H5).
    assert (large eps dl <= both m) by (unfold both, large, steep; rewrite (Rabs_pos_eq m) by exact Hm; lra). lra.
  - intros h xs z s g dz b H1 H2 H3 H4 H5 H6 H7. destruct (direct_moderate_change H h xs z s g dz b H1 H2 H3 H4 H5 H6 H7).
    assert (b0 : 0 <= b) by (pose proof (Rabs_pos (vnth 0 s)); specialize (H6 0%nat ltac:(lia)); lra).
    assert (steep * b <= both m * b); [|lra]. apply Rmult_le_compat_r; [exact b0|]. unfold both, large, steep. rewrite (Rabs_pos_eq m) by exact Hm. lra.
Qed.
End Solvers.
