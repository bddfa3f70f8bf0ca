(** Kaps' problem: exact stage solves are differentiable. *)
From Coq Require Import String.
From Coq Require Import List Bool Arith Reals Lia Lra.
From Verif Require Import Base Ext M_ODE M_Metadata M_Components SpecMetadata SpecRK SpecDeriv SpecComponents M_Packing SpecPacking SpecComponent SpecTotal
  M_Stage M_Kaps SpecKaps L_Vec L_Metadata L_Components L_Packing L_Packing3 L_Packing6 L_Deriv L_Stage L_Stage2 L_Kaps L_Kaps5.
Import ListNotations.
Local Open Scope string_scope.
Local Open Scope R_scope.
Local Open Scope list_scope.

(** *** Limits *)
Lemma cont_elim f x eta : continuity_pt f x -> 0 < eta -> exists d, 0 < d /\ forall y, Rabs (y - x) < d -> Rabs (f y - f x) < eta.
Proof.
  intros H He. destruct (H eta He) as (d & Hd & K). exists d. split; [exact Hd|]. intros y Hy.
  destruct (Req_dec y x) as [->|N]; [rewrite Rminus_eq_0, Rabs_R0; exact He|].
  apply (K y). split; [|exact Hy]. split; [exact I|]. congruence.
Qed.
Lemma cont_near f g del : 0 < del -> (forall e, Rabs e < del -> f e = g e) -> continuity_pt f 0 -> continuity_pt g 0.
Proof.
  intros Hd E H eta He. destruct (cont_elim f 0 eta H He) as (d & Hd' & K).
  exists (Rmin d del). split; [now apply Rmin_pos|]. intros y [_ Hy]. cbn in *. unfold R_dist in *.
  pose proof (Rmin_l d del). pose proof (Rmin_r d del).
  rewrite <- (E y), <- (E 0); [apply K; lra|rewrite Rabs_R0; lra|rewrite Rminus_0_r in Hy; lra].
Qed.
Lemma dlim_cont f l : derivable_pt_lim f 0 l -> continuity_pt f 0.
Proof. intros H. apply derivable_continuous_pt. exists l. exact H. Qed.

Lemma dlim_vanishing N C n : derivable_pt_lim N 0 n -> N 0 = 0 -> continuity_pt C 0 -> derivable_pt_lim (fun e => N e * C e) 0 (n * C 0).
Proof.
  intros HN N0 HC eta He.
  pose proof (Rabs_pos (C 0)) as PC. pose proof (Rabs_pos n) as Pn.
  assert (E1 : 0 < Rmin 1 (eta / (2 * (Rabs (C 0) + 1)))) by (apply Rmin_pos; [lra|apply Rdiv_lt_0_compat; lra]).
  assert (E2 : 0 < eta / (2 * (Rabs n + 2))) by (apply Rdiv_lt_0_compat; lra).
  destruct (HN _ E1) as [d1 K1]. destruct (cont_elim C 0 _ HC E2) as (d2 & D2 & K2).
  pose proof (cond_pos d1) as D1. assert (D : 0 < Rmin d1 d2) by (now apply Rmin_pos).
  exists (mkposreal _ D). intros h Hh Bh. cbn [pos] in Bh.
  pose proof (Rmin_l d1 d2). pose proof (Rmin_r d1 d2).
  specialize (K1 h Hh ltac:(lra)). specialize (K2 h ltac:(rewrite Rminus_0_r; lra)).
  rewrite Rplus_0_l, N0 in *. rewrite Rminus_0_r in K1.
  pose proof (Rmin_l 1 (eta / (2 * (Rabs (C 0) + 1)))) as M1. pose proof (Rmin_r 1 (eta / (2 * (Rabs (C 0) + 1)))) as M2.
  set (q := N h / h) in *.
  replace ((N h * C h - 0 * C 0) / h - n * C 0) with (q * (C h - C 0) + (q - n) * C 0) by (unfold q; field; exact Hh).
  assert (Q : Rabs q <= Rabs n + 1).
  { replace q with (n + (q - n)) by ring. eapply Rle_trans; [apply Rabs_triang|]. lra. }
  eapply Rle_lt_trans; [apply Rabs_triang|]. rewrite !Rabs_mult.
  assert (A : Rabs q * Rabs (C h - C 0) <= (Rabs n + 1) * (eta / (2 * (Rabs n + 2)))).
  { apply Rmult_le_compat; auto using Rabs_pos. lra. }
  assert (A' : (Rabs n + 1) * (eta / (2 * (Rabs n + 2))) < eta / 2).
  { apply (Rmult_lt_reg_r (2 * (Rabs n + 2))); [lra|]. field_simplify; [nra|lra]. }
  assert (B : Rabs (q - n) * Rabs (C 0) <= eta / (2 * (Rabs (C 0) + 1)) * Rabs (C 0)).
  { apply Rmult_le_compat_r; [exact PC|]. lra. }
  assert (B' : eta / (2 * (Rabs (C 0) + 1)) * Rabs (C 0) <= eta / 2).
  { apply (Rmult_le_reg_r (2 * (Rabs (C 0) + 1))); [lra|]. field_simplify; [nra|lra]. }
  lra.
Qed.

(** *** Vectors of functions *)
Lemma vec_moves names : forall (fs : list (R -> R)) ls n k, Forall2 (fun f l => derivable_pt_lim f 0 l) fs ls ->
  derivable_pt_lim (fun e => look n k (vec_of names (map (fun f => f e) fs))) 0 (look n k (vec_of names ls)).
Proof.
  induction names as [|m names IH]; intros fs ls n k F; [apply derivable_pt_lim_const|].
  destruct F as [|f l fs ls H F]; [apply derivable_pt_lim_const|].
  unfold look, vec_of in *. cbn [map map2 get]. destruct (String.eqb n m); [apply entry_moves, H|]. now apply IH.
Qed.

(** *** The linearized system *)
Section Linear.
Variables (eps q y2 : R).
Hypothesis He : 0 < eps.
Definition pivot : R := eps + q * (1 + 2 * eps).
Definition determinant (s : R) : R := pivot * (1 + q + q * s) - q * q * s.

(** Unique solvability. *)
Lemma determinant_nonzero :
  (forall d0 d1 d2 d3, q * d1 - d0 = 0 -> 2 * y2 * d2 - eps * d1 - (1 + 2 * eps) * d0 = 0 ->
     q * d3 - d2 = 0 -> d0 - (1 + 2 * y2) * d2 - d3 = 0 -> d0 = 0 /\ d1 = 0 /\ d2 = 0 /\ d3 = 0) ->
  determinant (2 * y2) <> 0.
Proof.
  intros H D. unfold determinant in D.
  assert (Z : forall d0 d2, pivot * d0 - q * (2 * y2) * d2 = 0 -> - q * d0 + (1 + q + q * (2 * y2)) * d2 = 0 -> d0 = 0 /\ d2 = 0).
  { intros d0 d2 A B. unfold pivot in A.
    destruct (H d0 ((2 * y2 * d2 - (1 + 2 * eps) * d0) / eps) d2 (d0 - (1 + 2 * y2) * d2)) as (Z0 & _ & Z2 & _); [| | | |auto].
    - apply (Rmult_eq_reg_l eps); [|lra]. rewrite Rmult_0_r. transitivity (- ((eps + q * (1 + 2 * eps)) * d0 - q * (2 * y2) * d2)); [field; lra|rewrite A; ring].
    - field; lra.
    - lra.
    - ring. }
  destruct (Req_dec pivot 0) as [P|P].
  - destruct (Z (1 + q + q * (2 * y2)) q) as [_ Z2]; [lra|lra|]. unfold pivot in P. rewrite Z2 in P. lra.
  - destruct (Z (q * (2 * y2)) pivot) as [_ Z2]; [ring|lra|]. contradiction.
Qed.

Lemma solve_linear b1 b2 d0 d1 d2 d3 : determinant (2 * y2) <> 0 ->
  b1 + q * d1 - d0 = 0 -> 2 * y2 * d2 - eps * d1 - (1 + 2 * eps) * d0 = 0 ->
  b2 + q * d3 - d2 = 0 -> d0 - (1 + 2 * y2) * d2 - d3 = 0 ->
  d0 = (eps * b1 * (1 + q + q * (2 * y2)) + q * (2 * y2) * b2) / determinant (2 * y2) /\
  d1 = (2 * y2 * d2 - (1 + 2 * eps) * d0) / eps /\
  d2 = (pivot * b2 + q * eps * b1) / determinant (2 * y2) /\
  d3 = d0 - (1 + 2 * y2) * d2.
Proof.
  intros D E0 E1 E2 E3.
  assert (A3 : d3 = d0 - (1 + 2 * y2) * d2) by lra.
  assert (A1 : eps * d1 = 2 * y2 * d2 - (1 + 2 * eps) * d0) by lra.
  assert (P : pivot * d0 = eps * b1 + q * (2 * y2) * d2).
  { unfold pivot. assert (eps * d0 = eps * b1 + q * (eps * d1)) by (replace d0 with (b1 + q * d1) at 1 by lra; ring). rewrite A1 in H. lra. }
  assert (Q : (1 + q + q * (2 * y2)) * d2 = b2 + q * d0).
  { rewrite A3 in E2. lra. }
  repeat split; [| | |exact A3].
  - apply (Rmult_eq_reg_r (determinant (2 * y2))); [|exact D]. unfold Rdiv at 1. rewrite Rmult_assoc, Rinv_l, Rmult_1_r by exact D.
    unfold determinant.
    transitivity ((1 + q + q * (2 * y2)) * (pivot * d0) - q * (2 * y2) * (q * d0)); [ring|].
    replace (q * d0) with ((1 + q + q * (2 * y2)) * d2 - b2) by lra. rewrite P. ring.
  - apply (Rmult_eq_reg_l eps); [|lra]. rewrite A1. field. lra.
  - apply (Rmult_eq_reg_r (determinant (2 * y2))); [|exact D]. unfold Rdiv at 1. rewrite Rmult_assoc, Rinv_l, Rmult_1_r by exact D.
    unfold determinant.
    transitivity (pivot * ((1 + q + q * (2 * y2)) * d2) - q * (q * (2 * y2) * d2)); [ring|]. rewrite Q.
    replace (q * (2 * y2) * d2) with (pivot * d0 - eps * b1) by lra. ring.
Qed.
End Linear.

(** *** Moving solutions *)
Section Moving.
Variables (eps q del : R).
Hypothesis He : 0 < eps.
Hypothesis Hdel : 0 < del.
Variables (b1 b2 z0 z1 z2 z3 : R -> R) (c1 c2 : R).
Hypothesis Hb1 : derivable_pt_lim b1 0 c1.
Hypothesis Hb2 : derivable_pt_lim b2 0 c2.
Hypothesis Hc : continuity_pt z2 0.
Hypothesis E0 : forall e, Rabs e < del -> b1 e + q * z1 e - z0 e = 0.
Hypothesis E1 : forall e, Rabs e < del -> - (1 + 2 * eps) * z0 e + z2 e ^ 2 - eps * z1 e = 0.
Hypothesis E2 : forall e, Rabs e < del -> b2 e + q * z3 e - z2 e = 0.
Hypothesis E3 : forall e, Rabs e < del -> z0 e - z2 e - z2 e ^ 2 - z3 e = 0.
Notation det := (determinant eps q).
Notation P := (pivot eps q).
Hypothesis D : det (2 * z2 0) <> 0.
Definition secant (e : R) : R := z2 e + z2 0.

Lemma at0 : Rabs 0 < del.
Proof. rewrite Rabs_R0. exact Hdel. Qed.
Lemma secant_cont : continuity_pt secant 0.
Proof. unfold secant. apply (continuity_pt_plus z2 (fun _ => z2 0)); [exact Hc|]. apply continuity_pt_const. now intros ? ?. Qed.
Lemma scaled_cont f a : continuity_pt f 0 -> continuity_pt (fun e => a * f e) 0.
Proof. intros H. apply (continuity_pt_scal f a 0 H). Qed.
Lemma shifted_cont f a : continuity_pt f 0 -> continuity_pt (fun e => a + f e) 0.
Proof. intros H. apply (continuity_pt_plus (fun _ => a) f); [apply continuity_pt_const; now intros ? ?|exact H]. Qed.
Lemma det_cont : continuity_pt (fun e => det (secant e)) 0.
Proof.
  unfold determinant. apply (continuity_pt_minus (fun e => P * (1 + q + q * secant e)) (fun e => q * q * secant e)).
  - apply scaled_cont, shifted_cont, scaled_cont, secant_cont.
  - apply scaled_cont, secant_cont.
Qed.
Lemma secant_0 : secant 0 = 2 * z2 0.
Proof. unfold secant. ring. Qed.

Lemma difference e : Rabs e < del ->
  P * (z0 e - z0 0) = eps * (b1 e - b1 0) + q * secant e * (z2 e - z2 0) /\
  (1 + q + q * secant e) * (z2 e - z2 0) = (b2 e - b2 0) + q * (z0 e - z0 0).
Proof.
  intros B. pose proof (E0 e B) as A0. pose proof (E1 e B) as A1. pose proof (E2 e B) as A2. pose proof (E3 e B) as A3.
  pose proof (E0 0 at0) as B0. pose proof (E1 0 at0) as B1. pose proof (E2 0 at0) as B2. pose proof (E3 0 at0) as B3.
  unfold secant, pivot. split.
  - assert (X : eps * z0 e = eps * b1 e + q * (- (1 + 2 * eps) * z0 e + z2 e ^ 2)).
    { replace (- (1 + 2 * eps) * z0 e + z2 e ^ 2) with (eps * z1 e) by lra. replace (z0 e) with (b1 e + q * z1 e) by lra. ring. }
    assert (Y : eps * z0 0 = eps * b1 0 + q * (- (1 + 2 * eps) * z0 0 + z2 0 ^ 2)).
    { replace (- (1 + 2 * eps) * z0 0 + z2 0 ^ 2) with (eps * z1 0) by lra. replace (z0 0) with (b1 0 + q * z1 0) by lra. ring. }
    lra.
  - assert (X : z2 e = b2 e + q * (z0 e - z2 e - z2 e ^ 2)) by (replace (z0 e - z2 e - z2 e ^ 2) with (z3 e) by lra; lra).
    assert (Y : z2 0 = b2 0 + q * (z0 0 - z2 0 - z2 0 ^ 2)) by (replace (z0 0 - z2 0 - z2 0 ^ 2) with (z3 0) by lra; lra).
    lra.
Qed.

Lemma inv_det_cont : continuity_pt (fun e => / det (secant e)) 0.
Proof. apply (continuity_pt_inv (fun e => det (secant e))); [apply det_cont|]. now rewrite secant_0. Qed.
Lemma det_near : exists d, 0 < d /\ forall e, Rabs e < d -> det (secant e) <> 0.
Proof.
  destruct (cont_elim _ 0 (Rabs (det (2 * z2 0))) det_cont) as (d & Hd & K); [now apply Rabs_pos_lt|].
  exists d. split; [exact Hd|]. intros e B Z. specialize (K e ltac:(now rewrite Rminus_0_r)). rewrite Z, secant_0 in K.
  rewrite Rminus_0_l, Rabs_Ropp in K. lra.
Qed.
Lemma change_lim b c : derivable_pt_lim b 0 c -> derivable_pt_lim (fun e => b e - b 0) 0 c.
Proof.
  intros H. apply (derivable_pt_lim_value _ _ (c - 0)); [|ring].
  apply (derivable_pt_lim_minus b (fun _ => b 0)); [exact H|apply derivable_pt_lim_const].
Qed.

Lemma moves_2 : derivable_pt_lim z2 0 ((P * c2 + q * eps * c1) / det (2 * z2 0)).
Proof.
  destruct det_near as (d & Hd & K).
  apply (derivable_near (Rmin d del) (fun e => z2 0 + (P * (b2 e - b2 0) + q * eps * (b1 e - b1 0)) * / det (secant e)));
    [now apply Rmin_pos| |].
  - intros e B. pose proof (Rmin_l d del). pose proof (Rmin_r d del). specialize (K e ltac:(lra)).
    destruct (difference e ltac:(lra)) as [X Y].
    apply (Rplus_eq_reg_l (- z2 0)). rewrite <- Rplus_assoc, Rplus_opp_l, Rplus_0_l.
    apply (Rmult_eq_reg_r (det (secant e))); [|exact K]. rewrite Rmult_assoc, Rinv_l, Rmult_1_r by exact K.
    unfold determinant.
    transitivity (P * ((1 + q + q * secant e) * (z2 e - z2 0)) - q * (q * secant e * (z2 e - z2 0))); [|ring]. rewrite Y.
    replace (q * secant e * (z2 e - z2 0)) with (P * (z0 e - z0 0) - eps * (b1 e - b1 0)) by lra. ring.
  - apply (derivable_pt_lim_value _ _ (0 + (P * c2 + q * eps * c1) * / det (secant 0))); [|rewrite secant_0; unfold Rdiv; ring].
    apply (derivable_pt_lim_plus (fun _ => z2 0)); [apply derivable_pt_lim_const|].
    apply (dlim_vanishing (fun e => P * (b2 e - b2 0) + q * eps * (b1 e - b1 0)) (fun e => / det (secant e))); [|ring|apply inv_det_cont].
    apply (derivable_pt_lim_plus (fun e => P * (b2 e - b2 0)) (fun e => q * eps * (b1 e - b1 0)));
      [apply (derivable_pt_lim_scal (fun e => b2 e - b2 0))|apply (derivable_pt_lim_scal (fun e => b1 e - b1 0))]; now apply change_lim.
Qed.
Lemma moves_0 : derivable_pt_lim z0 0 ((eps * c1 * (1 + q + q * (2 * z2 0)) + q * (2 * z2 0) * c2) / det (2 * z2 0)).
Proof.
  destruct det_near as (d & Hd & K).
  apply (derivable_near (Rmin d del) (fun e => z0 0 + ((eps * (b1 e - b1 0)) * ((1 + q + q * secant e) * / det (secant e))
      + (q * (b2 e - b2 0)) * (secant e * / det (secant e)))));
    [now apply Rmin_pos| |].
  - intros e B. pose proof (Rmin_l d del). pose proof (Rmin_r d del). specialize (K e ltac:(lra)).
    destruct (difference e ltac:(lra)) as [X Y].
    apply (Rplus_eq_reg_l (- z0 0)). rewrite <- Rplus_assoc, Rplus_opp_l, Rplus_0_l.
    apply (Rmult_eq_reg_r (det (secant e))); [|exact K].
    transitivity (eps * (b1 e - b1 0) * (1 + q + q * secant e) + q * (b2 e - b2 0) * secant e); [field; exact K|].
    unfold determinant.
    transitivity ((1 + q + q * secant e) * (P * (z0 e - z0 0)) - q * secant e * (q * (z0 e - z0 0))); [|ring]. rewrite X.
    replace (q * (z0 e - z0 0)) with ((1 + q + q * secant e) * (z2 e - z2 0) - (b2 e - b2 0)) by lra. ring.
  - apply (derivable_pt_lim_value _ _ (0 + ((eps * c1) * ((1 + q + q * secant 0) * / det (secant 0)) + (q * c2) * (secant 0 * / det (secant 0)))));
      [|rewrite secant_0; field; exact D].
    apply (derivable_pt_lim_plus (fun _ => z0 0)); [apply derivable_pt_lim_const|].
    apply (derivable_pt_lim_plus (fun e => (eps * (b1 e - b1 0)) * ((1 + q + q * secant e) * / det (secant e)))
      (fun e => (q * (b2 e - b2 0)) * (secant e * / det (secant e)))).
    + apply (dlim_vanishing (fun e => eps * (b1 e - b1 0)) (fun e => (1 + q + q * secant e) * / det (secant e))); [|ring|].
      * apply (derivable_pt_lim_scal (fun e => b1 e - b1 0)). now apply change_lim.
      * apply (continuity_pt_mult (fun e => 1 + q + q * secant e)); [|apply inv_det_cont]. apply shifted_cont, scaled_cont, secant_cont.
    + apply (dlim_vanishing (fun e => q * (b2 e - b2 0)) (fun e => secant e * / det (secant e))); [|ring|].
      * apply (derivable_pt_lim_scal (fun e => b2 e - b2 0)). now apply change_lim.
      * apply (continuity_pt_mult secant); [apply secant_cont|apply inv_det_cont].
Qed.
Lemma square_lim f l : derivable_pt_lim f 0 l -> derivable_pt_lim (fun e => f e ^ 2) 0 (2 * f 0 * l).
Proof.
  intros H. apply (derivable_near 1 (fun e => f e * f e)); [lra|intros; ring|].
  apply (derivable_pt_lim_value _ _ (l * f 0 + f 0 * l)); [|ring]. now apply (derivable_pt_lim_mult f f).
Qed.
Lemma moves_1 d0 d2 : derivable_pt_lim z0 0 d0 -> derivable_pt_lim z2 0 d2 ->
  derivable_pt_lim z1 0 ((2 * z2 0 * d2 - (1 + 2 * eps) * d0) / eps).
Proof.
  intros H0 H2. apply (derivable_near del (fun e => (- (1 + 2 * eps) * z0 e + z2 e ^ 2) * / eps)); [exact Hdel| |].
  - intros e B. pose proof (E1 e B). apply (Rmult_eq_reg_r eps); [|lra]. rewrite Rmult_assoc, Rinv_l, Rmult_1_r by lra. lra.
  - apply (derivable_pt_lim_value _ _ ((- (1 + 2 * eps) * d0 + 2 * z2 0 * d2) * / eps)); [|unfold Rdiv; ring].
    apply derivable_pt_lim_scal_right, (derivable_pt_lim_plus (fun e => - (1 + 2 * eps) * z0 e) (fun e => z2 e ^ 2)); [now apply derivable_pt_lim_scal|].
    now apply square_lim.
Qed.
Lemma moves_3 d0 d2 : derivable_pt_lim z0 0 d0 -> derivable_pt_lim z2 0 d2 ->
  derivable_pt_lim z3 0 (d0 - (1 + 2 * z2 0) * d2).
Proof.
  intros H0 H2. apply (derivable_near del (fun e => z0 e - z2 e - z2 e ^ 2)); [exact Hdel| |].
  - intros e B. pose proof (E3 e B). lra.
  - apply (derivable_pt_lim_value _ _ (d0 - d2 - 2 * z2 0 * d2)); [|ring].
    apply (derivable_pt_lim_minus (fun e => z0 e - z2 e) (fun e => z2 e ^ 2)); [now apply derivable_pt_lim_minus|]. now apply square_lim.
Qed.
End Moving.
