(** Runs for affine right-hand sides multiply differences by powers of the
    stability function. *)
From Coq Require Import List Bool Arith Reals Lia Lra.
From Verif Require Import Base Ext SpecRK SpecConvergence SpecStage L_Vec.
Import ListNotations.
Open Scope R_scope.

Section Method.
Variables (s : nat) (a : nat -> nat -> R) (b c : nat -> R).
Hypothesis Hup : forall i j, (i < j < s)%nat -> a i j = 0.

Lemma row_sum i (x : nat -> R) : (i < s)%nat -> rsum s (fun j => a i j * x j) = rsum i (fun j => a i j * x j) + a i i * x i.
Proof.
  intros Hi. rewrite (rsum_trunc s (S i)); [reflexivity|lia|]. intros j Hj. rewrite Hup by lia. ring.
Qed.

Lemma triangular_zero z (d : nat -> R) : (forall i, (i < s)%nat -> 1 - z * a i i <> 0) ->
  (forall i, (i < s)%nat -> d i = z * rsum s (fun j => a i j * d j)) -> forall i, (i < s)%nat -> d i = 0.
Proof.
  intros Hn Hd i. induction i as [i IH] using lt_wf_ind. intros Hi.
  pose proof (Hd i Hi) as E. rewrite row_sum in E by exact Hi.
  rewrite (rsum_ext i _ (fun _ => 0)) in E. 2:{ intros j Hj. rewrite (IH j Hj) by lia. ring. }
  rewrite rsum_zero in E. specialize (Hn i Hi).
  assert (P : d i * (1 - z * a i i) = 0) by lra.
  apply Rmult_integral in P as [P|P]; [exact P|contradiction].
Qed.

Lemma amplification_unique z r1 r2 : (forall i, (i < s)%nat -> 1 - z * a i i <> 0) ->
  amplification s a b z r1 -> amplification s a b z r2 -> r1 = r2.
Proof.
  intros Hn (g & Hg & ->) (k & Hk & ->).
  assert (E : forall i, (i < s)%nat -> g i - k i = 0).
  { apply (triangular_zero z (fun i => g i - k i) Hn). intros i Hi. rewrite (Hg i Hi) at 1. rewrite (Hk i Hi) at 1.
    rewrite (rsum_ext s (fun j => a i j * (g j - k j)) (fun j => a i j * g j + (-1) * (a i j * k j))) by (intros; ring).
    rewrite rsum_plus, rsum_scal. ring. }
  f_equal. f_equal. apply rsum_ext. intros i Hi. specialize (E i Hi). replace (g i) with (k i) by lra. reflexivity.
Qed.

Lemma amplification_exists z : (forall i, (i < s)%nat -> 1 - z * a i i <> 0) -> exists rho, amplification s a b z rho.
Proof.
  intros Hn.
  assert (G : forall m, (m <= s)%nat -> exists g, forall i, (i < m)%nat -> g i = 1 + z * rsum s (fun j => a i j * g j)).
  { induction m as [|m IH]; intros Hm; [exists (fun _ => 0); intros; lia|].
    destruct (IH ltac:(lia)) as (g & Hg).
    set (v := (1 + z * rsum m (fun j => a m j * g j)) / (1 - z * a m m)).
    exists (fun j => if Nat.eqb j m then v else g j). intros i Hi.
    rewrite row_sum by lia.
    rewrite (rsum_ext i _ (fun j => a i j * g j)).
    2:{ intros j Hj. destruct (Nat.eqb_spec j m); [lia|reflexivity]. }
    destruct (Nat.eqb_spec i m) as [->|Ne].
    - unfold v. specialize (Hn m ltac:(lia)). field. exact Hn.
    - rewrite (Hg i) at 1 by lia. rewrite row_sum by lia. reflexivity. }
  destruct (G s ltac:(lia)) as (g & Hg). eexists. exists g. split; [exact Hg|reflexivity].
Qed.

(** y' = mu y + psi(t) in dimension 1. *)
Variables (mu : R) (psi : R -> R) (f : R -> list R -> list R).
Hypothesis Hf : forall t u, f t [u] = [mu * u + psi t].

Lemma affine_step t h rho y k y1 y' k' y1' : (forall i, (i < s)%nat -> 1 - h * mu * a i i <> 0) ->
  amplification s a b (h * mu) rho ->
  rk_equations s 1 a b c f t h [y] k [y1] -> rk_equations s 1 a b c f t h [y'] k' [y1'] ->
  y1 - y1' = rho * (y - y').
Proof.
  intros Hn (g & Hg & ->) (Hk & Ey) (Hk' & Ey').
  unfold rk_stage_value, vmake in *. cbn [seq map] in *.
  injection Ey as ->. injection Ey' as ->. cbn [vnth nth].
  assert (E : forall i, (i < s)%nat -> vnth 0 (k i) - vnth 0 (k' i) - mu * (y - y') * g i = 0).
  { apply (triangular_zero (h * mu) _ Hn). intros i Hi. rewrite (Hk i Hi) at 1. rewrite (Hk' i Hi) at 1. rewrite (Hg i Hi) at 1.
    rewrite !Hf. cbn [vnth nth].
    rewrite (rsum_ext s (fun j => a i j * (vnth 0 (k j) - vnth 0 (k' j) - mu * (y - y') * g j))
      (fun j => a i j * vnth 0 (k j) + ((-1) * (a i j * vnth 0 (k' j)) + (- (mu * (y - y'))) * (a i j * g j)))) by (intros; ring).
    rewrite !rsum_plus, !rsum_scal. unfold vnth. ring. }
  rewrite (rsum_ext s (fun i => b i * vnth 0 (k i)) (fun i => b i * vnth 0 (k' i) + (mu * (y - y')) * (b i * g i))).
  2:{ intros i Hi. specialize (E i Hi). replace (vnth 0 (k i)) with (vnth 0 (k' i) + mu * (y - y') * g i) by lra. ring. }
  rewrite rsum_plus, rsum_scal. ring.
Qed.

Lemma affine_steps h rho : (forall i, (i < s)%nat -> 1 - h * mu * a i i <> 0) -> amplification s a b (h * mu) rho ->
  forall n t y z y' z', rk_steps s 1 a b c f t [y] (repeat h n) [z] -> rk_steps s 1 a b c f t [y'] (repeat h n) [z'] ->
  z - z' = rho ^ n * (y - y').
Proof.
  intros Hn Ha n. induction n as [|n IH]; intros t y z y' z' H H'; cbn [repeat rk_steps] in H, H'.
  - injection H as ->. injection H' as ->. cbn. ring.
  - destruct H as (k & w & E & H), H' as (k' & w' & E' & H').
    assert (L : exists v, w = [v]) by (destruct E as (_ & ->); unfold vmake; cbn; eauto). destruct L as (v & ->).
    assert (L : exists v', w' = [v']) by (destruct E' as (_ & ->); unfold vmake; cbn; eauto). destruct L as (v' & ->).
    rewrite (IH _ _ _ _ _ H H'), (affine_step _ _ _ _ _ _ _ _ _ Hn Ha E E'). cbn. ring.
Qed.

(** Without inhomogeneity zero stays zero. *)
Lemma zero_steps h : (forall t, psi t = 0) -> forall n t, rk_steps s 1 a b c f t [0] (repeat h n) [0].
Proof.
  intros Z n. induction n as [|n IH]; intros t; cbn [repeat rk_steps]; [reflexivity|].
  exists (fun _ => [0]), [0]. split; [|apply IH].
  assert (E : forall d, rsum s (fun j => d j * vnth 0 [0]) = 0).
  { intros d. rewrite (rsum_ext s _ (fun _ => 0)); [apply rsum_zero|]. intros. cbn. ring. }
  unfold rk_equations, rk_stage_value, vmake. cbn [seq map]. split.
  - intros i Hi. rewrite E. rewrite Hf, Z. f_equal. cbn. ring.
  - rewrite E. f_equal. cbn. ring.
Qed.
End Method.
