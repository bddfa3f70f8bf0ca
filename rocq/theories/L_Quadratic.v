(** Right hand sides with entries that are polynomials of degree two. *)
From Coq Require Import List Bool Arith Reals Lia Lra.
From Verif Require Import Base Ext M_ODE SpecRK SpecConvergence SpecLocal L_Vec L_Convergence L_Order L_Local.
Import ListNotations.
Local Open Scope R_scope.
Local Open Scope list_scope.

Section Quadratic.
Variables (n : nat) (A : nat -> nat -> R) (Q : nat -> nat -> nat -> R) (F : R -> list R -> list R).
Definition linear_part (m : nat) (v : nat -> R) : R := rsum n (fun j => A m j * v j).
Definition bilinear_part (m : nat) (v w : nat -> R) : R := rsum n (fun j => rsum n (fun l => Q m j l * (v j * w l))).
Notation lin := linear_part.
Notation bil := bilinear_part.
Definition quadratic_rhs : Prop := forall t z m, (m < n)%nat -> vnth m (F t z) = lin m (fun j => vnth j z) + bil m (fun j => vnth j z) (fun j => vnth j z).
Hypothesis HF : quadratic_rhs.

Lemma lin_ext m v w : (forall j, (j < n)%nat -> v j = w j) -> lin m v = lin m w.
Proof. intros H. apply L_Vec.rsum_ext. intros j Hj. now rewrite H. Qed.
Lemma bil_ext m v w v' w' : (forall j, (j < n)%nat -> v j = v' j) -> (forall j, (j < n)%nat -> w j = w' j) -> bil m v w = bil m v' w'.
Proof. intros H H'. apply L_Vec.rsum_ext. intros j Hj. apply L_Vec.rsum_ext. intros l Hl. now rewrite H, H'. Qed.
Lemma lin_comb m a b v w : lin m (fun j => a * v j + b * w j) = a * lin m v + b * lin m w.
Proof.
  unfold linear_part. rewrite <- !L_Vec.rsum_scal, <- rsum_plus. apply L_Vec.rsum_ext. intros. ring.
Qed.
Lemma bil_left m a b v w u : bil m (fun j => a * v j + b * w j) u = a * bil m v u + b * bil m w u.
Proof.
  unfold bilinear_part. rewrite <- !L_Vec.rsum_scal, <- rsum_plus. apply L_Vec.rsum_ext. intros j _.
  rewrite <- !L_Vec.rsum_scal, <- rsum_plus. apply L_Vec.rsum_ext. intros. ring.
Qed.
Lemma bil_right m a b v w u : bil m u (fun j => a * v j + b * w j) = a * bil m u v + b * bil m u w.
Proof.
  unfold bilinear_part. rewrite <- !L_Vec.rsum_scal, <- rsum_plus. apply L_Vec.rsum_ext. intros j _.
  rewrite <- !L_Vec.rsum_scal, <- rsum_plus. apply L_Vec.rsum_ext. intros. ring.
Qed.

Variables a q : R.
Hypothesis Ha : forall m, (m < n)%nat -> rsum n (fun j => Rabs (A m j)) <= a.
Hypothesis Hq : forall m, (m < n)%nat -> rsum n (fun j => rsum n (fun l => Rabs (Q m j l))) <= q.

Lemma lin_bound m v r : (m < n)%nat -> (forall j, (j < n)%nat -> Rabs (v j) <= r) -> Rabs (lin m v) <= a * r.
Proof.
  intros Hm Hv. assert (R0 : 0 <= r) by (pose proof (Rabs_pos (v m)); specialize (Hv m Hm); lra).
  eapply Rle_trans; [apply rsum_abs|]. apply Rle_trans with (rsum n (fun j => Rabs (A m j) * r)).
  - apply rsum_le. intros j Hj. rewrite Rabs_mult. apply Rmult_le_compat_l; [apply Rabs_pos|auto].
  - rewrite rsum_scale. apply Rmult_le_compat_r; auto.
Qed.
Lemma bil_bound m v w r s : (m < n)%nat -> (forall j, (j < n)%nat -> Rabs (v j) <= r) -> (forall j, (j < n)%nat -> Rabs (w j) <= s) ->
  Rabs (bil m v w) <= q * (r * s).
Proof.
  intros Hm Hv Hw. assert (R0 : 0 <= r) by (pose proof (Rabs_pos (v m)); specialize (Hv m Hm); lra).
  assert (S0 : 0 <= s) by (pose proof (Rabs_pos (w m)); specialize (Hw m Hm); lra).
  eapply Rle_trans; [apply rsum_abs|]. apply Rle_trans with (rsum n (fun j => rsum n (fun l => Rabs (Q m j l)) * (r * s))).
  - apply rsum_le. intros j Hj. eapply Rle_trans; [apply rsum_abs|]. rewrite <- rsum_scale. apply rsum_le. intros l Hl.
    rewrite !Rabs_mult. apply Rmult_le_compat_l; [apply Rabs_pos|]. apply Rmult_le_compat; auto using Rabs_pos.
  - rewrite rsum_scale. apply Rmult_le_compat_r; [now apply Rmult_le_pos|auto].
Qed.
Lemma a_nonneg m : (m < n)%nat -> 0 <= a.
Proof. intros Hm. eapply Rle_trans; [|apply (Ha m Hm)]. apply rsum_nonneg. intros. apply Rabs_pos. Qed.
Lemma q_nonneg m : (m < n)%nat -> 0 <= q.
Proof. intros Hm. eapply Rle_trans; [|apply (Hq m Hm)]. apply rsum_nonneg. intros. apply rsum_nonneg. intros. apply Rabs_pos. Qed.

Lemma shifted m y v : lin m (fun j => y j + v j) + bil m (fun j => y j + v j) (fun j => y j + v j) =
  (lin m y + bil m y y) + (lin m v + bil m y v + bil m v y) + bil m v v.
Proof.
  rewrite (lin_ext m _ (fun j => 1 * y j + 1 * v j)) by (intros; ring). rewrite lin_comb.
  rewrite (bil_ext m _ _ (fun j => 1 * y j + 1 * v j) (fun j => 1 * y j + 1 * v j)) by (intros; ring).
  rewrite bil_left, !bil_right. ring.
Qed.

Lemma quadratic_lipschitz X c : (forall j, (j < n)%nat -> - c <= low X j /\ high X j <= c) -> lipschitz_in n X (a + 2 * q * c) F.
Proof.
  intros HX t t' y z r Ly Lz [_ Iy] [_ Iz] W m Hm. rewrite !HF by exact Hm.
  set (v := fun j => vnth j y - vnth j z).
  rewrite (lin_ext m (fun j => vnth j y) (fun j => vnth j z + v j)) by (intros; unfold v; ring).
  rewrite (bil_ext m (fun j => vnth j y) (fun j => vnth j y) (fun j => vnth j z + v j) (fun j => vnth j z + v j)) by (intros; unfold v; ring).
  assert (B : forall x, (forall j, (j < n)%nat -> low X j + 0 <= vnth j x <= high X j - 0) -> forall j, (j < n)%nat -> Rabs (vnth j x) <= c).
  { intros x Ix j Hj. specialize (Ix j Hj). specialize (HX j Hj). apply Rabs_le. lra. }
  rewrite shifted.
  replace (_ - _) with (lin m v + bil m (fun j => vnth j z) v + bil m v (fun j => vnth j z + v j)).
  2: { rewrite (bil_ext m v (fun j => vnth j z + v j) v (fun j => 1 * vnth j z + 1 * v j)) by (intros; ring). rewrite bil_right. ring. }
  assert (V : forall j, (j < n)%nat -> Rabs (v j) <= r) by exact W.
  pose proof (lin_bound m v r Hm V) as B1.
  pose proof (bil_bound m (fun j => vnth j z) v c r Hm (B z Iz) V) as B2.
  pose proof (bil_bound m v (fun j => vnth j z + v j) r c Hm V) as B3.
  assert (B3' : Rabs (bil m v (fun j => vnth j z + v j)) <= q * (r * c)).
  { apply B3. intros j Hj. replace (vnth j z + v j) with (vnth j y) by (unfold v; ring). now apply B. }
  assert (c0 : 0 <= c) by (pose proof (B z Iz m Hm); pose proof (Rabs_pos (vnth m z)); lra).
  pose proof (a_nonneg m Hm) as a0. pose proof (q_nonneg m Hm) as q0.
  assert (P : 0 <= (a + 2 * q * c) * Rabs (t - t')).
  { apply Rmult_le_pos; [|apply Rabs_pos]. pose proof (Rmult_le_pos _ _ q0 c0). lra. }
  eapply Rle_trans; [apply Rabs_triang|]. pose proof (Rabs_triang (lin m v) (bil m (fun j => vnth j z) v)) as T.
  apply Rle_trans with ((a * r + q * (c * r)) + q * (r * c)); [lra|].
  replace (a * r + q * (c * r) + q * (r * c)) with ((a + 2 * q * c) * r) by ring. rewrite Rmult_plus_distr_l. lra.
Qed.

Definition quadratic_D (y : list R) (vs : list (list R)) : list R :=
  let e v := fun j => vnth (S j) v in let y' := fun j => vnth j y in
  vmake n (fun m => match vs with
  | [] => lin m y' + bil m y' y'
  | [v] => lin m (e v) + bil m y' (e v) + bil m (e v) y'
  | [v; w] => bil m (e v) (e w) + bil m (e w) (e v)
  | _ => 0
  end).

Lemma quadratic_smooth rho p t0 t1 Y c : 0 < rho <= 1 -> 0 <= a -> 0 <= q -> 0 <= c ->
  (forall t j, t0 <= t <= t1 -> (j < n)%nat -> Rabs (vnth j (Y t)) <= c) -> smooth_close rho n p F t0 t1 Y.
Proof.
  intros Hr a0 q0 c0 HY. exists (fun t => quadratic_D (Y t)), ((a + 2 * q * (c + 1)) * (c + 1)).
  pose proof (Rmult_le_pos _ _ a0 c0) as ac. pose proof (Rmult_le_pos _ _ q0 c0) as qc. pose proof (Rmult_le_pos _ _ qc c0) as qcc.
  set (B := (a + 2 * q * (c + 1)) * (c + 1)).
  assert (E : B = a + a * c + 2 * (q * c * c) + 4 * (q * c) + 2 * q) by (unfold B; ring).
  assert (B0 : 0 <= B) by lra. split; [exact B0|]. intros t Ht. set (y := fun j => vnth j (Y t)).
  assert (Hy : forall j, (j < n)%nat -> Rabs (y j) <= c) by (intros; unfold y; auto).
  split.
  - intros us ws u v al be m Hm. unfold quadratic_D.
    assert (N : forall w, (forall j, (j < n)%nat -> vnth (S j) (vmake (S n) (fun j => al * vnth j u + be * vnth j v)) = w j) ->
      forall x, lin m (fun j => vnth (S j) (vmake (S n) (fun j => al * vnth j u + be * vnth j v))) = lin m w /\
      bil m (fun j => vnth (S j) (vmake (S n) (fun j => al * vnth j u + be * vnth j v))) x = bil m w x /\
      bil m x (fun j => vnth (S j) (vmake (S n) (fun j => al * vnth j u + be * vnth j v))) = bil m x w).
    { intros w Hw x. split; [now apply lin_ext|]. split; now apply bil_ext. }
    specialize (N (fun j => al * vnth (S j) u + be * vnth (S j) v) ltac:(intros; now rewrite vnth_vmake by lia)).
    rewrite !vnth_vmake by exact Hm. fold y.
    destruct us as [|u1 [|u2 us]]; cbn [app]; [destruct ws as [|w1 [|w2 ws]]|destruct ws as [|w1 ws]|].
    + destruct (N y) as (N1 & N2 & N3). rewrite N1, N2, N3, lin_comb, bil_left, bil_right. ring.
    + destruct (N (fun j => vnth (S j) w1)) as (N1 & N2 & N3). rewrite N2, N3, bil_left, bil_right. ring.
    + ring.
    + destruct (N (fun j => vnth (S j) u1)) as (N1 & N2 & N3). rewrite N2, N3, bil_left, bil_right. ring.
    + ring.
    + destruct us; cbn [app]; ring.
  - intros vs rs m Hm _ HV. unfold quadratic_D. rewrite vnth_vmake by exact Hm. fold y.
    assert (P : forall vs rs, Forall2 (fun v r => 0 <= r /\ forall j, (j <= n)%nat -> Rabs (vnth j v) <= r) vs rs -> 0 <= fold_right Rmult 1 rs).
    { clear. intros vs rs H. induction H as [|v r vs rs [H _] _ IH]; cbn; [lra|]. now apply Rmult_le_pos. }
    destruct HV as [|v r vs rs [R0 V] HV].
    + cbn [fold_right]. rewrite Rmult_1_r. pose proof (lin_bound m y c Hm Hy). pose proof (bil_bound m y y c c Hm Hy Hy).
      eapply Rle_trans; [apply Rabs_triang|]. replace (q * (c * c)) with (q * c * c) in * by ring. lra.
    + assert (V' : forall j, (j < n)%nat -> Rabs (vnth (S j) v) <= r) by (intros; apply V; lia).
      destruct HV as [|w s vs rs [S0 W] HV].
      * cbn [fold_right]. rewrite Rmult_1_r. pose proof (lin_bound m _ r Hm V') as B1. pose proof (bil_bound m y _ c r Hm Hy V') as B2. pose proof (bil_bound m _ y r c Hm V' Hy) as B3.
        eapply Rle_trans; [apply Rabs_triang|]. eapply Rle_trans; [apply Rplus_le_compat_r, Rabs_triang|].
        apply Rle_trans with ((a + 2 * (q * c)) * r); [lra|]. apply Rmult_le_compat_r; lra.
      * assert (W' : forall j, (j < n)%nat -> Rabs (vnth (S j) w) <= s) by (intros; apply W; lia).
        destruct HV as [|x s' vs rs [T0 X] HV].
        -- cbn [fold_right]. rewrite Rmult_1_r. pose proof (bil_bound m _ _ r s Hm V' W') as B2. pose proof (bil_bound m _ _ s r Hm W' V') as B3.
           eapply Rle_trans; [apply Rabs_triang|]. apply Rle_trans with (2 * q * (r * s)); [lra|]. apply Rmult_le_compat_r; [now apply Rmult_le_pos|lra].
        -- rewrite Rabs_R0. apply Rmult_le_pos; [exact B0|]. cbn [fold_right]. specialize (P _ _ HV). repeat (apply Rmult_le_pos; auto).
  - intros k v r m Hm _ Lv Hrr V. rewrite HF by exact Hm.
    assert (V' : forall j, (j < n)%nat -> Rabs (vnth (S j) v) <= r) by (intros; apply V; lia).
    set (v' := fun j => vnth (S j) v) in *.
    rewrite (lin_ext m _ (fun j => y j + v' j)) by (intros; now rewrite vnth_vmake by lia).
    rewrite (bil_ext m _ _ (fun j => y j + v' j) (fun j => y j + v' j)) by (intros; now rewrite vnth_vmake by lia).
    rewrite shifted.
    assert (T : forall k, rsum (S (S (S k))) (fun i => / INR (fact i) * vnth m (quadratic_D (Y t) (repeat v i)))
                 = (lin m y + bil m y y) + (lin m v' + bil m y v' + bil m v' y) + bil m v' v').
    { clear -Hm. intros k. induction k as [|k IH].
      - cbn [rsum repeat]. unfold quadratic_D. rewrite !vnth_vmake by exact Hm. fold y v'. cbn [fact Nat.mul Nat.add INR]. field.
      - change (rsum (S (S (S (S k)))) ?g) with (rsum (S (S (S k))) g + g (S (S (S k)))). rewrite IH.
        cbn [repeat]. unfold quadratic_D. rewrite vnth_vmake by exact Hm. ring. }
    destruct k as [|[|k]]; [| |rewrite T].
    + cbn [rsum repeat pow fact INR]. unfold quadratic_D. rewrite vnth_vmake by exact Hm. fold y. rewrite Rmult_1_r.
      replace (_ - _) with ((lin m v' + bil m y v' + bil m v' y) + bil m v' v') by field.
      pose proof (lin_bound m v' r Hm V') as B1. pose proof (bil_bound m y v' c r Hm Hy V') as B2. pose proof (bil_bound m v' y r c Hm V' Hy) as B3.
      pose proof (bil_bound m v' v' r r Hm V' V') as B4.
      assert (B5 : q * (r * r) <= q * r).
      { apply Rmult_le_compat_l; [exact q0|]. rewrite <- (Rmult_1_r r) at 3. apply Rmult_le_compat_l; lra. }
      eapply Rle_trans; [apply Rabs_triang|]. eapply Rle_trans; [apply Rplus_le_compat_r, Rabs_triang|].
      eapply Rle_trans; [apply Rplus_le_compat_r, Rplus_le_compat_r, Rabs_triang|].
      apply Rle_trans with ((a + 2 * (q * c) + q) * r); [lra|]. apply Rmult_le_compat_r; lra.
    + cbn [rsum repeat pow fact INR Nat.mul Nat.add]. unfold quadratic_D. rewrite !vnth_vmake by exact Hm. fold y v'. rewrite Rmult_1_r.
      replace (_ - _) with (bil m v' v') by field. pose proof (bil_bound m v' v' r r Hm V' V') as B4.
      eapply Rle_trans; [exact B4|]. apply Rmult_le_compat_r; [apply Rmult_le_pos; lra|lra].
    + rewrite Rminus_eq_0, Rabs_R0. apply Rmult_le_pos; [exact B0|]. apply pow_le. lra.
Qed.
End Quadratic.
