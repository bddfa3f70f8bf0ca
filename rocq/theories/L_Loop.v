(** Step sizes under power-law errors: a linear recursion in the logarithms. *)
From Coq Require Import List Reals Lra Lia Bool QArith Qreals Qabs.
From Verif Require Import Base Ext M_State M_ODE M_Controller M_Measure M_Integrator SpecControl SpecFilter SpecAdaptive SpecLoop
  L_Control L_Catalogue L_Filter.
Import ListNotations.
Local Open Scope R_scope.

(** ** The recursion *)
Section Orbit.
Variables c1 c2 c3 : R.
Fixpoint orbit (n : nat) (x y z : R) : R :=
  match n with O => x | S n' => orbit n' (c1 * x + c2 * y + c3 * z) x y end.
Lemma orbit_add n : forall m x y z,
  orbit (m + S (S n)) x y z = orbit m (orbit (S (S n)) x y z) (orbit (S n) x y z) (orbit n x y z).
Proof.
  induction n as [|n IH]; intros m x y z.
  - rewrite Nat.add_comm. reflexivity.
  - replace (m + S (S (S n)))%nat with (S (m + S (S n))) by lia. cbn [orbit] in *. apply IH.
Qed.
End Orbit.

Definition row := (Q * Q * Q)%type.
Definition next_row (a b c : Q) (v : row) : row :=
  let '(x, y, z) := v in (Qred (x * a + y), Qred (x * b + z), Qred (x * c)).
Fixpoint rows (a b c : Q) (n : nat) (v : row) : row := match n with O => v | S n' => next_row a b c (rows a b c n' v) end.
Definition row_norm (v : row) : Q := let '(x, y, z) := v in Qabs x + Qabs y + Qabs z.
Definition first_row : row := (1, 0, 0)%Q.
(** Deviations halve within [k] steps and are at most 4 times larger before. *)
Definition halving (a b c : Q) (k : nat) : bool :=
  (2 <? k)%nat && forallb (fun j => Qle_bool (row_norm (rows a b c j first_row)) 4) (seq 0 k) &&
  forallb (fun j => Qle_bool (row_norm (rows a b c j first_row)) (1 # 2)) [k - 2; k - 1; k]%nat.

Definition apply_row (v : row) (x y z : R) : R := let '(a, b, c) := v in Q2R a * x + Q2R b * y + Q2R c * z.
Lemma apply_next a b c v x y z :
  apply_row (next_row a b c v) x y z = apply_row v (Q2R a * x + Q2R b * y + Q2R c * z) x y.
Proof.
  destruct v as ((u & v) & w). unfold apply_row, next_row. rewrite !(Qeq_eqR _ _ (Qred_correct _)), !Q2R_plus, !Q2R_mult. ring.
Qed.
Lemma orbit_row a b c n : forall x y z, orbit (Q2R a) (Q2R b) (Q2R c) n x y z = apply_row (rows a b c n first_row) x y z.
Proof.
  induction n as [|n IH]; intros x y z; cbn [orbit rows].
  - unfold first_row, apply_row. change (Q2R 1) with (1 / 1)%R. rewrite RMicromega.Q2R_0. field.
  - rewrite apply_next, IH. reflexivity.
Qed.
Lemma Q2R_abs x : Q2R (Qabs x) = Rabs (Q2R x).
Proof.
  destruct (Qlt_le_dec x 0) as [H|H].
  - rewrite Qeq_eqR with (y := Qopp x); [|apply Qabs_neg; apply Qlt_le_weak; exact H].
    rewrite Q2R_opp, Rabs_left; [reflexivity|]. apply Qlt_Rlt in H. rewrite RMicromega.Q2R_0 in H. exact H.
  - rewrite Qeq_eqR with (y := x); [|apply Qabs_pos; exact H].
    rewrite Rabs_right; [reflexivity|]. apply Qle_Rle in H. rewrite RMicromega.Q2R_0 in H. lra.
Qed.
Lemma apply_row_bound v e D x y z : Qle_bool (row_norm v) e = true -> Rabs x <= D -> Rabs y <= D -> Rabs z <= D ->
  Rabs (apply_row v x y z) <= Q2R e * D.
Proof.
  destruct v as ((a & b) & c). intros H Hx Hy Hz. apply Qle_bool_iff, Qle_Rle in H. unfold row_norm in H.
  rewrite !Q2R_plus, !Q2R_abs in H. unfold apply_row.
  pose proof (Rabs_triang (Q2R a * x + Q2R b * y) (Q2R c * z)). pose proof (Rabs_triang (Q2R a * x) (Q2R b * y)).
  rewrite !Rabs_mult in *. pose proof (Rabs_pos x).
  assert (forall k t, Rabs t <= D -> Rabs k * Rabs t <= Rabs k * D) by (intros; apply Rmult_le_compat_l; [apply Rabs_pos|assumption]).
  pose proof (H3 (Q2R a) x Hx). pose proof (H3 (Q2R b) y Hy). pose proof (H3 (Q2R c) z Hz).
  assert ((Rabs (Q2R a) + Rabs (Q2R b) + Rabs (Q2R c)) * D <= Q2R e * D) by (apply Rmult_le_compat_r; lra). lra.
Qed.

Lemma halving_bound a b c k : halving a b c k = true ->
  forall n x y z D, Rabs x <= D -> Rabs y <= D -> Rabs z <= D ->
  Rabs (orbit (Q2R a) (Q2R b) (Q2R c) n x y z) <= 4 * ((/ 2) ^ (n / k) * D).
Proof.
  unfold halving. intros H. apply andb_true_iff in H as (H & H2). apply andb_true_iff in H as (K & H1). apply Nat.ltb_lt in K.
  rewrite forallb_forall in H1. cbn [forallb] in H2. rewrite !andb_true_iff in H2. destruct H2 as (A & B & E & _).
  induction n as [n IH] using lt_wf_ind. intros x y z D Hx Hy Hz.
  destruct (Nat.lt_ge_cases n k) as [L|L].
  - rewrite Nat.div_small by exact L. rewrite pow_O, Rmult_1_l, orbit_row.
    eapply Rle_trans; [eapply apply_row_bound with (e := 4%Q); eauto; apply H1, in_seq; lia|]. right. unfold Q2R; cbn. field.
  - destruct k as [|[|k]]; [lia|lia|].
    replace n with ((n - S (S k)) + S (S k))%nat at 1 by lia. rewrite orbit_add.
    replace (S (S k) - 1)%nat with (S k) in B by lia.
    assert (Half : Q2R (1 # 2) = / 2) by (unfold Q2R; cbn; field).
    eapply Rle_trans; [eapply (IH (n - S (S k))%nat ltac:(lia) _ _ _ (/ 2 * D)); rewrite orbit_row, <- Half; apply apply_row_bound; auto|].
    + replace (S (S k) - 2)%nat with k in A by lia. exact A.
    + right. replace (n / S (S k))%nat with (S ((n - S (S k)) / S (S k)))%nat; [cbn [pow]; ring|].
      replace n with ((n - S (S k)) + 1 * S (S k))%nat at 2 by lia. rewrite Nat.div_add by lia. lia.
Qed.

(** ** The controllers of the table *)
Definition plan := (Q * Q * Q * Q * Q)%type.
Definition slope (v : plan) (r : Q) : Q * Q * Q :=
  let '(al, be, ga, a, b) := v in (Qred (1 - al * r + a), Qred (be * r - a + b), Qred (- ga * r - b))%Q.
Definition plans : list (plan * (Q * list (Q * nat))) :=
  combine [(1 # 4, - 1 # 4, 0, - 1 # 4, 0); (1 # 2, - 1 # 2, 0, - 1 # 2, 0); (2, 1, 0, 1, 0); (2, 1, 0, 1, 0);
    (1 # 18, - 1 # 9, 1 # 18, 0, 0); (1 # 8, - 1 # 4, 1 # 8, - 3 # 8, - 1 # 8); (1 # 4, - 1 # 2, 1 # 4, - 3 # 4, - 1 # 4);
    (6 # 20, - 1 # 20, - 5 # 20, 1, 0); (1 # 3, - 1 # 18, - 5 # 18, 5 # 6, 1 # 6); (1 # 3, - 1 # 2, - 3 # 4, 1 # 4, 3 # 4);
    (3, 3, 1, 2, -1)]%Q (map snd settling).
Definition planned (x : plan * (Q * list (Q * nat))) : bool :=
  let '(v, (w, l)) := x in let '(al, be, ga, a, b) := v in
  Qeq_bool w (al - be + ga) && Qle_bool (1 # 1000) w &&
  forallb (fun p => Qle_bool (1 # 1000) (fst p) && let '(x, y, z) := slope v (fst p) in halving x y z (snd p)) l.
Lemma plans_good : forallb planned plans = true.
Proof. vm_compute. reflexivity. Qed.
