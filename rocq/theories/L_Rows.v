(** The row sums of the shipped tableaux, checked by computation. *)
From Coq Require Import String.
From Coq Require Import List Reals QArith Qreals Lra Lia Bool.
From Verif Require Import Base Ext M_Tableau M_Tableaux SpecRK SpecShape SpecTree SpecNodes SpecSmooth M_TableauxInit
  L_Vec L_Fields L_OrderCheck L_Order.
Import ListNotations.
Local Open Scope nat_scope.
Local Open Scope R_scope.
Local Open Scope list_scope.

Definition row_error (x : shipped) (i : nat) : expr :=
  Sub (nth i (s_c x) (Lit 0)) (fold_right Add (Lit 0) (nth i (s_A x) [])).
Definition check_row (x : shipped) (nu : Q) (i : nat) : bool :=
  if Qle_bool nu 0 then is_zero (row_error x i)
  else match evalB (row_error x i) with Some b => bsmall b nu | None => false end.
Definition check_rows (q : shipped * Q) : bool :=
  Qle_bool 0 (snd q) && forallb (check_row (fst q) (snd q)) (seq 0 (length (s_b (fst q)))).

Lemma rows_checked : forallb check_rows node_precision = true.
Proof. vm_compute; reflexivity. Qed.

Lemma evalR_row l : evalR (fold_right Add (Lit 0) l) = fold_right Rplus 0 (map evalR l).
Proof. induction l as [|y l IH]; cbn [fold_right map evalR]; [apply RMicromega.Q2R_0|rewrite IH; reflexivity]. Qed.

Lemma check_row_sound x nu i : (0 <= nu)%Q -> check_row x nu i = true -> Rabs (evalR (row_error x i)) <= Q2R nu.
Proof.
  intros Hnu; unfold check_row; destruct (Qle_bool nu 0) eqn:E.
  - intros H; rewrite (is_zero_sound _ H), Rabs_R0; apply Qle_Rle in Hnu; rewrite RMicromega.Q2R_0 in Hnu; exact Hnu.
  - destruct (evalB (row_error x i)) as [b|] eqn:Eb; [|discriminate]; intros H.
    eapply bsmall_sound; [apply evalB_sound, Eb|exact H].
Qed.

Lemma shipped_rows x e eh nu bt ws : In (x, (e, eh)) precision -> In (x, nu) node_precision ->
  shipped_init x = Ok (bt, ws) ->
  0 <= Q2R nu /\ row_conditions (t_stages bt) (entry (t_A bt)) (fun i => vnth i (t_c bt)) (Q2R nu).
Proof.
  intros H Hn Hi.
  pose proof rows_checked as G; rewrite forallb_forall in G; specialize (G _ Hn); unfold check_rows in G; cbn [fst snd] in G.
  apply andb_true_iff in G as [Hnu G]; apply Qle_bool_iff in Hnu; rewrite forallb_forall in G.
  destruct (precision_sound _ _ _ H) as (wt & wth & HC); destruct (check_sound x e eh wt wth HC)
    as (bt' & E & W & I & Hs & EA & Eb & Ec & _).
  rewrite Hi in E; injection E as <- _.
  split; [apply Qle_Rle in Hnu; rewrite RMicromega.Q2R_0 in Hnu; exact Hnu|].
  assert (Ls : t_stages bt = length (s_b x)) by (rewrite <- (tw_b _ W), Eb, map_length; reflexivity).
  assert (Lc : length (s_c x) = length (s_b x)) by (rewrite <- Ls, <- (tw_c _ W), Ec, map_length; reflexivity).
  intros i Hii; rewrite Ls in Hii.
  pose proof (check_row_sound x nu i Hnu (G i ltac:(apply in_seq; lia))) as K.
  unfold row_error in K; cbn [evalR] in K; rewrite evalR_row, <- rsum_fold, map_length in K.
  replace (vnth i (t_c bt)) with (evalR (nth i (s_c x) (Lit 0))).
  2:{ rewrite Ec; unfold vnth; erewrite (nth_indep (map evalR (s_c x))) by (rewrite map_length, Lc; exact Hii).
      rewrite map_nth; reflexivity. }
  assert (Lr : length (nth i (s_A x) []) = t_stages bt).
  { pose proof (tw_rows _ W) as F; rewrite Forall_forall in F.
    assert (J : In (map evalR (nth i (s_A x) [])) (t_A bt)).
    { rewrite EA; apply in_map, nth_In; rewrite <- (map_length (map evalR) (s_A x)), <- EA, (tw_A _ W); lia. }
    specialize (F _ J); rewrite map_length in F; exact F. }
  rewrite Lr in K; rewrite (rsum_ext _ (entry (t_A bt) i) (fun j => vnth j (map evalR (nth i (s_A x) [])))); [exact K|].
  intros j _; rewrite EA; unfold entry; change (@nil R) with (map evalR []); rewrite map_nth; reflexivity.
Qed.
