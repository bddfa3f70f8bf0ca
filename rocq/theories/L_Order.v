(** The order conditions of the shipped tableaux, checked by exact computation,
    and their consequence for polynomial right hand sides. *)
From Coq Require Import String.
From Coq Require Import List Reals QArith Qreals Lra Lia Bool.
From Verif Require Import Base Ext M_Tableau M_State M_ODE M_Step M_Tableaux SpecRK SpecShape SpecTree SpecOrder M_TableauxInit
  L_Vec L_Step L_Deriv L_Tableau L_StepProps L_Fields L_OrderCheck.
Import ListNotations.
Local Open Scope nat_scope.
Local Open Scope R_scope.
Local Open Scope list_scope.

(** ** Trees *)
Section Tree_ind.
Variable P : tree -> Prop.
Hypothesis H : forall ts, Forall P ts -> P (Node ts).
Fixpoint tree_ind2 (t : tree) : P t :=
  match t with
  | Node ts =>
      H ts ((fix go (l : list tree) : Forall P l :=
               match l with
               | [] => Forall_nil P
               | u :: l' => Forall_cons u (tree_ind2 u) (go l')
               end) ts)
  end.
End Tree_ind.

(** Number of nodes of a list of trees. *)
Definition forest_order (ts : list tree) : nat := fold_right (fun u n => (order u + n)%nat) 0%nat ts.
Lemma order_node ts : order (Node ts) = S (forest_order ts).
Proof. reflexivity. Qed.

Lemma density_node ts : density (Node ts) = INR (S (forest_order ts)) * fold_right (fun u x => density u * x) 1 ts.
Proof. reflexivity. Qed.

Lemma densityQ_sound : forall t, Q2R (densityQ t) = density t.
Proof.
  apply tree_ind2; intros ts F.
  change (densityQ (Node ts)) with (inject_Z (Z.of_nat (order (Node ts))) * fold_right (fun u x => densityQ u * x) 1 ts)%Q.
  change (density (Node ts)) with (INR (order (Node ts)) * fold_right (fun u x => density u * x) 1 ts).
  rewrite Q2R_mult; unfold inject_Z; rewrite Q2R_int, <- INR_IZR_INZ; f_equal.
  induction F as [|u us Hu F IH]; cbn [fold_right].
  - change 1%Q with (1 # 1)%Q; rewrite Q2R_int; reflexivity.
  - rewrite Q2R_mult, Hu, IH; reflexivity.
Qed.

Lemma forest_density_pos ts : Forall (fun t => 0 < density t) ts -> 0 < fold_right (fun u x => density u * x) 1 ts.
Proof. induction 1; cbn [fold_right]; [lra|apply Rmult_lt_0_compat; assumption]. Qed.
Lemma density_pos : forall t, 0 < density t.
Proof.
  apply tree_ind2; intros ts F; rewrite density_node.
  apply Rmult_lt_0_compat; [apply lt_0_INR; lia|apply forest_density_pos, F].
Qed.

Lemma Q2R_inv_pos q x : Q2R q = x -> 0 < x -> Q2R (/ q) = / x.
Proof.
  intros E P; rewrite Q2R_inv; [rewrite E; reflexivity|].
  intros Z; apply Qeq_eqR in Z; rewrite E, Q2R_0 in Z; lra.
Qed.

Lemma stage_weight_node s a ts i : stage_weight s a (Node ts) i
  = fold_right (fun u x => rsum s (fun j => a i j * stage_weight s a u j) * x) 1 ts.
Proof. reflexivity. Qed.

(** ** What the checks mean, for any number representation *)
Section Sound.
Context {K : Type} (zero one : K) (add mul : K -> K -> K) (near far : K -> Q -> Q -> bool).
Context (rel : K -> R -> Prop).
Hypothesis rel_zero : rel zero 0.
Hypothesis rel_one : rel one 1.
Hypothesis rel_add : forall k l x y, rel k x -> rel l y -> rel (add k l) (x + y).
Hypothesis rel_mul : forall k l x y, rel k x -> rel l y -> rel (mul k l) (x * y).
Hypothesis near_sound : forall k x q e, rel k x -> near k q e = true -> Rabs (x - Q2R q) <= Q2R e.
Hypothesis far_sound : forall k x q e, rel k x -> far k q e = true -> Q2R e <= Rabs (x - Q2R q).

Notation kdot := (kdot zero add mul).
Notation kapply := (kapply zero add mul).
Notation kprod := (kprod mul).
Notation kones := (kones one).
Notation table := (table zero one add mul).
Notation kweights := (kweights zero one add mul).

(** A list of numbers represents a vector of reals. *)
Definition reps (s : nat) (v : list K) (f : nat -> R) : Prop :=
  length v = s /\ forall i, (i < s)%nat -> rel (nth i v zero) (f i).

Lemma reps_cons s k v f : reps (S s) (k :: v) f -> rel k (f 0%nat) /\ reps s v (fun i => f (S i)).
Proof.
  intros [L H]; split; [apply (H 0%nat); lia|split; [cbn in L; lia|]].
  intros i Hi; apply (H (S i)); lia.
Qed.

Lemma kdot_sound s : forall r w f g, reps s r f -> reps s w g -> rel (kdot r w) (rsum s (fun j => f j * g j)).
Proof.
  induction s as [|s IH]; intros r w f g Hr Hw.
  - destruct Hr as [L _]; destruct r; [exact rel_zero|discriminate].
  - destruct r as [|x r]; [destruct Hr; discriminate|]; destruct w as [|y w]; [destruct Hw; discriminate|].
    apply reps_cons in Hr; apply reps_cons in Hw; destruct Hr, Hw.
    rewrite rsum_S_first; cbn [L_OrderCheck.kdot].
    apply rel_add; [apply rel_mul; assumption|].
    apply (IH r w (fun j => f (S j)) (fun j => g (S j))); assumption.
Qed.

Variable s : nat.
Variable A : list (list K).
Variable a : nat -> nat -> R.
Hypothesis HA : length A = s.
Hypothesis Ha : forall i, (i < s)%nat -> reps s (nth i A []) (a i).

Lemma kapply_sound w g : reps s w g -> reps s (kapply A w) (fun i => rsum s (fun j => a i j * g j)).
Proof.
  intros Hw; split; [unfold L_OrderCheck.kapply; rewrite map_length; exact HA|].
  intros i Hi; unfold L_OrderCheck.kapply.
  erewrite nth_indep by (rewrite map_length; rewrite HA; exact Hi).
  rewrite (map_nth (fun r => kdot r w) A []); apply kdot_sound; auto.
Qed.
Lemma kprod_sound n : forall v w f g, reps n v f -> reps n w g -> reps n (kprod v w) (fun i => f i * g i).
Proof.
  induction n as [|n IH]; intros v w f g Hv Hw.
  - destruct Hv as [L _]; destruct v; [|discriminate]; split; [reflexivity|intros; lia].
  - destruct v as [|x v]; [destruct Hv; discriminate|]; destruct w as [|y w]; [destruct Hw; discriminate|].
    apply reps_cons in Hv; apply reps_cons in Hw; destruct Hv as [V1 V2], Hw as [W1 W2].
    destruct (IH v w (fun i => f (S i)) (fun i => g (S i)) V2 W2) as [L H].
    split; [cbn; f_equal; exact L|]; intros [|i] Hi; cbn [L_OrderCheck.kprod nth]; [apply rel_mul; assumption|].
    apply H; lia.
Qed.
Lemma kones_sound : reps s (kones A) (fun _ => 1).
Proof.
  unfold L_OrderCheck.kones; split; [rewrite map_length; exact HA|]; intros i Hi.
  erewrite nth_indep by (rewrite map_length; rewrite HA; exact Hi).
  rewrite (map_nth (fun _ => one) A []); exact rel_one.
Qed.

Lemma kweights_sound t : reps s (kweights A t) (stage_weight s a t).
Proof.
  pattern t; apply tree_ind2; clear t; intros ts F; cbn [L_OrderCheck.kweights].
  change (stage_weight s a (Node ts)) with (fun i => fold_right (fun u x => rsum s (fun j => a i j * stage_weight s a u j) * x) 1 ts).
  induction F as [|u us Hu F IH]; cbn [fold_right]; [apply kones_sound|].
  apply (kprod_sound s _ _ (fun i => rsum s (fun j => a i j * stage_weight s a u j)) _); [apply kapply_sound, Hu|exact IH].
Qed.

(** The entry of the table belonging to a forest. *)
Definition entry_for (f : list tree) (q : list K * Q) : Prop :=
  reps s (fst q) (stage_weight s a (Node f)) /\ Q2R (snd q) = fold_right (fun u x => density u * x) 1 f.

Lemma nth_app_last {X} (l : list X) x d n : length l = n -> nth n (l ++ [x]) d = x.
Proof. intros <-; rewrite app_nth2, Nat.sub_diag by lia; reflexivity. Qed.
Lemma table_length N : length (table A N) = S N.
Proof. induction N; cbn [L_OrderCheck.table]; [reflexivity|]; cbv zeta; rewrite app_length, IHN; cbn; lia. Qed.
Lemma table_level N n : (n <= N)%nat -> nth n (table A (S N)) [] = nth n (table A N) [].
Proof. intros H; cbn [L_OrderCheck.table]; cbv zeta; apply app_nth1; rewrite table_length; lia. Qed.

Lemma extend_sound f q : entry_for f q ->
  reps s (fst (extend zero add mul A q)) (fun i => rsum s (fun j => a i j * stage_weight s a (Node f) j)).
Proof. intros [H _]; apply kapply_sound, H. Qed.

Lemma table_sound : forall N f, (forest_order f <= N)%nat ->
  exists q, In (extend zero add mul A q) (nth (forest_order f) (table A N) []) /\ entry_for f q.
Proof.
  induction N as [|N IH]; intros f Hf.
  - destruct f as [|[ts] us]; [|cbn in Hf; lia].
    exists (kones A, 1%Q); split; [left; reflexivity|]; split; [apply kones_sound|].
    change 1%Q with (1 # 1)%Q; cbn [snd]; rewrite Q2R_int; reflexivity.
  - destruct (Nat.eq_dec (forest_order f) (S N)) as [E|E].
    2:{ destruct (IH f ltac:(lia)) as (q & Hq & He); exists q; split; [|exact He].
        rewrite table_level by lia; exact Hq. }
    destruct f as [|[ts] us]; [discriminate|].
    change (forest_order (Node ts :: us)) with (S (forest_order ts) + forest_order us)%nat in *.
    rewrite E; cbn [L_OrderCheck.table]; cbv zeta.
    rewrite nth_app_last by apply table_length.
    destruct (IH ts ltac:(lia)) as (q & Hq & Hq1 & Hq2).
    destruct (IH us ltac:(lia)) as (q' & Hq' & Hq1' & Hq2').
    exists (kprod (kapply A (fst q)) (fst q'), (dens (forest_order ts) (snd q) * snd q')%Q); split.
    + apply in_map; unfold next; apply in_flat_map; exists (forest_order ts); split; [apply in_seq; lia|].
      apply in_flat_map; exists (extend zero add mul A q); split; [exact Hq|].
      apply in_map_iff; exists (extend zero add mul A q'); split; [reflexivity|].
      replace (N - forest_order ts)%nat with (forest_order us) by lia; exact Hq'.
    + split; cbn [fst snd].
      * apply (kprod_sound s _ _ (fun i => rsum s (fun j => a i j * stage_weight s a (Node ts) j)) _); [|exact Hq1'].
        apply kapply_sound, Hq1.
      * unfold dens; rewrite !Q2R_mult, Hq2, Hq2'; unfold inject_Z; rewrite Q2R_int, <- INR_IZR_INZ.
        cbn [fold_right]; rewrite density_node; reflexivity.
Qed.

Variable b c : list K.
Variable b' c' : nat -> R.
Hypothesis Hb : reps s b b'.
Hypothesis Hc : reps s c c'.

Lemma kpow_sound k x n : rel k x -> rel (kpow one mul k n) (x ^ n).
Proof. intros H; induction n; cbn [kpow pow]; [exact rel_one|apply rel_mul; assumption]. Qed.

Lemma conditions_sound p e t : conditions zero one add mul near far A b c p e t = true ->
  order_conditions s a b' p (Q2R e) /\
  (exists t', order t' = S p /\ Q2R sharp_bound <= Rabs (defect s a b' t')) /\
  quadrature_conditions s b' c' p (Q2R e).
Proof.
  unfold conditions; cbv zeta; intros H; repeat rewrite andb_true_iff in H; destruct H as [[[Ho Hq] Ht] Hs].
  split; [|split].
  - intros [f] Hf; rewrite order_node in Hf.
    destruct (table_sound (p - 1) f ltac:(lia)) as (q & Hi & He1 & He2).
    rewrite forallb_forall in Ho; specialize (Ho (forest_order f) ltac:(apply in_seq; lia)).
    rewrite forallb_forall in Ho; specialize (Ho _ Hi); cbn [extend fst snd] in Ho.
    unfold defect.
    replace (/ density (Node f)) with (Q2R (/ dens (forest_order f) (snd q))).
    + eapply near_sound; [|exact Ho]; apply kdot_sound; assumption.
    + apply Q2R_inv_pos; [|apply density_pos].
      rewrite density_node; unfold dens; rewrite Q2R_mult, He2; unfold inject_Z; rewrite Q2R_int, <- INR_IZR_INZ; reflexivity.
  - exists t; apply Nat.eqb_eq in Ht; split; [exact Ht|].
    unfold defect; rewrite <- (Q2R_inv_pos _ _ (densityQ_sound t) (density_pos t)).
    eapply far_sound; [|exact Hs]; apply kdot_sound; [exact Hb|apply kweights_sound].
  - intros k Hk; rewrite forallb_forall in Hq; specialize (Hq k ltac:(apply in_seq; lia)).
    replace (/ INR (S k)) with (Q2R (1 # Pos.of_nat (S k))).
    + eapply near_sound; [|exact Hq]; apply kdot_sound; [exact Hb|].
      destruct Hc as [L H]; split; [rewrite map_length; exact L|]; intros i Hi.
      erewrite nth_indep by (rewrite map_length, L; exact Hi); rewrite (map_nth (fun x => kpow one mul x k) c zero).
      apply kpow_sound, H, Hi.
    + unfold Q2R; cbn [Qnum Qden]; rewrite INR_IZR_INZ, Rmult_1_l; f_equal; f_equal.
      rewrite <- (Nat2Pos.id (S k)) at 2 by lia; symmetry; apply positive_nat_Z.
Qed.
End Sound.

(** ** The two representations *)
Lemma toR_0 : toR f0 = 0.
Proof. unfold f0; rewrite toR_ofQ; apply Q2R_0. Qed.
Definition frel (k : fld) (x : R) : Prop := toR k = x.

Lemma exact_sound s A a b c b' c' p e t :
  length A = s -> (forall i, (i < s)%nat -> reps f0 frel s (nth i A []) (a i)) ->
  reps f0 frel s b b' -> reps f0 frel s c c' ->
  conditions f0 f1 fadd fmul fnear ffar A b c p e t = true ->
  order_conditions s a b' p (Q2R e) /\
  (exists t', order t' = S p /\ Q2R sharp_bound <= Rabs (defect s a b' t')) /\
  quadrature_conditions s b' c' p (Q2R e).
Proof.
  unfold frel; intros HA Ha Hb Hc H.
  apply (conditions_sound f0 f1 fadd fmul fnear ffar (fun k x => toR k = x)) with (A := A) (b := b) (c := c) (t := t); auto.
  - apply toR_0.
  - apply toR_1.
  - intros k l x y <- <-; apply toR_add.
  - intros k l x y <- <-; apply toR_mul.
  - intros k x q e' <- G; apply fsmall_sound in G; rewrite toR_sub, toR_ofQ in G; exact G.
  - intros k x q e' <- G; apply flarge_sound in G; rewrite toR_sub, toR_ofQ in G; exact G.
Qed.

Lemma minus_lit q : contains (qfloor (- q), 1%Z) (- Q2R q).
Proof.
  rewrite <- Q2R_opp; unfold contains; cbn [fst snd]; pose proof (qfloor_bounds (- q)); apply Rabs_le; lra.
Qed.

Lemma rounded_sound s A a b c b' c' p e t :
  length A = s -> (forall i, (i < s)%nat -> reps b0 contains s (nth i A []) (a i)) ->
  reps b0 contains s b b' -> reps b0 contains s c c' ->
  conditions b0 bone badd bmul bnear bfar A b c p e t = true ->
  order_conditions s a b' p (Q2R e) /\
  (exists t', order t' = S p /\ Q2R sharp_bound <= Rabs (defect s a b' t')) /\
  quadrature_conditions s b' c' p (Q2R e).
Proof.
  intros HA Ha Hb Hc H.
  apply (conditions_sound b0 bone badd bmul bnear bfar contains) with (A := A) (b := b) (c := c) (t := t); auto.
  - apply contains_0; reflexivity.
  - apply b1_sound.
  - intros; apply badd_sound; assumption.
  - intros; apply bmul_sound; assumption.
  - intros k x q e' Hk G; eapply bsmall_sound; [apply badd_sound; [exact Hk|apply minus_lit]|exact G].
  - intros k x q e' Hk G; eapply blarge_sound; [apply badd_sound; [exact Hk|apply minus_lit]|exact G].
Qed.

Lemma omap_vec {K} (ev : expr -> option K) (zero : K) (rel : K -> R -> Prop) :
  (forall x k, ev x = Some k -> rel k (evalR x)) ->
  forall l v, omap ev l = Some v -> reps zero rel (length l) v (fun i => vnth i (map evalR l)).
Proof.
  intros Hev; induction l as [|x l IH]; cbn [omap]; intros v H.
  - injection H as <-; split; [reflexivity|cbn; intros; lia].
  - destruct (ev x) as [k|] eqn:E; [|discriminate]; cbn [obind] in H.
    destruct (omap ev l) as [v'|]; [|discriminate]; cbn [obind] in H; injection H as <-.
    destruct (IH v' eq_refl) as [L G]; split; [cbn; congruence|].
    intros [|i] Hi; [exact (Hev _ _ E)|]; apply (G i); cbn in Hi; lia.
Qed.
Lemma omap_mat {K} (ev : expr -> option K) : forall l v, omap (omap ev) l = Some v ->
  length v = length l /\ forall i, (i < length l)%nat -> omap ev (nth i l []) = Some (nth i v []).
Proof.
  induction l as [|x l IH]; cbn [omap]; intros v H.
  - injection H as <-; split; [reflexivity|cbn; intros; lia].
  - destruct (omap ev x) as [k|] eqn:E; [|discriminate]; cbn [obind] in H.
    destruct (omap (omap ev) l) as [v'|]; [|discriminate]; cbn [obind] in H; injection H as <-.
    destruct (IH v' eq_refl) as [L G]; split; [cbn; congruence|].
    intros [|i] Hi; [exact E|]; apply (G i); cbn in Hi; lia.
Qed.

Lemma reps_map s (f : fld -> fld) v g : (forall x, toR (f x) = toR x) -> reps f0 frel s v g -> reps f0 frel s (map f v) g.
Proof.
  intros Hf [L H]; split; [rewrite map_length; exact L|]; intros i Hi; unfold frel.
  erewrite nth_indep by (rewrite map_length, L; exact Hi); rewrite map_nth, Hf; apply H, Hi.
Qed.

Definition mat_of (A : list (list expr)) : nat -> nat -> R := entry (map (map evalR) A).
Definition vec_of (b : list expr) : nat -> R := fun i => vnth i (map evalR b).

Lemma mat_of_row A i j : mat_of A i j = vec_of (nth i A []) j.
Proof. unfold mat_of, vec_of, entry; change (@nil R) with (map evalR []); rewrite map_nth; reflexivity. Qed.

Lemma check_weights_sound s A b c p e t :
  length A = s -> (forall i, (i < s)%nat -> length (nth i A []) = s) -> length b = s -> length c = s ->
  check_weights A b c p e t = true ->
  order_conditions s (mat_of A) (vec_of b) p (Q2R e) /\
  (exists t', order t' = S p /\ Q2R sharp_bound <= Rabs (defect s (mat_of A) (vec_of b) t')) /\
  quadrature_conditions s (vec_of b) (vec_of c) p (Q2R e).
Proof.
  intros LA LR Lb Lc H; unfold check_weights in H; destruct (Qle_bool e 0).
  - destruct (omap (omap evalF) A) as [A'|] eqn:EA; [|discriminate].
    destruct (omap evalF b) as [b'|] eqn:Eb; [|discriminate].
    destruct (omap evalF c) as [c'|] eqn:Ec; [|discriminate].
    assert (EV : forall x k, evalF x = Some k -> frel k (evalR x)) by (intros x k G; symmetry; apply evalF_sound, G).
    apply (omap_vec evalF f0 frel EV) in Eb; apply (omap_vec evalF f0 frel EV) in Ec.
    rewrite Lb in Eb; rewrite Lc in Ec.
    destruct (omap_mat _ _ _ EA) as [L G].
    apply (exact_sound s (rescale_mat A') (mat_of A) (rescale_vec b') (rescale_vec c') _ _ p e t); [| | | |exact H].
    + unfold rescale_mat; rewrite map_length; congruence.
    + intros i Hi; unfold rescale_mat; cbv zeta.
      change (@nil fld) with (map (frescale (common (concat A'))) []); rewrite map_nth.
      apply reps_map; [intros; apply frescale_sound|].
      specialize (G i ltac:(lia)); apply (omap_vec evalF f0 frel EV) in G; rewrite (LR i Hi) in G.
      destruct G as [G1 G2]; split; [exact G1|]; intros j Hj; rewrite mat_of_row; apply G2, Hj.
    + apply reps_map; [intros; apply frescale_sound|exact Eb].
    + apply reps_map; [intros; apply frescale_sound|exact Ec].
  - destruct (omap (omap evalB) A) as [A'|] eqn:EA; [|discriminate].
    destruct (omap evalB b) as [b'|] eqn:Eb; [|discriminate].
    destruct (omap evalB c) as [c'|] eqn:Ec; [|discriminate].
    apply (omap_vec evalB b0 contains evalB_sound) in Eb; apply (omap_vec evalB b0 contains evalB_sound) in Ec.
    rewrite Lb in Eb; rewrite Lc in Ec.
    destruct (omap_mat _ _ _ EA) as [L G].
    apply (rounded_sound s A' (mat_of A) b' c' _ _ p e t); [congruence| |exact Eb|exact Ec|exact H].
    intros i Hi; specialize (G i ltac:(lia)); apply (omap_vec evalB b0 contains evalB_sound) in G; rewrite (LR i Hi) in G.
    destruct G as [G1 G2]; split; [exact G1|]; intros j Hj; rewrite mat_of_row; apply G2, Hj.
Qed.

(** ** Construction *)
Lemma no_warning_left (ws : list tableau_warning) :
  ~ In WeightsDoNotSum ws -> ~ In RowSumsDiffer ws -> ws = [].
Proof. destruct ws as [|[] ws]; intros H1 H2; [reflexivity|exfalso; apply H1|exfalso; apply H2]; left; reflexivity. Qed.

Lemma is_zero_sound x : is_zero x = true -> evalR x = 0.
Proof.
  unfold is_zero; destruct (evalF x) as [k|] eqn:E; [|discriminate]; intros H.
  rewrite (evalF_sound _ _ E), (feqb_toR _ _ H); apply toR_0.
Qed.
Lemma toR_fold r : toR (fold_right fadd f0 r) = fold_right Rplus 0 (map toR r).
Proof. induction r; cbn [fold_right map]; [apply toR_0|rewrite toR_add, IHr; reflexivity]. Qed.
Lemma rsum_fold l : rsum (length l) (fun i => vnth i l) = fold_right Rplus 0 l.
Proof.
  induction l as [|x l IH]; [reflexivity|]; cbn [length fold_right]; rewrite rsum_S_first, <- IH; reflexivity.
Qed.

Lemma shape_init x : check_shape x = true ->
  order_conditions (length (s_b x)) (mat_of (s_A x)) (vec_of (s_b x)) (s_p x) (1 / 100000) ->
  let A0 := {| mrows := length (s_A x); mcols := length (nth 0 (s_A x) []); mdata := map (map evalR) (s_A x) |} in
  exists t, tableau_init A0 (map evalR (s_b x)) (Some (map evalR (s_c x))) (Some (s_p x)) (s_name x) = Ok (t, []) /\
    tableau_wf t /\ is_implicit t = false /\ t_stages t = length (s_b x) /\
    t_A t = map (map evalR) (s_A x) /\ t_b t = map evalR (s_b x) /\ t_c t = map evalR (s_c x) /\
    t_p t = Some (s_p x) /\ t_name t = s_name x /\ t_hat t = None /\ (0 < length (s_b x))%nat /\
    length (s_A x) = length (s_b x) /\ length (s_c x) = length (s_b x) /\
    forall i, (i < length (s_b x))%nat -> length (nth i (s_A x) []) = length (s_b x).
Proof.
  intros H HO A0; unfold check_shape in H; cbv zeta in H; set (s := length (s_b x)) in *.
  repeat rewrite andb_true_iff in H; destruct H as [[[[[[Hs LA] LR] Lc] Hp] Hr] Hu].
  apply Nat.ltb_lt in Hs; apply Nat.eqb_eq in LA; apply Nat.eqb_eq in Lc; apply Nat.ltb_lt in Hp.
  rewrite forallb_forall in LR.
  assert (LR' : forall i, (i < s)%nat -> length (nth i (s_A x) []) = s).
  { intros i Hi; apply Nat.eqb_eq, LR, nth_In; lia. }
  assert (WR : Forall (fun r => length r = s) (map (map evalR) (s_A x))).
  { apply Forall_forall; intros r Hr'; apply in_map_iff in Hr'; destruct Hr' as (r' & <- & Hr').
    rewrite map_length; apply Nat.eqb_eq, LR, Hr'. }
  destruct (proj2 (tableau_init_ok A0 (map evalR (s_b x)) (Some (map evalR (s_c x))) (Some (s_p x)) (s_name x))) as [[t ws] Ht].
  { rewrite !map_length; cbn [mrows mcols A0]; rewrite (LR' 0%nat Hs), LA, Lc; repeat split; reflexivity. }
  pose proof (tableau_init_fields _ _ _ _ _ _ _ Ht) as (E1 & E2 & E3 & E4 & E5 & E6 & E7 & W1 & W2).
  cbn [mdata A0] in E1.
  assert (WF : tableau_wf t).
  { eapply tableau_init_wf; [|exact Ht]; split; cbn [mdata mrows mcols A0]; [apply map_length|].
    rewrite (LR' 0%nat Hs); exact WR. }
  rewrite map_length in E6; fold s in E6.
  exists t; split; [|split; [exact WF|split; [|repeat split; auto; congruence]]].
  - replace ws with (@nil tableau_warning) in Ht; [exact Ht|symmetry].
    apply no_warning_left.
    + intros HI; apply W1, warn_weights_spec in HI.
      specialize (HO (Node []) ltac:(cbn; lia)); unfold defect in HO.
      rewrite map_length in HI; fold s in HI.
      rewrite (rsum_ext s _ (fun i => vnth i (map evalR (s_b x)))) in HO
        by (intros i _; cbn [stage_weight fold_right]; unfold vec_of; ring).
      replace (/ density (Node [])) with 1 in HO by (cbn; lra); lra.
    + intros HI; apply W2 in HI; destruct HI as (cs & Ec & HI); injection Ec as <-.
      cbn [mdata A0] in HI.
      assert (LL : length (map (map evalR) (s_A x)) = length (map evalR (s_c x))) by (rewrite !map_length; congruence).
      pose proof (proj1 (warn_rows_spec _ _ LL) HI 0%nat ltac:(rewrite map_length; lia)) as HI'.
      apply HI'; clear HI HI'.
      destruct (omap evalF (nth 0 (s_A x) [])) as [r|] eqn:Er; [|discriminate].
      destruct (evalF (nth 0 (s_c x) (Lit 0))) as [k|] eqn:Ek; [|discriminate].
      apply feqb_toR in Hr; rewrite toR_fold in Hr; apply evalF_sound in Ek.
      assert (EV : forall x k, evalF x = Some k -> frel k (evalR x)) by (intros y l G; symmetry; apply evalF_sound, G).
      assert (Er' : map evalR (nth 0 (s_A x) []) = map toR r).
      { clear -Er; revert r Er; induction (nth 0 (s_A x) []) as [|y l IH]; cbn; intros r H; [injection H as <-; reflexivity|].
        destruct (evalF y) as [k|] eqn:E; [|discriminate]; cbn in H; destruct (omap evalF l); [|discriminate].
        injection H as <-; cbn; rewrite (evalF_sound _ _ E), (IH _ eq_refl); reflexivity. }
      replace (vnth 0 (map evalR (s_c x))) with (toR k).
      2:{ rewrite <- Ek; unfold vnth; erewrite (nth_indep (map evalR (s_c x))) by (rewrite map_length; lia); rewrite map_nth; reflexivity. }
      rewrite <- Hr, <- Er', <- rsum_fold.
      change (@nil R) with (map evalR []); rewrite map_nth; apply rsum_ext; intros j _.
      unfold entry; change (@nil R) with (map evalR []); rewrite map_nth; reflexivity.
  - destruct (is_implicit t) eqn:E; [|reflexivity].
    apply is_implicit_spec in E; exfalso; apply E; intros i j Hij; rewrite E6 in Hij.
    rewrite E1; fold (mat_of (s_A x)); rewrite mat_of_row; rewrite forallb_forall in Hu.
    specialize (Hu i ltac:(apply in_seq; lia)); rewrite forallb_forall in Hu.
    specialize (Hu j ltac:(apply in_seq; lia)); apply is_zero_sound in Hu.
    rewrite <- Hu; unfold vec_of, vnth.
    erewrite (nth_indep (map evalR _)) by (rewrite map_length, LR'; lia); rewrite map_nth; reflexivity.
Qed.

(** What the tables of butcher_tableaux.py give. *)
Definition meets_order (bt : tableau R) (b : list R) (p : nat) (e : R) : Prop :=
  order_conditions (t_stages bt) (entry (t_A bt)) (fun i => vnth i b) p e /\
  (exists t, order t = S p /\ Q2R sharp_bound <= Rabs (defect (t_stages bt) (entry (t_A bt)) (fun i => vnth i b) t)) /\
  quadrature_conditions (t_stages bt) (fun i => vnth i b) (fun i => vnth i (t_c bt)) p e.

Lemma check_sound x e eh t th : check x e eh t th = true ->
  exists bt, shipped_init x = Ok (bt, []) /\ tableau_wf bt /\ is_implicit bt = false /\
    (0 < t_stages bt)%nat /\
    t_A bt = map (map evalR) (s_A x) /\ t_b bt = map evalR (s_b x) /\ t_c bt = map evalR (s_c x) /\
    t_p bt = Some (s_p x) /\ t_name bt = s_name x /\
    meets_order bt (t_b bt) (s_p x) (Q2R e) /\
    match s_hat x with
    | None => t_hat bt = None
    | Some (bh, ph) => t_hat bt = Some (map evalR bh, Some ph) /\
                       meets_order bt (map evalR bh) ph (Q2R eh)
    end.
Proof.
  unfold check; intros H; repeat rewrite andb_true_iff in H; destruct H as [[[Hsh He] Hw] Hh].
  pose proof Hsh as G; unfold check_shape in G; cbv zeta in G.
  repeat rewrite andb_true_iff in G; destruct G as [[[[[[Hs LA] LR] Lc] _] _] _].
  apply Nat.ltb_lt in Hs; apply Nat.eqb_eq in LA; apply Nat.eqb_eq in Lc; rewrite forallb_forall in LR.
  assert (LR' : forall i, (i < length (s_b x))%nat -> length (nth i (s_A x) []) = length (s_b x)).
  { intros i Hi; apply Nat.eqb_eq, LR, nth_In; lia. }
  pose proof (check_weights_sound (length (s_b x)) (s_A x) (s_b x) (s_c x) (s_p x) e t LA LR' eq_refl Lc Hw) as (M1 & M2 & M3).
  assert (HO : order_conditions (length (s_b x)) (mat_of (s_A x)) (vec_of (s_b x)) (s_p x) (1 / 100000)).
  { intros u Hu; eapply Rle_trans; [apply M1, Hu|]; rewrite <- Qred_R1; apply Qle_Rle, Qle_bool_iff, He. }
  destruct (shape_init x Hsh HO) as (bt & Ht & W & I & Es & EA & Eb & Ec & Ep & En & Eh & _).
  assert (M : meets_order bt (t_b bt) (s_p x) (Q2R e)).
  { unfold meets_order; rewrite Es, EA, Eb, Ec; split; [exact M1|split; [exact M2|exact M3]]. }
  unfold shipped_init.
  destruct (s_hat x) as [[bh ph]|].
  - apply andb_true_iff in Hh; destruct Hh as [Lh Hh]; apply Nat.eqb_eq in Lh.
    pose proof (check_weights_sound (length (s_b x)) (s_A x) bh (s_c x) ph eh th LA LR' Lh Lc Hh) as (N1 & N2 & N3).
    unfold embedded_init; rewrite Ht; cbn [bind].
    assert (Lh' : length (map evalR bh) = length (t_b bt)) by (rewrite Eb, !map_length; exact Lh).
    rewrite Lh', Nat.eqb_refl; cbn [negb].
    eexists; split; [reflexivity|].
    destruct W as [V1 V2 V3 V4 _].
    split; [constructor; cbn [t_A t_stages t_b t_c t_hat]; auto; congruence|].
    split.
    { unfold is_implicit, is_explicit, is_diagonally_implicit, is_explicit in *; cbn [t_A t_stages] in *; exact I. }
    cbn [t_A t_b t_c t_stages t_p t_name t_hat].
    split; [lia|]; split; [exact EA|]; split; [exact Eb|]; split; [exact Ec|].
    split; [exact Ep|]; split; [exact En|]; split; [exact M|]; split; [reflexivity|].
    unfold meets_order; cbn [t_A t_b t_c t_stages t_p t_name t_hat]; rewrite Es, EA, Ec.
    split; [exact N1|split; [exact N2|exact N3]].
  - exists bt; split; [exact Ht|]; split; [exact W|]; split; [exact I|]; split; [lia|]; auto 10.
Qed.

Lemma precision_sound x e eh : In (x, (e, eh)) precision -> exists t th, check x e eh t th = true.
Proof.
  intros H; pose proof all_checked as G; rewrite forallb_forall in G.
  assert (L : length precision = length missed) by reflexivity.
  destruct (In_nth _ _ (x, (e, eh)) H) as (i & Hi & E).
  destruct (nth i missed (Node [], Node [])) as [t th] eqn:Em; exists t, th.
  apply (G ((x, (e, eh)), (t, th))).
  rewrite <- E, <- Em, <- combine_nth by exact L; apply nth_In; rewrite combine_length; lia.
Qed.

(** ** Polynomials *)
Lemma peval_rsum r x : peval r x = rsum (length r) (fun k => vnth k r * x ^ k).
Proof.
  induction r as [|a r IH]; [reflexivity|].
  cbn [peval length]; rewrite rsum_S_first, IH; unfold vnth at 1; cbn [nth pow]; rewrite Rmult_1_r; f_equal.
  rewrite <- rsum_scal; apply rsum_ext; intros k Hk; unfold vnth; cbn [nth pow]; ring.
Qed.

Fixpoint padd (u v : list R) : list R :=
  match u, v with
  | [], _ => v
  | _, [] => u
  | a :: u', b :: v' => (a + b) :: padd u' v'
  end.
Lemma peval_padd u v x : peval (padd u v) x = peval u x + peval v x.
Proof.
  revert v; induction u as [|a u IH]; intros [|b v]; cbn; try ring.
  rewrite IH; ring.
Qed.
Lemma length_padd u v : length (padd u v) = Nat.max (length u) (length v).
Proof. revert v; induction u as [|a u IH]; intros [|b v]; cbn; auto. Qed.
Lemma peval_scale t r x : peval (map (Rmult t) r) x = t * peval r x.
Proof. induction r as [|a r IH]; cbn; [ring|rewrite IH; ring]. Qed.

(** Every polynomial can be written around any point. *)
Lemma recentre q t : exists r, length r = length q /\ forall x, peval q (t + x) = peval r x.
Proof.
  induction q as [|a q (r & L & H)]; [exists []; auto|].
  exists (padd (map (Rmult t) r) (a :: r)); split.
  - rewrite length_padd, map_length; cbn [length]; lia.
  - intros x; rewrite peval_padd, peval_scale; cbn [peval]; rewrite H; ring.
Qed.

Definition pint (r : list R) (x : R) : R :=
  rsum (length r) (fun k => vnth k r * / INR (S k) * x ^ S k).

Lemma derivable_rsum n (f f' : nat -> R -> R) x :
  (forall k, (k < n)%nat -> derivable_pt_lim (f k) x (f' k x)) ->
  derivable_pt_lim (fun y => rsum n (fun k => f k y)) x (rsum n (fun k => f' k x)).
Proof.
  induction n as [|n IH]; intros H; cbn [rsum].
  - apply derivable_pt_lim_const.
  - apply (derivable_pt_lim_plus (fun y => rsum n (fun k => f k y)) (f n)); auto.
Qed.

Lemma pint_derive r x : derivable_pt_lim (pint r) x (peval r x).
Proof.
  rewrite peval_rsum; unfold pint.
  apply (derivable_rsum (length r) (fun k y => vnth k r * / INR (S k) * y ^ S k) (fun k y => vnth k r * y ^ k)).
  intros k _.
  replace (vnth k r * x ^ k) with (vnth k r * / INR (S k) * (INR (S k) * x ^ pred (S k))).
  - apply (derivable_pt_lim_scal (fun y => y ^ S k)); apply derivable_pt_lim_pow.
  - cbn [pred]; field; apply not_0_INR; lia.
Qed.
Lemma pint_0 r : pint r 0 = 0.
Proof.
  unfold pint; rewrite (rsum_ext _ _ (fun _ => 0)); [apply rsum_zero|].
  intros k _; rewrite pow_i by lia; ring.
Qed.

Lemma antiderivative_difference F q r t h :
  (forall y, derivable_pt_lim F y (peval q y)) ->
  (forall x, peval q (t + x) = peval r x) ->
  F (t + h) - F t = pint r h.
Proof.
  intros HF Hr.
  set (G := fun x => F (t + x) - pint r x).
  assert (D : forall x, derivable_pt_lim G x 0).
  { intros x; replace 0 with (peval q (t + x) * 1 - peval r x) by (rewrite Hr; ring).
    apply (derivable_pt_lim_minus (fun x => F (t + x)) (pint r)); [|apply pint_derive].
    apply (derivable_pt_lim_comp (fun x => t + x) F); [|apply HF].
    replace 1 with (0 + 1) by ring.
    apply (derivable_pt_lim_plus (fun _ => t) (fun x => x)); [apply derivable_pt_lim_const|apply derivable_pt_lim_id]. }
  assert (DG : derivable G) by (intros x; exists 0; apply D).
  assert (C : constant G).
  { apply (null_derivative_1 G DG); intros x; apply derive_pt_eq_0, D. }
  specialize (C h 0); unfold G in C; rewrite pint_0, Rplus_0_r in C; lra.
Qed.

Lemma rsum_abs_le n f g : (forall i, (i < n)%nat -> Rabs (f i) <= g i) -> Rabs (rsum n f) <= rsum n g.
Proof.
  induction n as [|n IH]; intros H; cbn [rsum]; [rewrite Rabs_R0; lra|].
  eapply Rle_trans; [apply Rabs_triang|]; apply Rplus_le_compat; auto.
Qed.

Lemma quadrature_polynomial s b c p e r h :
  quadrature_conditions s b c p e -> (length r <= p)%nat ->
  Rabs (h * rsum s (fun i => b i * peval r (c i * h)) - pint r h) <= e * magnitude r h.
Proof.
  intros Q L; unfold magnitude, pint.
  replace (h * rsum s (fun i => b i * peval r (c i * h)) - rsum (length r) (fun k => vnth k r * / INR (S k) * h ^ S k))
    with (rsum (length r) (fun k => vnth k r * h ^ S k * (rsum s (fun i => b i * c i ^ k) - / INR (S k)))).
  - rewrite <- rsum_scal; apply rsum_abs_le; intros k Hk.
    rewrite !Rabs_mult, <- RPow_abs, Rmult_comm.
    apply Rmult_le_compat_r; [apply Rmult_le_pos; [apply Rabs_pos|apply pow_le, Rabs_pos]|].
    apply Q; lia.
  - rewrite (rsum_ext s (fun i => b i * peval r (c i * h)) (fun i => rsum (length r) (fun k => b i * (vnth k r * (c i * h) ^ k)))).
    2:{ intros i _; rewrite peval_rsum, rsum_scal; reflexivity. }
    rewrite rsum_swap, <- rsum_scal.
    assert (E : forall n f g, rsum n f - rsum n g = rsum n (fun k => f k - g k)).
    { induction n; intros; cbn [rsum]; [ring|rewrite <- IHn; ring]. }
    rewrite E; apply rsum_ext; intros k _.
    rewrite Rmult_minus_distr_l; f_equal; [|ring].
    rewrite <- !rsum_scal; apply rsum_ext; intros i _; rewrite Rpow_mult_distr; cbn [pow]; ring.
Qed.

(** One step of a method whose weights meet the quadrature conditions. *)
Lemma polynomial_step x e eh bt ws o q ni s h s' :
  In (x, (e, eh)) precision -> shipped_init x = Ok (bt, ws) ->
  result_sizes o -> solves_stage_equation o (state_size o) (polynomial_rhs (state_size o) q) ->
  shaped (t_stages bt) (state_size o) ni (independent_output_size o) (linearization_point_size o) s ->
  compute_step bt o s h = Ok s' ->
  forall m F r, (m < state_size o)%nat ->
  (forall y, derivable_pt_lim F y (peval (q m) y)) ->
  (forall y, peval (q m) (final_time s + y) = peval r y) ->
  ((length r <= s_p x)%nat ->
   Rabs (vnth m (final_state s') - (vnth m (final_state s) + (F (final_time s + h) - F (final_time s))))
     <= Q2R e * magnitude r h) /\
  (forall bh ph eb err, s_hat x = Some (bh, ph) -> embedded s' = Some (eb, err) ->
   (length r <= ph)%nat ->
   Rabs (vnth m eb - (vnth m (final_state s) + (F (final_time s + h) - F (final_time s))))
     <= Q2R eh * magnitude r h).
Proof.
  intros HI Hinit Hsz Hsol Hsh Hst m F r Hm HF Hr.
  destruct (precision_sound _ _ _ HI) as (wt & wth & HC); destruct (check_sound x e eh wt wth HC)
    as (bt' & Hinit' & W & I & Hs & _ & _ & _ & _ & _ & (_ & _ & Q) & Hh).
  rewrite Hinit in Hinit'; injection Hinit' as <- _.
  destruct (c01 bt o _ ni s h s' W Hsz I Hsol Hsh Hst) as ((Hk & Hy) & _).
  rewrite (antiderivative_difference F (q m) r (final_time s) h HF Hr).
  assert (K : forall i, (i < t_stages bt)%nat ->
    vnth m (nth i (stage_updates s') []) = peval r (vnth i (t_c bt) * h)).
  { intros i Hi; rewrite (Hk i Hi); unfold polynomial_rhs; rewrite vnth_vmake by exact Hm; apply Hr. }
  split.
  - intros Hl; rewrite Hy, vnth_vmake by exact Hm.
    rewrite (rsum_ext _ _ (fun i => vnth i (t_b bt) * peval r (vnth i (t_c bt) * h))) by (intros i Hi; rewrite K by exact Hi; reflexivity).
    match goal with |- Rabs ?a <= _ => replace a with
      (h * rsum (t_stages bt) (fun i => vnth i (t_b bt) * peval r (vnth i (t_c bt) * h)) - pint r h) by ring end.
    apply (quadrature_polynomial _ _ _ _ _ _ _ Q Hl).
  - intros bh ph eb err Eh Ee Hl; rewrite Eh in Hh; destruct Hh as [Eh' (_ & _ & Qh)].
    destruct (error_estimate_formula bt o _ ni _ _ s h s' _ _ W eq_refl eq_refl eq_refl Hsz Eh' Hsh Hst)
      as (eb' & err' & Ee' & _ & _ & Hf & _).
    rewrite Ee in Ee'; injection Ee' as <- <-; rewrite Hf.
    rewrite (rsum_ext _ _ (fun i => vnth i (map evalR bh) * peval r (vnth i (t_c bt) * h))) by (intros i Hi; rewrite K by exact Hi; reflexivity).
    match goal with |- Rabs ?a <= _ => replace a with
      (h * rsum (t_stages bt) (fun i => vnth i (map evalR bh) * peval r (vnth i (t_c bt) * h)) - pint r h) by ring end.
    apply (quadrature_polynomial _ _ _ _ _ _ _ Qh Hl).
Qed.

Lemma polynomial_step_exact x e eh bt ws o q ni s h s' :
  In (x, (e, eh)) precision -> shipped_init x = Ok (bt, ws) ->
  result_sizes o -> solves_stage_equation o (state_size o) (polynomial_rhs (state_size o) q) ->
  shaped (t_stages bt) (state_size o) ni (independent_output_size o) (linearization_point_size o) s ->
  compute_step bt o s h = Ok s' ->
  forall m F, (m < state_size o)%nat ->
  (forall y, derivable_pt_lim F y (peval (q m) y)) ->
  ((e == 0)%Q -> (length (q m) <= s_p x)%nat ->
   vnth m (final_state s') = vnth m (final_state s) + (F (final_time s + h) - F (final_time s))) /\
  (forall bh ph eb err, s_hat x = Some (bh, ph) -> embedded s' = Some (eb, err) ->
   (eh == 0)%Q -> (length (q m) <= ph)%nat ->
   vnth m eb = vnth m (final_state s) + (F (final_time s + h) - F (final_time s))).
Proof.
  intros HI Hinit Hsz Hsol Hsh Hst m F Hm HF.
  destruct (recentre (q m) (final_time s)) as (r & L & Hr).
  destruct (polynomial_step x e eh bt ws o q ni s h s' HI Hinit Hsz Hsol Hsh Hst m F r Hm HF Hr) as [A B].
  assert (Z : forall a b : R, Rabs (a - b) <= 0 -> a = b).
  { intros a b H; destruct (Req_dec (a - b) 0) as [E|E]; [lra|]; apply Rabs_pos_lt in E; lra. }
  rewrite L in *; split.
  - intros He Hl; specialize (A Hl); rewrite (Qeq_eqR _ _ He), Q2R_0, Rmult_0_l in A; apply Z, A.
  - intros bh ph eb err Eh Ee He Hl; specialize (B bh ph eb err Eh Ee Hl).
    rewrite (Qeq_eqR _ _ He), Q2R_0, Rmult_0_l in B; apply Z, B.
Qed.

Lemma shipped_complete : map fst precision = all_tableaux.
Proof. reflexivity. Qed.

Lemma shipped_constructed x e eh : In (x, (e, eh)) precision ->
  exists bt, shipped_init x = Ok (bt, []) /\ tableau_wf bt /\ (0 < t_stages bt)%nat /\
    is_implicit bt = false /\ t_p bt = Some (s_p x) /\ t_name bt = s_name x /\
    t_A bt = map (map evalR) (s_A x) /\ t_b bt = map evalR (s_b x) /\ t_c bt = map evalR (s_c x) /\
    t_hat bt = match s_hat x with None => None | Some (bh, ph) => Some (map evalR bh, Some ph) end.
Proof.
  intros H; destruct (precision_sound _ _ _ H) as (wt & wth & HC); destruct (check_sound x e eh wt wth HC)
    as (bt & E & W & I & Hs & EA & Eb & Ec & Ep & En & _ & Hh).
  exists bt; repeat (split; [assumption|]).
  destruct (s_hat x) as [[bh ph]|]; [apply Hh|exact Hh].
Qed.

Lemma shipped_meets x e eh bt ws : In (x, (e, eh)) precision -> shipped_init x = Ok (bt, ws) ->
  meets_order bt (t_b bt) (s_p x) (Q2R e) /\
  forall bh ph q, s_hat x = Some (bh, ph) -> t_hat bt = Some q -> meets_order bt (fst q) ph (Q2R eh).
Proof.
  intros H Hi; destruct (precision_sound _ _ _ H) as (wt & wth & HC); destruct (check_sound x e eh wt wth HC)
    as (bt' & E & W & I & Hs & EA & Eb & Ec & Ep & En & M & Hh).
  rewrite Hi in E; injection E as <- _; split; [exact M|].
  intros bh ph q Eh Eq; rewrite Eh in Hh; destruct Hh as [Hh M']; rewrite Eq in Hh; injection Hh as ->; exact M'.
Qed.
Lemma shipped_order x e eh bt ws : In (x, (e, eh)) precision -> shipped_init x = Ok (bt, ws) ->
  order_conditions (t_stages bt) (entry (t_A bt)) (fun i => vnth i (t_b bt)) (s_p x) (Q2R e) /\
  forall bh ph q, s_hat x = Some (bh, ph) -> t_hat bt = Some q ->
    order_conditions (t_stages bt) (entry (t_A bt)) (fun i => vnth i (fst q)) ph (Q2R eh).
Proof.
  intros H Hi; destruct (shipped_meets _ _ _ _ _ H Hi) as [M1 M2]; split; [apply M1|].
  intros bh ph q E1 E2; apply (M2 _ _ _ E1 E2).
Qed.
Lemma shipped_order_sharp x e eh bt ws : In (x, (e, eh)) precision -> shipped_init x = Ok (bt, ws) ->
  (exists t, order t = S (s_p x) /\
     1 / 1000 <= Rabs (defect (t_stages bt) (entry (t_A bt)) (fun i => vnth i (t_b bt)) t)) /\
  forall bh ph q, s_hat x = Some (bh, ph) -> t_hat bt = Some q ->
    exists t, order t = S ph /\
      1 / 1000 <= Rabs (defect (t_stages bt) (entry (t_A bt)) (fun i => vnth i (fst q)) t).
Proof.
  intros H Hi; destruct (shipped_meets _ _ _ _ _ H Hi) as [M1 M2].
  assert (E : Q2R sharp_bound = 1 / 1000) by (unfold Q2R, sharp_bound; cbn; lra).
  unfold meets_order in *; rewrite E in *; split; [apply M1|].
  intros bh ph q E1 E2; apply (M2 _ _ _ E1 E2).
Qed.

(** ** A witness: the ODE y_m' = q_m(t) *)
Definition polynomial_ode (n : nat) (q : nat -> list R) : ode R := {|
  compute_update := fun i h a =>
    let k := vmake n (fun m => peval (q m) (time i)) in
    Ok ({| stage_update := k; stage_state := k; independent_output := [] |}, []);
  compute_update_derivative := fun _ _ _ _ => Err NotImplementedError;
  compute_update_adjoint_derivative := fun _ _ _ _ => Err NotImplementedError;
  compute_state_norm := fun _ => 0;
  state_size := n; independent_input_size := 0;
  independent_output_size := 0; linearization_point_size := 0 |}.

Lemma polynomial_example x e eh n q h : In (x, (e, eh)) precision ->
  exists bt s', shipped_init x = Ok (bt, []) /\
    result_sizes (polynomial_ode n q) /\
    solves_stage_equation (polynomial_ode n q) n (polynomial_rhs n q) /\
    shaped (t_stages bt) n 0 0 0 (create_empty_discretization_state bt (polynomial_ode n q)) /\
    compute_step bt (polynomial_ode n q) (create_empty_discretization_state bt (polynomial_ode n q)) h = Ok s' /\
    (s_hat x <> None -> embedded s' <> None) /\
    forall m y, derivable_pt_lim (pint (q m)) y (peval (q m) y).
Proof.
  intros H; destruct (shipped_constructed x e eh H) as (bt & E & W & Hs & _ & _ & _ & _ & _ & _ & Eh).
  set (o := polynomial_ode n q).
  assert (Hz : result_sizes o).
  { intros inp h' a r lp G; injection G as <- <-; cbn; rewrite length_vmake; auto. }
  assert (Sh : shaped (t_stages bt) n 0 0 0 (create_empty_discretization_state bt o))
    by apply (create_empty_shaped bt o).
  destruct (compute_step_total bt o _ h n 0 0 0 W eq_refl eq_refl eq_refl Hz Sh Hs) as [s' G].
  { intros i inp _; eexists; reflexivity. }
  exists bt, s'; split; [exact E|]; split; [exact Hz|]; split; [|split; [exact Sh|split; [exact G|split]]].
  - intros inp h' a r lp _ _ J; injection J as <- <-; reflexivity.
  - intros Hn; destruct (s_hat x) as [[bh ph]|]; [|congruence].
    destruct (error_estimate_formula bt o n 0 0 0 _ h s' _ _ W eq_refl eq_refl eq_refl Hz Eh Sh G) as (eb & err & -> & _).
    discriminate.
  - intros m y; apply pint_derive.
Qed.
