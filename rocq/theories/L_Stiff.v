(** What the checks of L_StiffCheck.v mean. *)
From Coq Require Import List Bool Arith Reals Lia Lra QArith Qreals ZArith.
From Verif Require Import Base Ext M_Tableau M_Tableaux SpecRK SpecOrder SpecStage SpecStiff L_Vec L_Fields L_OrderCheck L_Order L_Stage3 L_StiffCheck.
Import ListNotations.
Open Scope nat_scope.
Open Scope R_scope.
Local Open Scope list_scope.

Fixpoint rprod (n : nat) (f : nat -> R) : R := match n with O => 1 | S n' => rprod n' f * f n' end.
Lemma rprod_pos n f : (forall i, (i < n)%nat -> 0 < f i) -> 0 < rprod n f.
Proof.
  induction n as [|n IH]; intros H; cbn [rprod]; [lra|].
  apply Rmult_lt_0_compat; [apply IH; intros; apply H; lia|apply H; lia].
Qed.

(** ** Transposed triangular systems *)
Section Dual.
Variables (s : nat) (a : nat -> nat -> R) (b : nat -> R) (z : R).
Hypothesis Hup : forall i j, (i < j < s)%nat -> a i j = 0.
Definition dual (w : nat -> R) : Prop := forall j, (j < s)%nat -> w j = b j + z * rsum s (fun i => w i * a i j).

Lemma column_sum j (w : nat -> R) : (j < s)%nat ->
  rsum s (fun i => w i * a i j) = w j * a j j + rsum (s - S j) (fun i => w (S j + i)%nat * a (S j + i)%nat j).
Proof.
  intros Hj. replace s with (S j + (s - S j))%nat at 1 by lia. rewrite rsum_app. f_equal. cbn [rsum].
  rewrite (rsum_ext j _ (fun _ => 0)), rsum_zero; [ring|]. intros i Hi. rewrite Hup by lia. ring.
Qed.
Lemma dual_exists : (forall i, (i < s)%nat -> 1 - z * a i i <> 0) -> exists w, dual w.
Proof.
  intros Hn.
  assert (G : forall m, (m <= s)%nat -> exists w, forall j, (s - m <= j < s)%nat -> w j = b j + z * rsum s (fun i => w i * a i j)).
  { induction m as [|m IH]; intros Hm; [exists (fun _ => 0); intros; lia|].
    destruct (IH ltac:(lia)) as (w & Hw). set (l := (s - S m)%nat).
    set (v := (b l + z * rsum (s - S l) (fun i => w (S l + i)%nat * a (S l + i)%nat l)) / (1 - z * a l l)).
    exists (fun j => if Nat.eqb j l then v else w j). intros j Hj.
    rewrite column_sum by lia.
    rewrite (rsum_ext (s - S j) _ (fun i => w (S j + i)%nat * a (S j + i)%nat j)).
    2:{ intros i Hi. destruct (Nat.eqb_spec (S j + i) l); [lia|reflexivity]. }
    destruct (Nat.eqb_spec j l) as [->|Ne].
    - unfold v. specialize (Hn l ltac:(lia)). field. exact Hn.
    - rewrite (Hw j) at 1 by lia. rewrite column_sum by lia. reflexivity. }
  destruct (G s ltac:(lia)) as (w & Hw). exists w. intros j Hj. apply Hw. lia.
Qed.
(** The weights applied to the solution of the system are the dual solution
    applied to the right hand side. *)
Lemma dual_pairing w u g : dual w -> (forall i, (i < s)%nat -> u i = z * rsum s (fun j => a i j * u j) + g i) ->
  rsum s (fun i => b i * u i) = rsum s (fun i => w i * g i).
Proof.
  intros Hw Hu.
  rewrite (rsum_ext s (fun i => b i * u i) (fun i => w i * u i + (- z) * rsum s (fun k => w k * a k i * u i))).
  2:{ intros i Hi. rewrite (Hw i Hi) at 1.
      rewrite (rsum_ext s (fun k => w k * a k i * u i) (fun k => u i * (w k * a k i))) by (intros; ring).
      rewrite rsum_scal. ring. }
  rewrite rsum_plus, rsum_scal, rsum_swap, <- rsum_scal, <- rsum_plus. apply rsum_ext. intros k Hk.
  rewrite (rsum_ext s (fun i => w k * a k i * u i) (fun i => w k * (a k i * u i))) by (intros; ring).
  rewrite rsum_scal. rewrite (Hu k Hk) at 1. ring.
Qed.
Lemma dual_factor w rho : dual w -> amplification s a b z rho -> rho = 1 + z * rsum s w.
Proof.
  intros Hw (g & Hg & ->). rewrite (dual_pairing w g (fun _ => 1) Hw).
  - f_equal. f_equal. apply rsum_ext. intros. ring.
  - intros i Hi. rewrite (Hg i Hi) at 1. ring.
Qed.
End Dual.

(** ** Polynomials in any number representation *)
Section Sound.
Context {K : Type} (zero one : K) (add mul : K -> K -> K) (neg : K -> K) (ofQ : Q -> K).
Context (nonneg : K -> bool) (below : K -> K -> Q -> bool).
Context (rel : K -> R -> Prop).
Hypothesis rel_zero : rel zero 0.
Hypothesis rel_one : rel one 1.
Hypothesis rel_add : forall k l x y, rel k x -> rel l y -> rel (add k l) (x + y).
Hypothesis rel_mul : forall k l x y, rel k x -> rel l y -> rel (mul k l) (x * y).
Hypothesis rel_neg : forall k x, rel k x -> rel (neg k) (- x).
Hypothesis rel_ofQ : forall q, rel (ofQ q) (Q2R q).
Hypothesis nonneg_sound : forall k x, rel k x -> nonneg k = true -> 0 <= x.
Hypothesis below_sound : forall k l x y e, rel k x -> rel l y -> 0 <= y -> 0 <= Q2R e -> below k l e = true -> Rabs x <= Q2R e * y.

Notation padd := (L_StiffCheck.padd add).
Notation pscale := (pscale mul).
Notation pneg := (pneg neg).
Notation pshift := (pshift zero).
Notation plin := (plin zero add mul).
Notation comb := (comb add mul).
Notation dominated := (dominated zero below).
Notation reps := (reps zero rel).

Variable x : R.
(** The value at [x] of a polynomial with the coefficients [p]. *)
Definition at_x (p : list K) (v : R) : Prop := exists r, Forall2 rel p r /\ peval r x = v.

Lemma at_nil : at_x [] 0.
Proof. exists []. split; [constructor|reflexivity]. Qed.
Lemma at_cons k u p v : rel k u -> at_x p v -> at_x (k :: p) (u + x * v).
Proof. intros Hk (r & F & <-). exists (u :: r). split; [now constructor|reflexivity]. Qed.
Lemma at_cons_inv k p v : at_x (k :: p) v -> exists u v', rel k u /\ at_x p v' /\ v = u + x * v'.
Proof.
  intros (r & F & <-). inversion F as [|? u ? r' Hu F' E1 E2]; subst. exists u, (peval r' x).
  split; [exact Hu|]. split; [exists r'; auto|reflexivity].
Qed.
Lemma at_nil_inv v : at_x [] v -> v = 0.
Proof. intros (r & F & <-). inversion F. reflexivity. Qed.
Lemma at_eq p v v' : at_x p v -> v = v' -> at_x p v'.
Proof. now intros H <-. Qed.
Lemma at_one : at_x [one] 1.
Proof. apply (at_eq _ (1 + x * 0)); [|ring]. apply at_cons; [exact rel_one|apply at_nil]. Qed.
Lemma at_add p : forall q u v, at_x p u -> at_x q v -> at_x (padd p q) (u + v).
Proof.
  induction p as [|k p IH]; intros q u v Hp Hq; cbn [L_StiffCheck.padd].
  - apply at_nil_inv in Hp as ->. apply (at_eq _ v); [exact Hq|ring].
  - destruct q as [|l q].
    + apply at_nil_inv in Hq as ->. apply (at_eq _ u); [exact Hp|ring].
    + apply at_cons_inv in Hp as (u0 & u1 & R1 & P1 & ->). apply at_cons_inv in Hq as (v0 & v1 & R2 & P2 & ->).
      apply (at_eq _ ((u0 + v0) + x * (u1 + v1))); [|ring]. apply at_cons; auto.
Qed.
Lemma at_scale k c p : forall v, rel k c -> at_x p v -> at_x (pscale k p) (c * v).
Proof.
  intros v Hk. revert v. induction p as [|l p IH]; intros v Hp; unfold pscale; cbn [map].
  - apply at_nil_inv in Hp as ->. apply (at_eq _ 0); [apply at_nil|ring].
  - apply at_cons_inv in Hp as (u0 & u1 & R1 & P1 & ->).
    apply (at_eq _ (c * u0 + x * (c * u1))); [|ring]. apply at_cons; [auto|]. apply IH, P1.
Qed.
Lemma at_neg p : forall v, at_x p v -> at_x (pneg p) (- v).
Proof.
  induction p as [|l p IH]; intros v Hp; unfold pneg; cbn [map].
  - apply at_nil_inv in Hp as ->. apply (at_eq _ 0); [apply at_nil|ring].
  - apply at_cons_inv in Hp as (u0 & u1 & R1 & P1 & ->).
    apply (at_eq _ (- u0 + x * (- u1))); [|ring]. apply at_cons; [auto|]. apply IH, P1.
Qed.
Lemma at_shift p v : at_x p v -> at_x (pshift p) (x * v).
Proof. intros H. apply (at_eq _ (0 + x * v)); [|ring]. now apply at_cons. Qed.
Lemma at_lin k d p v : rel k d -> at_x p v -> at_x (plin k p) ((1 + d * x) * v).
Proof.
  intros Hk H. apply (at_eq _ (v + x * (d * v))); [|ring]. apply at_add; [exact H|]. apply at_shift, at_scale; assumption.
Qed.
Lemma at_comb ps : forall cs f v, (length ps <= length cs)%nat ->
  (forall j, (j < length ps)%nat -> rel (nth j cs zero) (f j)) ->
  (forall j, (j < length ps)%nat -> at_x (nth j ps []) (v j)) ->
  at_x (comb cs ps) (rsum (length ps) (fun j => f j * v j)).
Proof.
  induction ps as [|p ps IH]; intros cs f v L Hc Hp.
  - destruct cs; cbn; apply at_nil.
  - destruct cs as [|c cs]; [cbn in L; lia|]. cbn [L_StiffCheck.comb length]. rewrite rsum_S_first.
    apply at_add.
    + apply at_scale; [apply (Hc 0%nat); cbn; lia|apply (Hp 0%nat); cbn; lia].
    + apply (IH cs (fun j => f (S j)) (fun j => v (S j))).
      * cbn in L; lia.
      * intros j Hj. apply (Hc (S j)). cbn; lia.
      * intros j Hj. apply (Hp (S j)). cbn; lia.
Qed.

Hypothesis Hx : 0 <= x.
Lemma at_nonneg p : forall v, forallb nonneg p = true -> at_x p v -> 0 <= v.
Proof.
  induction p as [|k p IH]; intros v N H.
  - apply at_nil_inv in H as ->. lra.
  - cbn [forallb] in N. apply andb_true_iff in N as (N1 & N2). apply at_cons_inv in H as (u & v' & R1 & P1 & ->).
    pose proof (nonneg_sound _ _ R1 N1). pose proof (IH _ N2 P1). assert (0 <= x * v') by (apply Rmult_le_pos; lra). lra.
Qed.
Lemma two_Q : Q2R 2 = 2. Proof. unfold Q2R; cbn; lra. Qed.
Lemma at_positive p : forall k v, 0 < x -> forallb nonneg p = true -> below one (nth k p zero) 2 = true -> at_x p v -> 0 < v.
Proof.
  induction p as [|l p IH]; intros k v X N B H.
  - destruct k; cbn [nth] in B; apply (below_sound _ _ 1 0) in B; auto; try lra; rewrite ?two_Q in *;
      try (rewrite Rabs_R1 in B; lra); lra.
  - cbn [forallb] in N. apply andb_true_iff in N as (N1 & N2). apply at_cons_inv in H as (u & v' & R1 & P1 & ->).
    pose proof (nonneg_sound _ _ R1 N1) as U. pose proof (at_nonneg _ _ N2 P1) as V.
    destruct k as [|k]; cbn [nth] in B.
    + apply (below_sound _ _ 1 u) in B; auto; [|rewrite two_Q; lra]. rewrite two_Q, Rabs_R1 in B.
      assert (0 <= x * v') by (apply Rmult_le_pos; lra). lra.
    + pose proof (IH k v' X N2 B P1). assert (0 < x * v') by (apply Rmult_lt_0_compat; lra). lra.
Qed.
Lemma at_dominated e : 0 <= Q2R e -> forall p l v y, forallb nonneg l = true -> dominated p l e = true ->
  at_x p v -> at_x l y -> Rabs v <= Q2R e * y.
Proof.
  intros He. induction p as [|k p IH]; intros l v y N D P L.
  - apply at_nil_inv in P as ->. rewrite Rabs_R0. apply Rmult_le_pos; [exact He|]. eapply at_nonneg; eauto.
  - apply at_cons_inv in P as (u & v' & R1 & P1 & ->). destruct l as [|m l]; cbn [L_StiffCheck.dominated] in D; apply andb_true_iff in D as (D1 & D2).
    + apply at_nil_inv in L as ->.
      pose proof (IH [] v' 0 eq_refl D2 P1 at_nil) as I. pose proof (below_sound _ _ _ _ _ R1 rel_zero (Rle_refl 0) He D1) as B.
      eapply Rle_trans; [apply Rabs_triang|]. rewrite Rabs_mult, (Rabs_right x) by lra.
      assert (x * Rabs v' <= x * (Q2R e * 0)) by (apply Rmult_le_compat_l; lra). lra.
    + cbn [forallb] in N. apply andb_true_iff in N as (N1 & N2). apply at_cons_inv in L as (m0 & y' & R2 & L1 & ->).
      pose proof (IH l v' y' N2 D2 P1 L1) as I. pose proof (below_sound _ _ _ _ _ R1 R2 (nonneg_sound _ _ R2 N1) He D1) as B.
      eapply Rle_trans; [apply Rabs_triang|]. rewrite Rabs_mult, (Rabs_right x) by lra.
      assert (x * Rabs v' <= x * (Q2R e * y')) by (apply Rmult_le_compat_l; lra). lra.
Qed.

(** ** The two sweeps *)
Variables (s : nat) (A : list (list K)) (B C : list K) (a : nat -> nat -> R) (b c : nat -> R).
Hypothesis HA : length A = s.
Hypothesis Ha : forall i, (i < s)%nat -> reps s (nth i A []) (a i).
Hypothesis HB : reps s B b.
Hypothesis HC : reps s C c.
Hypothesis Hup : forall i j, (i < j < s)%nat -> a i j = 0.
Hypothesis Hpos : (0 < s)%nat.
Notation den n := (rprod n (fun l => 1 + a l l * x)).

Lemma forward_sound g : (forall i, (i < s)%nat -> g i = 1 + (- x) * rsum s (fun j => a i j * g j)) ->
  forall n rows i pre ms, (i + n = s)%nat -> length rows = n -> (forall l, (l < n)%nat -> nth l rows [] = nth (i + l) A []) ->
  length ms = i -> at_x pre (den i) -> (forall j, (j < i)%nat -> at_x (nth j ms []) (g j * den i)) ->
  let r := forward zero add mul neg rows i pre ms in
  at_x (fst r) (den s) /\ length (snd r) = s /\ forall j, (j < s)%nat -> at_x (nth j (snd r) []) (g j * den s).
Proof.
  intros Hg. induction n as [|n IH]; intros rows i pre ms Hn Lr Hr Lm Hp Hm.
  - destruct rows; [|discriminate]. cbn [forward fst snd]. replace s with i by lia. auto.
  - destruct rows as [|r rows]; [discriminate|]. cbn [forward]. cbv zeta.
    pose proof (Hr 0%nat ltac:(lia)) as E. cbn [nth] in E. rewrite Nat.add_0_r in E.
    destruct (Ha i ltac:(lia)) as (Li & Hi). rewrite <- E in Li, Hi.
    apply IH.
    + lia.
    + cbn in Lr; lia.
    + intros l Hl. replace (S i + l)%nat with (i + S l)%nat by lia. rewrite <- (Hr (S l)) by lia. reflexivity.
    + rewrite app_length, map_length. cbn. lia.
    + cbn [rprod]. apply (at_eq _ ((1 + a i i * x) * den i)); [|ring]. apply at_lin; [apply Hi; lia|exact Hp].
    + intros j Hj. cbn [rprod]. destruct (Nat.eq_dec j i) as [->|Ne].
      * rewrite app_nth2 by (rewrite map_length; lia). rewrite map_length, Lm, Nat.sub_diag. cbn [nth].
        apply (at_eq _ (den i + x * - (rsum (length ms) (fun j => a i j * (g j * den i))))).
        { apply at_add; [exact Hp|]. apply at_shift, at_neg.
          apply (at_comb ms r (a i) (fun j => g j * den i)); [lia| |].
          - intros j' Hj'. apply Hi. lia.
          - intros j' Hj'. apply Hm. lia. }
        rewrite Lm. rewrite (rsum_ext i _ (fun j => den i * (a i j * g j))) by (intros; ring). rewrite rsum_scal.
        pose proof (Hg i ltac:(lia)) as G. rewrite (row_sum s a Hup i g) in G by lia.
        replace (g i * (den i * (1 + a i i * x))) with (den i * (g i + g i * a i i * x)) by ring.
        rewrite G at 1. ring.
      * rewrite app_nth1 by (rewrite map_length; lia).
        erewrite nth_indep by (rewrite map_length; lia). rewrite (map_nth (plin (nth i r zero)) ms []).
        apply (at_eq _ ((1 + a i i * x) * (g j * den i))); [|ring]. apply at_lin; [apply Hi; lia|apply Hm; lia].
Qed.

Lemma backward_sound w : dual s a b (- x) w ->
  forall j post ws v, (j <= s)%nat -> at_x post v -> v * den j = den s -> length ws = (s - j)%nat ->
  (forall i, (i < s - j)%nat -> at_x (nth i ws []) (w (j + i)%nat * v)) ->
  let r := backward zero add mul neg A B j post ws in
  length (snd r) = s /\ forall i, (i < s)%nat -> at_x (nth i (snd r) []) (w i * den s).
Proof.
  intros Hw. induction j as [|j IH]; intros post ws v Hj Hp Hv Lw Hws.
  - cbn [backward snd]. cbn [rprod] in Hv. rewrite Rmult_1_r in Hv. subst v. rewrite Nat.sub_0_r in *. auto.
  - cbn [backward]. cbv zeta. destruct (Ha j ltac:(lia)) as (Lj & Hjr).
    apply (IH _ _ ((1 + a j j * x) * v)).
    + lia.
    + apply at_lin; [apply Hjr; lia|exact Hp].
    + rewrite <- Hv. cbn [rprod]. ring.
    + cbn [length]. rewrite map_length. lia.
    + intros i Hi. destruct i as [|i].
      * rewrite Nat.add_0_r. cbn [nth].
        apply (at_eq _ (b j * v + x * - (rsum (length ws) (fun i => a (S j + i)%nat j * (w (S j + i)%nat * v))))).
        { apply at_add; [apply at_scale; [apply HB; lia|exact Hp]|]. apply at_shift, at_neg.
          apply at_comb.
          - rewrite map_length, seq_length, HA. lia.
          - intros l Hl. erewrite nth_indep by (rewrite map_length, seq_length, HA; lia).
            rewrite (map_nth (fun i => nth j (nth i A []) zero) _ 0%nat), seq_nth by (rewrite HA; lia). apply Ha; lia.
          - intros l Hl. apply Hws. lia. }
        rewrite Lw. rewrite (rsum_ext (s - S j) _ (fun i => v * (w (S j + i)%nat * a (S j + i)%nat j))) by (intros; ring).
        rewrite rsum_scal. pose proof (Hw j ltac:(lia)) as G. rewrite (column_sum s a Hup j w) in G by lia.
        replace (w j * ((1 + a j j * x) * v)) with (v * (w j + w j * a j j * x)) by ring. rewrite G at 1. ring.
      * cbn [nth]. erewrite nth_indep by (rewrite map_length; lia). rewrite (map_nth (plin _) ws []).
        apply (at_eq _ ((1 + a j j * x) * (w (S j + i)%nat * v))).
        { apply at_lin; [apply Hjr; lia|apply Hws; lia]. }
        replace (j + S i)%nat with (S j + i)%nat by lia. ring.
Qed.

Lemma kresidual_sound k i : (i < s)%nat -> rel (nth i (kresidual zero one add mul neg ofQ A C k) zero) (stage_residual s a c k i).
Proof.
  intros Hi. destruct HC as (LC & HC').
  unfold kresidual. set (f := fun rc : list K * K => _).
  erewrite nth_indep by (rewrite map_length, combine_length; lia). rewrite (map_nth f _ ([], zero)), combine_nth by lia.
  unfold f. cbn [fst snd]. unfold stage_residual. apply rel_add.
  - apply (kdot_sound zero add mul rel rel_zero rel_add rel_mul); [apply Ha; exact Hi|].
    split; [rewrite map_length; exact LC|]. intros j Hj.
    erewrite nth_indep by (rewrite map_length; lia). rewrite (map_nth (fun y => kpow one mul y k) C zero).
    apply (kpow_sound one mul rel rel_one rel_mul), HC', Hj.
  - apply rel_neg. replace (c i ^ S k / INR (S k)) with (Q2R (1 # Pos.of_nat (S k)) * c i ^ S k).
    + apply rel_mul; [apply rel_ofQ|]. apply (kpow_sound one mul rel rel_one rel_mul), HC', Hi.
    + unfold Rdiv. rewrite Rmult_comm. f_equal. unfold Q2R; cbn [Qnum Qden]; rewrite INR_IZR_INZ, Rmult_1_l; f_equal; f_equal.
      rewrite <- (Nat2Pos.id (S k)) at 2 by lia; symmetry; apply positive_nat_Z.
Qed.

Section Stability.
Variable acc : bool.
Hypothesis Hacc : acc = true -> forall j, (j < s)%nat -> a (s - 1)%nat j = b j.
Variable rho : R.
Hypothesis Hrho : amplification s a b (- x) rho.
Notation st := (stability zero one add mul neg A B acc).

Lemma stability_sound : at_x (fst st) (rho * den s) /\ at_x (snd st) (den s).
Proof.
  destruct Hrho as (g & Hg & Er). unfold stability.
  assert (F : at_x (fst (forward zero add mul neg A 0 [one] [])) (den s) /\ length (snd (forward zero add mul neg A 0 [one] [])) = s /\
    forall j, (j < s)%nat -> at_x (nth j (snd (forward zero add mul neg A 0 [one] [])) []) (g j * den s)).
  { apply (forward_sound g Hg s); auto; cbn [rprod]; [apply at_one|intros; lia]. }
  destruct (forward zero add mul neg A 0 [one] []) as (q & ms). cbn [fst snd] in *. destruct F as (Fq & Lm & Fm).
  split; [|exact Fq]. destruct acc eqn:Ea.
  - rewrite <- (app_nil_r ms) in Fm |- *. rewrite app_nil_r in Fm |- *.
    assert (E : last ms [] = nth (s - 1) ms []).
    { clear -Lm Hpos. destruct ms as [|m ms] using rev_ind; [cbn in Lm; lia|]. rewrite last_last, app_nth2; rewrite app_length in Lm; cbn in Lm; [|lia].
      replace (s - 1 - length ms)%nat with 0%nat by lia. reflexivity. }
    rewrite E. apply (at_eq _ (g (s - 1)%nat * den s)); [apply Fm; lia|]. f_equal. rewrite Er, (Hg (s - 1)%nat) by lia.
    f_equal. f_equal. apply rsum_ext. intros j Hj. now rewrite Hacc.
  - apply (at_eq _ (den s + x * - (rsum (length ms) (fun j => b j * (g j * den s))))).
    + apply at_add; [exact Fq|]. apply at_shift, at_neg. destruct HB as (LB & HB'). apply at_comb; [lia| |].
      * intros j Hj. apply HB'. lia.
      * intros j Hj. apply Fm. lia.
    + rewrite Lm, Er, (rsum_ext s (fun j => b j * (g j * den s)) (fun j => den s * (b j * g j))) by (intros; ring). rewrite rsum_scal. ring.
Qed.

Lemma diagonal_sound : diagonal_check zero nonneg A = true -> forall i, (i < s)%nat -> 0 <= a i i.
Proof.
  unfold diagonal_check. rewrite forallb_forall. intros H i Hi. eapply nonneg_sound; [apply Ha; eassumption|]. apply H, in_seq. lia.
Qed.
Lemma den_pos : diagonal_check zero nonneg A = true -> 0 < den s.
Proof.
  intros H. apply rprod_pos. intros i Hi. pose proof (diagonal_sound H i Hi). assert (0 <= a i i * x) by (apply Rmult_le_pos; assumption). lra.
Qed.

Lemma damping_sound : 0 < x -> damping_check zero one add mul neg nonneg below A B acc = true -> -1 < rho < 1.
Proof.
  intros X H. unfold damping_check in H. destruct stability_sound as (P & D). destruct st as (p & q). cbn [fst snd] in *.
  cbv zeta in H. repeat rewrite andb_true_iff in H. destruct H as ((((Hd & Hl) & Hh) & B1) & B0).
  pose proof (at_positive _ 1 _ X Hl B1 (at_add _ _ _ _ D (at_neg _ _ P))) as U.
  pose proof (at_positive _ 0 _ X Hh B0 (at_add _ _ _ _ D P)) as V. pose proof (den_pos Hd) as W. split; nra.
Qed.

Lemma vanishing_sound e : 0 <= Q2R e -> vanishing_check zero one add mul neg nonneg below A B acc e = true -> x * Rabs rho <= Q2R e.
Proof.
  intros He H. unfold vanishing_check in H. destruct stability_sound as (P & D). destruct st as (p & q). cbn [fst snd] in *.
  repeat rewrite andb_true_iff in H. destruct H as ((Hd & Hq) & Hv).
  pose proof (at_dominated e He _ _ _ _ Hq Hv (at_shift _ _ P) D) as U. pose proof (den_pos Hd) as W.
  rewrite !Rabs_mult, (Rabs_right x), (Rabs_right (den s)) in U by lra.
  apply Rmult_le_reg_r with (den s); [exact W|]. lra.
Qed.

Variables (still exact : list bool) (q : nat) (e : Q).
Hypothesis He : 0 <= Q2R e.
Hypothesis Lstill : length still = s.
Hypothesis Hexact : forall k, nth k exact false = true -> forall i, (i < s)%nat -> stage_residual s a c k i = 0.

Lemma stiff_sound w : dual s a b (- x) w ->
  stiff_check zero one add mul neg ofQ nonneg below A B C acc still exact q big e = true ->
  0 <= 1 - Rabs rho /\
  (forall i, (i < s)%nat -> nth i still true = false -> Rabs (x * w i) <= 5 * (1 - Rabs rho)) /\
  (forall k, (k < q)%nat -> Rabs (x * rsum s (fun i => w i * stage_residual s a c k i)) <= Q2R e * (1 - Rabs rho)).
Proof.
  intros Hw H. unfold stiff_check in H. destruct stability_sound as (P & D). destruct st as (p & d). cbn [fst snd] in *.
  assert (F : length (snd (backward zero add mul neg A B s [one] [])) = s /\
    forall i, (i < s)%nat -> at_x (nth i (snd (backward zero add mul neg A B s [one] [])) []) (w i * den s)).
  { apply (backward_sound w Hw s [one] [] 1); auto; [apply at_one|ring|cbn; lia|intros; lia]. }
  rewrite HA in H. destruct (backward zero add mul neg A B s [one] []) as (q0 & ws). cbn [fst snd] in *. destruct F as (Lw & Fw).
  cbv zeta in H. repeat rewrite andb_true_iff in H. destruct H as ((((Hd & Hl) & Hh) & Hv) & Hk).
  pose proof (den_pos Hd) as W.
  pose proof (at_add _ _ _ _ D (at_neg _ _ P)) as Alo. pose proof (at_add _ _ _ _ D P) as Ahi.
  set (vs := map (fun w => pshift (pneg w)) ws) in *.
  assert (Lv : length vs = s) by (unfold vs; rewrite map_length; exact Lw).
  assert (Fv : forall i, (i < s)%nat -> at_x (nth i vs []) (- (x * w i) * den s)).
  { intros i Hi. unfold vs. erewrite nth_indep by (rewrite map_length; lia). rewrite (map_nth (fun w => pshift (pneg w)) ws []).
    apply (at_eq _ (x * - (w i * den s))); [|ring]. apply at_shift, at_neg, Fw, Hi. }
  assert (Both : forall v M, Rabs (v * den s) <= M * (den s + - (rho * den s)) -> Rabs (v * den s) <= M * (den s + rho * den s) ->
    Rabs v <= M * (1 - Rabs rho)).
  { intros v M H1 H2. rewrite Rabs_mult, (Rabs_right (den s)) in H1, H2 by lra.
    apply Rmult_le_reg_r with (den s); [exact W|]. unfold Rabs at 2. destruct (Rcase_abs rho); nra. }
  assert (Q5 : Q2R big = 5) by (unfold Q2R, big; cbn; lra).
  split; [|split].
  - pose proof (at_nonneg _ _ Hl Alo). pose proof (at_nonneg _ _ Hh Ahi). unfold Rabs. destruct (Rcase_abs rho); nra.
  - intros i Hi Hs. rewrite forallb_forall in Hv. specialize (Hv (false, nth i vs [])).
    assert (I : In (false, nth i vs []) (combine still vs)).
    { assert (E : nth i (combine still vs) (true, []) = (false, nth i vs [])) by (rewrite combine_nth by lia; now rewrite Hs).
      rewrite <- E. apply nth_In. rewrite combine_length. lia. }
    specialize (Hv I). cbn [fst snd orb] in Hv. apply andb_true_iff in Hv as (V1 & V2).
    rewrite <- (Rabs_Ropp (x * w i)). rewrite <- Q5. apply Both.
    + apply (at_dominated big ltac:(rewrite Q5; lra) _ _ _ _ Hl V1 (Fv i Hi) Alo).
    + apply (at_dominated big ltac:(rewrite Q5; lra) _ _ _ _ Hh V2 (Fv i Hi) Ahi).
  - intros k Hkq. rewrite forallb_forall in Hk. specialize (Hk k ltac:(apply in_seq; lia)).
    destruct (nth k exact false) eqn:Ex.
    + rewrite (rsum_ext s _ (fun _ => 0)), rsum_zero, Rmult_0_r, Rabs_R0.
      * apply Rmult_le_pos; [exact He|]. pose proof (at_nonneg _ _ Hl Alo). pose proof (at_nonneg _ _ Hh Ahi). unfold Rabs. destruct (Rcase_abs rho); nra.
      * intros i Hi. rewrite (Hexact k Ex i Hi). ring.
    + apply andb_true_iff in Hk as (V1 & V2).
      assert (L : length (kresidual zero one add mul neg ofQ A C k) = s).
      { unfold kresidual. rewrite map_length, combine_length, HA. destruct HC as (-> & _). lia. }
      assert (Fc : at_x (comb (kresidual zero one add mul neg ofQ A C k) vs)
        (- (x * rsum s (fun i => w i * stage_residual s a c k i)) * den s)).
      { apply (at_eq _ (rsum (length vs) (fun i => stage_residual s a c k i * (- (x * w i) * den s)))).
        - apply at_comb; [lia| |]; intros i Hi; [apply kresidual_sound; lia|apply Fv; lia].
        - rewrite Lv, (rsum_ext s _ (fun i => (- x * den s) * (w i * stage_residual s a c k i))) by (intros; ring). rewrite rsum_scal. ring. }
      rewrite <- Rabs_Ropp. apply Both.
      * exact (at_dominated e He _ _ _ _ Hl V1 Fc Alo).
      * exact (at_dominated e He _ _ _ _ Hh V2 Fc Ahi).
Qed.
End Stability.

Lemma kpropagated_sound v g m : reps s v g -> reps s (kpropagated zero add mul A v m) (propagated s a m g).
Proof.
  intros H. induction m as [|m IH]; [exact H|]. cbn [kpropagated propagated].
  apply (kapply_sound zero add mul rel rel_zero rel_add rel_mul s A a HA Ha), IH.
Qed.
Lemma kweak_sound k m : rel (kweak zero one add mul neg ofQ A B C k m) (weak_residual s a b c k m).
Proof.
  unfold kweak, weak_residual. apply (kdot_sound zero add mul rel rel_zero rel_add rel_mul); [exact HB|].
  apply kpropagated_sound. split.
  - unfold kresidual. rewrite map_length, combine_length, HA. destruct HC as (-> & _). lia.
  - intros i Hi. apply kresidual_sound, Hi.
Qed.
End Sound.
