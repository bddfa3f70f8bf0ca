(** Lemmas in the form of the property theorems about stiff problems. *)
From Coq Require Import String.
From Coq Require Import List Bool Arith Reals Lia Lra QArith Qreals.
From Verif Require Import Base Ext M_Tableau M_Tableaux M_TableauxInit M_State M_ODE M_Step M_Integrator M_Metadata M_Components SpecMetadata SpecRK SpecDeriv
  SpecRun SpecShape SpecTree SpecOrder SpecComponents SpecConvergence M_Packing SpecPacking M_Component SpecComponent SpecTotal M_Stage SpecStage SpecStiff
  L_Vec L_Order L_Total L_Stage L_Stage2 L_Stage3 L_Stage4 L_Stage5 L_Stage6 L_Stage7 L_Stage8 L_Stiff L_Stiff2 L_Stiff3 WitnessStage.
Import ListNotations.
Local Open Scope string_scope.
Open Scope nat_scope.
Open Scope R_scope.
Local Open Scope list_scope.

Lemma power_small rho n : -1 < rho < 1 -> Rabs (rho ^ n) <= 1 /\ ((0 < n)%nat -> Rabs (rho ^ n) < 1).
Proof.
  intros H. assert (A : Rabs rho < 1) by (apply Rabs_def1; lra). rewrite <- RPow_abs.
  assert (G : forall m, Rabs rho ^ m <= 1) by (intros m; rewrite <- (pow1 m); apply pow_incr; split; [apply Rabs_pos|lra]).
  split; [apply G|]. intros Hn. destruct n as [|n]; [lia|]. cbn [pow]. pose proof (G n). pose proof (Rabs_pos rho).
  assert (Rabs rho * Rabs rho ^ n <= Rabs rho * 1) by (apply Rmult_le_compat_l; assumption). lra.
Qed.
Lemma damped_value rho n y : -1 < rho < 1 -> Rabs (rho ^ n * y) <= Rabs y /\ ((0 < n)%nat -> y <> 0 -> Rabs (rho ^ n * y) < Rabs y).
Proof.
  intros H. destruct (power_small rho n H) as (A & B). rewrite Rabs_mult. split.
  - pose proof (Rabs_pos y). assert (Rabs (rho ^ n) * Rabs y <= 1 * Rabs y) by (apply Rmult_le_compat_r; assumption). lra.
  - intros Hn Hy. assert (0 < Rabs y) by now apply Rabs_pos_lt.
    assert (Rabs (rho ^ n) * Rabs y < 1 * Rabs y) by (apply Rmult_lt_compat_r; auto). lra.
Qed.

Section Stiff.
Variables (x : shipped) (q : nat) (e : Q) (bt : tableau R).
Hypothesis Hx : In (x, (q, e)) stiff_orders.
Hypothesis Hbt : shipped_init x = Ok (bt, []).
Notation ampl := (amplification (t_stages bt) (entry (t_A bt)) (fun k => vnth k (t_b bt))).

Lemma stiff_facts : tableau_wf bt /\ is_implicit bt = false /\ (0 < t_stages bt)%nat.
Proof. destruct (stiff_shape x q e bt [] Hx Hbt) as (Es & _ & _ & _ & _ & _ & _ & Hs & _ & W & I & _). rewrite Es. auto. Qed.
Lemma stiff_solvable z i : 0 <= z -> (i < t_stages bt)%nat -> 1 + z * entry (t_A bt) i i <> 0.
Proof.
  intros Hz Hi. pose proof (stiff_diagonal x q e bt [] Hx Hbt i Hi) as D. assert (0 <= z * entry (t_A bt) i i) by (apply Rmult_le_pos; assumption). lra.
Qed.

Section Decay.
Variables (C : Type) (op : options R C) (md : metadata) (v h : R) (norm : ode_out R -> R) (n : nat) (c : C) (w : component R C).
Hypothesis Hmd : metadata_of 1 simple_variables ["y"] [] = Ok [md].
Hypothesis Hop : fixed_steps op bt (openmdao_ode (stage_problem simple_component) md (stage_vectors simple_component v) norm) h n.
Hypothesis Hh : 0 < h.
Hypothesis Hu : in_use op md (scalar_io "y") c w.

Lemma stiff_run : exists rho, ampl (- h) rho /\ -1 < rho < 1 /\
  (In x vanishing -> Rabs rho <= 100 / h) /\
  (forall t y outp, layout outp = snd (scalar_io "y") ->
    exists w', component_compute op md (vec_in "y" t y) outp w = (w', Ok (vec_out "y" (t + INR n * h) (rho ^ n * y)))).
Proof.
  destruct stiff_facts as (W & I & P).
  assert (Hr : forall i, (i < t_stages bt)%nat -> 1 + h * entry (t_A bt) i i <> 0) by (intros; apply stiff_solvable; auto; lra).
  destruct (c66_factor bt h W I Hr) as (rho & A & _). exists rho. split; [exact A|].
  split; [exact (c87_factor x q e bt [] Hx Hbt h rho Hh A)|]. split; [intros V; exact (c87_vanishing x q e bt [] Hx Hbt h rho V Hh A)|].
  intros t y outp L. eapply c66_compute; eauto.
Qed.
Lemma c87_compute t y outp : layout outp = snd (scalar_io "y") ->
  exists w' y1, component_compute op md (vec_in "y" t y) outp w = (w', Ok (vec_out "y" (t + INR n * h) y1)) /\
    Rabs y1 <= Rabs y /\ ((0 < n)%nat -> y <> 0 -> Rabs y1 < Rabs y) /\
    (In x vanishing -> Rabs y1 <= (100 / h) ^ n * Rabs y).
Proof.
  intros L. destruct stiff_run as (rho & A & B & V & G). destruct (G t y outp L) as (w' & E). exists w', (rho ^ n * y).
  split; [exact E|]. destruct (damped_value rho n y B) as (B1 & B2). split; [exact B1|]. split; [exact B2|].
  intros Hv. rewrite Rabs_mult, <- RPow_abs. apply Rmult_le_compat_r; [apply Rabs_pos|]. apply pow_incr. split; [apply Rabs_pos|auto].
Qed.
Lemma c87_forward t y dt dy zo : layout zo = snd (scalar_io "y") -> zeros zo ->
  exists w' dy1, component_fwd op md (vec_in "y" t y) (vec_in "y" dt dy) zo w = (w', Ok (vec_out "y" dt dy1)) /\
    Rabs dy1 <= Rabs dy /\ ((0 < n)%nat -> dy <> 0 -> Rabs dy1 < Rabs dy).
Proof.
  intros L Z. destruct stiff_run as (rho & A & B & _ & _). destruct stiff_facts as (W & I & P).
  assert (Hr : forall i, (i < t_stages bt)%nat -> 1 + h * entry (t_A bt) i i <> 0) by (intros; apply stiff_solvable; auto; lra).
  destruct (c66_forward C op bt md v h norm n rho c w t y dt dy zo Hmd Hop W I P Hr A Hu L Z) as (w' & E).
  exists w', (rho ^ n * dy). split; [exact E|]. now apply damped_value.
Qed.
Lemma c87_reverse t y wt wy outp zi w1 u : o_ckpt op = AllCheckpointer ->
  layout outp = snd (scalar_io "y") -> layout zi = fst (scalar_io "y") -> zeros zi ->
  component_compute op md (vec_in "y" t y) outp w = (w1, Ok u) ->
  exists w' wy1, component_rev op md (vec_in "y" t y) zi (vec_out "y" wt wy) w1 = (w', Ok (vec_in "y" wt wy1)) /\
    Rabs wy1 <= Rabs wy /\ ((0 < n)%nat -> wy <> 0 -> Rabs wy1 < Rabs wy).
Proof.
  intros K L1 L2 Z E1. destruct stiff_run as (rho & A & B & _ & _). destruct stiff_facts as (W & I & P).
  assert (Hr : forall i, (i < t_stages bt)%nat -> 1 + h * entry (t_A bt) i i <> 0) by (intros; apply stiff_solvable; auto; lra).
  destruct (c66_reverse C op bt md v h norm n rho c w t y wt wy outp zi w1 u Hmd Hop W I P Hr A K Hu L1 L2 Z E1) as (w' & E).
  exists w', (rho ^ n * wy). split; [exact E|]. now apply damped_value.
Qed.
End Decay.

Lemma stiff_sizes : (0 < q)%nat /\ (0 < s_p x)%nat /\ Q2R e <= 1.
Proof.
  assert (G : forallb (fun p => Nat.ltb 0 (fst (snd p)) && Nat.ltb 0 (s_p (fst p)) && Qle_bool (snd (snd p)) 1) stiff_orders = true) by reflexivity.
  rewrite forallb_forall in G. specialize (G _ Hx). cbn [fst snd] in G. repeat rewrite andb_true_iff in G. destruct G as ((G1 & G2) & G3).
  apply Nat.ltb_lt in G1, G2. apply Qle_bool_iff, Qle_Rle in G3. replace (Q2R 1) with 1 in G3 by (unfold Q2R; cbn; lra). auto.
Qed.
Lemma precision_range nu eh : In (x, (nu, eh)) precision -> 0 <= Q2R nu <= 1.
Proof.
  intros P. assert (G : forallb (fun p => Qle_bool 0 (fst (snd p)) && Qle_bool (fst (snd p)) 1) precision = true) by reflexivity.
  rewrite forallb_forall in G. specialize (G _ P). cbn [fst snd] in G. apply andb_true_iff in G as (G1 & G2).
  apply Qle_bool_iff, Qle_Rle in G1, G2. replace (Q2R 0) with 0 in G1 by (unfold Q2R; cbn; lra). replace (Q2R 1) with 1 in G2 by (unfold Q2R; cbn; lra). auto.
Qed.

Section Uniform.
Variables (nu eh : Q) (md : metadata).
Hypothesis Hnu : In (x, (nu, eh)) precision.
Hypothesis Hmid : x <> implicit_midpoint.
Hypothesis Hmd : metadata_of 1 prothero_variables ["x"] [] = Ok [md].

Lemma c88_uniform : exists K, 0 <= K /\
  forall lam h n C (op : options R C) v norm c w t x0 outp, lam <= 0 -> 0 < h ->
  fixed_steps op bt (openmdao_ode (stage_problem (prothero_component lam)) md (stage_vectors (prothero_component lam) v) norm) h n ->
  in_use op md (scalar_io "x") c w -> layout outp = snd (scalar_io "x") ->
  exists w' x1 rho, component_compute op md (vec_in "x" t x0) outp w = (w', Ok (vec_out "x" (t + INR n * h) x1)) /\
    ampl (h * lam) rho /\ Rabs rho <= 1 /\
    Rabs (x1 - sin (t + INR n * h + PI / 4) - rho ^ n * (x0 - sin (t + PI / 4)))
    <= K * (INR n * h * (h ^ s_p x + Q2R nu) + h ^ S q + h * Q2R e).
Proof.
  destruct stiff_facts as (W & I & P). destruct stiff_sizes as (Hq & Hp & He). pose proof (stiff_eps x q e Hx) as He0.
  pose proof (precision_range nu eh Hnu) as Hn1. apply prothero_md_unique in Hmd as ->.
  destruct (shipped_meets x nu eh bt [] Hnu Hbt) as ((_ & _ & Hquad) & _).
  set (a := entry (t_A bt)). set (b := fun i => vnth i (t_b bt)). set (cc := fun i => vnth i (t_c bt)).
  set (K1 := k_step (t_stages bt) b cc (s_p x)). set (K2 := k_stage (t_stages bt) a cc q).
  assert (K1p : 0 <= K1) by apply k_step_nonneg. assert (K2p : 0 <= K2) by apply k_stage_nonneg.
  exists (K1 + K2). split; [lra|].
  intros lam h n C op v norm c w t x0 outp Hlam Hh Hop Hu L.
  assert (Hz : 0 <= - (h * lam)) by (rewrite <- Ropp_mult_distr_r_reverse; apply Rmult_le_pos; lra).
  assert (Hr : forall i, (i < t_stages bt)%nat -> 1 - lam * h * entry (t_A bt) i i <> 0).
  { intros i Hi. replace (1 - lam * h * entry (t_A bt) i i) with (1 + - (h * lam) * entry (t_A bt) i i) by ring. now apply stiff_solvable. }
  assert (Hr' : forall i, (i < t_stages bt)%nat -> 1 - h * lam * a i i <> 0).
  { intros i Hi E. apply (Hr i Hi). rewrite <- E. unfold a. ring. }
  pose proof (upper_zero bt I : forall i j, (i < j < t_stages bt)%nat -> a i j = 0) as Hup.
  destruct (amplification_exists (t_stages bt) a b Hup (h * lam) Hr') as (rho & A).
  destruct (dual_exists (t_stages bt) a b (h * lam) Hup Hr') as (wd & Hw).
  destruct (prothero_compute_run op bt lam v h norm n Hop P W I Hr c w t x0 outp Hu L) as (w' & x1 & E & St & _).
  exists w', x1, rho. split; [exact E|]. split; [exact A|].
  assert (A' : amplification (t_stages bt) a b (- (- (h * lam))) rho) by (rewrite Ropp_involutive; exact A).
  assert (Hw' : dual (t_stages bt) a b (- (- (h * lam))) wd) by (rewrite Ropp_involutive; exact Hw).
  destruct (stiff_bounds x q e bt [] Hx Hbt (- (h * lam)) rho wd Hmid Hz A' Hw') as (B1 & B2 & B3).
  split; [lra|].
  pose proof (prothero_steps_error (t_stages bt) a b cc q (s_p x) (Q2R e) (Q2R nu) Hq Hp ltac:(lra) Hn1 Hquad lam h wd rho ltac:(lra) Hw A B1 B2 B3 n t x0 x1 St) as G.
  fold K1 K2 in G. unfold phi in G. eapply Rle_trans; [exact G|].
  assert (N0 : 0 <= INR n) by apply pos_INR. pose proof (pow_le h (s_p x) ltac:(lra)) as Pp. pose proof (pow_le h (S q) ltac:(lra)) as Pq.
  assert (R0 : 0 <= Rabs rho ^ n <= 1).
  { split; [apply pow_le, Rabs_pos|]. rewrite <- (pow1 n). apply pow_incr. split; [apply Rabs_pos|lra]. }
  set (X := INR n * h * (h ^ s_p x + Q2R nu)). set (Y := h ^ S q + h * Q2R e).
  assert (X0 : 0 <= X) by (unfold X; apply Rmult_le_pos; [apply Rmult_le_pos|]; lra).
  assert (Y0 : 0 <= Y) by (unfold Y; assert (0 <= h * Q2R e) by (apply Rmult_le_pos; lra); lra).
  replace (INR n * (K1 * (h * (h ^ s_p x + Q2R nu)))) with (K1 * X) by (unfold X; ring).
  replace (X + h ^ S q + h * Q2R e) with (X + Y) by (unfold Y; ring).
  assert (0 <= K1 * Y) by (apply Rmult_le_pos; assumption). assert (0 <= K2 * X) by (apply Rmult_le_pos; assumption).
  assert (0 <= K2 * Y) by (apply Rmult_le_pos; assumption).
  assert ((1 - Rabs rho ^ n) * (K2 * Y) <= 1 * (K2 * Y)) by (apply Rmult_le_compat_r; lra). lra.
Qed.

Lemma c88_full_order : (s_p x <= S q)%nat -> exists K, 0 <= K /\
  forall lam h n C (op : options R C) v norm c w t outp, lam <= 0 -> 0 < h <= 1 ->
  fixed_steps op bt (openmdao_ode (stage_problem (prothero_component lam)) md (stage_vectors (prothero_component lam) v) norm) h n ->
  in_use op md (scalar_io "x") c w -> layout outp = snd (scalar_io "x") ->
  exists w' x1, component_compute op md (vec_in "x" t (sin (t + PI / 4))) outp w = (w', Ok (vec_out "x" (t + INR n * h) x1)) /\
    Rabs (x1 - prothero_exact lam t (sin (t + PI / 4)) (t + INR n * h)) <= K * ((1 + INR n * h) * (h ^ s_p x + Q2R nu + Q2R e)).
Proof.
  intros Hpq. destruct c88_uniform as (K & K0 & G). exists K. split; [exact K0|].
  intros lam h n C op v norm c w t outp Hlam Hh Hop Hu L.
  destruct (G lam h n C op v norm c w t (sin (t + PI / 4)) outp Hlam ltac:(lra) Hop Hu L) as (w' & x1 & rho & E & _ & _ & B).
  exists w', x1. split; [exact E|]. unfold prothero_exact. replace (sin (t + PI / 4) - sin (t + PI / 4)) with 0 in B |- * by ring.
  rewrite Rmult_0_l, Rplus_0_r. rewrite Rmult_0_r, Rminus_0_r in B.
  eapply Rle_trans; [exact B|]. apply Rmult_le_compat_l; [exact K0|].
  pose proof (stiff_eps x q e Hx) as He0. pose proof (precision_range nu eh Hnu) as Hn1.
  assert (N0 : 0 <= INR n * h) by (apply Rmult_le_pos; [apply pos_INR|lra]).
  assert (P1 : h ^ S q <= h ^ s_p x).
  { replace (S q) with (s_p x + (S q - s_p x))%nat by lia. rewrite pow_add. pose proof (pow_le h (s_p x) ltac:(lra)).
    assert (h ^ (S q - s_p x) <= 1) by (rewrite <- (pow1 (S q - s_p x)); apply pow_incr; lra).
    assert (h ^ s_p x * h ^ (S q - s_p x) <= h ^ s_p x * 1) by (apply Rmult_le_compat_l; assumption). lra. }
  assert (h * Q2R e <= 1 * Q2R e) by (apply Rmult_le_compat_r; lra).
  assert (0 <= INR n * h * Q2R e) by (apply Rmult_le_pos; lra). lra.
Qed.
End Uniform.
End Stiff.
