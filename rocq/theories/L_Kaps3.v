(** Runs with Kaps' problem. *)
From Coq Require Import String.
From Coq Require Import List Bool Arith Reals Lia Lra QArith Qreals.
From Verif Require Import Base Ext M_Tableau M_Tableaux M_TableauxInit M_State M_ODE M_Step M_Integrator M_Metadata M_Components
  SpecMetadata SpecRK SpecShape SpecRun SpecRevolve SpecTree SpecOrder SpecNodes SpecConvergence SpecSmooth SpecLocal
  M_Packing SpecPacking M_Component SpecComponent SpecStage M_Stage M_Kaps SpecKaps
  L_Vec L_Tableau L_Convergence L_Order L_Rows L_Run L_RunProps L_RunOrder L_Component2 L_Component3 L_Local L_Local3 L_Kaps L_Kaps2.
Import ListNotations.
Local Open Scope string_scope.
Open Scope nat_scope.
Local Open Scope R_scope.
Local Open Scope list_scope.

Lemma kaps_md_unique md : metadata_of 1 kaps_variables ["y_1"; "y_2"] [] = Ok [md] -> md = kaps_md.
Proof. rewrite kaps_metadata. now intros [= <-]. Qed.
Lemma kaps_declared : declare_all (fun _ => 1%nat) kaps_md = Ok kaps_io.
Proof. reflexivity. Qed.
Lemma kaps_holds_in t y1 y2 : holds_inputs kaps_md (kaps_vec_in t y1 y2) {| time_initial := t; initial := [y1; y2]; independent := [] |}.
Proof. split; [reflexivity|]. split; [intros q [<-|[<-|[]]]; reflexivity|intros q []]. Qed.

Lemma rsum_member n f k : (forall i, (i < n)%nat -> 0 <= f i) -> (k < n)%nat -> f k <= rsum n f.
Proof.
  induction n as [|n IH]; intros Hf Hk; [lia|]. cbn [rsum].
  assert (P : 0 <= rsum n f) by (apply rsum_nonneg; intros; apply Hf; lia).
  pose proof (Hf n ltac:(lia)) as Fn.
  destruct (Nat.eq_dec k n) as [->|Hn]; [lra|].
  assert (f k <= rsum n f) by (apply IH; [intros; apply Hf; lia|lia]). lra.
Qed.

Section Run.
Variables (eps t1 M Hm : R).
Hypothesis He : 0 < eps.
Hypothesis Ht1 : 0 < t1.
Hypothesis HM : 0 <= M.
Hypothesis HHm : 0 < Hm.

Section Component.
Variables (newton : exchange -> list R -> list R -> res (list R))
  (kf kr : exchange -> list R -> list R -> list R -> list R -> res (list R)) (v : R) (norm : ode_out R -> R).
Context {C : Type}.
Variable op : options R C.
Notation o := (openmdao_ode (kaps_problem eps newton kf kr) kaps_md (kaps_vectors v) norm).
Hypothesis Ho : o_ode op = o.
Lemma kaps_sized : sized_ode (o_ode op).
Proof. exact (om_sized 1 0 _ _ _ [kaps_md] kaps_md kaps_metadata eq_refl _ _ norm (kaps_keeps eps newton kf kr) op Ho). Qed.
Lemma kaps_n : state_size (o_ode op) = time_integration_array_size kaps_md.
Proof. now rewrite Ho. Qed.
Lemma kaps_i : independent_input_size (o_ode op) = time_independent_input_size kaps_md.
Proof. now rewrite Ho. Qed.
Lemma kaps_arr t y1 y2 : inputs_sized (o_ode op) {| time_initial := t; initial := [y1; y2]; independent := [] |}.
Proof. split; cbn; rewrite ?kaps_n, ?kaps_i; reflexivity. Qed.
Lemma kaps_reach c w : in_use op kaps_md kaps_io c w -> reachable op c w.
Proof. exact (in_use_reachable 1 0 _ _ _ [kaps_md] kaps_md _ _ kaps_metadata eq_refl kaps_declared op kaps_n kaps_i kaps_sized c w). Qed.

(** A call by name is a call with arrays. *)
Lemma kaps_call c w t y1 y2 outp w' vout : in_use op kaps_md kaps_io c w -> layout outp = snd kaps_io ->
  component_compute op kaps_md (kaps_vec_in t y1 y2) outp w = (w', Ok vout) ->
  exists out z1 z2, compute op {| time_initial := t; initial := [y1; y2]; independent := [] |} w = (w', Ok out) /\
    final out = [z1; z2] /\ vout = kaps_vec_out (time_final out) z1 z2.
Proof.
  intros U Lo E.
  pose proof (in_use_wf 1 0 _ _ _ [kaps_md] kaps_md _ _ kaps_metadata eq_refl kaps_declared op kaps_n kaps_i kaps_sized _ _ U) as W.
  rewrite (component_compute_eq 1 0 _ _ _ [kaps_md] kaps_md _ _ kaps_metadata eq_refl kaps_declared op kaps_n kaps_i kaps_sized
    (kaps_vec_in t y1 y2) outp _ w W eq_refl Lo (kaps_arr t y1 y2) (kaps_holds_in t y1 y2)) in E.
  destruct (compute op _ w) as [wb [out|]] eqn:F; [|discriminate]. injection E as <- <-.
  pose proof (compute_sized op kaps_sized _ _ _ _ W (kaps_arr t y1 y2) F) as So. unfold outputs_sized in So. rewrite kaps_n in So.
  destruct out as [tf fin]. cbn in So |- *. destruct fin as [|z1 [|z2 [|]]]; try discriminate.
  exists {| time_final := tf; final := [z1; z2] |}, z1, z2. auto.
Qed.
End Component.

Variables (bt : tableau R) (p : nat) (e nu : R).
Hypothesis Hbt : tableau_wf bt.
Hypothesis Himp : is_implicit bt = false.
Hypothesis Hp : (0 < p)%nat.
Hypothesis Hord : order_conditions (t_stages bt) (entry (t_A bt)) (fun k => vnth k (t_b bt)) p e.
Hypothesis Hrow : row_conditions (t_stages bt) (entry (t_A bt)) (fun k => vnth k (t_c bt)) nu.
Hypothesis Hnu : 0 <= nu.
Hypothesis He0 : 0 <= e.

Definition diag : R := rsum (t_stages bt) (fun k => Rabs (entry (t_A bt) k k)).
Definition small_step : R := Rmin Hm (/ (3 * (diag * M + 1))).
Lemma diag_nonneg : 0 <= diag.
Proof. apply rsum_nonneg. intros; apply Rabs_pos. Qed.
Lemma small_pos : 0 < small_step.
Proof.
  unfold small_step. apply Rmin_pos; [exact HHm|]. apply Rinv_0_lt_compat.
  pose proof (Rmult_le_pos _ _ diag_nonneg HM). lra.
Qed.
Lemma small_stage h k : 0 <= h <= small_step -> (k < t_stages bt)%nat -> h * (Rabs (entry (t_A bt) k k) * M) <= 1 / 3.
Proof.
  intros [H0 H1] Hk. pose proof (Rmult_le_pos _ _ diag_nonneg HM) as P.
  assert (A : Rabs (entry (t_A bt) k k) <= diag) by (apply (rsum_member _ (fun k => Rabs (entry (t_A bt) k k))); [intros; apply Rabs_pos|exact Hk]).
  assert (B : h <= / (3 * (diag * M + 1))) by (unfold small_step in H1; eapply Rle_trans; [exact H1|apply Rmin_r]).
  apply Rle_trans with (/ (3 * (diag * M + 1)) * (diag * M + 1)); [|right; field; lra].
  apply Rmult_le_compat; [exact H0| |exact B|].
  - apply Rmult_le_pos; [apply Rabs_pos|exact HM].
  - apply Rle_trans with (diag * M); [|lra]. now apply Rmult_le_compat_r.
Qed.

Lemma moderate_less h a newton : moderate Hm a M newton -> h <= Hm -> moderate h a M newton.
Proof. intros H L h' xs g z Hh. apply H. lra. Qed.

(** The bounds of the local theorem. *)
Lemma scale_bounds K S tol : 1 <= K -> 0 <= S -> 0 <= tol ->
  K * (S + kaps_C eps * tol) <= 3 * K * kaps_C eps * (S + tol) / 3 /\ tol <= 3 * K * kaps_C eps * (S + tol).
Proof.
  intros HK HS Ht. pose proof (kaps_C_pos eps He) as HC. set (c := kaps_C eps) in *.
  assert (A : S <= c * S) by nra. assert (B : 0 <= c * (S + tol)) by nra. split.
  - replace (3 * K * c * (S + tol) / 3) with (K * (c * S + c * tol)) by field. apply Rmult_le_compat_l; lra.
  - assert (tol <= c * (S + tol)) by nra. nra.
Qed.

Lemma kaps_run : exists K H, 1 <= K /\ 0 < H /\
  forall newton kf kr v norm C (op : options R C) c w w' out,
  o_bt op = bt -> o_ode op = openmdao_ode (kaps_problem eps newton kf kr) kaps_md (kaps_vectors v) norm -> loops op ->
  reachable op c w ->
  (forall k, (k < t_stages bt)%nat -> moderate Hm (entry (t_A bt) k k) M newton) ->
  compute op {| time_initial := 0; initial := [1; 1]; independent := [] |} w = (w', Ok out) -> time_final out <= t1 ->
  exists a l, starts_at op {| time_initial := 0; initial := [1; 1]; independent := [] |} a /\ trajectory op a l /\
    log w' = (log w ++ bracketed Compute (length (o_callbacks op Compute)) 1 a l)%list /\
    forall hm tol, Forall (fun x => 0 < step_size (disc x) <= hm) l -> 0 <= hm <= H -> 0 <= tol -> converged eps tol newton ->
    K * (hm ^ p + nu + e + tol) <= 1 ->
    within 2 (K * (hm ^ p + nu + e + tol)) (final out) (kaps_exact (time_final out)).
Proof.
  destruct (local_order bt 2 (kaps_rhs eps) (kaps_box t1) p e nu ((5 + 2 * eps) / eps + 6) (1 / 3) 0 t1 [] kaps_exact) as (K & H & K1 & H0 & HK); auto.
  - apply L_pos, He.
  - apply kaps_lipschitz, He.
  - lra.
  - lra.
  - apply kaps_solution_exact, He.
  - apply kaps_inside.
  - apply kaps_smooth, He.
  - pose proof (kaps_C_pos eps He) as HC.
    exists (3 * K * kaps_C eps), (Rmin H small_step). split; [nra|]. split; [apply Rmin_pos; [exact H0|apply small_pos]|].
    intros newton kf kr v norm C op c w w' out Eb Eo Lo HR Hmod E Htf.
    assert (W0 : within 2 0 [1; 1] (kaps_exact 0)).
    { intros m Hm2. apply two in Hm2 as [-> | ->]; cbn [kaps_exact vnth nth].
      - replace (- 2 * 0) with 0 by ring. rewrite exp_0, Rminus_eq_0, Rabs_R0; lra.
      - replace (- 0) with 0 by ring. rewrite exp_0, Rminus_eq_0, Rabs_R0; lra. }
    destruct (HK C op c w {| time_initial := 0; initial := [1; 1]; independent := [] |} w' out 0) as (a & l & A1 & A2 & A3 & A4); auto.
    + now rewrite Eo.
    + eapply kaps_sized; eauto.
    + eapply kaps_arr; eauto.
    + lra.
    + exists a, l. split; [exact A1|]. split; [exact A2|]. split; [exact A3|].
      intros hm tol HF Hhm Htol Hc Hsmall.
      pose proof (Rmin_l H small_step) as L1. pose proof (Rmin_r H small_step) as L2. pose proof (Rmin_l Hm (/ (3 * (diag * M + 1)))) as L3.
      fold small_step in L3. pose proof (pow_le hm p (proj1 Hhm)) as Pp.
      destruct (scale_bounds K (hm ^ p + nu + e) tol K1 ltac:(lra) Htol) as [B1 B2].
      assert (Ht1' : tol <= 1) by (eapply Rle_trans; [exact B2|]; exact Hsmall).
      assert (P3 : 0 <= 3 * K * kaps_C eps * (hm ^ p + nu + e + tol)) by (repeat apply Rmult_le_pos; lra).
      assert (W : within 2 (K * (0 + hm ^ p + nu + e + kaps_C eps * tol)) (final out) (kaps_exact (time_final out))).
      { apply A4; auto; try nra.
        intros k Hk. rewrite Eo. apply kaps_nearly with (M := M); auto.
        - apply moderate_less; [apply Hmod, Hk|lra].
        - apply small_stage; [lra|exact Hk]. }
      intros m Hm2. eapply Rle_trans; [apply W, Hm2|]. replace (0 + hm ^ p + nu + e + kaps_C eps * tol) with (hm ^ p + nu + e + kaps_C eps * tol) by ring. lra.
Qed.

Lemma kaps_fixed : exists K H, 1 <= K /\ 0 < H /\
  forall newton kf kr v norm C (op : options R C) c w n tol w' vout outp, (0 < n)%nat -> t1 / INR n <= H ->
  fixed_steps op bt (openmdao_ode (kaps_problem eps newton kf kr) kaps_md (kaps_vectors v) norm) (t1 / INR n) n ->
  in_use op kaps_md kaps_io c w -> layout outp = snd kaps_io ->
  (forall k, (k < t_stages bt)%nat -> moderate Hm (entry (t_A bt) k k) M newton) -> 0 <= tol -> converged eps tol newton ->
  K * ((t1 / INR n) ^ p + nu + e + tol) <= 1 ->
  component_compute op kaps_md (kaps_vec_in 0 1 1) outp w = (w', Ok vout) ->
  exists y1 y2, vout = kaps_vec_out t1 y1 y2 /\
    Rabs (y1 - exp (- 2 * t1)) <= K * ((t1 / INR n) ^ p + nu + e + tol) /\
    Rabs (y2 - exp (- t1)) <= K * ((t1 / INR n) ^ p + nu + e + tol).
Proof.
  destruct (local_fixed bt 2 (kaps_rhs eps) (kaps_box t1) p e nu ((5 + 2 * eps) / eps + 6) (1 / 3) 0 t1 [] kaps_exact) as (K & H & K1 & H0 & HK); auto.
  - apply L_pos, He.
  - apply kaps_lipschitz, He.
  - lra.
  - lra.
  - apply kaps_solution_exact, He.
  - apply kaps_inside.
  - apply kaps_smooth, He.
  - pose proof (kaps_C_pos eps He) as HC.
    exists (3 * K * kaps_C eps), (Rmin H small_step). split; [nra|]. split; [apply Rmin_pos; [exact H0|apply small_pos]|].
    intros newton kf kr v norm C op c w n tol w' vout outp Hn HH Hop U Lo Hmod Htol Hc Hsmall E.
    pose proof Hop as (E1 & E2 & E3 & E4 & E5 & E6 & E7 & E8 & E9).
    destruct (kaps_call newton kf kr v norm op E2 c w 0 1 1 outp w' vout U Lo E) as (out & z1 & z2 & F & Ef & ->).
    pose proof (kaps_reach newton kf kr v norm op E2 c w U) as HR.
    assert (Hn' : 0 < INR n) by (apply lt_0_INR, Hn).
    assert (Hh : 0 < t1 / INR n) by (apply Rdiv_lt_0_compat; lra).
    pose proof (Rmin_l H small_step) as L1. pose proof (Rmin_r H small_step) as L2. pose proof (Rmin_l Hm (/ (3 * (diag * M + 1)))) as L3.
    fold small_step in L3. set (h := t1 / INR n) in *. pose proof (pow_le h p ltac:(lra)) as Pp.
    destruct (scale_bounds K (h ^ p + nu + e) tol K1 ltac:(lra) Htol) as [B1 B2].
    assert (Ht1' : tol <= 1) by (eapply Rle_trans; [exact B2|]; exact Hsmall).
    assert (P3 : 0 <= 3 * K * kaps_C eps * (h ^ p + nu + e + tol)) by (repeat apply Rmult_le_pos; lra).
    destruct (HK C op c w {| time_initial := 0; initial := [1; 1]; independent := [] |} w' out n (kaps_C eps * tol)) as (Tf & W); auto.
    + now rewrite E2.
    + eapply kaps_sized; eauto.
    + rewrite E4. unfold h. now rewrite Rminus_0_r.
    + rewrite E4. lra.
    + eapply kaps_arr; eauto.
    + cbn [initial]. unfold kaps_exact. now rewrite Rmult_0_r, Ropp_0, exp_0.
    + nra.
    + intros k Hk. rewrite E2, E4. apply kaps_nearly with (M := M); auto.
      * apply moderate_less; [apply Hmod, Hk|lra].
      * apply small_stage; [lra|exact Hk].
    + rewrite E4. lra.
    + rewrite E4, Ef in W. exists z1, z2. rewrite Tf. split; [reflexivity|].
      split; (eapply Rle_trans; [|apply Rle_trans with (K * (h ^ p + nu + e + kaps_C eps * tol)); [|lra]]);
        [exact (W 0%nat ltac:(lia))|lra|exact (W 1%nat ltac:(lia))|lra].
Qed.
End Run.
