(** Kaps' problem: the statements of the properties, and derivative products. *)
From Coq Require Import String.
From Coq Require Import List Bool Arith Reals Lia Lra QArith Qreals.
From Verif Require Import Base Ext M_Tableau M_Tableaux M_TableauxInit M_State M_ODE M_Step M_Integrator M_Metadata M_Components
  SpecMetadata SpecRK SpecShape SpecRun SpecRevolve SpecTree SpecOrder SpecNodes SpecConvergence SpecSmooth SpecLocal
  M_Packing SpecPacking M_Component SpecComponent SpecStage M_Stage M_Kaps SpecKaps
  L_Vec L_Tableau L_Convergence L_Order L_Rows L_Run L_RunProps L_RunOrder L_Packing L_Component2 L_Component3 L_Local L_Local3 L_Stage L_Stage2 L_Kaps L_Kaps2 L_Kaps3.
Import ListNotations.
Local Open Scope string_scope.
Open Scope nat_scope.
Local Open Scope R_scope.
Local Open Scope list_scope.

Lemma shipped_facts x e eh nu (bt : tableau R) : In (x, (e, eh)) precision -> In (x, nu) node_precision -> shipped_init x = Ok (bt, []) ->
  tableau_wf bt /\ is_implicit bt = false /\ (0 < s_p x)%nat /\
  order_conditions (t_stages bt) (entry (t_A bt)) (fun k => vnth k (t_b bt)) (s_p x) (Q2R e) /\
  row_conditions (t_stages bt) (entry (t_A bt)) (fun k => vnth k (t_c bt)) (Q2R nu) /\ 0 <= Q2R nu.
Proof.
  intros Hx Hn Hi.
  destruct (shipped_constructed x e eh Hx) as (bt' & E & W & Hst & Himp & Hp & _).
  rewrite Hi in E; injection E as <-.
  destruct (shipped_order x e eh bt [] Hx Hi) as [Ho _].
  destruct (shipped_rows x e eh nu bt [] Hx Hn Hi) as [Hnu Hr].
  assert (Pp : (0 < s_p x)%nat).
  { pose proof shipped_complete as G.
    assert (J : In x all_tableaux) by (rewrite <- G; apply in_map_iff; exists (x, (e, eh)); auto).
    revert J; clear; unfold all_tableaux; cbn; intuition (subst; cbn; lia). }
  auto 10.
Qed.
Lemma order_nonneg s a b p e : (0 < p)%nat -> order_conditions s a b p e -> 0 <= e.
Proof.
  intros Hp H. pose proof (H (Node []) ltac:(cbn; lia)) as H0.
  eapply Rle_trans; [apply Rabs_pos|exact H0].
Qed.

Lemma c76_steps x e eh nu (bt : tableau R) md eps t1 M Hm :
  In (x, (e, eh)) precision -> In (x, nu) node_precision -> shipped_init x = Ok (bt, []) ->
  metadata_of 1 kaps_variables ["y_1"; "y_2"] [] = Ok [md] -> 0 < eps -> 0 < t1 -> 0 <= M -> 0 < Hm ->
  exists K H, 1 <= K /\ 0 < H /\
  forall newton kf kr v norm C (op : options R C) c w n tol w' vout outp, (0 < n)%nat -> t1 / INR n <= H ->
  fixed_steps op bt (openmdao_ode (kaps_problem eps newton kf kr) md (kaps_vectors v) norm) (t1 / INR n) n ->
  in_use op md kaps_io c w -> layout outp = snd kaps_io ->
  (forall k, (k < t_stages bt)%nat -> moderate Hm (entry (t_A bt) k k) M newton) -> 0 <= tol -> converged eps tol newton ->
  K * ((t1 / INR n) ^ s_p x + Q2R nu + Q2R e + tol) <= 1 ->
  component_compute op md (kaps_vec_in 0 1 1) outp w = (w', Ok vout) ->
  exists y1 y2, vout = kaps_vec_out t1 y1 y2 /\
    Rabs (y1 - exp (- 2 * t1)) <= K * ((t1 / INR n) ^ s_p x + Q2R nu + Q2R e + tol) /\
    Rabs (y2 - exp (- t1)) <= K * ((t1 / INR n) ^ s_p x + Q2R nu + Q2R e + tol).
Proof.
  intros Hx Hn Hi Hmd He Ht1 HM HHm. apply kaps_md_unique in Hmd as ->.
  destruct (shipped_facts x e eh nu bt Hx Hn Hi) as (W & I & P & O & R' & Nu).
  apply kaps_fixed; auto. eapply order_nonneg; eauto.
Qed.

Lemma c76_any_steps x e eh nu (bt : tableau R) md eps t1 M Hm :
  In (x, (e, eh)) precision -> In (x, nu) node_precision -> shipped_init x = Ok (bt, []) ->
  metadata_of 1 kaps_variables ["y_1"; "y_2"] [] = Ok [md] -> 0 < eps -> 0 < t1 -> 0 <= M -> 0 < Hm ->
  exists K H, 1 <= K /\ 0 < H /\
  forall newton kf kr v norm C (op : options R C) c w w' out,
  o_bt op = bt -> o_ode op = openmdao_ode (kaps_problem eps newton kf kr) md (kaps_vectors v) norm -> loops op ->
  reachable op c w ->
  (forall k, (k < t_stages bt)%nat -> moderate Hm (entry (t_A bt) k k) M newton) ->
  compute op {| time_initial := 0; initial := [1; 1]; independent := [] |} w = (w', Ok out) -> time_final out <= t1 ->
  exists a l, starts_at op {| time_initial := 0; initial := [1; 1]; independent := [] |} a /\ trajectory op a l /\
    log w' = (log w ++ bracketed Compute (length (o_callbacks op Compute)) 1 a l)%list /\
    forall hm tol, Forall (fun x => 0 < step_size (disc x) <= hm) l -> 0 <= hm <= H -> 0 <= tol -> converged eps tol newton ->
    K * (hm ^ s_p x + Q2R nu + Q2R e + tol) <= 1 ->
    within 2 (K * (hm ^ s_p x + Q2R nu + Q2R e + tol)) (final out) (kaps_exact (time_final out)).
Proof.
  intros Hx Hn Hi Hmd He Ht1 HM HHm. apply kaps_md_unique in Hmd as ->.
  destruct (shipped_facts x e eh nu bt Hx Hn Hi) as (W & I & P & O & R' & Nu).
  apply kaps_run; auto. eapply order_nonneg; eauto.
Qed.
