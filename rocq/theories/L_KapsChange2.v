(** Kaps' problem: derivative products converge to changes of the solution. *)
From Coq Require Import String.
From Coq Require Import List Bool Arith Reals Lia Lra QArith Qreals.
From Verif Require Import Base Ext M_Tableau M_Tableaux M_TableauxInit M_State M_ODE M_Step M_Integrator M_Metadata M_Components SpecMetadata SpecRK SpecDeriv SpecShape SpecRun
  SpecTree SpecOrder SpecNodes SpecConvergence SpecSmooth SpecLocal SpecSensitivity M_Packing SpecPacking M_Component SpecComponent SpecTotal SpecStage
  M_Stage M_Kaps SpecKaps SpecKapsChange L_Vec L_Metadata L_Convergence L_Order L_RunProps L_Component2 L_Component3 L_Stage2 L_Local L_Local3
  L_Kaps L_Kaps2 L_Kaps3 L_Kaps4 L_Kaps8 L_Sensitivity2 L_Sensitivity3 L_KapsChange.
Import ListNotations.
Local Open Scope string_scope.
Open Scope nat_scope.
Open Scope R_scope.
Local Open Scope list_scope.

Section Component.
Variables (eps : R) (newton : exchange -> list R -> list R -> res (list R)).
Variables kf kr : exchange -> list R -> list R -> list R -> list R -> res (list R).
Variables (v : R) (norm : ode_out R -> R).
Context {C : Type}.
Variable op : options R C.
Hypothesis Ho : o_ode op = openmdao_ode (kaps_problem eps newton kf kr) kaps_md (kaps_vectors v) norm.
Notation hn := (kaps_n eps newton kf kr v norm op Ho).
Notation hi := (kaps_i eps newton kf kr v norm op Ho).
Notation hs := (kaps_sized eps newton kf kr v norm op Ho).
Notation harr := (kaps_arr eps newton kf kr v norm op Ho).
Lemma kaps_fwd_call c w t y1 y2 dt d1 d2 w' dv : in_use op kaps_md kaps_io c w ->
  component_fwd op kaps_md (kaps_vec_in t y1 y2) (kaps_vec_in dt d1 d2) (kaps_vec_out 0 0 0) w = (w', Ok dv) ->
  exists out z1 z2, compute_jacvec_product_fwd op {| time_initial := t; initial := [y1; y2]; independent := [] |} {| time_initial := dt; initial := [d1; d2]; independent := [] |} w = (w', Ok out) /\
    final out = [z1; z2] /\ dv = kaps_vec_out (time_final out) z1 z2.
Proof.
  intros U E.
  pose proof (in_use_wf 1 0 _ _ _ [kaps_md] kaps_md _ _ kaps_metadata eq_refl kaps_declared op hn hi hs _ _ U) as W.
  rewrite (component_fwd_eq 1 0 _ _ _ [kaps_md] kaps_md _ _ kaps_metadata eq_refl kaps_declared op hn hi hs
    (kaps_vec_in t y1 y2) (kaps_vec_in dt d1 d2) (kaps_vec_out 0 0 0) _ _ 0 w W eq_refl eq_refl eq_refl (harr t y1 y2) (kaps_holds_in t y1 y2)
    (harr dt d1 d2) (kaps_holds_in dt d1 d2) eq_refl) in E.
  destruct (compute_jacvec_product_fwd op _ _ w) as [wb [out|]] eqn:F; [|discriminate]. injection E as <- <-.
  pose proof (fwd_sized op hs _ _ _ _ _ W (harr t y1 y2) (harr dt d1 d2) F) as So. unfold outputs_sized in So. rewrite hn in So.
  destruct out as [tf fin]. cbn in So |- *. destruct fin as [|z1 [|z2 [|]]]; try discriminate.
  exists {| time_final := tf; final := [z1; z2] |}, z1, z2. split; [reflexivity|]. split; [reflexivity|]. cbn. unfold kaps_vec_out. now rewrite Rplus_0_l.
Qed.
End Component.

Lemma moderate_change_less Hm M h a kf : moderate_change Hm a M kf -> h <= Hm -> moderate_change h a M kf.
Proof. intros H L h' xs z s g dz b Hh. apply H. lra. Qed.

Lemma scale_change K c S tol : 1 <= K -> 1 <= c -> 0 <= S -> 0 <= tol ->
  K * (S + c * tol) <= 3 * K * c * (S + tol) / 3 /\ tol <= 3 * K * c * (S + tol).
Proof.
  intros HK HC HS Ht. assert (A : S <= c * S) by nra. assert (B : 0 <= c * (S + tol)) by nra. split.
  - replace (3 * K * c * (S + tol) / 3) with (K * (c * S + c * tol)) by field. apply Rmult_le_compat_l; lra.
  - assert (tol <= c * (S + tol)) by nra. nra.
Qed.

Lemma kaps_products x e eh nu (bt : tableau R) md eps t1 M Hm D dt :
  In (x, (e, eh)) precision -> In (x, nu) node_precision -> shipped_init x = Ok (bt, []) ->
  metadata_of 1 kaps_variables ["y_1"; "y_2"] [] = Ok [md] -> 0 < eps -> 0 < t1 -> 0 <= M -> 0 < Hm ->
  solution 2 (fun t => kaps_change eps t (kaps_exact t)) 0 t1 D ->
  exists K H, 1 <= K /\ 0 < H /\
  forall newton kf kr v norm C (op : options R C) c w n tol d1 d2 w' dv, (0 < n)%nat -> t1 / INR n <= H ->
  fixed_steps op bt (openmdao_ode (kaps_problem eps newton kf kr) md (kaps_vectors v) norm) (t1 / INR n) n ->
  in_use op md kaps_io c w ->
  (forall k, (k < t_stages bt)%nat -> moderate Hm (entry (t_A bt) k k) M newton /\ moderate_change Hm (entry (t_A bt) k k) M kf) ->
  0 <= tol -> converged eps tol newton -> nearly_group eps tol kf ->
  K * ((t1 / INR n) ^ s_p x + Q2R nu + Q2R e + tol) <= 1 -> D 0 = [d1; d2] ->
  component_fwd op md (kaps_vec_in 0 1 1) (kaps_vec_in dt d1 d2) (kaps_vec_out 0 0 0) w = (w', Ok dv) ->
  exists z1 z2, dv = kaps_vec_out dt z1 z2 /\
    Rabs (z1 - vnth 0 (D t1)) <= K * ((t1 / INR n) ^ s_p x + Q2R nu + Q2R e + tol) /\
    Rabs (z2 - vnth 1 (D t1)) <= K * ((t1 / INR n) ^ s_p x + Q2R nu + Q2R e + tol).
Proof.
  intros Hx Hn Hi Hmd He Ht1 HM HHm HD. apply kaps_md_unique in Hmd as ->.
  destruct (shipped_facts x e eh nu bt Hx Hn Hi) as (W & I & P & O & R' & Nu).
  pose proof (order_nonneg _ _ _ _ _ P O) as E0. set (p := s_p x) in *. set (nu' := Q2R nu) in *. set (e' := Q2R e) in *. clearbody p nu' e'.
  pose proof (proj1 HD) as LD.
  destruct (solution_bounded _ t1 D ltac:(lra) HD) as (b & Hb & BD).
  destruct (sensitivity_fixed bt 2 (kaps_rhs eps) (kaps_change eps) (pair_box t1 b) p e' nu' (pair_L eps b) (1 / 3) 0 t1 [] dt [] kaps_exact D) as (K & H & K1 & H0 & HK); auto; try lra.
  - eapply pair_L_pos; eauto.
  - now apply pair_lipschitz.
  - now apply pair_solution.
  - now apply pair_inside.
  - now apply pair_smooth with (b := b).
  - destruct (pair_C_big eps He b Hb) as (_ & CC). pose proof (kaps_C_pos eps He) as C8. set (q := pair_C eps b) in *.
    assert (MB : 0 <= M * (b + 1)) by (apply Rmult_le_pos; lra).
    set (sm := small_step (M * (b + 1)) Hm bt). pose proof (small_pos (M * (b + 1)) Hm MB HHm bt) as SP. fold sm in SP.
    exists (3 * K * q), (Rmin H sm). split; [nra|]. split; [now apply Rmin_pos|].
    intros newton kf kr v norm C op c w n tol d1 d2 w' dv Hn0 HH Hop U Hmod Htol Hc Hg Hsmall ED E.
    pose proof Hop as (E1 & E2 & E3 & E4 & E5 & E6 & E7 & E8 & E9).
    destruct (kaps_fwd_call eps newton kf kr v norm op E2 c w 0 1 1 dt d1 d2 w' dv U E) as (out & z1 & z2 & F & Ef & ->).
    pose proof (kaps_reach eps newton kf kr v norm op E2 c w U) as HR.
    assert (Hn' : 0 < INR n) by (apply lt_0_INR, Hn0).
    assert (Hh : 0 < t1 / INR n) by (apply Rdiv_lt_0_compat; lra).
    pose proof (Rmin_l H sm) as L1. pose proof (Rmin_r H sm) as L2. pose proof (Rmin_l Hm (/ (3 * (diag bt * (M * (b + 1)) + 1)))) as L3.
    fold (small_step (M * (b + 1)) Hm bt) in L3. fold sm in L3. set (h := t1 / INR n) in *. pose proof (pow_le h p ltac:(lra)) as Pp.
    destruct (scale_change K q (h ^ p + nu' + e') tol K1 ltac:(lra) ltac:(lra) Htol) as [B1 B2].
    assert (Ht1' : tol <= 1) by (eapply Rle_trans; [exact B2|]; exact Hsmall).
    assert (P3 : 0 <= 3 * K * q * (h ^ p + nu' + e' + tol)) by (repeat apply Rmult_le_pos; lra).
    destruct (HK C op c w {| time_initial := 0; initial := [1; 1]; independent := [] |} {| time_initial := dt; initial := [d1; d2]; independent := [] |} w' out n (q * tol)) as (Tf & Wd); auto.
    + now rewrite E2.
    + eapply kaps_sized; eauto.
    + rewrite E4. unfold h. now rewrite Rminus_0_r.
    + rewrite E4. lra.
    + eapply kaps_arr; eauto.
    + cbn [initial]. unfold kaps_exact. now rewrite Rmult_0_r, Ropp_0, exp_0.
    + eapply kaps_arr; eauto.
    + nra.
    + intros k Hk. rewrite E2, E4. destruct (Hmod k Hk) as [Hm1 Hm2]. apply kaps_nearly_differentiates with (M := M); auto.
      * eapply moderate_less; eauto. lra.
      * eapply moderate_change_less; eauto. lra.
      * apply (small_stage (M * (b + 1)) Hm MB); [fold sm; lra|exact Hk].
    + rewrite E4. lra.
    + rewrite E4, Ef in Wd. exists z1, z2. rewrite Tf. split; [reflexivity|].
      split; (eapply Rle_trans; [|apply Rle_trans with (K * (h ^ p + nu' + e' + q * tol)); [|lra]]);
        [exact (Wd 0%nat ltac:(lia))|lra|exact (Wd 1%nat ltac:(lia))|lra].
Qed.

(** Gradients, with exact linear solves. *)
Lemma exact_group eps kf kr tol : solves_group eps kf kr -> 0 <= tol -> nearly_group eps tol kf.
Proof.
  intros [S _] Ht ex xs z s g dz L1 L2 L3 L4 E. exists s. split; [eapply S; eauto|].
  clear -Ht. induction s as [|x s IH]; constructor; [|exact IH]. rewrite Rminus_eq_0, Rabs_R0. exact Ht.
Qed.
Lemma kaps_gradients x e eh nu (bt : tableau R) md eps t1 M Hm D dt :
  In (x, (e, eh)) precision -> In (x, nu) node_precision -> shipped_init x = Ok (bt, []) ->
  metadata_of 1 kaps_variables ["y_1"; "y_2"] [] = Ok [md] -> 0 < eps -> 0 < t1 -> 0 <= M -> 0 < Hm ->
  solution 2 (fun t => kaps_change eps t (kaps_exact t)) 0 t1 D ->
  exists K H, 1 <= K /\ 0 < H /\
  forall newton kf kr v norm C (op : options R C) c w n tol d1 d2 wt u1 u2 wt' u1' u2' outp wa da wb va wc, (0 < n)%nat -> t1 / INR n <= H ->
  fixed_steps op bt (openmdao_ode (kaps_problem eps newton kf kr) md (kaps_vectors v) norm) (t1 / INR n) n -> o_ckpt op = AllCheckpointer ->
  in_use op md kaps_io c w -> layout outp = snd kaps_io ->
  (forall k, (k < t_stages bt)%nat -> moderate Hm (entry (t_A bt) k k) M newton /\ moderate_change Hm (entry (t_A bt) k k) M kf) ->
  0 <= tol -> converged eps tol newton -> solves_group eps kf kr ->
  K * ((t1 / INR n) ^ s_p x + Q2R nu + Q2R e + tol) <= 1 -> D 0 = [d1; d2] ->
  component_fwd op md (kaps_vec_in 0 1 1) (kaps_vec_in dt d1 d2) (kaps_vec_out 0 0 0) w = (wa, Ok da) ->
  component_compute op md (kaps_vec_in 0 1 1) outp w = (wb, Ok va) ->
  component_rev op md (kaps_vec_in 0 1 1) (kaps_vec_in 0 0 0) (kaps_vec_out wt u1 u2) wb = (wc, Ok (kaps_vec_in wt' u1' u2')) ->
  Rabs ((wt' * dt + u1' * d1 + u2' * d2) - (wt * dt + u1 * vnth 0 (D t1) + u2 * vnth 1 (D t1)))
    <= K * ((t1 / INR n) ^ s_p x + Q2R nu + Q2R e + tol) * (Rabs u1 + Rabs u2).
Proof.
  intros Hx Hn Hi Hmd He Ht1 HM HHm HD.
  destruct (kaps_products x e eh nu bt md eps t1 M Hm D dt Hx Hn Hi Hmd He Ht1 HM HHm HD) as (K & H & K1 & H0 & HK).
  exists K, H. split; [exact K1|]. split; [exact H0|].
  intros newton kf kr v norm C op c w n tol d1 d2 wt u1 u2 wt' u1' u2' outp wa da wb va wc Hn0 HH Hop Ck U Lo Hmod Htol Hc Sg Hsmall ED EF EC ER.
  destruct (HK newton kf kr v norm C op c w n tol d1 d2 wa da Hn0 HH Hop U Hmod Htol Hc (exact_group _ _ _ _ Sg Htol) Hsmall ED EF) as (z1 & z2 & -> & B1 & B2).
  destruct (shipped_facts x e eh nu bt Hx Hn Hi) as (W & _). destruct Hop as (E1 & E2 & _).
  pose proof (c77_transposed C op md eps newton kf kr v norm c w Hmd E2 ltac:(now rewrite E1) Ck Sg U 0 1 1 dt d1 d2 dt z1 z2 wt u1 u2 wt' u1' u2' outp va wa wb wc Lo EF EC ER) as Q.
  rewrite <- Q. set (b := K * _) in *.
  replace (_ - _) with (u1 * (z1 - vnth 0 (D t1)) + u2 * (z2 - vnth 1 (D t1))) by ring.
  eapply Rle_trans; [apply Rabs_triang|]. rewrite !Rabs_mult.
  pose proof (Rmult_le_compat_l _ _ _ (Rabs_pos u1) B1). pose proof (Rmult_le_compat_l _ _ _ (Rabs_pos u2) B2). lra.
Qed.
