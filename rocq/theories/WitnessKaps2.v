(** Runs of the classical method with Kaps' problem and the direct solvers. *)
From Coq Require Import String.
From Coq Require Import List Bool Arith Reals Lia Lra.
From Verif Require Import Base Ext M_Tableau M_Tableaux M_TableauxInit M_State M_ODE M_Step M_Integrator M_Metadata M_Components
  SpecRK SpecShape SpecRun SpecTotal M_Packing SpecPacking M_Component SpecComponent SpecStage M_Stage M_Kaps SpecKaps
  L_Vec L_Total L_RunProps L_Component2 L_Component3 L_Kaps L_Kaps3 L_Kaps8 WitnessRun WitnessStage WitnessKaps.
Import ListNotations.
Local Open Scope string_scope.
Local Open Scope R_scope.
Local Open Scope list_scope.

Definition kaps_study (eps dl : R) (bt : tableau R) (h : R) (n : nat) : options R Datatypes.unit :=
  study_op bt (openmdao_ode (kaps_problem eps (direct_newton eps dl) (direct_fwd eps) (direct_rev eps)) kaps_md (kaps_vectors 1) (fun _ => 0)) h n.

Section Returns.
Variables (eps dl h : R) (bt : tableau R) (n : nat).
Hypothesis He : 0 < eps.
Hypothesis Hpos : (0 < t_stages bt)%nat.
Hypothesis Hdiag : forall i, (i < t_stages bt)%nat -> entry (t_A bt) i i = 0.
Notation op := (kaps_study eps dl bt h n).
Notation arr t y1 y2 := {| time_initial := t; initial := [y1; y2]; independent := [] |}.

Lemma study_answers i : (i < t_stages (o_bt op))%nat -> answers (o_ode op) (o_step op) (entry (t_A (o_bt op)) i i).
Proof. intros Hi. apply direct_answers; [exact He|]. change (o_bt op) with bt in *. rewrite Hdiag by exact Hi. ring. Qed.
Lemma study_loops : loops op.
Proof. apply (study_fixed bt (o_ode op) h n). Qed.
Lemma study_quiet : quiet op.
Proof. apply (study_fixed bt (o_ode op) h n). Qed.
Lemma study_enough i : enough_steps op i.
Proof. unfold enough_steps. cbn. lia. Qed.
Notation sized := (kaps_sized eps (direct_newton eps dl) (direct_fwd eps) (direct_rev eps) 1 (fun _ => 0) op eq_refl).
Notation hn := (kaps_n eps (direct_newton eps dl) (direct_fwd eps) (direct_rev eps) 1 (fun _ => 0) op eq_refl).
Notation hi := (kaps_i eps (direct_newton eps dl) (direct_fwd eps) (direct_rev eps) 1 (fun _ => 0) op eq_refl).
Notation harr := (kaps_arr eps (direct_newton eps dl) (direct_fwd eps) (direct_rev eps) 1 (fun _ => 0) op eq_refl).
Lemma study_reach c w : in_use op kaps_md kaps_io c w -> reachable op c w.
Proof. exact (kaps_reach eps (direct_newton eps dl) (direct_fwd eps) (direct_rev eps) 1 (fun _ => 0) op eq_refl c w). Qed.
Lemma study_size : state_size (o_ode op) = 2%nat /\ independent_input_size (o_ode op) = 0%nat /\ sized_ode (o_ode op).
Proof. split; [exact hn|]. split; [exact hi|exact sized]. Qed.

Lemma study_computes c w t y1 y2 : in_use op kaps_md kaps_io c w -> exists w' out, compute op (arr t y1 y2) w = (w', Ok out).
Proof.
  intros U. apply (compute_total op Hpos study_answers sized eq_refl study_loops study_quiet) with (c := c); try (cbn; lia).
  - now apply study_reach.
  - apply harr.
Qed.
Lemma study_outputs (v : vec R) : layout v = snd kaps_io -> exists t y1 y2, v = kaps_vec_out t y1 y2.
Proof.
  destruct v as [|[n1 [|x [|]]] [|[n2 [|y [|]]] [|[n3 [|z [|]]] [|]]]]; cbn; try discriminate. intros [= -> -> ->]. exists x, y, z. reflexivity.
Qed.
Lemma study_inputs (v : vec R) : layout v = fst kaps_io -> exists t y1 y2, v = kaps_vec_in t y1 y2.
Proof.
  destruct v as [|[n1 [|x [|]]] [|[n2 [|y [|]]] [|[n3 [|z [|]]] [|]]]]; cbn; try discriminate. intros [= -> -> ->]. exists x, y, z. reflexivity.
Qed.
Lemma study_compute c w t y1 y2 outp : in_use op kaps_md kaps_io c w -> layout outp = snd kaps_io ->
  exists w' t' z1 z2, component_compute op kaps_md (kaps_vec_in t y1 y2) outp w = (w', Ok (kaps_vec_out t' z1 z2)).
Proof.
  intros U Lo. destruct (study_computes c w t y1 y2 U) as (w' & out & E).
  pose proof (by_name_compute 1 0 _ _ _ [kaps_md] kaps_md _ _ kaps_metadata eq_refl kaps_declared op hn hi sized c w (kaps_vec_in t y1 y2) outp (arr t y1 y2)
    U eq_refl Lo (harr t y1 y2) (kaps_holds_in t y1 y2)) as B. rewrite E in B. destruct B as (v & -> & Lv & _).
  destruct (study_outputs v Lv) as (t' & z1 & z2 & ->). eauto.
Qed.
Lemma study_fwd c w t y1 y2 dt d1 d2 : in_use op kaps_md kaps_io c w ->
  exists w' dt' d1' d2', component_fwd op kaps_md (kaps_vec_in t y1 y2) (kaps_vec_in dt d1 d2) (kaps_vec_out 0 0 0) w = (w', Ok (kaps_vec_out dt' d1' d2')).
Proof.
  intros U. destruct (fwd_total op Hpos study_answers sized eq_refl study_quiet) with (c := c) (w := w) (i := arr t y1 y2) (d := arr dt d1 d2) as (w' & out & E);
    try (cbn; lia); try apply harr; try apply study_enough; [now apply study_reach|].
  pose proof (by_name_fwd 1 0 _ _ _ [kaps_md] kaps_md _ _ kaps_metadata eq_refl kaps_declared op hn hi sized c w (kaps_vec_in t y1 y2) (kaps_vec_in dt d1 d2)
    (kaps_vec_out 0 0 0) (arr t y1 y2) (arr dt d1 d2) 0 U eq_refl eq_refl eq_refl (harr _ _ _) (kaps_holds_in _ _ _) (harr _ _ _) (kaps_holds_in _ _ _) eq_refl) as B.
  rewrite E in B. destruct B as (v & -> & Lv & _). destruct (study_outputs v Lv) as (t' & z1 & z2 & ->). eauto.
Qed.
Lemma study_rev c w t y1 y2 wt u1 u2 outp wb va : in_use op kaps_md kaps_io c w -> layout outp = snd kaps_io ->
  component_compute op kaps_md (kaps_vec_in t y1 y2) outp w = (wb, Ok va) ->
  exists w' wt' u1' u2', component_rev op kaps_md (kaps_vec_in t y1 y2) (kaps_vec_in 0 0 0) (kaps_vec_out wt u1 u2) wb = (w', Ok (kaps_vec_in wt' u1' u2')).
Proof.
  intros U Lo Ec. destruct (study_computes c w t y1 y2 U) as (w0 & out & E).
  pose proof (by_name_compute 1 0 _ _ _ [kaps_md] kaps_md _ _ kaps_metadata eq_refl kaps_declared op hn hi sized c w (kaps_vec_in t y1 y2) outp (arr t y1 y2)
    U eq_refl Lo (harr t y1 y2) (kaps_holds_in t y1 y2)) as B. rewrite E in B. destruct B as (v0 & B & _). rewrite Ec in B. injection B as <- <-.
  assert (So : outputs_sized (o_ode op) {| time_final := wt; final := [u1; u2] |}) by reflexivity.
  destruct (rev_total op Hpos study_answers sized eq_refl study_loops) with (c := c) (w := w) (i := arr t y1 y2) (d := {| time_final := wt; final := [u1; u2] |}) (w1 := wb) (out := out)
    as (w' & g & Eg); try exact E; try exact So; try apply harr; try reflexivity; try (cbn; lia); try apply study_quiet; [now apply study_reach|].
  assert (U1 : in_use op kaps_md kaps_io c wb).
  { destruct U as (hist & F & ->). exists (hist ++ [OMCompute (kaps_vec_in t y1 y2) outp]). split.
    - apply Forall_app. split; [exact F|]. repeat constructor; exact Lo.
    - unfold run_om_calls in *. rewrite fold_left_app. cbn [fold_left run_om_call]. now rewrite Ec. }
  pose proof (by_name_rev 1 0 _ _ _ [kaps_md] kaps_md _ _ kaps_metadata eq_refl kaps_declared op hn hi sized c wb (kaps_vec_in t y1 y2) (kaps_vec_in 0 0 0)
    (kaps_vec_out wt u1 u2) (arr t y1 y2) {| time_final := wt; final := [u1; u2] |} 0 U1 eq_refl eq_refl eq_refl (harr _ _ _) (kaps_holds_in _ _ _) So) as B.
  rewrite Eg in B. destruct B as (v1 & -> & Lv & _); [split; [reflexivity|intros q [<-|[<-|[]]]; reflexivity]|reflexivity|].
  destruct (study_inputs v1 Lv) as (t' & z1 & z2 & ->). eauto.
Qed.
End Returns.

(** Steps fine enough for given bounds. *)
Lemma fine_steps t1 K H : 0 < t1 -> 1 <= K -> 0 < H -> exists n, (0 < n)%nat /\ t1 / INR n <= H /\ K * (t1 / INR n) ^ 4 <= 1 / 2.
Proof.
  intros Ht HK HH. destruct (archimed_cor1 (Rmin (H / t1) (/ (2 * K * t1)))) as (n & Hn & N0).
  { apply Rmin_pos; [apply Rdiv_lt_0_compat; lra|apply Rinv_0_lt_compat]. nra. }
  assert (Pn : 0 < INR n) by (apply lt_0_INR; lia).
  assert (A : / INR n <= H / t1) by (eapply Rle_trans; [left; exact Hn|apply Rmin_l]).
  assert (B : / INR n <= / (2 * K * t1)) by (eapply Rle_trans; [left; exact Hn|apply Rmin_r]).
  assert (In : 0 < / INR n) by (now apply Rinv_0_lt_compat).
  exists n. split; [lia|]. split.
  - unfold Rdiv. apply Rle_trans with (t1 * (H / t1)); [apply Rmult_le_compat_l; lra|right; field; lra].
  - set (h := t1 / INR n). assert (H0 : 0 < h) by (unfold h, Rdiv; nra).
    assert (H1 : K * h <= 1 / 2).
    { unfold h, Rdiv. apply Rle_trans with (K * (t1 * / (2 * K * t1))); [apply Rmult_le_compat_l; [lra|apply Rmult_le_compat_l; lra]|right; field; lra]. }
    assert (H2 : h <= 1) by nra. assert (H3 : h ^ 3 <= 1) by (rewrite <- (pow1 3); apply pow_incr; lra).
    assert (0 <= h ^ 3) by (apply pow_le; lra). replace (K * h ^ 4) with (K * h * h ^ 3) by ring. nra.
Qed.
