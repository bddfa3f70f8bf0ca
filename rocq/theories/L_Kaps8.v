(** Kaps' problem: derivative products of whole runs, by name. *)
From Coq Require Import String.
From Coq Require Import List Bool Arith Reals Lia Lra.
From Verif Require Import Base Ext M_Tableau M_State M_ODE M_Step M_Integrator M_Metadata M_Components SpecMetadata SpecRK SpecDeriv SpecShape SpecRun
  SpecComponents M_Packing SpecPacking M_Component SpecComponent SpecTotal SpecStage
  M_Stage M_Kaps SpecKaps L_Vec L_Metadata L_Components L_Packing L_Packing3 L_Packing6 L_Deriv L_Component3 L_Total L_Stage L_Stage2
  L_Kaps L_Kaps3 L_Kaps5 L_Kaps6 L_Kaps7.
Import ListNotations.
Local Open Scope string_scope.
Local Open Scope R_scope.
Local Open Scope list_scope.

Lemma c77_forward C (op : options R C) md eps newton kf kr v norm n c w :
  metadata_of 1 kaps_variables ["y_1"; "y_2"] [] = Ok [md] -> 0 < eps ->
  o_ode op = openmdao_ode (kaps_problem eps newton kf kr) md (kaps_vectors v) norm ->
  tableau_wf (o_bt op) -> o_adaptive op = false -> o_crit op = PredefinedNumberOfSteps n -> loops op ->
  converged eps 0 newton -> follows_branch newton -> solves_group eps kf kr -> solves_regular eps kf ->
  in_use op md kaps_io c w ->
  forall (T A B T' A' B' : R -> R) dT dA dB dT' dA' dB' del w' w1 outp, 0 < del -> layout outp = snd kaps_io ->
  (forall e, Rabs e < del -> component_compute op md (kaps_vec_in (T e) (A e) (B e)) outp w = (w' e, Ok (kaps_vec_out (T' e) (A' e) (B' e)))) ->
  derivable_pt_lim T 0 dT -> derivable_pt_lim A 0 dA -> derivable_pt_lim B 0 dB ->
  component_fwd op md (kaps_vec_in (T 0) (A 0) (B 0)) (kaps_vec_in dT dA dB) (kaps_vec_out 0 0 0) w = (w1, Ok (kaps_vec_out dT' dA' dB')) ->
  derivable_pt_lim T' 0 dT' /\ derivable_pt_lim A' 0 dA' /\ derivable_pt_lim B' 0 dB'.
Proof.
  intros Hmd He Ho Wt Had Hcr Lo Cv Fb Sg Rg U T A B T' A' B' dT dA dB dT' dA' dB' del w' w1 outp D0 Lp E HT HA HB EF.
  apply kaps_md_unique in Hmd as ->.
  assert (V : vec_curve (fun e => kaps_vec_out (T' e) (A' e) (B' e)) (kaps_vec_out dT' dA' dB')).
  { apply (by_name_derivative 1 0 _ _ _ _ _ _ _ kaps_metadata eq_refl kaps_declared _ _ norm (kaps_keeps eps newton kf kr) op Ho
      n del (fun e => kaps_vec_in (T e) (A e) (B e)) (kaps_vec_in dT dA dB) c (fun _ => w) w' _ (fun _ => outp) (kaps_vec_out 0 0 0) w w1); auto.
    - now apply kaps_differentiable.
    - apply kaps_formed.
    - apply kaps_sources.
    - apply kaps_time.
    - intros m k. unfold look, kaps_vec_in. cbn [get].
      destruct (String.eqb m _); [now apply (entry_moves T)|]. destruct (String.eqb m _); [now apply (entry_moves A)|].
      destruct (String.eqb m _); [now apply (entry_moves B)|]. apply derivable_pt_lim_const.
    - repeat constructor. }
  split; [exact (V "time_final" 0%nat)|]. split; [exact (V "y_1_final" 0%nat)|exact (V "y_2_final" 0%nat)].
Qed.

Lemma c77_transposed C (op : options R C) md eps newton kf kr v norm c w :
  metadata_of 1 kaps_variables ["y_1"; "y_2"] [] = Ok [md] ->
  o_ode op = openmdao_ode (kaps_problem eps newton kf kr) md (kaps_vectors v) norm ->
  tableau_wf (o_bt op) -> o_ckpt op = AllCheckpointer -> solves_group eps kf kr ->
  in_use op md kaps_io c w ->
  forall t y1 y2 dt d1 d2 dt' d1' d2' wt u1 u2 wt' u1' u2' outp va wa wb wc, layout outp = snd kaps_io ->
  component_fwd op md (kaps_vec_in t y1 y2) (kaps_vec_in dt d1 d2) (kaps_vec_out 0 0 0) w = (wa, Ok (kaps_vec_out dt' d1' d2')) ->
  component_compute op md (kaps_vec_in t y1 y2) outp w = (wb, Ok va) ->
  component_rev op md (kaps_vec_in t y1 y2) (kaps_vec_in 0 0 0) (kaps_vec_out wt u1 u2) wb = (wc, Ok (kaps_vec_in wt' u1' u2')) ->
  wt * dt' + u1 * d1' + u2 * d2' = wt' * dt + u1' * d1 + u2' * d2.
Proof.
  intros Hmd Ho Wt Ck Sg U t y1 y2 dt d1 d2 dt' d1' d2' wt u1 u2 wt' u1' u2' outp va wa wb wc Lp EF EC ER.
  apply kaps_md_unique in Hmd as ->.
  assert (Q : vinner (kaps_vec_out wt u1 u2) (kaps_vec_out dt' d1' d2') = vinner (kaps_vec_in wt' u1' u2') (kaps_vec_in dt d1 d2)).
  { eapply (by_name_transposed 1 0 _ _ _ _ _ _ _ kaps_metadata eq_refl kaps_declared _ _ norm (kaps_keeps eps newton kf kr) op Ho c c w w) with (zi := kaps_vec_in 0 0 0);
      try exact EF; try exact EC; try exact ER; try reflexivity; auto.
    - now apply kaps_transposed.
    - apply kaps_formed.
    - apply kaps_sources.
    - apply kaps_outputs.
    - apply kaps_time.
    - repeat constructor.
    - repeat constructor. }
  unfold vinner, kaps_vec_in, kaps_vec_out in Q. cbn in Q. lra.
Qed.

(** When calls return. *)
Definition returns_four (f : res (list R)) : Prop := exists z0 z1 z2 z3, f = Ok [z0; z1; z2; z3].
Lemma kaps_answers eps newton kf kr x norm h a :
  (forall xs g, length xs = 4%nat -> returns_four (newton (exch h a) xs g)) ->
  (forall xs z s g, length xs = 4%nat -> length z = 4%nat -> length s = 4%nat -> returns_four (kf (exch h a) xs z s g)) ->
  (forall xs z s g, length xs = 4%nat -> length z = 4%nat -> length s = 4%nat -> returns_four (kr (exch h a) xs z s g)) ->
  answers (openmdao_ode (kaps_problem eps newton kf kr) kaps_md (kaps_vectors x) norm) h a.
Proof.
  intros Hn Hf Hr. split; [|split].
  - intros [y s p t] (L1 & L2 & L3). cbn in L1, L2, L3. apply len2 in L1 as (y1 & y2 & ->), L2 as (s1 & s2 & ->). destruct p; [|discriminate].
    cbv -[Rplus Rmult Ropp Rdiv Rinv IZR RNum]. 
    match goal with |- context [newton ?ex ?xs ?g] => destruct (Hn xs g eq_refl) as (z0 & z1 & z2 & z3 & ->) end.
    eexists; reflexivity.
  - intros lp [y s p t] L (L1 & L2 & L3). cbn in L, L1, L2, L3. apply len2 in L1 as (y1 & y2 & ->), L2 as (s1 & s2 & ->). destruct p; [|discriminate].
    do 14 (destruct lp as [|? lp]; [discriminate|]). destruct lp; [|discriminate].
    cbv -[Rplus Rmult Ropp Rdiv Rinv IZR RNum].
    match goal with |- context [kf ?ex ?xs ?z ?s ?g] => destruct (Hf xs z s g eq_refl eq_refl eq_refl) as (z0 & z1 & z2 & z3 & ->) end.
    eexists; reflexivity.
  - intros lp [u s p] L L1 L2 L3. cbn in L, L1, L2, L3. apply len2 in L1 as (y1 & y2 & ->), L2 as (s1 & s2 & ->). destruct p; [|discriminate].
    do 14 (destruct lp as [|? lp]; [discriminate|]). destruct lp; [|discriminate].
    cbv -[Rplus Rmult Ropp Rdiv Rinv IZR RNum].
    match goal with |- context [kr ?ex ?xs ?z ?s ?g] => destruct (Hr xs z s g eq_refl eq_refl eq_refl) as (z0 & z1 & z2 & z3 & ->) end.
    eexists; reflexivity.
Qed.
