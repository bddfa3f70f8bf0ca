(** C39: transposes, linearity and derivatives of the OpenMDAO-backed ODE. *)
From Coq Require Import String.
From Coq Require Import List Bool Arith Reals Lia Lra.
From Verif Require Import Base Ext M_ODE M_Metadata M_Components SpecMetadata SpecRK SpecDeriv SpecComponents
  M_Packing SpecPacking L_Vec L_Components L_Metadata L_Metadata2 L_Packing L_Packing2 L_Packing3 L_Packing4.
Import ListNotations.
Local Open Scope string_scope.
Local Open Scope R_scope.
Local Open Scope list_scope.

Section C39.
Variables (procs rank : nat) (vs : list variable) (qs is : list string) (mds : list metadata) (md : metadata).
Variables (pb : problem R) (st : om_state R) (norm : ode_out R -> R).
Hypothesis Hmd : metadata_of procs vs qs is = Ok mds.
Hypothesis Hr : nth_error mds rank = Some md.

Let Lt := proj1 (md_laid_out _ _ _ _ _ _ _ Hmd Hr).
Let Li := proj2 (md_laid_out _ _ _ _ _ _ _ Hmd Hr).

Lemma update_call inp h a r lp : compute_update (openmdao_ode pb md st norm) inp h a = Ok (r, lp) ->
  sized_in md inp /\ exists st', om_compute_update pb md st inp h a = Ok (st', (r, lp)).
Proof.
  cbn. destruct (_ && _ && _) eqn:E; [|discriminate].
  apply andb_prop in E as (E & E3). apply andb_prop in E as (E1 & E2). apply Nat.eqb_eq in E1, E2, E3.
  intros H. apply bind_pair_ok in H as (s & r' & H & [= ->]). split; [split; auto|eauto].
Qed.
Lemma derivative_call lp d h a r : compute_update_derivative (openmdao_ode pb md st norm) lp d h a = Ok r ->
  sized_in md d /\ exists st', om_derivative pb md st lp d h a = Ok (st', r).
Proof.
  cbn. destruct (_ && _ && _) eqn:E; [|discriminate].
  apply andb_prop in E as (E & E3). apply andb_prop in E as (E1 & E2). apply Nat.eqb_eq in E1, E2, E3.
  intros H. apply bind_pair_ok in H as (s & r' & H & [= ->]). split; [split; auto|eauto].
Qed.
Lemma adjoint_call lp w h a x : compute_update_adjoint_derivative (openmdao_ode pb md st norm) lp w h a = Ok x ->
  length (stage_update w) = time_integration_array_size md /\ exists st', om_adjoint pb md st lp w h a = Ok (st', x).
Proof.
  cbn. destruct (_ =? _)%nat eqn:E; [|discriminate]. apply Nat.eqb_eq in E.
  intros H. apply bind_pair_ok in H as (s & r' & H & [= ->]). split; [auto|eauto].
Qed.

Lemma c39_result_sizes : keeps_layout pb -> result_sizes (openmdao_ode pb md st norm).
Proof.
  intros K inp h a r lp H. apply update_call in H as (S & st' & H).
  pose proof (c40_size _ _ _ _ _ _ _ _ _ norm K H) as C.
  apply update_inv_state in H as (v & _ & _ & R & E1 & E2 & _). rewrite (proj1 S) in R, E1.
  apply (read_output md Lt) in R as (R & _). rewrite E1, E2, length_vzeros. auto.
Qed.
Lemma c39_derivative_sizes : derivative_sizes (openmdao_ode pb md st norm).
Proof.
  intros lp d h a r H. apply derivative_call in H as (S & st' & H).
  apply derivative_inv_state in H as (st1 & v & _ & _ & _ & R & E1 & E2 & _). rewrite (proj1 S) in R, E1.
  apply (read_output md Lt) in R as (R & _). rewrite E1, E2, length_vzeros. auto.
Qed.
Definition zero_in : ode_in R := {| M_ODE.step_input := vzeros (time_integration_array_size md);
  stage_input := vzeros (time_integration_array_size md);
  independent_input := vzeros (time_independent_input_size md); time := 0 |}.
Lemma zero_in_sized : sized_in md zero_in.
Proof. repeat split; apply length_vzeros. Qed.
Lemma c39_adjoint_sizes : adjoint_sizes (openmdao_ode pb md st norm).
Proof.
  intros lp w h a x H. apply adjoint_call in H as (S & st' & H).
  apply adjoint_inv_state in H as (st1 & v & _ & _ & _ & R & _).
  apply (read_input pb md Lt Li _ _ zero_in zero_in_sized) in R as (R & _). exact R.
Qed.
Lemma c39_ignores : ignores_stage_state_weights (openmdao_ode pb md st norm).
Proof. intros lp r r' h a E _. cbn. unfold om_adjoint. now rewrite E. Qed.

Lemma weigh_resolved L y d : resolved pb md L ->
  lsum (map (weigh pb y d) (sels md)) = lsum (map (fun p => dot (getd (fst p) y) (snd p d)) L).
Proof.
  unfold resolved. revert L. induction (sels md) as [|[n g] l IH]; intros [|p L] R; cbn in R; try discriminate; [reflexivity|].
  cbn [map]. change (lsum (?x :: ?y)) with (x + lsum y).
  destruct (source_of pb n) as [s|] eqn:E; [|discriminate]. cbn in R. injection R as <- R.
  rewrite (IH _ R). unfold weigh at 1; cbn [fst snd]. now rewrite E.
Qed.

Lemma input_inner L d f y z r : resolved pb md L -> distinct_sources pb md ->
  writes (assignments L d f) (zeroed z) = Ok r -> layout y = layout z ->
  vinner y r = f * lsum (map (weigh pb y d) (sels md)).
Proof.
  intros R D W Ly. rewrite (weigh_resolved L) by assumption.
  rewrite (writes_vinner _ _ _ y) with (2 := W).
  - rewrite zeroed_vinner. unfold assignments. rewrite map_map. cbn [fst snd].
    rewrite <- (lsum_scale (fun p => dot (getd (fst p) y) (snd p d))). rewrite Rplus_0_l.
    apply lsum_ext. intros p _. apply dot_vscale_r.
  - unfold assignments. rewrite map_map. cbn [fst]. eapply resolved_nodup; eauto.
  - rewrite zeroed_layout. exact Ly.
  - intros n u t _ G. apply zeroed_get in G as (x & _ & ->). apply dot_zero.
Qed.

Lemma nonlocal_part q (arr : list R) : In q (time_integration_quantities md) -> local (q_array q) = false ->
  part (q_array q) arr = [].
Proof.
  intros I E. assert (X : forall l n m a, laid_out n l m -> In a l -> local a = false ->
    start_index a = 0%nat /\ end_index a = 0%nat).
  { induction l as [|b l IH]; cbn; intros n m a H J El; [contradiction|]. destruct J as [<-|J].
    - rewrite El in H; tauto.
    - destruct (local b); [destruct H as (_ & _ & H)|destruct H as (_ & H)]; eauto. }
  destruct (X _ _ _ (q_array q) Lt) as (A & B); [apply in_map, I|exact E|]. unfold part. rewrite A, B. reflexivity.
Qed.

Lemma dot_quantities (w u : list R) :
  length w = time_integration_array_size md -> length u = time_integration_array_size md ->
  dot w u = lsum (map (fun q => dot (part (q_array q) w) (part (q_array q) u)) (out_sels md)).
Proof.
  intros Lw Lu. pose proof (dot_cuts _ _ _ w u (laid_out_lay _ _ _ Lt) Lw Lu) as D. cbn [skipn] in D.
  rewrite D, !map_map. unfold out_sels.
  assert (X : forall l, (forall q, In q l -> In q (time_integration_quantities md)) ->
    lsum (map (fun q : quantity ti_translation => dot (cut (rng (q_array q)) w) (cut (rng (q_array q)) u)) l)
    = lsum (map (fun q => dot (part (q_array q) w) (part (q_array q) u)) (filter (fun q => local (q_array q)) l))).
  { induction l as [|q l IH]; intros H; [reflexivity|]. cbn [map filter].
    change (lsum (?x :: ?y)) with (x + lsum y). rewrite IH by (intros; apply H; right; assumption).
    destruct (local (q_array q)) eqn:E; [reflexivity|].
    change (cut (rng (q_array q)) w) with (part (q_array q) w).
    rewrite (nonlocal_part q w) by (auto; apply H; left; reflexivity). cbn [dot]. ring. }
  apply X. auto.
Qed.

Lemma outputs_nodup L : distinct_outputs md -> map out_name (out_sels md) = map Ok L -> NoDup L.
Proof.
  unfold distinct_outputs, output_variables.
  rewrite (flat_map_filter (fun q : quantity ti_translation => local (q_array q))
             (fun q => stage_output_var (q_translation q))).
  fold (out_sels md). revert L.
  induction (out_sels md) as [|q l IH]; intros [|n L] D E; cbn in E; try discriminate; [constructor|].
  assert (E1 : out_name q = Ok n) by congruence. assert (E2 : map out_name l = map Ok L) by congruence. clear E.
  cbn in D. inversion D as [|? ? D1 D2]; subst. constructor; [|auto].
  intros I. apply D1. unfold out_name, output_name in E1.
  destruct (stage_output_var (q_translation q)) as [n'|]; [|discriminate]. injection E1 as ->.
  clear -E2 I. revert L E2 I. induction l as [|q' l IH]; intros [|n' L] E I; cbn in *; try discriminate; [contradiction|].
  assert (E1 : out_name q' = Ok n') by congruence. assert (E2 : map out_name l = map Ok L) by congruence. clear E.
  destruct I as [->|I]; [left|right; eauto].
  unfold out_name, output_name in E1. destruct (stage_output_var (q_translation q')); congruence.
Qed.

Lemma output_inner w f x z v upd : distinct_outputs md -> length w = time_integration_array_size md ->
  output_state_to_om_vector md w f (zeroed z) = Ok v -> layout x = layout z ->
  om_vector_to_output_state md x (vzeros (time_integration_array_size md)) = Ok upd ->
  vinner x v = f * dot w upd.
Proof.
  intros D Lw W Lx R. destruct (output_writes md Lt _ _ _ _ Lw W) as (L & E & W').
  destruct (read_output md Lt _ _ R) as (Lu & P).
  assert (NL : NoDup L) by (eapply outputs_nodup; eauto).
  assert (LL : length L = length (out_sels md)) by (rewrite <- (map_length Ok L), <- E, map_length; reflexivity).
  rewrite (writes_vinner _ _ _ x) with (2 := W').
  - rewrite zeroed_vinner, (dot_quantities w upd Lw Lu), Rplus_0_l.
    rewrite <- (lsum_scale (fun q => dot (part (q_array q) w) (part (q_array q) upd))).
    assert (Sub : forall q, In q (out_sels md) -> exists n, out_name q = Ok n /\ get n x = Ok (part (q_array q) upd)).
    { intros q I. apply filter_In in I as (I & El). specialize (P q I). now rewrite El in P. }
    clear -E Sub. revert L E. induction (out_sels md) as [|q l IH]; intros [|n L] E; cbn in E; try discriminate; [reflexivity|].
    assert (E1 : out_name q = Ok n) by congruence. assert (E2 : map out_name l = map Ok L) by congruence.
    cbn [map combine]. change (lsum (?x :: ?y)) with (x + lsum y).
    rewrite (IH (fun q I => Sub q (or_intror I)) L E2). f_equal. cbn [fst snd].
    destruct (Sub q (or_introl eq_refl)) as (n' & En & G). assert (n' = n) by congruence; subst n'.
    rewrite (getd_ok _ _ _ G), dot_vscale_r, dot_comm. reflexivity.
  - replace (map fst (combine L (map (fun q => vscale f (part (q_array q) w)) (out_sels md)))) with L; [exact NL|].
    assert (X : forall B (l : list string) (l' : list B), length l = length l' -> l = map fst (combine l l')).
    { intros B l; induction l as [|a l IH]; intros [|b l'] H; try discriminate; [reflexivity|]. cbn. f_equal.
      apply IH. injection H; auto. }
    apply X. rewrite map_length. exact LL.
  - rewrite zeroed_layout. exact Lx.
  - intros n u t _ G. apply zeroed_get in G as (y & _ & ->). apply dot_zero.
Qed.

Lemma c39_transposed : keeps_layout pb -> solves_transposed pb -> well_formed st ->
  distinct_sources pb md -> distinct_outputs md -> scalar_time pb md st ->
  ode_transposed (openmdao_ode pb md st norm).
Proof.
  intros (K1 & K2 & K3) Tr (W1 & W2) Ds Do Sc lp h a d r w x Sd Sw Hd Ha.
  apply derivative_call in Hd as (Z & st2 & Hd). apply adjoint_call in Ha as (Zw & st3 & Ha).
  apply derivative_inv_state in Hd as (st1 & rr & S & A & B & C & E1 & E2 & _).
  apply adjoint_inv_state in Ha as (st1' & v & S' & A' & B' & C' & _). rewrite S in S'. injection S' as <-.
  apply set_layout in S as (L1 & L2 & L3 & L4). rewrite L3, L4 in *.
  assert (Sz : scalar pb md (zeroed (om_dres st))).
  { eapply scalar_layout; [|exact Sc]. rewrite zeroed_layout. exact W2. }
  destruct (input_writes pb md Lt Li _ _ _ _ Sz Z A) as (L & R & Wr).
  pose proof (put_input_layout _ _ _ _ _ _ A) as Ar. rewrite zeroed_layout in Ar.
  pose proof (put_output_layout _ _ _ _ _ A') as Av. rewrite zeroed_layout in Av.
  pose proof (K2 _ _ _ _ _ _ _ _ B) as (B1 & B2). pose proof (K3 _ _ _ _ _ _ _ _ B') as (B1' & B2').
  assert (T0 : vinner v (om_dout st2) = vinner (om_dres st3) rr).
  { eapply Tr; [| | | |exact B|exact B']; congruence. }
  rewrite (proj1 Z) in C, E1. cbn [nopp RNum n1] in *.
  rewrite vinner_comm in T0. rewrite (output_inner _ _ _ _ _ _ Do Zw A' B1 C) in T0.
  destruct (read_input pb md Lt Li _ _ _ Z C') as (_ & D).
  rewrite (input_inner _ _ _ _ _ _ R Ds Wr B2'), <- D in T0.
  unfold dot_out. rewrite E1, E2, dot_vzeros_r.
  replace (dot (independent_output w) []) with 0 by (destruct (independent_output w); reflexivity).
  lra.
Qed.
End C39.
