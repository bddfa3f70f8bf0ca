(** Lemmas: one process alone does what the integrator model does; exceptions
    of the norm; the order minus infinity. *)
From Coq Require Import String.
From Coq Require Import List Bool Arith Lia Reals Lra.
From Verif Require Import Base Ext M_Tableau M_State M_ODE M_Step M_Controller M_Measure M_Integrator M_Metadata M_MPI
  SpecMetadata SpecMPI L_MPI3.
Import ListNotations.
Local Open Scope nat_scope.
Local Open Scope list_scope.

Section Bridge.
Context {T : Type} {N : Num T} {C : Type}.
Variable op : options T C.
Variable ord : order T.
Variable excl : list string.
Variable md : metadata.
Notation o := (o_ode op).
Notation bt := (o_bt op).
Hypothesis Nm : forall x, compute_state_norms ord excl [(md, x)] =
  Ok [compute_state_norm o {| stage_update := []; stage_state := x; independent_output := [] |}].

Lemma alone_bind {A B} (p : prog T A) (f : A -> prog T B) : alone o (pbind p f) = alone o (f (alone o p)).
Proof. induction p; cbn; auto. Qed.

Lemma alone_try {A B} (p : prog T (res A)) (f : A -> prog T (res B)) :
  alone o (ptry p f) = (let* a := alone o p in alone o (f a)).
Proof. unfold ptry; rewrite alone_bind; destruct (alone o p); reflexivity. Qed.

Lemma alone_norm x : alone o (p_norm ord excl md x) =
  Ok (compute_state_norm o {| stage_update := []; stage_state := x; independent_output := [] |}).
Proof.
  pose proof (Nm x) as E; unfold compute_state_norms in E; cbn [map all_ok fst snd] in E; unfold p_norm.
  destruct (own_intermediates ord excl md x) as [[d n]|e]; cbn in E; [|discriminate].
  cbn [alone]; injection E as E; rewrite <- E; reflexivity.
Qed.

Lemma alone_measure s : alone o (p_state_measure op ord excl md s) = state_measure (o_meas op) o s.
Proof.
  unfold p_state_measure, state_measure, p_measure, get_measure; destruct (embedded s) as [[e err]|]; [|reflexivity].
  destruct (o_meas op); [apply alone_norm|].
  rewrite alone_try, alone_norm; cbn [bind]; rewrite alone_try, alone_norm; reflexivity.
Qed.

Lemma alone_stage s h i : alone o (p_compute_stage op s h i) = compute_stage bt o s h i.
Proof. reflexivity. Qed.

Lemma alone_stages l : forall s h, alone o (p_for_stages (fun s i => p_compute_stage op s h i) l s) =
  for_stages (fun s i => compute_stage bt o s h i) l s.
Proof.
  induction l as [|i l IH]; intros s h; [reflexivity|].
  cbn [p_for_stages for_stages]; rewrite alone_try, alone_stage.
  destruct (compute_stage bt o s h i); cbn [bind]; [apply IH|reflexivity].
Qed.

Lemma alone_step s h : alone o (p_compute_step op s h) = compute_step bt o s h.
Proof.
  unfold p_compute_step, compute_step, compute_step_base; cbv zeta; rewrite alone_try, alone_stages.
  destruct (for_stages _ _ _) as [s1|e]; cbn [bind]; [|reflexivity].
  cbn [alone]; destruct (compute_final_independent_outputs _); reflexivity.
Qed.

Theorem c37_alone fuel : forall c st, alone o (p_iterate op ord excl md fuel c st) = iterate_on_step op fuel c st.
Proof.
  induction fuel as [|fuel IH]; intros c st; [reflexivity|].
  cbn [p_iterate iterate_on_step]; rewrite alone_bind, alone_step.
  destruct (compute_step bt o (disc st) (suggestion st)) as [tmp|e]; [|reflexivity].
  destruct (o_adaptive op); [|reflexivity].
  rewrite alone_bind, alone_measure.
  destruct (state_measure (o_meas op) o tmp) as [em|e]; [|reflexivity].
  destruct (o_ctl op c _) as [c' [stat|e]]; [|reflexivity].
  cbn [alone]; destruct (acceptance stat); [reflexivity|apply IH].
Qed.
End Bridge.

(** *** Exceptions *)
Section Gap.
Context {T : Type} {N : Num T}.
Variable ord : order T.
Hypothesis Inf : ord = OrdInf \/ ord = OrdNegInf.
Variable excl : list string.

Lemma np_norm_inf x : np_norm ord x = Err ValueError \/ exists v, np_norm ord x = Ok v.
Proof. destruct Inf as [->| ->]; cbn; destruct (map nabs x); eauto. Qed.
Lemma np_norm_empty : np_norm ord [] = Err ValueError.
Proof. destruct Inf as [->| ->]; reflexivity. Qed.

Lemma own_gap_scan s l : forall dn, 
  let f := fun (dn : T * T) (q : quantity ti_translation) =>
    if mem (q_name q) excl then Ok dn
    else
      let* x := partial_norm_intermediate ord s (q_array q) in
      if distributed (q_array q) then Ok (add_to_intermediate ord (fst dn) x, snd dn)
      else Ok (fst dn, add_to_intermediate ord (snd dn) x) in
  (scan f dn l = Err ValueError \/ exists r, scan f dn l = Ok r) /\
  ((exists q, In q l /\ mem (q_name q) excl = false /\ slice (start_index (q_array q)) (end_index (q_array q)) s = []) ->
    scan f dn l = Err ValueError).
Proof.
  induction l as [|q l IH]; intros dn f; [split; [right; cbn; eauto|intros (q & [] & _)]|].
  cbn [scan]; fold f.
  assert (F : f dn q = Err ValueError \/ exists dn', f dn q = Ok dn').
  { unfold f; destruct (mem (q_name q) excl); [eauto|]; unfold partial_norm_intermediate.
    destruct (np_norm_inf (slice (start_index (q_array q)) (end_index (q_array q)) s)) as [->|(v & ->)]; cbn [bind]; [auto|].
    destruct (distributed (q_array q)); eauto. }
  destruct F as [->|(dn' & Fe)]; [cbn [bind]; split; auto|].
  rewrite Fe; cbn [bind]; destruct (IH dn') as [I1 I2]; split; [exact I1|].
  intros (q' & [->|Iq] & Mq & Sq); [|apply I2; exists q'; auto].
  unfold f in Fe; rewrite Mq in Fe; unfold partial_norm_intermediate in Fe; rewrite Sq, np_norm_empty in Fe; discriminate.
Qed.

Lemma own_gap md s : ~ no_gap excl (md, s) -> own_intermediates ord excl md s = Err ValueError.
Proof.
  intros G; apply own_gap_scan.
  unfold no_gap in G; apply neg_Forall_Exists_neg in G;
    [|intros j; destruct (portion j (md, s)); [right; intros X; exact (X eq_refl)|left; discriminate]].
  apply Exists_exists in G as (j & Ij & Gj); cbn [fst] in Ij; unfold included in Ij; apply filter_In in Ij as [_ Ij].
  destruct (nth_error (time_integration_quantities md) j) as [q|] eqn:Q; [|discriminate].
  exists q; split; [exact (nth_error_In _ _ Q)|]; split; [destruct (mem (q_name q) excl); [discriminate|reflexivity]|].
  unfold portion in Gj; cbn [fst snd] in Gj; rewrite Q in Gj.
  destruct (slice _ _ s); [reflexivity|exfalso; apply Gj; discriminate].
Qed.

Theorem c36_gap procs : ~ Forall (no_gap excl) procs -> compute_state_norms ord excl procs = Err ValueError.
Proof.
  intros G; unfold compute_state_norms.
  enough (E : all_ok (map (fun p => own_intermediates ord excl (fst p) (snd p)) procs) = Err ValueError) by (rewrite E; reflexivity).
  apply neg_Forall_Exists_neg in G.
  2:{ intros p; apply Forall_dec; intros j; destruct (portion j p); [right; intros X; exact (X eq_refl)|left; discriminate]. }
  induction G as [[md s] l G|[md s] l G IH]; cbn [map all_ok fst snd].
  - rewrite own_gap by exact G; reflexivity.
  - assert (E : own_intermediates ord excl md s = Err ValueError \/ exists r, own_intermediates ord excl md s = Ok r)
      by exact (proj1 (own_gap_scan s (time_integration_quantities md) (n0, n0))).
    destruct E as [->|(r & ->)]; [reflexivity|cbn [bind]; rewrite IH; reflexivity].
Qed.
End Gap.

(** *** Minus infinity *)
Local Open Scope R_scope.
Section Neg.
Variable excl : list string.

Lemma pymin_R x y : 0 <= x -> 0 <= y -> 0 <= pymin x y /\ pymin x y <= x.
Proof. intros Hx Hy; unfold pymin; cbn; unfold Rltb; destruct (Rlt_dec y x); lra. Qed.
Lemma nabs_pos x : 0 <= nabs x.
Proof. unfold nabs; cbn; unfold Rltb; destruct (Rlt_dec x 0); lra. Qed.
Lemma fold_pymin_pos l : forall x : R, 0 <= x -> Forall (fun y => 0 <= y) l -> 0 <= fold_left pymin l x /\ fold_left pymin l x <= x.
Proof.
  induction l as [|y l IH]; intros x Hx F; cbn; [lra|]; inversion F; subst.
  destruct (pymin_R x y Hx H1) as [P1 P2]; destruct (IH _ P1 H2); lra.
Qed.
Lemma power1_pos x : 0 <= x -> 0 <= power x 1.
Proof. intros H; unfold power; cbn; destruct (Reqb x 0); [lra|left; apply exp_pos]. Qed.

Lemma neg_own s l : forall r,
  scan (fun (dn : R * R) (q : quantity ti_translation) =>
    if mem (q_name q) excl then Ok dn
    else
      let* x := partial_norm_intermediate OrdNegInf s (q_array q) in
      if distributed (q_array q) then Ok (add_to_intermediate OrdNegInf (fst dn) x, snd dn)
      else Ok (fst dn, add_to_intermediate OrdNegInf (snd dn) x)) (0, 0) l = Ok r -> r = (0, 0).
Proof.
  induction l as [|q l IH]; intros r; [intros E; injection E; auto|].
  cbn [scan]; destruct (mem (q_name q) excl); [exact (IH r)|].
  unfold partial_norm_intermediate, np_norm; destruct (map nabs (slice _ _ s)) as [|y m] eqn:Em; cbn [bind]; [discriminate|].
  assert (P : 0 <= power (fold_left pymin m y) 1).
  { assert (F : Forall (fun y => 0 <= y) (y :: m)) by (rewrite <- Em, Forall_map; apply Forall_forall; intros; apply nabs_pos).
    inversion F; subst; apply power1_pos, fold_pymin_pos; assumption. }
  change (exponent OrdNegInf) with 1 in *.
  assert (Z : add_to_intermediate OrdNegInf 0 (power (fold_left pymin m y) 1) = 0).
  { cbn [add_to_intermediate]; destruct (pymin_R 0 _ (Rle_refl 0) P); lra. }
  destruct (distributed (q_array q)); cbn [bind fst snd]; rewrite Z; exact (IH r).
Qed.

Theorem c36_neg procs l : compute_state_norms OrdNegInf excl procs = Ok l -> Forall (fun v => v = 0) l.
Proof.
  unfold compute_state_norms.
  destruct (all_ok _) as [own|] eqn:A; cbn [bind]; [|discriminate].
  intros E; injection E as <-.
  assert (O : Forall (fun dn => dn = (0, 0)) own).
  { clear -A; revert own A; induction procs as [|[md s] procs IH]; intros own; cbn [map all_ok fst snd]; [intros E; injection E as <-; constructor|].
    destruct (own_intermediates OrdNegInf excl md s) as [r|] eqn:R1; cbn [bind]; [|discriminate].
    destruct (all_ok _) as [rs|]; cbn [bind]; [|discriminate].
    intros E; injection E as <-; constructor; [|apply IH; reflexivity].
    exact (neg_own _ _ _ R1). }
  assert (G : allreduce OrdNegInf (map fst own) = 0).
  { destruct own as [|x own]; [reflexivity|]; inversion O; subst; cbn [map fst allreduce].
    clear -H2; induction own as [|y own IH]; [reflexivity|]; inversion H2; subst; cbn [map fst fold_left].
    replace (add_to_intermediate OrdNegInf 0 0) with 0; [apply IH; assumption|].
    cbn [add_to_intermediate]; destruct (pymin_R 0 0); lra. }
  rewrite G; rewrite Forall_map; eapply Forall_impl; [|exact O]; intros dn ->; cbn [snd]; unfold finish_norm.
  replace (add_to_intermediate OrdNegInf 0 0) with 0 by (cbn [add_to_intermediate]; destruct (pymin_R 0 0); lra).
  unfold power; cbn; unfold Reqb; destruct (Req_EM_T 0 0); [reflexivity|lra].
Qed.
End Neg.

(** *** No deadlock *)
Lemma abreast_goes_on {T} {N : Num T} {A} (ord : order T) excl mds (alike : list A -> Prop) (ps : list (prog T A)) :
  abreast alike ps -> (exists rs, ps = map (Done _) rs) \/ (exists ps', move ord excl mds ps ps').
Proof.
  intros [(rs & -> & _)|[(t & h & a & qs & -> & _)|[(qs & ->)|[(h & a & qs & ->)|[(h & a & qs & ->)|[(m & b & s & ks & ->)|(h & b & ks & ->)]]]]]];
    [left; eauto|right..].
  - exists (map (fun q => snd q (Err SolverError)) qs).
    pose proof (move_fail ord excl mds (map (fun q => (fst q, h, a, snd q)) qs) SolverError) as Mv.
    rewrite !map_map in Mv; exact Mv.
  - eexists; apply move_reduce.
  - exists (map (fun q => snd q (Err SolverError)) qs).
    pose proof (move_jvp_fail ord excl mds (map (fun q => (fst (fst q), snd (fst q), h, a, snd q)) qs) SolverError) as Mv.
    rewrite !map_map in Mv; exact Mv.
  - exists (map (fun q => snd q (Err SolverError)) qs).
    pose proof (move_vjp_fail ord excl mds (map (fun q => (fst (fst q), snd (fst q), h, a, snd q)) qs) SolverError) as Mv.
    rewrite !map_map in Mv; exact Mv.
  - eexists; apply move_hook.
  - exists ks; pose proof (move_decide ord excl mds (map (fun k => (h, b, k)) ks)) as Mv.
    rewrite !map_map in Mv; cbn [fst snd] in Mv; rewrite map_id in Mv; exact Mv.
Qed.

Theorem c37_no_deadlock {T} {N : Num T} {C} (op : options T C) ord excl procs vs qs is mds sts fuel it c ps :
  metadata_of procs vs qs is = Ok mds -> well_tagged vs qs -> norm_defined ord excl mds ->
  together excl (o_bt op) mds sts ->
  moves ord excl mds (map2 (fun md st => p_forward op ord excl md fuel it c st) mds sts) ps ->
  (exists rs, ps = map (Done _) rs) \/ (exists ps', move ord excl mds ps ps').
Proof. intros M W Nd Tg Mv; eapply abreast_goes_on; exact (c37 _ _ _ _ _ _ _ _ _ _ _ _ _ M W Nd Tg Mv). Qed.
