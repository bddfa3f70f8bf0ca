(** Lemmas: processes stay in step through histories of calls. *)
From Coq Require Import String.
From Coq Require Import List Bool Arith Lia.
From Verif Require Import Base M_Tableau M_State M_ODE M_Step M_Controller M_Measure M_Integrator M_Metadata M_MPI M_MPIRun
  SpecMetadata SpecMPI SpecMPIRun L_MPI L_MPI2 L_MPI3.
Import ListNotations.
Local Open Scope nat_scope.
Local Open Scope list_scope.

Section Pair.
Context {T : Type} {N : Num T} {C : Type}.
Variable op : options T C.
Variable ord : order T.
Variable excl : list string.
Variables m1 m2 : metadata.
Hypothesis Mt : matching m1 m2.
Hypothesis O1 : ok_order ord excl m1.
Hypothesis O2 : ok_order ord excl m2.
Hypothesis Un : uniform_callbacks op.
(** What the caches of the two processes have in common. *)
Variable K : option (rkstate T) -> option (rkstate T) -> Prop.

Notation tw := (twins excl m1 m2 op).
Notation al := (aligned excl m1 m2).

Record kin (w1 w2 : component T C) : Prop := {
  k_live : tw (live w1) (live w2);
  k_ctl : ctl w1 = ctl w2;
  k_cache : K (cached w1) (cached w2);
  k_storage : Forall2 tw (storage w1) (storage w2);
  k_slots : Forall2 (fun a b => fst a = fst b /\ tw (snd a) (snd b)) (slots w1) (slots w2);
  k_first : tw (first_complete w1) (first_complete w2)
}.
Definition outcome {A} (x y : component T C * res A) : Prop :=
  kin (fst x) (fst y) /\ rel (fun _ _ => True) (snd x) (snd y).
Definition goes {A} (f g : pmethod A) : Prop := forall w1 w2, kin w1 w2 -> al outcome (f w1) (g w2).

Lemma goes_then {A B} (f g : pmethod A) (k l : A -> pmethod B) : goes f g -> (forall a b, goes (k a) (l b)) ->
  goes (pthen f k) (pthen g l).
Proof.
  intros F G w1 w2 H; unfold pthen; eapply aligned_bind; [exact (F _ _ H)|].
  intros [x [a|e]] [y [b|e']] [Kn R]; cbn in *; try contradiction; [exact (G a b x y Kn)|].
  constructor; split; [exact Kn|exact R].
Qed.
Lemma goes_modify f : (forall w1 w2, kin w1 w2 -> kin (f w1) (f w2)) -> goes (plift (modify f)) (plift (modify f)).
Proof. intros H w1 w2 Kn; constructor; split; [exact (H _ _ Kn)|exact I]. Qed.
Lemma goes_ret {A} (a b : A) : goes (plift (mret a)) (plift (mret b)).
Proof. intros w1 w2 Kn; constructor; split; [exact Kn|exact I]. Qed.
Lemma goes_raise {A} e : goes (A := A) (plift (mraise e)) (plift (mraise e)).
Proof. intros w1 w2 Kn; constructor; split; [exact Kn|reflexivity]. Qed.

(** *** Linear solves *)
Notation any := (fun _ _ => True).
Lemma for_any (b1 b2 : rkstate T -> nat -> prog T (res (rkstate T))) l :
  (forall s1 s2 i, al (rel any) (b1 s1 i) (b2 s2 i)) ->
  forall s1 s2, al (rel any) (p_for_stages b1 l s1) (p_for_stages b2 l s2).
Proof.
  intros H; induction l as [|i l IH]; intros s1 s2; cbn [p_for_stages]; [constructor; exact I|].
  eapply aligned_try; [apply H|intros a b _; apply IH|reflexivity].
Qed.
Lemma derivative_any s1 s2 p1 p2 h : tw s1 s2 ->
  al (rel any) (p_step_derivative op (disc s1) p1 h) (p_step_derivative op (disc s2) p2 h).
Proof.
  intros Tw; unfold p_step_derivative; eapply aligned_try; [apply for_any| |reflexivity].
  - intros a b i; unfold p_stage_derivative; constructor; intros; constructor; cbn; reflexivity.
  - intros a b _; constructor.
    destruct Tw as [[[_ _ _ _ L1 _] [_ _ _ _ L2 _] _ _] _ _ _].
    destruct (stage_independent_outputs (disc s1)), (stage_independent_outputs (disc s2)); cbn in *; auto; congruence.
Qed.
Lemma adjoint_any s1 s2 p1 p2 h : al (rel any) (p_step_adjoint op s1 p1 h) (p_step_adjoint op s2 p2 h).
Proof.
  unfold p_step_adjoint; eapply aligned_try; [apply for_any| |reflexivity].
  - intros a b i; unfold p_stage_adjoint; constructor; intros; constructor; cbn; reflexivity.
  - intros a b _; constructor; exact I.
Qed.

(** *** Callbacks *)
Lemma hooks_kin (ev1 ev2 : nat -> event T) (h1 h2 : callback T -> res unit) l : forall i w1 w2, kin w1 w2 ->
  (forall cb, In cb l -> h1 cb = h2 cb) -> outcome (call_hooks ev1 h1 i l w1) (call_hooks ev2 h2 i l w2).
Proof.
  induction l as [|cb l IH]; intros i w1 w2 Kn E; cbn [call_hooks]; [split; [exact Kn|exact I]|].
  unfold mbind, modify, mlift; rewrite (E cb (or_introl eq_refl)).
  assert (Kn' : kin (w_log (log w1 ++ [ev1 i]) w1) (w_log (log w2 ++ [ev2 i]) w2)) by (destruct Kn; constructor; assumption).
  destruct (h2 cb); [apply IH; [exact Kn'|intros; apply E; right; assumption]|split; [exact Kn'|reflexivity]].
Qed.
Lemma goes_hooks m b step s1 s2 : goes (p_hooks op m b step s1) (p_hooks op m b step s2).
Proof.
  intros w1 w2 Kn; unfold p_hooks.
  assert (Oc : outcome ((if b then before_hooks op m step s1 else after_hooks op m step s1) w1)
                       ((if b then before_hooks op m step s2 else after_hooks op m step s2) w2)).
  { destruct b; apply hooks_kin; auto; intros cb Icb; apply (Un m cb step s1 s2 Icb). }
  destruct (o_callbacks op m); repeat constructor; apply Oc.
Qed.

(** *** Steps *)
Lemma goes_step_live : goes (p_step_live op ord excl m1) (p_step_live op ord excl m2).
Proof.
  intros w1 w2 Kn; unfold p_step_live; rewrite <- (k_ctl _ _ Kn).
  eapply aligned_bind; [apply (aligned_iterate ord excl m1 m2 Mt op O1 O2); exact (k_live _ _ Kn)|].
  intros [[c1 s1] r1] [[c2 s2] r2] (E1 & Tw & E2); cbn in *; subst; constructor; split.
  - destruct Kn; constructor; auto.
  - cbn; destruct r2; cbn; auto.
Qed.
Lemma goes_reading {A} (f g : component T C -> pmethod A) :
  (forall w1 w2, kin w1 w2 -> goes (f w1) (g w2)) -> goes (preading f) (preading g).
Proof. intros H w1 w2 Kn; exact (H _ _ Kn _ _ Kn). Qed.

Lemma goes_run_step step : goes (p_run_step op ord excl m1 step) (p_run_step op ord excl m2 step).
Proof.
  unfold p_run_step; apply goes_then; [apply goes_reading; intros; apply goes_hooks|intros _ _].
  apply goes_then; [apply goes_step_live|intros _ _; apply goes_reading; intros; apply goes_hooks].
Qed.

Lemma goes_pert_update (p1 p2 : component T C -> prog T (res (rkstate T))) :
  (forall w1 w2, kin w1 w2 -> al (rel any) (p1 w1) (p2 w2)) ->
  goes (preading (fun w => pthen (fun w' => pbind (p1 w) (fun r => Done _ (w', r)))
           (fun d => plift (modify (fun w => w_pert (w_disc (rk_set (disc (pert w)) d) (pert w)) w)))))
       (preading (fun w => pthen (fun w' => pbind (p2 w) (fun r => Done _ (w', r)))
           (fun d => plift (modify (fun w => w_pert (w_disc (rk_set (disc (pert w)) d) (pert w)) w))))).
Proof.
  intros H; apply goes_reading; intros v1 v2 Kv; apply goes_then.
  - intros w1 w2 Kn; eapply aligned_bind; [exact (H _ _ Kv)|].
    intros a b R; constructor; split; [exact Kn|exact R].
  - intros a b w1 w2 Kn; constructor; split; [destruct Kn; constructor; assumption|exact I].
Qed.

Lemma goes_run_step_rev step s1 s2 : tw s1 s2 -> goes (p_run_step_rev op step s1) (p_run_step_rev op step s2).
Proof.
  intros Tw; unfold p_run_step_rev; apply goes_then; [apply goes_hooks|intros _ _].
  apply goes_then; [|intros _ _; apply goes_hooks].
  apply goes_pert_update; intros w1 w2 Kn; rewrite (tw_sh _ _ _ _ _ _ Tw); apply adjoint_any.
Qed.
Lemma goes_derivative_live : goes (p_step_derivative_live op) (p_step_derivative_live op).
Proof.
  apply goes_pert_update; intros w1 w2 Kn; rewrite (tw_sh _ _ _ _ _ _ (k_live _ _ Kn)); apply derivative_any, Kn.
Qed.

Lemma goes_run_step_fwd step : goes (p_run_step_fwd op ord excl m1 step) (p_run_step_fwd op ord excl m2 step).
Proof.
  unfold p_run_step_fwd; apply goes_then; [apply goes_reading; intros; apply goes_hooks|intros _ _].
  apply goes_then; [apply goes_step_live|intros _ _].
  apply goes_then; [apply goes_derivative_live|intros _ _; apply goes_reading; intros; apply goes_hooks].
Qed.

(** *** Loops *)
Lemma goes_forward_loop keep fuel : forall it, goes (p_forward_loop op ord excl m1 keep fuel it) (p_forward_loop op ord excl m2 keep fuel it).
Proof.
  induction fuel as [|fuel IH]; intros it; cbn [p_forward_loop]; [apply goes_raise|].
  apply goes_reading; intros w1 w2 Kn; rewrite (finished_same _ _ _ _ _ _ _ (k_live _ _ Kn)).
  destruct (is_iteration_finished _ _ _); [apply goes_ret|].
  apply goes_then; [apply goes_run_step|intros _ _]; apply goes_then; [|intros _ _; apply IH].
  destruct keep; [|apply goes_ret]; apply goes_modify; intros v1 v2 Kv; destruct Kv; constructor; cbn; auto.
Qed.
Lemma goes_fwd_steps fuel : forall it, goes (p_fwd_steps op ord excl m1 fuel it) (p_fwd_steps op ord excl m2 fuel it).
Proof.
  induction fuel as [|fuel IH]; intros it; cbn [p_fwd_steps]; [apply goes_raise|].
  apply goes_reading; intros w1 w2 Kn; rewrite (finished_same _ _ _ _ _ _ _ (k_live _ _ Kn)).
  destruct (is_iteration_finished _ _ _); [apply goes_ret|].
  apply goes_then; [apply goes_run_step_fwd|intros _ _; apply IH].
Qed.
Lemma goes_reverse_all l1 l2 : Forall2 tw l1 l2 -> goes (p_reverse_all op l1) (p_reverse_all op l2).
Proof.
  induction 1 as [|s1 s2 l1 l2 Tw F IH]; cbn [p_reverse_all]; [apply goes_ret|].
  apply goes_then; [intros v1 v2 Kv; constructor; split; [destruct Kv; constructor; auto|exact I]|intros _ _].
  assert (E : length (s1 :: l1) = length (s2 :: l2)) by (cbn; f_equal; exact (Forall2_len _ _ _ F)).
  rewrite E; apply goes_then; [apply goes_run_step_rev; exact Tw|intros _ _; exact IH].
Qed.
Lemma goes_forward_operator n : forall lo, goes (p_forward_operator op ord excl m1 n lo) (p_forward_operator op ord excl m2 n lo).
Proof.
  induction n as [|n IH]; intros lo; cbn [p_forward_operator]; [apply goes_ret|].
  apply goes_then; [apply goes_run_step|intros _ _; apply IH].
Qed.
Lemma goes_reverse_operator n lo : goes (p_reverse_operator op n lo) (p_reverse_operator op n lo).
Proof.
  induction n as [|n IH]; cbn [p_reverse_operator]; [apply goes_ret|].
  apply goes_then; [|intros _ _; apply IH].
  apply goes_reading; intros w1 w2 Kn; apply goes_run_step_rev, Kn.
Qed.

Lemma tw_load a b s1 s2 : tw s1 s2 -> tw (load_snapshot a s1) (load_snapshot b s2).
Proof.
  intros [[[] [] B3 B4] E1 E2 E3]; unfold load_snapshot; constructor; cbn; auto.
  constructor; [constructor|constructor| |]; cbn; auto.
Qed.
Lemma tw_set a b s1 s2 : tw a b -> tw s1 s2 -> tw (ti_set a s1) (ti_set b s2).
Proof. intros [A1 _ _ _] [B1 E1 E2 E3]; constructor; cbn; auto; apply between_set; assumption. Qed.

Lemma goes_action a : goes (p_run_action op ord excl m1 a) (p_run_action op ord excl m2 a).
Proof.
  destruct a as [x y|k|k|x y]; cbn [p_run_action].
  - apply goes_forward_operator.
  - apply (goes_modify (fun w => w_slots ((k, live w) :: slots w) w)); intros v1 v2 Kv; destruct Kv; constructor; cbn; auto.
  - intros w1 w2 Kn; constructor; cbn [run_action]; unfold reading.
    assert (F : match find (fun e => Nat.eqb (fst e) k) (slots w1), find (fun e => Nat.eqb (fst e) k) (slots w2) with
                | Some a, Some b => tw (snd a) (snd b) | None, None => True | _, _ => False end).
    { pose proof (k_slots _ _ Kn) as S; clear Kn; induction S as [|a b l l' [E Tw] S IH]; cbn; [exact I|].
      rewrite <- E; destruct (Nat.eqb (fst a) k); [exact Tw|exact IH]. }
    destruct (find _ (slots w1)) as [[k1 s1]|], (find _ (slots w2)) as [[k2 s2]|]; try contradiction.
    + split; [|exact I]; cbn; destruct Kn; constructor; cbn; auto; apply tw_load; exact F.
    + split; [exact Kn|reflexivity].
  - apply goes_reverse_operator.
Qed.
Lemma goes_actions l : goes (p_run_actions op ord excl m1 l) (p_run_actions op ord excl m2 l).
Proof.
  induction l as [|a l IH]; cbn [p_run_actions]; [apply goes_ret|].
  apply goes_then; [apply goes_action|intros _ _; exact IH].
Qed.

Lemma goes_iterate_forward : goes (p_iterate_forward op ord excl m1) (p_iterate_forward op ord excl m2).
Proof.
  unfold p_iterate_forward; destruct (o_ckpt op) as [| |fw rv]; [apply goes_forward_loop..|].
  apply goes_then; [apply goes_forward_operator|intros _ _]; apply goes_then; [|intros _ _; apply goes_actions].
  apply goes_modify; intros v1 v2 Kv; destruct Kv; constructor; cbn; auto; apply tw_set; assumption.
Qed.
Lemma goes_iterate_reverse : goes (p_iterate_reverse op ord excl m1) (p_iterate_reverse op ord excl m2).
Proof.
  unfold p_iterate_reverse; destruct (o_ckpt op) as [| |fw rv]; [apply goes_raise| |].
  - apply goes_reading; intros w1 w2 Kn; apply goes_reverse_all, Kn.
  - apply goes_then; [apply goes_actions|intros _ _]; apply goes_then; [|intros _ _; apply goes_reverse_operator].
    apply goes_modify; intros v1 v2 Kv; destruct Kv; constructor; cbn; auto; apply tw_set; assumption.
Qed.

(** *** Calls *)
Definition fit2 (i1 i2 : inputs T) : Prop :=
  length (initial i1) = time_integration_array_size m1 /\ length (initial i2) = time_integration_array_size m2 /\
  time_initial i1 = time_initial i2 /\ agree excl m1 m2 (initial i1) (initial i2).
Definition stored (i1 i2 : inputs T) : Prop := forall s1 s2,
  final_state s1 = initial i1 -> independent_inputs s1 = independent i1 ->
  final_state s2 = initial i2 -> independent_inputs s2 = independent i2 -> K (Some s1) (Some s2).
Definition decided (i1 i2 : inputs T) : Prop := forall c1 c2, K c1 c2 -> cache_hit i1 c1 = cache_hit i2 c2.

Lemma tw_put i1 i2 s1 s2 : fit2 i1 i2 -> tw s1 s2 ->
  tw (w_disc (put_inputs i1 (disc s1)) s1) (w_disc (put_inputs i2 (disc s2)) s2).
Proof.
  intros (L1 & L2 & Et & Ag) [[[] [] B3 B4] E1 E2 E3]; constructor; cbn; auto.
  constructor; [constructor|constructor| |]; cbn; auto.
Qed.
Lemma tw_reset s1 s2 : tw s1 s2 -> tw (reset_error_control op s1) (reset_error_control op s2).
Proof. intros [B E1 E2 E3]; constructor; cbn; auto; congruence. Qed.

Lemma goes_compute i1 i2 : fit2 i1 i2 -> stored i1 i2 ->
  goes (p_compute op ord excl m1 i1) (p_compute op ord excl m2 i2).
Proof.
  intros F St; unfold p_compute; apply goes_then.
  - intros w1 w2 Kn; constructor; split; [|exact I]; cbn.
    destruct Kn; constructor; cbn; auto.
    + pose proof (tw_reset _ _ (tw_put _ _ _ _ F k_live0)) as [[[] [] B3 B4] E1 E2 E3].
      constructor; cbn in *; auto; constructor; [constructor|constructor| |]; cbn in *; auto.
  - intros _ _; apply goes_then; [|intros _ _; apply goes_then; [apply goes_iterate_forward|]].
    + unfold create_checkpointer; destruct (o_ckpt op) as [| |fw rv]; [apply goes_ret| |];
        apply goes_modify; intros v1 v2 Kv; destruct Kv; constructor; cbn; auto; constructor.
    + intros _ _ w1 w2 Kn; constructor; split; [exact Kn|exact I].
Qed.
Lemma goes_fwd i1 i2 d1 d2 : fit2 i1 i2 ->
  goes (p_product_fwd op ord excl m1 i1 d1) (p_product_fwd op ord excl m2 i2 d2).
Proof.
  intros F; unfold p_product_fwd; apply goes_then; [|intros _ _; apply goes_then; [apply goes_fwd_steps|]].
  - intros w1 w2 Kn; constructor; split; [|exact I]; cbn; destruct Kn; constructor; cbn; auto.
    apply tw_reset, tw_put; assumption.
  - intros _ _ w1 w2 Kn; constructor; split; [exact Kn|exact I].
Qed.
Lemma goes_rev i1 i2 d1 d2 : fit2 i1 i2 -> stored i1 i2 -> decided i1 i2 -> K None None ->
  goes (p_product_rev op ord excl m1 i1 d1) (p_product_rev op ord excl m2 i2 d2).
Proof.
  intros F St De K0; unfold p_product_rev; apply goes_then; [|intros _ _; apply goes_then; [apply goes_iterate_reverse|]].
  - unfold p_rev_preparation; apply goes_then.
    + apply goes_reading; intros w1 w2 Kn; rewrite (De _ _ (k_cache _ _ Kn)).
      destruct (cache_hit i2 (cached w2)); [apply goes_ret|].
      apply goes_then; [apply goes_compute; assumption|intros; apply goes_ret].
    + intros _ _ w1 w2 Kn; constructor; split; [destruct Kn; constructor; auto|exact I].
  - intros _ _; apply goes_then; [intros w1 w2 Kn; constructor; split; [exact Kn|exact I]|].
    intros r1 r2; apply goes_then; [|intros _ _; apply goes_ret].
    apply goes_modify; intros v1 v2 Kv; destruct Kv; constructor; cbn; auto.
Qed.

Definition call_ok (k1 k2 : call T) : Prop :=
  match k1, k2 with
  | CallCompute i1, CallCompute i2 => fit2 i1 i2 /\ stored i1 i2
  | CallFwd i1 _, CallFwd i2 _ => fit2 i1 i2
  | CallRev i1 _, CallRev i2 _ => fit2 i1 i2 /\ stored i1 i2 /\ decided i1 i2 /\ K None None
  | _, _ => False
  end.
Definition ending {X} (x y : component T C * X) : Prop := kin (fst x) (fst y) /\ snd x = snd y.

Lemma forget_goes {A} (f g : pmethod A) w1 w2 : goes f g -> kin w1 w2 -> al ending (forget (f w1)) (forget (g w2)).
Proof.
  intros G Kn; unfold forget; eapply aligned_bind; [exact (G _ _ Kn)|].
  intros [x [a|e]] [y [b|e']] [Kn' R]; cbn in *; try contradiction; constructor; split; cbn; auto; congruence.
Qed.
Lemma aligned_call k1 k2 w1 w2 : call_ok k1 k2 -> kin w1 w2 ->
  al ending (p_call op ord excl m1 k1 w1) (p_call op ord excl m2 k2 w2).
Proof.
  destruct k1, k2; cbn [call_ok p_call]; try contradiction; intros H Kn; apply forget_goes; auto.
  - apply goes_compute; apply H.
  - apply goes_fwd; exact H.
  - apply goes_rev; apply H.
Qed.
Lemma aligned_calls l1 l2 : Forall2 call_ok l1 l2 -> forall w1 w2, kin w1 w2 ->
  al ending (p_calls op ord excl m1 l1 w1) (p_calls op ord excl m2 l2 w2).
Proof.
  induction 1 as [|k1 k2 l1 l2 Ok F IH]; intros w1 w2 Kn; cbn [p_calls]; [constructor; split; auto|].
  eapply aligned_bind; [apply aligned_call; eassumption|]; intros x y [Kn' E].
  eapply aligned_bind; [apply IH; exact Kn'|]; intros x' y' [Kn'' E']; constructor; split; cbn; congruence || assumption.
Qed.
End Pair.

(** *** Any number of processes *)
Lemma array_equal_iff {T} {N : Num T} (a : list T) : forall b, array_equal a b = true <-> Forall2 (fun x y => neqb x y = true) a b.
Proof.
  induction a as [|x a IH]; intros [|y b]; cbn; split; intros H; try discriminate; try constructor; try (inversion H; fail); auto.
  - apply andb_prop in H; apply H.
  - apply IH; apply andb_prop in H; apply H.
  - inversion H; subst; apply andb_true_intro; split; [assumption|apply IH; assumption].
Qed.

Lemma slice_vzeros {T} {N : Num T} n a b : a <= b <= n -> slice a b (vzeros n) = vzeros (b - a).
Proof.
  intros H; unfold slice, vzeros; revert n b H; induction a as [|a IH]; intros n b H; cbn [skipn].
  - rewrite Nat.sub_0_r in *; revert n H; induction b as [|b IHb]; intros n H; [reflexivity|].
    destruct n; [lia|]; cbn; f_equal; apply IHb; lia.
  - destruct b as [|b]; [lia|]; destruct n as [|n]; [lia|]; cbn [repeat Nat.sub]; apply IH; lia.
Qed.

Section Many.
Context {T : Type} {N : Num T} {C : Type}.
Variables (op : options T C) (ord : order T) (excl : list string).
Variables (procs : nat) (vs : list variable) (qs is : list string) (mds : list metadata).
Hypothesis M : metadata_of procs vs qs is = Ok mds.
Hypothesis W : well_tagged vs qs.
Hypothesis Nd : norm_defined ord excl mds.
Hypothesis Un : uniform_callbacks op.
Variable js : list (joint_call T).
Hypothesis Fi : forall j, In j js -> inputs_fit excl mds (inputs_of j).
Hypothesis Se : forall i j, In i (flat_map cacheable js) -> In j (flat_map cacheable js) -> seen_by_all mds i j.
Variables (o : nat -> ode T) (c : C).
Hypothesis Sz : forall r md, nth_error mds r = Some md -> state_size (o r) = time_integration_array_size md.

(** Caches that come from the same inputs. *)
Definition caches (r1 r2 : nat) (a b : option (rkstate T)) : Prop :=
  (a = None /\ b = None) \/
  exists i s1 s2, In i (flat_map cacheable js) /\ a = Some s1 /\ b = Some s2 /\
    final_state s1 = initial (i r1) /\ independent_inputs s1 = independent (i r1) /\
    final_state s2 = initial (i r2) /\ independent_inputs s2 = independent (i r2).

Lemma seen_hit i j r1 r2 : In i (flat_map cacheable js) -> In j (flat_map cacheable js) -> r1 < length mds -> r2 < length mds ->
  array_equal (initial (i r1)) (initial (j r1)) && array_equal (independent (i r1)) (independent (j r1)) =
  array_equal (initial (i r2)) (initial (j r2)) && array_equal (independent (i r2)) (independent (j r2)).
Proof.
  intros Hi Hj L1 L2.
  assert (E : forall r, array_equal (initial (i r)) (initial (j r)) && array_equal (independent (i r)) (independent (j r)) = true <->
                        same_input (i r) (j r)).
  { intros r; unfold same_input; rewrite andb_true_iff, !array_equal_iff; tauto. }
  destruct (Se i j Hi Hj) as [A|A]; pose proof (A r1 L1) as A1; pose proof (A r2 L2) as A2; rewrite <- E in A1, A2.
  - congruence.
  - apply not_true_is_false in A1, A2; congruence.
Qed.

Lemma calls_ok r1 r2 md1 md2 : nth_error mds r1 = Some md1 -> nth_error mds r2 = Some md2 -> matching md1 md2 ->
  Forall2 (call_ok excl md1 md2 (caches r1 r2)) (map (part r1) js) (map (part r2) js).
Proof.
  intros H1 H2 Mt.
  assert (L1 : r1 < length mds) by (apply nth_error_Some; congruence).
  assert (L2 : r2 < length mds) by (apply nth_error_Some; congruence).
  assert (G : forall l, incl l js -> Forall2 (call_ok excl md1 md2 (caches r1 r2)) (map (part r1) l) (map (part r2) l));
    [|apply G; intros x; exact (fun h => h)].
  induction l as [|j l IH]; intros Il; cbn [map]; constructor; [|apply IH; intros x Ix; apply Il; right; exact Ix].
  assert (Ij : In j js) by (apply Il; left; reflexivity).
  assert (F2 : fit2 excl md1 md2 (inputs_of j r1) (inputs_of j r2)).
  { destruct (Fi j Ij) as (t & y & F); destruct (F _ _ H1) as (A1 & A2 & A3); destruct (F _ _ H2) as (B1 & B2 & B3).
    split; [exact A1|]; split; [exact B1|]; split; [congruence|]; apply (shared_agree excl md1 md2 Mt); congruence. }
  assert (Cc : forall i, In i (cacheable j) -> In i (flat_map cacheable js)).
  { intros i Ii; apply in_flat_map; exists j; auto. }
  assert (St : forall i, In i (cacheable j) -> stored (caches r1 r2) (i r1) (i r2)).
  { intros i Ii s1 s2 E1 E2 E3 E4; right; exists i, s1, s2; repeat split; auto. }
  destruct j as [i|i d|i d]; cbn [part call_ok inputs_of cacheable] in *; [split; auto; apply St; left; reflexivity|exact F2|].
  split; [exact F2|]; split; [apply St; left; reflexivity|]; split; [|left; auto].
  intros c1 c2 [[-> ->]|(i' & s1 & s2 & Ii & -> & -> & E1 & E2 & E3 & E4)]; [reflexivity|].
  cbn [cache_hit]; rewrite E1, E2, E3, E4; apply seen_hit; auto; apply Cc; left; reflexivity.
Qed.

Lemma set_up_sized md o' : state_size o' = time_integration_array_size md ->
  sized (o_bt op) md (create_empty_discretization_state (o_bt op) o').
Proof.
  intros E; unfold create_empty_discretization_state; constructor; cbn.
  - unfold vzeros; rewrite repeat_length; exact E.
  - apply repeat_length.
  - apply Forall_forall; intros x Ix; apply repeat_spec in Ix as ->; unfold vzeros; rewrite repeat_length; exact E.
  - unfold vzeros; apply repeat_length.
  - apply repeat_length.
  - intros H; unfold is_embedded; rewrite H; reflexivity.
Qed.
Lemma set_up_agree md1 md2 n1 n2 : matching md1 md2 -> n1 = time_integration_array_size md1 -> n2 = time_integration_array_size md2 ->
  agree (T := T) excl md1 md2 (vzeros n1) (vzeros n2).
Proof.
  intros Mt -> -> j q1 q2 H1 H2 E D; pose proof (matching_nth md1 md2 Mt j q1 q2 H1 H2) as A.
  rewrite !slice_vzeros by (try exact (lk_le1 _ _ _ _ A); exact (lk_le2 _ _ _ _ A)).
  rewrite (lk_width _ _ _ _ A D); reflexivity.
Qed.

Lemma set_up_kin r1 r2 md1 md2 : nth_error mds r1 = Some md1 -> nth_error mds r2 = Some md2 -> matching md1 md2 ->
  kin op excl md1 md2 (caches r1 r2) (setup (with_ode op (o r1)) c) (setup (with_ode op (o r2)) c).
Proof.
  intros H1 H2 Mt.
  assert (Tw : twins excl md1 md2 op (live (setup (with_ode op (o r1)) c)) (live (setup (with_ode op (o r2)) c))).
  { constructor; cbn; auto; constructor; [apply set_up_sized; auto..|reflexivity|].
    apply set_up_agree; auto. }
  constructor; cbn; auto; [left; auto].
Qed.

Definition kinship (m m' : metadata) (x y : component T C * list (option exn)) : Prop :=
  exists K, kin op excl m m' K (fst x) (fst y) /\ snd x = snd y.
Lemma kinship_alike m0 a0 rs : Forall (fun a => exists m, kinship m0 m a0 a) rs -> same_ending rs.
Proof.
  intros F.
  exists (ctl (fst a0)), (suggestion (live (fst a0))), (step_hist (live (fst a0))), (err_hist (live (fst a0))),
    (final_time (disc (live (fst a0)))), (snd a0).
  eapply Forall_impl; [|exact F]; intros x (m & K & [[[_ _ E2 _] E3 E4 E5] Ec _ _ _ _] & E6); repeat split; congruence.
Qed.

Lemma aligned_weaken {A} m m' (Q Q' : A -> A -> Prop) (p q : prog T A) : (forall a b, Q a b -> Q' a b) ->
  aligned excl m m' Q p q -> aligned excl m m' Q' p q.
Proof. intros H; induction 1; constructor; auto. Qed.

Lemma nth_error_seq_inv n : forall a j r, nth_error (seq a n) j = Some r -> r = a + j.
Proof.
  induction n as [|n IH]; intros a [|j] r; cbn; try discriminate; [intros [= <-]; lia|].
  intros H; apply IH in H; lia.
Qed.

Theorem c86 ps : moves ord excl mds (processes op ord excl o c mds js) ps -> abreast same_ending ps.
Proof.
  intros Mv.
  assert (Mt : forall i j m m', nth_error mds i = Some m -> nth_error mds j = Some m' -> matching m m')
    by (intros; eapply metadata_matching; eassumption).
  assert (Ok : forall k m, nth_error mds k = Some m -> ok_order ord excl m).
  { intros k mk Hk; destruct Nd as [Nd'|Nd']; [left; exact Nd'|right].
    rewrite Forall_forall in Nd'; exact (Nd' _ (nth_error_In _ _ Hk)). }
  eapply (stay_abreast ord excl mds kinship Mt); [exact kinship_alike| |exact Mv]; split.
  - unfold processes; rewrite map2_length, seq_length; lia.
  - intros i j m m' p p' Hm Hm' Hp Hp'; unfold processes in Hp, Hp'.
    apply nth_error_map2 in Hp as (r & m1 & Hr & Hm1 & ->); apply nth_error_map2 in Hp' as (r' & m2 & Hr' & Hm2 & ->).
    rewrite Hm in Hm1; injection Hm1 as <-; rewrite Hm' in Hm2; injection Hm2 as <-.
    apply nth_error_seq_inv in Hr, Hr'; cbn in Hr, Hr'; subst r r'.
    eapply aligned_weaken with (Q := ending op excl m m' (caches i j)).
    + intros a b [Kn E]; exists (caches i j); auto.
    + apply (aligned_calls op ord excl m m'); eauto; [apply calls_ok; eauto|apply set_up_kin; eauto].
Qed.
End Many.
