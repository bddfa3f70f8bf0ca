(** Values of whole calls as functions of their arguments, for every scalar
    type; and the derivative facts about whole runs over R. *)
From Coq Require Import List Lia Bool.
From Verif Require Import Base M_Tableau M_State M_ODE M_Step M_Controller M_Measure M_Integrator
  SpecRK SpecShape SpecDeriv SpecRun L_Vec L_Step L_Generic L_Run L_Iter.
Import ListNotations.

Section Values.
Context {T : Type} {N : Num T} {C : Type}.
Variable op : options T C.
Notation bt := (o_bt op).
Notation o := (o_ode op).
Notation shape := (shaped (t_stages bt) (state_size o) (independent_input_size o)
                          (independent_output_size o) (linearization_point_size o)).
Notation wft := (wf_ti op).
Notation wfc := (wf op).
Hypothesis Hres : result_sizes o.
Hypothesis Hdsz : derivative_sizes o.
Hypothesis Hasz : adjoint_sizes o.

(** *** compute *)
Lemma sim_trans_result a b : sim op a b -> result_of a = result_of b.
Proof. intros H; destruct (si_start _ _ _ H) as [E1 E2 _]; unfold result_of; rewrite E1, E2; reflexivity. Qed.

Lemma compute_value i w w' out c0 : loops op -> wfc w -> inputs_sized o i ->
  compute op i w = (w', Ok out) ->
  exists l c' st', chain op 0 (ctl w) (live (prepare op i (setup op c0))) l c' st' /\
    length l < loop_limit op /\ out = result_of st' /\
    (keeps op = true -> storage w' = rev l) /\ cached w' = cached (prepare op i w).
Proof.
  intros HL Hw Hi H; destruct (compute_ok op i w w' out HL H) as (l & c' & st' & Hc & Hl & -> & ->).
  destruct (chain_sim op Hres _ _ _ _ _ _ Hc _ (sim_prepare op i w (setup op c0) Hi Hw (wf_setup op c0)))
    as (b' & Hc' & Hs).
  exists l, c', b'; split; [exact Hc'|]; split; [exact Hl|]; split; [apply sim_trans_result, Hs|].
  split.
  - intros K; unfold after_run; rewrite K; cbn; rewrite app_nil_r; reflexivity.
  - unfold after_run; destruct (keeps op); reflexivity.
Qed.

Lemma compute_value_conv i w c0 l c' st' : loops op -> quiet op -> wfc w -> inputs_sized o i ->
  chain op 0 (ctl w) (live (prepare op i (setup op c0))) l c' st' -> length l < loop_limit op ->
  exists w', compute op i w = (w', Ok (result_of st')) /\ (keeps op = true -> storage w' = rev l).
Proof.
  intros HL Q Hw Hi Hc Hl.
  destruct (chain_sim op Hres _ _ _ _ _ _ Hc _ (sim_prepare op i (setup op c0) w Hi (wf_setup op c0) Hw))
    as (b' & Hc' & Hs).
  rewrite (compute_quiet op i w l c' b' HL Q Hc' Hl).
  eexists; split; [rewrite (sim_trans_result _ _ Hs); reflexivity|].
  intros K; unfold after_run; rewrite K; cbn; rewrite app_nil_r; reflexivity.
Qed.

(** Same result after any history (controllers in the same condition). *)
Lemma compute_repeatable i w1 w2 w1' out : loops op -> quiet op -> wfc w1 -> wfc w2 -> ctl w1 = ctl w2 ->
  inputs_sized o i -> compute op i w1 = (w1', Ok out) ->
  exists w2', compute op i w2 = (w2', Ok out).
Proof.
  intros HL Q H1 H2 Hc Hi H.
  destruct (compute_value i w1 w1' out (ctl w1) HL H1 Hi H) as (l & c' & st' & Hch & Hl & -> & _).
  rewrite Hc in Hch at 1.
  destruct (compute_value_conv i w2 (ctl w1) l c' st' HL Q H2 Hi Hch Hl) as (w2' & E & _); eauto.
Qed.

Lemma fwd_value i d w w' out c0 : wfc w -> inputs_sized o i -> inputs_sized o d ->
  compute_jacvec_product_fwd op i d w = (w', Ok out) ->
  exists l c' st' p', chain op 0 (ctl w) (live (prepare op i (setup op c0))) l c' st' /\
    length l < loop_limit op /\
    derivative_sweep op l (pert (prepare_fwd op i d w)) = Ok p' /\ out = result_of p'.
Proof.
  intros Hw Hi Hd H; destruct (fwd_ok op i d w w' out H) as (l & c' & st' & p' & Hc & Hl & Hp & -> & _).
  assert (S : sim op (live (prepare_fwd op i d w)) (live (prepare op i (setup op c0)))).
  { pose proof (sim_prepare_fwd op i d (setup op c0) w Hi Hd (wf_setup op c0) Hw) as [A1 A2 [A3 A4 A5] A6 A7 A8].
    constructor; auto; constructor; auto. }
  destruct (chain_sim op Hres _ _ _ _ _ _ Hc _ S) as (b' & Hc' & Hs).
  exists l, c', b', p'; auto.
Qed.

(** *** rev *)
Hypothesis Hign : ignores_stage_state_weights o.

Lemma map_zero_rows {A} (x y : list (list A)) n k : length x = k -> length y = k ->
  Forall (fun r => length r = n) x -> Forall (fun r => length r = n) y ->
  map (fun r : list A => vzeros (length r)) x = map (fun r => vzeros (length r)) y.
Proof.
  revert x y; induction k as [|k IH]; intros [|a x] [|b y]; simpl; intros Hx Hy Fx Fy; try discriminate; auto.
  inversion Fx; inversion Fy; subst; f_equal; [congruence|]; apply IH; auto.
Qed.

Lemma adjoint_step_io st p1 p2 : wft st -> shape (disc p1) -> shape (disc p2) ->
  same_start (disc p1) (disc p2) ->
  match adjoint_step op st p1, adjoint_step op st p2 with
  | Ok a, Ok b => same_start (disc a) (disc b) /\ shape (disc a) /\ shape (disc b)
  | Err e, Err e' => e = e'
  | _, _ => False
  end.
Proof.
  intros Hst H1 H2 HS; unfold adjoint_step.
  pose proof (adjoint_io bt o Hign (disc st) (disc st) (disc p1) (disc p2) (nth 0 (step_hist st) n0)
    eq_refl eq_refl eq_refl HS (sh_su _ _ _ _ _ _ H1) (sh_su _ _ _ _ _ _ H2)) as A.
  destruct (compute_step_adjoint_derivative bt o (disc st) (disc p1) (nth 0 (step_hist st) n0)) as [a|e] eqn:E1;
  destruct (compute_step_adjoint_derivative bt o (disc st) (disc p2) (nth 0 (step_hist st) n0)) as [b|e'] eqn:E2;
    cbn [bind]; auto.
  pose proof (compute_step_adjoint_shape _ _ _ _ _ _ Hasz (wt_shape _ _ Hst) H1 E1) as S1.
  pose proof (compute_step_adjoint_shape _ _ _ _ _ _ Hasz (wt_shape _ _ Hst) H2 E2) as S2.
  split; [|split; apply shape_rk_set; assumption].
  destruct A; constructor; cbn; auto.
Qed.

Lemma adjoint_sweep_io l : Forall wft l -> forall p1 p2, shape (disc p1) -> shape (disc p2) ->
  same_start (disc p1) (disc p2) ->
  match adjoint_sweep op l p1, adjoint_sweep op l p2 with
  | Ok a, Ok b => same_start (disc a) (disc b)
  | Err e, Err e' => e = e'
  | _, _ => False
  end.
Proof.
  induction 1 as [|st l Hst _ IH]; intros p1 p2 H1 H2 HS; cbn [adjoint_sweep]; [exact HS|].
  pose proof (adjoint_step_io st p1 p2 Hst H1 H2 HS) as A.
  destruct (adjoint_step op st p1) as [a|e], (adjoint_step op st p2) as [b|e']; cbn [bind]; try tauto.
  destruct A as (A1 & A2 & A3); apply IH; auto.
Qed.

Lemma same_gradient (a b : tistate T) : same_start (disc a) (disc b) -> gradient_of a = gradient_of b.
Proof. intros [E1 E2 E3]; unfold gradient_of; rewrite E1, E2, E3; reflexivity. Qed.

Lemma same_start_rev d w1 w2 : wfc w1 -> wfc w2 ->
  same_start (disc (pert (prepare_rev d w1))) (disc (pert (prepare_rev d w2))).
Proof.
  intros H1 H2; constructor; cbn; auto.
  rewrite (sh_ind _ _ _ _ _ _ (wf_pert _ _ H1)), (sh_ind _ _ _ _ _ _ (wf_pert _ _ H2)); reflexivity.
Qed.

(** The value of a reverse product as a function of the controller's
    condition, the inputs and the weights. *)
Definition rev_value (c : C) (i : inputs T) (d : outputs T) (g : inputs T) : Prop :=
  exists l c' st' p', chain op 0 c (live (prepare op i (setup op c))) l c' st' /\
    length l < loop_limit op /\
    adjoint_sweep op (rev l) (pert (prepare_rev d (setup op c))) = Ok p' /\ g = gradient_of p'.

(** The checkpoints, if they will be used, belong to [i]. *)
Definition valid_for (c : C) (i : inputs T) (w : component T C) : Prop :=
  (cache_hit i (cached w) = false /\ ctl w = c) \/
  cache_hit i (cached w) = true /\
  exists l c' st', chain op 0 c (live (prepare op i (setup op c))) l c' st' /\
    length l < loop_limit op /\ storage w = rev l.

Lemma Forall_rev' {A} (P : A -> Prop) l : Forall P l -> Forall P (rev l).
Proof. intros H; apply Forall_forall; intros x Hx; rewrite Forall_forall in H; apply H, in_rev, Hx. Qed.

Lemma chain_storage c i l c' st' : inputs_sized o i ->
  chain op 0 c (live (prepare op i (setup op c))) l c' st' -> Forall wft (rev l).
Proof.
  intros Hi Hc; apply Forall_rev'.
  apply (chain_wf op Hres _ _ _ _ _ _ Hc), wf_live, wf_prepare; auto using wf_setup.
Qed.

Lemma rev_value_sound c i d w w' g : o_ckpt op = AllCheckpointer -> wfc w ->
  inputs_sized o i -> outputs_sized o d -> valid_for c i w ->
  compute_jacvec_product_rev op i d w = (w', Ok g) -> rev_value c i d g.
Proof.
  intros HA Hw Hi Hd HV H.
  assert (HL : loops op) by (unfold loops; rewrite HA; exact I).
  assert (HK : keeps op = true) by (unfold keeps; rewrite HA; reflexivity).
  destruct (rev_ok op i d w w' g HA H) as (wb & p' & Hb & Hp & -> & _).
  assert (G : wfc wb /\ exists l c' st', chain op 0 c (live (prepare op i (setup op c))) l c' st' /\
    length l < loop_limit op /\ storage wb = rev l).
  { destruct (cache_hit i (cached w)) eqn:E.
    - subst wb; split; [exact Hw|]; destruct HV as [[HV _]|[_ HV]]; [congruence|exact HV].
    - destruct HV as [[_ <-]|[HV _]]; [|congruence].
      destruct Hb as [out Hb]; split.
      + pose proof (pres_compute op Hres Hasz i Hi w Hw) as P; rewrite Hb in P; exact P.
      + destruct (compute_value i w wb out (ctl w) HL Hw Hi Hb) as (l & c' & st' & A & B & _ & D & _).
        exists l, c', st'; auto. }
  destruct G as (Hwb & l & c' & st' & Hc & Hl & Hs); rewrite Hs in Hp.
  pose proof (adjoint_sweep_io (rev l) (chain_storage _ _ _ _ _ Hi Hc)
    (pert (prepare_rev d wb)) (pert (prepare_rev d (setup op c)))
    (wf_pert _ _ (wf_prepare_rev op d wb Hd Hwb))
    (wf_pert _ _ (wf_prepare_rev op d _ Hd (wf_setup op c)))
    (same_start_rev d _ _ Hwb (wf_setup op c))) as A.
  rewrite Hp in A.
  destruct (adjoint_sweep op (rev l) (pert (prepare_rev d (setup op c)))) as [q|e] eqn:E; [|tauto].
  exists l, c', st', q; rewrite (same_gradient _ _ A); auto.
Qed.

Lemma rev_value_complete c i d w g : o_ckpt op = AllCheckpointer -> quiet op -> wfc w ->
  inputs_sized o i -> outputs_sized o d -> valid_for c i w ->
  rev_value c i d g -> exists w', compute_jacvec_product_rev op i d w = (w', Ok g).
Proof.
  intros HA Q Hw Hi Hd HV (l & c' & st' & q & Hc & Hl & Hq & ->).
  assert (HL : loops op) by (unfold loops; rewrite HA; exact I).
  assert (HK : keeps op = true) by (unfold keeps; rewrite HA; reflexivity).
  assert (G : exists wb, wfc wb /\ storage wb = rev l /\
     (if cache_hit i (cached w) then wb = w else exists out, compute op i w = (wb, Ok out))).
  { destruct (cache_hit i (cached w)) eqn:E.
    - exists w; split; [exact Hw|]; split; [|reflexivity].
      destruct HV as [[HV _]|(_ & l2 & c2 & st2 & Hc2 & _ & Hs)]; [congruence|].
      destruct (chain_fun op _ _ _ _ _ _ Hc _ _ _ Hc2) as (-> & _); exact Hs.
    - destruct HV as [[_ <-]|[HV _]]; [|congruence].
      destruct (compute_value_conv i w (ctl w) l c' st' HL Q Hw Hi Hc Hl) as (wb & E1 & E2).
      exists wb; split; [|split; [apply E2, HK|eauto]].
      pose proof (pres_compute op Hres Hasz i Hi w Hw) as P; rewrite E1 in P; exact P. }
  destruct G as (wb & Hwb & Hs & Hb).
  pose proof (adjoint_sweep_io (rev l) (chain_storage _ _ _ _ _ Hi Hc)
    (pert (prepare_rev d wb)) (pert (prepare_rev d (setup op c)))
    (wf_pert _ _ (wf_prepare_rev op d wb Hd Hwb))
    (wf_pert _ _ (wf_prepare_rev op d _ Hd (wf_setup op c)))
    (same_start_rev d _ _ Hwb (wf_setup op c))) as A.
  rewrite Hq in A.
  destruct (adjoint_sweep op (rev l) (pert (prepare_rev d wb))) as [p'|e] eqn:E; [|tauto].
  rewrite <- Hs in E.
  destruct (rev_quiet op i d w wb p' HA Q Hb E) as [w' R].
  exists w'; rewrite R, (same_gradient _ _ A); reflexivity.
Qed.

Lemma rev_value_iff c i d w g : o_ckpt op = AllCheckpointer -> quiet op -> wfc w ->
  inputs_sized o i -> outputs_sized o d -> valid_for c i w ->
  ((exists w', compute_jacvec_product_rev op i d w = (w', Ok g)) <-> rev_value c i d g).
Proof.
  intros HA Q Hw Hi Hd HV; split.
  - intros [w' H]; exact (rev_value_sound c i d w w' g HA Hw Hi Hd HV H).
  - apply rev_value_complete; assumption.
Qed.

(** *** Validity of the checkpoints over a history *)
Hypothesis Heqb : forall x y : T, neqb x y = true -> x = y.

Lemma array_equal_eq (a b : list T) : array_equal a b = true -> a = b.
Proof.
  revert b; induction a as [|x a IH]; intros [|y b] H; simpl in H; try discriminate; auto.
  apply andb_prop in H as [H1 H2]; f_equal; auto.
Qed.

Definition belongs (s : rkstate T) (i : inputs T) : Prop :=
  time_initial i = final_time s /\ initial i = final_state s /\ independent i = independent_inputs s.

(** The checkpoints belong to the cached inputs. *)
Definition checked (c : C) (w : component T C) : Prop :=
  forall s, cached w = Some s ->
    exists i l c' st', inputs_sized o i /\ belongs s i /\
      chain op 0 c (live (prepare op i (setup op c))) l c' st' /\
      length l < loop_limit op /\ storage w = rev l.

Lemma checked_valid c w i : checked c w -> ctl w = c ->
  (forall s, cached w = Some s -> final_time s = time_initial i) -> valid_for c i w.
Proof.
  intros HC HE HT; unfold valid_for; destruct (cache_hit i (cached w)) eqn:E; [right; split; [reflexivity|]|left; auto].
  unfold cache_hit in E; destruct (cached w) as [s|] eqn:Es; [|discriminate].
  apply andb_prop in E as [E1 E2]; apply array_equal_eq in E1; apply array_equal_eq in E2.
  destruct (HC s Es) as (j & l & c' & st' & Hj & (B1 & B2 & B3) & Hc & Hl & Hs).
  assert (j = i) as ->.
  { specialize (HT s eq_refl); destruct i, j; cbn in *; congruence. }
  exists l, c', st'; auto.
Qed.

Lemma checked_compute i w w' out : o_ckpt op = AllCheckpointer -> wfc w -> inputs_sized o i ->
  compute op i w = (w', Ok out) -> checked (ctl w) w' /\
  (forall s, cached w' = Some s -> final_time s = time_initial i).
Proof.
  intros HA Hw Hi H.
  assert (HL : loops op) by (unfold loops; rewrite HA; exact I).
  assert (HK : keeps op = true) by (unfold keeps; rewrite HA; reflexivity).
  destruct (compute_value i w w' out (ctl w) HL Hw Hi H) as (l & c' & st' & Hc & Hl & _ & Hs & Hk).
  split.
  - intros s Es; rewrite Hk in Es; injection Es as <-.
    exists i, l, c', st'; split; [exact Hi|]; split; [repeat split|]; auto.
  - intros s Es; rewrite Hk in Es; injection Es as <-; reflexivity.
Qed.

(** After a returning call the invariant holds again. *)
Lemma history_checked c t : o_ckpt op = AllCheckpointer -> stateless op c ->
  forall hist w, Forall (call_sized o) hist -> Forall (fun k => call_time k = t) hist ->
  all_return op hist w -> wfc w -> ctl w = c -> checked c w ->
  (forall s, cached w = Some s -> final_time s = t) ->
  let w' := run_calls op hist w in
  wfc w' /\ ctl w' = c /\ checked c w' /\ (forall s, cached w' = Some s -> final_time s = t).
Proof.
  intros HA HS; induction hist as [|k hist IH]; intros w Fk Ft Hr Hw Hc HC HT; [simpl; auto|].
  inversion Fk as [|? ? Fk1 Fk2]; subst; inversion Ft as [|? ? Ft1 Ft2]; subst; destruct Hr as [Hr1 Hr2].
  change (run_calls op (k :: hist) w) with (run_calls op hist (run_call op k w)).
  destruct k as [i|i d|i d]; simpl in Fk1, Hr1, Hr2; cbn [run_call] in *.
  - destruct Hr1 as [out Hr1]; destruct (compute op i w) as [w1 r] eqn:E; cbn in Hr1; subst r.
    destruct (checked_compute i w w1 out HA Hw Fk1 E) as [K1 K2].
    pose proof (pres_compute op Hres Hasz i Fk1 w Hw) as P; rewrite E in P.
    pose proof (ctl_compute op (ctl w) HS i w eq_refl) as Q; rewrite E in Q.
    apply IH; auto.
  - destruct Hr1 as [out Hr1]; destruct (compute_jacvec_product_fwd op i d w) as [w1 r] eqn:E; cbn in Hr1; subst r.
    destruct Fk1 as [Fi Fd].
    pose proof (pres_fwd op Hres Hdsz i d Fi Fd w Hw) as P; rewrite E in P.
    pose proof (ctl_fwd op (ctl w) HS i d w eq_refl) as Q; rewrite E in Q.
    destruct (fwd_ok op i d w w1 out E) as (l & c' & st' & p' & _ & _ & _ & _ & Ew).
    assert (E1 : cached w1 = cached w) by (rewrite Ew; reflexivity).
    assert (E2 : storage w1 = storage w) by (rewrite Ew; reflexivity).
    apply IH; auto.
    + intros s Es; cbn [fst] in *; rewrite E1 in Es; rewrite E2; exact (HC s Es).
    + intros s Es; cbn [fst] in *; rewrite E1 in Es; exact (HT s Es).
  - destruct Hr1 as [g Hr1]; destruct (compute_jacvec_product_rev op i d w) as [w1 r] eqn:E; cbn in Hr1; subst r.
    destruct Fk1 as [Fi Fd].
    pose proof (pres_rev op Hres Hasz i d Fi Fd w Hw) as P; rewrite E in P.
    pose proof (ctl_rev op (ctl w) HS i d w eq_refl) as Q; rewrite E in Q.
    destruct (rev_ok op i d w w1 g HA E) as (wb & p' & _ & _ & _ & Ew).
    assert (E1 : cached w1 = None) by (rewrite Ew; reflexivity).
    apply IH; auto; intros s Es; cbn [fst] in Es; congruence.
Qed.

Lemma valid_setup c i : valid_for c i (setup op c).
Proof. left; split; reflexivity. Qed.

Lemma rev_history_independent c t hist i d g :
  o_ckpt op = AllCheckpointer -> quiet op -> stateless op c ->
  Forall (call_sized o) hist -> Forall (fun k => call_time k = t) hist ->
  all_return op hist (setup op c) ->
  inputs_sized o i -> outputs_sized o d -> time_initial i = t ->
  ((exists w', compute_jacvec_product_rev op i d (run_calls op hist (setup op c)) = (w', Ok g))
   <-> exists w', compute_jacvec_product_rev op i d (setup op c) = (w', Ok g)).
Proof.
  intros HA Q HS Fk Ft Hr Hi Hd Hti.
  assert (K0 : forall s, cached (setup op c) = Some s -> final_time s = t) by (intros s E; discriminate E).
  assert (C0 : checked c (setup op c)) by (intros s E; discriminate E).
  destruct (history_checked c t HA HS hist (setup op c) Fk Ft Hr (wf_setup op c) eq_refl C0 K0)
    as (H1 & H2 & H3 & H4).
  assert (V1 : valid_for (ctl (run_calls op hist (setup op c))) i (run_calls op hist (setup op c))).
  { rewrite H2; apply checked_valid; [exact H3|exact H2|]; intros s Es; rewrite (H4 s Es); symmetry; exact Hti. }
  rewrite (rev_value_iff _ i d _ g HA Q H1 Hi Hd V1), H2.
  rewrite (rev_value_iff c i d (setup op c) g HA Q (wf_setup op c) Hi Hd (valid_setup c i)).
  reflexivity.
Qed.

(** Any history, but checkpoints just made for these inputs. *)
Lemma rev_after_compute c hist i d g w1 out :
  o_ckpt op = AllCheckpointer -> quiet op -> stateless op c ->
  Forall (call_sized o) hist -> inputs_sized o i -> outputs_sized o d ->
  compute op i (run_calls op hist (setup op c)) = (w1, Ok out) ->
  ((exists w', compute_jacvec_product_rev op i d w1 = (w', Ok g))
   <-> exists w', compute_jacvec_product_rev op i d (setup op c) = (w', Ok g)).
Proof.
  intros HA Q HS Fk Hi Hd H.
  pose proof (wf_run_calls op Hres Hdsz Hasz hist (setup op c) Fk (wf_setup op c)) as W.
  pose proof (ctl_run_calls op c HS hist (setup op c) eq_refl) as Hc.
  destruct (checked_compute i _ w1 out HA W Hi H) as [K1 K2]; rewrite Hc in K1.
  pose proof (pres_compute op Hres Hasz i Hi _ W) as P; rewrite H in P; cbn in P.
  pose proof (ctl_compute op c HS i _ Hc) as C1; rewrite H in C1; unfold has_ctl in C1; cbn in C1.
  assert (V1 : valid_for (ctl w1) i w1) by (rewrite C1; apply checked_valid; assumption).
  rewrite (rev_value_iff _ i d w1 g HA Q P Hi Hd V1), C1.
  rewrite (rev_value_iff c i d (setup op c) g HA Q (wf_setup op c) Hi Hd (valid_setup c i)).
  reflexivity.
Qed.

(** Any history whose last call, a compute that may have failed, had other
    state or independent inputs. *)
Lemma cached_hooks x ev hook i l :
  preserves (fun w : component T C => cached w = x) (call_hooks ev hook i l).
Proof. apply pres_hooks; intros w v H; exact H. Qed.

Lemma cached_run_step x n : preserves (fun w => cached w = x) (run_step op n).
Proof.
  apply pres_bind; [apply pres_reading; intros w H; apply cached_hooks; exact H|]; intros _.
  apply pres_bind; [|intros _; apply pres_reading; intros w H; apply cached_hooks; exact H].
  intros w H; unfold step_live.
  destruct (iterate_on_step op (retry_limit op) (ctl w) (live w)) as [[c' st'] r]; exact H.
Qed.

Lemma cached_forward_loop x keep : forall fuel it,
  preserves (fun w => cached w = x) (forward_loop op keep fuel it).
Proof.
  induction fuel as [|fuel IH]; intros it; simpl; [apply pres_raise|].
  apply pres_reading; intros w H.
  destruct (is_iteration_finished _ _ _); [exact H|].
  apply (pres_bind (fun w => cached w = x)); [apply cached_run_step| |exact H]; intros _.
  apply pres_bind; [|intros _; apply IH].
  destruct keep; [|apply pres_ret]; apply pres_modify; intros w1 H1; exact H1.
Qed.

Lemma cached_compute i w : loops op ->
  cached (fst (compute op i w)) = Some (put_inputs i (disc (live w))).
Proof.
  intros HL; unfold compute; unfold mbind at 1; rewrite compute_preparation_eq.
  set (w1 := prepare op i w).
  assert (P1 : preserves (fun v => cached v = cached w1)
     (create_checkpointer op ;; iterate_forward op ;;
    reading (fun w => mret {| time_final := final_time (disc (live w));
                            final := final_state (disc (live w)) |}))).
  { apply pres_bind; [|intros _; apply pres_bind; [|intros _; apply pres_reading; intros v H; exact H]].
    - unfold create_checkpointer; destruct (o_ckpt op); [apply pres_ret| |]; apply pres_modify;
        intros v H; exact H.
    - unfold iterate_forward, loops in *; destruct (o_ckpt op); [| |tauto]; apply cached_forward_loop. }
  exact (P1 w1 eq_refl).
Qed.

Lemma rev_after_other c hist i j d g :
  o_ckpt op = AllCheckpointer -> quiet op -> stateless op c ->
  Forall (call_sized o) hist -> inputs_sized o i -> inputs_sized o j -> outputs_sized o d ->
  initial i <> initial j \/ independent i <> independent j ->
  ((exists w', compute_jacvec_product_rev op i d (run_calls op (hist ++ [CallCompute j]) (setup op c)) = (w', Ok g))
   <-> exists w', compute_jacvec_product_rev op i d (setup op c) = (w', Ok g)).
Proof.
  intros HA Q HS Fk Hi Hj Hd Hne.
  assert (HL : loops op) by (unfold loops; rewrite HA; exact I).
  assert (Fk' : Forall (call_sized o) (hist ++ [CallCompute j])) by (apply Forall_app; auto).
  pose proof (wf_run_calls op Hres Hdsz Hasz _ (setup op c) Fk' (wf_setup op c)) as W.
  pose proof (ctl_run_calls op c HS (hist ++ [CallCompute j]) (setup op c) eq_refl) as Hc.
  set (w := run_calls op (hist ++ [CallCompute j]) (setup op c)) in *.
  assert (Ec : exists s, cached w = Some (put_inputs j s)).
  { unfold w, run_calls; rewrite fold_left_app; cbn [fold_left run_call].
    rewrite cached_compute by exact HL; eauto. }
  assert (V : valid_for (ctl w) i w).
  { left; split; [|reflexivity]; destruct Ec as [s Ec]; rewrite Ec; cbn.
    destruct (array_equal (initial j) (initial i)) eqn:E1; [|reflexivity].
    destruct (array_equal (independent j) (independent i)) eqn:E2; [|reflexivity].
    apply array_equal_eq in E1; apply array_equal_eq in E2; destruct Hne; congruence. }
  rewrite (rev_value_iff _ i d w g HA Q W Hi Hd V), Hc.
  rewrite (rev_value_iff c i d (setup op c) g HA Q (wf_setup op c) Hi Hd (valid_setup c i)).
  reflexivity.
Qed.

End Values.
