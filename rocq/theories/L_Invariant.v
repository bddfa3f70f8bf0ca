(** Conserved quantities along runs. *)
From Coq Require Import List Reals Lia Lra Arith.
From Verif Require Import Base Ext M_Tableau M_State M_ODE M_Step M_Controller M_Measure M_Integrator
  SpecRK SpecShape SpecDeriv SpecRun SpecRevolve SpecConvergence SpecInvariant
  L_Vec L_Generic L_Step L_StepProps L_Adjoint L_Iter L_Run L_Log L_RunProps L_Whole L_WholeR L_Revolve L_RevolveLog L_RunConvergence L_Metadata.
Import ListNotations.
Open Scope R_scope.

Lemma total_step S n w h y field b : length b = S -> length y = n -> length field = S -> Forall (fun r => length r = n) field ->
  (forall i, (i < S)%nat -> total n w (nth i field []) = 0) ->
  total n w (vadd y (einsum_ij_i (length y) field (vscale h b))) = total n w y.
Proof.
  intros Hb Hy Hl Hf Z. destruct (weighted_step_spec S n b h y field Hb Hy Hl Hf) as (_ & A).
  unfold total. rewrite (rsum_ext n _ (fun m => w m * vnth m y + h * rsum S (fun i => vnth i b * (w m * vnth m (nth i field []))))).
  2:{ intros m _. rewrite A, (rsum_ext S (fun i => vnth i b * (w m * vnth m (nth i field []))) (fun i => w m * (vnth i b * vnth m (nth i field [])))) by (intros; ring).
      rewrite rsum_scal. ring. }
  rewrite rsum_plus, rsum_scal, rsum_swap.
  rewrite (rsum_ext S _ (fun _ => 0)); [rewrite L_Vec.rsum_zero; ring|].
  intros i Hi. rewrite rsum_scal. fold (total n w (nth i field [])). rewrite Z by exact Hi. ring.
Qed.

Section Runs.
Context {C : Type}.
Variable op : options R C.
Notation bt := (o_bt op).
Notation o := (o_ode op).
Notation size := (state_size o).
Notation shape := (shaped (t_stages bt) (state_size o) (independent_input_size o)
                          (independent_output_size o) (linearization_point_size o)).
Hypothesis Hbt : tableau_wf bt.
Hypothesis Hsz : sized_ode o.
Variable w : nat -> R.

Section Primal.
Hypothesis Hw : keeps_total o w.
Lemma step_total s h s' : shape s -> compute_step bt o s h = Ok s' -> total size w (final_state s') = total size w (final_state s).
Proof.
  intros Sh E. destruct (compute_step_facts bt o _ _ _ _ Hbt eq_refl eq_refl eq_refl (proj1 Hsz) s h s' Sh E) as [[Shp _ _ _ _ _ Stg] Fin _ _ _].
  rewrite Fin. apply (total_step (t_stages bt)); try apply Sh; try apply Shp; [apply (tw_b _ Hbt)|].
  intros i Hi. exact (Hw _ _ _ _ _ (Stg i Hi)).
Qed.
Lemma trajectory_total l : forall st, trajectory op st l -> wf_ti op st ->
  total size w (final_state (disc (last l st))) = total size w (final_state (disc st)).
Proof.
  induction l as [|st1 l IH]; intros st Ht W; [reflexivity|]. rewrite last_cons.
  destruct Ht as [(c & c1 & I) Ht]. pose proof (iterate_wf op (proj1 Hsz) _ _ _ _ _ _ W I) as W1.
  rewrite (IH st1 Ht W1). destruct (iterate_step op _ _ _ _ _ (wt_sh _ _ W) I) as (h & tmp & E & D & _).
  rewrite D. cbn [rk_set final_state]. exact (step_total _ _ _ (wt_shape _ _ W) E).
Qed.
Lemma run_total c v i v' out : loops op -> reachable op c v -> inputs_sized o i -> compute op i v = (v', Ok out) ->
  total size w (final out) = total size w (initial i).
Proof.
  intros L HR Hi E. pose proof (reachable_wf op c v Hsz HR) as W.
  destruct (compute_ok op i v v' out L E) as (l & c' & st' & Hc & Hl & -> & Ew).
  rewrite (chain_last op _ _ _ _ _ _ Hc).
  change (total size w (final_state (disc (last l (live (prepare op i v))))) = total size w (initial i)).
  rewrite (trajectory_total l); [reflexivity|eapply chain_trajectory; eauto|exact (wf_live _ _ (wf_prepare op i v Hi W))].
Qed.
Lemma revolve_total n fs rs c c0 v i v' out : stateless op c -> ctl v = c ->
  o_ckpt op = PyrevolveCheckpointer fs rs -> valid_schedule n fs rs -> Forall forward_action fs ->
  reachable op c0 v -> inputs_sized o i -> compute op i v = (v', Ok out) ->
  total size w (final out) = total size w (initial i).
Proof.
  intros HS Hc HP HV HF HR Hi H. pose proof (reachable_wf op c0 v Hsz HR) as W.
  destruct (revolve_log op c HS n fs rs i v v' out HP HV HF Hc H) as (l & L1 & L2 & L3 & L4 & ->).
  replace (final (result_of (live v'))) with (final_state (disc (live v'))) by reflexivity. rewrite L4.
  rewrite (trajectory_total l); [reflexivity|exact (steps_trajectory op _ l _ L2)|exact (wf_live _ _ (wf_prepare op i v Hi W))].
Qed.
End Primal.

Section Tangent.
Hypothesis Hw : tangent_keeps_total o w.
Lemma tangent_step s v h v' : shape s -> shape v -> compute_step_derivative bt o s v h = Ok v' ->
  total size w (final_state v') = total size w (final_state v).
Proof.
  intros Ss Sv E.
  destruct (compute_step_derivative_facts bt o _ _ _ _ Hbt eq_refl eq_refl (proj1 (proj2 Hsz)) s v h v' Sv
    (sh_sio _ _ _ _ _ _ Ss) (sh_sior _ _ _ _ _ _ Ss) E) as [[Sh _ _ _ Stg] Fin Ft].
  rewrite Fin. apply (total_step (t_stages bt)); try apply Sv; try apply Sh; [apply (tw_b _ Hbt)|].
  intros i Hi. exact (Hw _ _ _ _ _ (Stg i Hi)).
Qed.
Lemma sweep_total l : Forall (fun x => shape (disc x)) l -> forall p p', shape (disc p) -> derivative_sweep op l p = Ok p' ->
  total size w (final_state (disc p')) = total size w (final_state (disc p)).
Proof.
  induction 1 as [|st l S _ IH]; intros p p' P E; cbn [derivative_sweep] in E; [now injection E as <-|].
  apply bind_ok in E as (p1 & E1 & E). unfold derivative_step in E1. apply bind_ok in E1 as (v & V & [= <-]).
  rewrite (IH (w_disc (rk_set (disc p) v) p) p');
    [|apply shape_rk_set; exact (proj1 (compute_step_derivative_shape bt o _ _ _ _ (proj1 (proj2 Hsz)) S P V))|exact E].
  exact (tangent_step _ _ _ _ S P V).
Qed.
Lemma fwd_total c v i d v' out : reachable op c v -> inputs_sized o i -> inputs_sized o d ->
  compute_jacvec_product_fwd op i d v = (v', Ok out) -> total size w (final out) = total size w (initial d).
Proof.
  intros Rw Hi Hd E. pose proof (reachable_wf op c v Hsz Rw) as W.
  destruct (fwd_ok op i d v v' out E) as (l & c' & st' & p' & Hc & _ & Hp & -> & _).
  pose proof (wf_prepare_fwd op i d v Hi Hd W) as Wp.
  assert (F : Forall (fun x => shape (disc x)) l).
  { apply (Forall_impl _ (fun x (Q : wf_ti op x) => wt_shape _ _ Q)).
    exact (proj2 (chain_wf op (proj1 Hsz) _ _ _ _ _ _ Hc (wf_live _ _ Wp))). }
  exact (sweep_total l F _ _ (wf_pert _ _ Wp) Hp).
Qed.
End Tangent.
End Runs.

(** Weights that are a conserved quantity come back unchanged. *)
Definition unit_vec (n m : nat) : list R := vmake n (fun k => if (k =? m)%nat then 1 else 0).
Lemma rsum_pick n m f : (m < n)%nat -> rsum n (fun k => f k * (if (k =? m)%nat then 1 else 0)) = f m.
Proof.
  induction n as [|n IH]; intros H; [lia|]. cbn [rsum]. destruct (Nat.eqb_spec n m) as [->|Ne].
  - rewrite (rsum_ext m _ (fun _ => 0)); [rewrite L_Vec.rsum_zero; ring|]. intros k Hk. destruct (Nat.eqb_spec k m); [lia|ring].
  - rewrite IH by lia. ring.
Qed.
Lemma dot_unit n m x : length x = n -> (m < n)%nat -> dot x (unit_vec n m) = vnth m x.
Proof. intros L H. unfold unit_vec. rewrite (dot_vmake_r n) by exact L. apply (rsum_pick n m (fun k => vnth k x) H). Qed.
Lemma total_unit n w m : (m < n)%nat -> total n w (unit_vec n m) = w m.
Proof.
  intros H. unfold total. rewrite (rsum_ext n _ (fun k => w k * (if (k =? m)%nat then 1 else 0))); [apply rsum_pick, H|].
  intros k Hk. unfold unit_vec. rewrite vnth_vmake by exact Hk. reflexivity.
Qed.
Lemma total_zeros n w k : total n w (vzeros k) = 0.
Proof. unfold total. rewrite (rsum_ext n _ (fun _ => 0)); [apply L_Vec.rsum_zero|]. intros m _. rewrite vnth_vzeros. ring. Qed.

(** ** Quadratic quantities *)
Section Quadratic.
Variables (n : nat) (S : nat -> nat -> R).
Hypothesis Sym : forall i j, S i j = S j i.
Lemma form_sym y z : form n S y z = form n S z y.
Proof. unfold form. rewrite rsum_swap. apply rsum_ext. intros i _. apply rsum_ext. intros j _. rewrite (Sym j i). ring. Qed.
Lemma form_comb_r s y u h c (k : nat -> list R) :
  form n S y (vmake n (fun m => vnth m u + h * rsum s (fun i => c i * vnth m (k i)))) =
  form n S y u + h * rsum s (fun i => c i * form n S y (k i)).
Proof.
  unfold form.
  rewrite (rsum_ext n _ (fun i => rsum n (fun j => S i j * vnth i y * vnth j u) + h * rsum s (fun l => c l * rsum n (fun j => S i j * vnth i y * vnth j (k l))))).
  - rewrite rsum_plus, rsum_scal. f_equal. f_equal. rewrite rsum_swap. apply rsum_ext. intros l _. rewrite rsum_scal. reflexivity.
  - intros i _. rewrite (rsum_ext n _ (fun j => S i j * vnth i y * vnth j u + h * rsum s (fun l => c l * (S i j * vnth i y * vnth j (k l))))).
    + rewrite rsum_plus, rsum_scal. f_equal. f_equal. rewrite rsum_swap. apply rsum_ext. intros l _. rewrite rsum_scal. reflexivity.
    + intros j Hj. rewrite vnth_vmake by exact Hj.
      replace (rsum s (fun l => c l * (S i j * vnth i y * vnth j (k l)))) with (S i j * vnth i y * rsum s (fun l => c l * vnth j (k l)))
        by (rewrite <- rsum_scal; apply rsum_ext; intros; ring). ring.
Qed.
Lemma form_comb_l s y u h c (k : nat -> list R) :
  form n S (vmake n (fun m => vnth m u + h * rsum s (fun i => c i * vnth m (k i)))) y =
  form n S u y + h * rsum s (fun i => c i * form n S (k i) y).
Proof.
  rewrite form_sym, form_comb_r, (form_sym y u). f_equal. f_equal. apply rsum_ext. intros i _. rewrite form_sym. reflexivity.
Qed.
Lemma form_step s a b c f t h y k y1 : quadratic_method s a b -> keeps_form n S f ->
  rk_equations s n a b c f t h y k y1 -> form n S y1 y1 = form n S y y.
Proof.
  intros Q K (E & ->).
  assert (Z : forall i, (i < s)%nat -> form n S y (k i) = - h * rsum s (fun j => a i j * form n S (k j) (k i))).
  { intros i Hi. pose proof (K (t + c i * h) (rk_stage_value s n a h y k i) (length_vmake _ _)) as X. rewrite <- (E i Hi) in X.
    unfold rk_stage_value in X. rewrite form_comb_l in X. lra. }
  rewrite form_comb_r, form_comb_l. rewrite (rsum_ext s (fun i => b i * form n S (vmake n _) (k i))
    (fun i => b i * form n S y (k i) + h * rsum s (fun j => b i * b j * form n S (k j) (k i)))).
  2:{ intros i _. rewrite form_comb_l, (rsum_ext s (fun j => b i * b j * form n S (k j) (k i)) (fun j => b i * (b j * form n S (k j) (k i)))) by (intros; ring).
      rewrite rsum_scal. ring. }
  rewrite rsum_plus, rsum_scal.
  assert (Y : rsum s (fun i => b i * form n S (k i) y) = rsum s (fun i => b i * form n S y (k i))).
  { apply rsum_ext. intros i _. rewrite form_sym. reflexivity. }
  rewrite Y.
  assert (W : rsum s (fun i => b i * form n S y (k i)) = - h * rsum s (fun i => rsum s (fun j => b i * a i j * form n S (k j) (k i)))).
  { rewrite <- rsum_scal. apply rsum_ext. intros i Hi. rewrite (Z i Hi).
    replace (rsum s (fun j => b i * a i j * form n S (k j) (k i))) with (b i * rsum s (fun j => a i j * form n S (k j) (k i))); [ring|].
    rewrite <- rsum_scal. apply rsum_ext. intros j _. ring. }
  assert (V : 2 * rsum s (fun i => rsum s (fun j => b i * a i j * form n S (k j) (k i))) = rsum s (fun i => rsum s (fun j => b i * b j * form n S (k j) (k i)))).
  { replace (2 * rsum s (fun i => rsum s (fun j => b i * a i j * form n S (k j) (k i)))) with
      (rsum s (fun i => rsum s (fun j => b i * a i j * form n S (k j) (k i))) + rsum s (fun i => rsum s (fun j => b j * a j i * form n S (k j) (k i)))).
    - rewrite <- rsum_plus. apply rsum_ext. intros i Hi. rewrite <- rsum_plus. apply rsum_ext. intros j Hj. rewrite <- (Q i j Hi Hj). ring.
    - rewrite (rsum_swap s s (fun i j => b j * a j i * form n S (k j) (k i))).
      replace (rsum s (fun j => rsum s (fun i => b j * a j i * form n S (k j) (k i)))) with (rsum s (fun i => rsum s (fun j => b i * a i j * form n S (k j) (k i)))); [ring|].
      apply rsum_ext. intros i _. apply rsum_ext. intros j _. rewrite (form_sym (k j) (k i)). ring. }
  rewrite W. rewrite <- V. ring.
Qed.
Lemma form_steps s a b c f : quadratic_method s a b -> keeps_form n S f -> forall hs t y z,
  rk_steps s n a b c f t y hs z -> form n S z z = form n S y y.
Proof.
  intros Q K. induction hs as [|h hs IH]; intros t y z; cbn [rk_steps]; [intros ->; reflexivity|].
  intros (k & y1 & E & H). rewrite (IH _ _ _ H). exact (form_step _ _ _ _ _ _ _ _ _ _ Q K E).
Qed.
End Quadratic.

Lemma vmake_S n f : vmake (S n) f = f 0%nat :: vmake n (fun k => f (S k)).
Proof. unfold vmake. cbn [seq map]. rewrite <- seq_shift, map_map. reflexivity. Qed.
Lemma dot_vmake_any x : forall n f, dot x (vmake n f) = rsum n (fun k => vnth k x * f k).
Proof.
  induction x as [|a x IH]; intros n f.
  - cbn [dot]. rewrite (rsum_ext n _ (fun _ => 0)); [rewrite L_Vec.rsum_zero; reflexivity|].
    intros k _. unfold vnth. destruct k; cbn; ring.
  - destruct n as [|n]; [reflexivity|]. rewrite vmake_S, rsum_S_first. cbn [dot]. rewrite IH. reflexivity.
Qed.
Lemma dot_unit_any n m x : (m < n)%nat -> dot x (unit_vec n m) = vnth m x.
Proof. intros H. unfold unit_vec. rewrite dot_vmake_any. apply (rsum_pick n m (fun k => vnth k x) H). Qed.

Lemma rev_total C (op : options R C) (w : nat -> R) : tableau_wf (o_bt op) -> sized_ode (o_ode op) ->
  tangent_keeps_total (o_ode op) w -> forall c1 c2 h1 h2 i w2 out w3 g,
  ode_transposed (o_ode op) -> ignores_stage_state_weights (o_ode op) -> o_ckpt op = AllCheckpointer ->
  Forall (call_sized (o_ode op)) h1 -> Forall (call_sized (o_ode op)) h2 -> inputs_sized (o_ode op) i ->
  ctl (run_calls op h1 (setup op c1)) = ctl (run_calls op h2 (setup op c2)) ->
  (forall d, inputs_sized (o_ode op) d -> exists w1 dout, compute_jacvec_product_fwd op i d (run_calls op h1 (setup op c1)) = (w1, Ok dout)) ->
  compute op i (run_calls op h2 (setup op c2)) = (w2, Ok out) ->
  compute_jacvec_product_rev op i {| time_final := 0; final := vmake (state_size (o_ode op)) w |} w2 = (w3, Ok g) ->
  time_initial g = 0 /\ (forall m, (m < state_size (o_ode op))%nat -> vnth m (initial g) = w m) /\
  (forall m, (m < independent_input_size (o_ode op))%nat -> vnth m (independent g) = 0).
Proof.
  intros Hbt Hsz K c1 c2 h1 h2 i w2 out w3 g HT HI HA F1 F2 Hi Hc Hd E2 E3.
  set (o := o_ode op) in *. set (wl := {| time_final := 0; final := vmake (state_size o) w |}) in *.
  assert (Key : forall d, inputs_sized o d -> dot_inputs g d = total (state_size o) w (initial d)).
  { intros d Sd. destruct (Hd d Sd) as (w1 & dout & E1).
    rewrite <- (transposed_after_compute op Hbt (proj1 Hsz) (proj1 (proj2 Hsz)) (proj2 (proj2 Hsz)) c1 c2 h1 h2 i d wl w1 dout w2 out w3 g
      HT HI HA F1 F2 Hi Sd (length_vmake _ _) Hc E1 E2 E3).
    pose proof (fwd_total op Hbt Hsz w K c1 (run_calls op h1 (setup op c1)) i d w1 dout (ex_intro _ h1 (conj F1 eq_refl)) Hi Sd E1) as X.
    fold o in X. rewrite <- X.
    unfold dot_outputs, wl. cbn [time_final final]. rewrite dot_comm, dot_vmake_any. unfold total.
    rewrite (rsum_ext _ (fun k => vnth k (final dout) * w k) (fun m => w m * vnth m (final dout))) by (intros; ring). ring. }
  split; [|split].
  - specialize (Key {| time_initial := 1; initial := vzeros (state_size o); independent := vzeros (independent_input_size o) |}).
    unfold dot_inputs in Key. cbn [time_initial initial independent] in Key. rewrite !dot_vzeros_r, total_zeros in Key.
    assert (X : time_initial g * 1 + 0 + 0 = 0) by (apply Key; split; apply length_vzeros). lra.
  - intros m Hm. specialize (Key {| time_initial := 0; initial := unit_vec (state_size o) m; independent := vzeros (independent_input_size o) |}).
    unfold dot_inputs in Key. cbn [time_initial initial independent] in Key. rewrite dot_vzeros_r, dot_unit_any, total_unit in Key by exact Hm.
    assert (X : time_initial g * 0 + vnth m (initial g) + 0 = w m) by (apply Key; split; [apply length_vmake|apply length_vzeros]). lra.
  - intros m Hm. specialize (Key {| time_initial := 0; initial := vzeros (state_size o); independent := unit_vec (independent_input_size o) m |}).
    unfold dot_inputs in Key. cbn [time_initial initial independent] in Key. rewrite dot_vzeros_r, dot_unit_any, total_zeros in Key by exact Hm.
    assert (X : time_initial g * 0 + 0 + vnth m (independent g) = 0) by (apply Key; split; [apply length_vzeros|apply length_vmake]). lra.
Qed.
