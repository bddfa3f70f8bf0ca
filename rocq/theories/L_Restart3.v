(** Restarted runs and products against uninterrupted ones. *)
From Coq Require Import List Lia Bool Arith Reals Lra.
From Verif Require Import Base Ext M_Tableau M_State M_ODE M_Step M_Controller M_Measure M_Integrator
  SpecRK SpecShape SpecDeriv SpecRun SpecRestart L_Vec L_Step L_Deriv L_Generic L_Run L_Iter L_Whole L_WholeR L_RunProps L_Restart L_Restart2.
Import ListNotations.
Local Open Scope nat_scope.

Section Restart.
Context {T : Type} {N : Num T} {C : Type}.
Variable op : options T C.
Notation bt := (o_bt op).
Notation o := (o_ode op).
Notation wft := (wf_ti op).
Notation wfe cr := (wf (ending op cr)).
Notation shape := (shaped (t_stages bt) (state_size o) (independent_input_size o)
                          (independent_output_size o) (linearization_point_size o)).
Hypothesis Ha : o_adaptive op = false.
Hypothesis Hs : sized_ode o.
Hypothesis Hq : quiet op.
Let Hres : result_sizes o := proj1 Hs.
Let Hdsz : derivative_sizes o := proj1 (proj2 Hs).
Let Hasz : adjoint_sizes o := proj2 (proj2 Hs).

Section Split.
Variables (crA crB cr : criterion T) (P : nat -> Prop).
Hypothesis P0 : P 0.
Hypothesis Pstep : forall it x, P it -> is_iteration_finished crA it x = false -> P (S it).
Hypothesis Before : forall it x y, final_time (disc x) = final_time (disc y) ->
  is_iteration_finished crA it x = false -> is_iteration_finished cr it y = false.
Hypothesis After : forall it z, P it -> is_iteration_finished crA it z = true ->
  forall k x y, final_time (disc x) = final_time (disc y) -> is_iteration_finished cr (it + k) y = is_iteration_finished crB k x.
(** Enough fuel for the whole run, if for its parts. *)
Hypothesis Fuel : forall cA a l1 cA' a1 cB b l2 cB' b', chain (ending op crA) 0 cA a l1 cA' a1 -> chain (ending op crB) 0 cB b l2 cB' b' ->
  length l1 + length l2 < loop_limit op.

Lemma run_split i w w1 w2 w' out : loops op -> wfe cr w -> wfe crA w1 -> wfe crB w2 -> inputs_sized o i ->
  compute (ending op cr) i w = (w', Ok out) ->
  exists o1 w1' w2', compute (ending op crA) i w1 = (w1', Ok o1) /\ compute (ending op crB) (restart i o1) w2 = (w2', Ok out).
Proof.
  intros L W W1 W2 Hi H.
  destruct (compute_ok (ending op cr) i w w' out L H) as (l & c' & st' & Hc & Hl & -> & _).
  destruct (fsplit op Ha Hres crA crB cr P Pstep Before After _ _ _ _ _ _ Hc P0 (ctl w1) _ (prep_fsim op cr crA i w w1 Hi W W1))
    as (l1 & a1 & H1 & Wa1 & R).
  destruct (R _ (ctl w2) (restart_fsim op Ha Hres crA crB _ _ i w1 _ _ _ w2 Hi W1 W2 H1)) as (l2 & b2 & H2 & Al & F).
  pose proof (alike_length _ _ Al) as E. rewrite app_length in E. cbn [loop_limit ending] in Hl.
  pose proof (compute_quiet (ending op crA) i w1 _ _ _ L Hq H1 ltac:(cbn [loop_limit ending]; lia)) as K1.
  pose proof (compute_quiet (ending op crB) (restart i (result_of a1)) w2 _ _ _ L Hq H2 ltac:(cbn [loop_limit ending]; lia)) as K2.
  eexists; eexists; eexists. split; [exact K1|]. rewrite K2.
  replace (result_of st') with (result_of b2); [reflexivity|]. unfold result_of. destruct F as [_ _ [F1 F2 _] _]. rewrite F1, F2. reflexivity.
Qed.

Lemma run_join i w w1 w2 o1 w1' w2' out : loops op -> wfe cr w -> wfe crA w1 -> wfe crB w2 -> inputs_sized o i ->
  compute (ending op crA) i w1 = (w1', Ok o1) -> compute (ending op crB) (restart i o1) w2 = (w2', Ok out) ->
  exists w', compute (ending op cr) i w = (w', Ok out).
Proof.
  intros L W W1 W2 Hi K1 K2.
  destruct (compute_ok (ending op crA) i w1 w1' o1 L K1) as (l1 & c1 & a1 & H1 & _ & -> & _).
  destruct (compute_ok (ending op crB) _ w2 w2' out L K2) as (l2 & c2 & b2 & H2 & _ & -> & _).
  destruct (fjoin op Ha Hres crA crB cr P Pstep Before After _ _ _ _ _ _ H1 P0 _ _ _ _ _ (ctl w) (live (prepare (ending op cr) i w))
    (restart_fsim op Ha Hres crA crB _ _ i w1 _ _ _ w2 Hi W1 W2 H1) H2 (prep_fsim op crA cr i w1 w Hi W1 W)) as (l & b' & Hc & Al & F).
  pose proof (alike_length _ _ Al) as E. rewrite app_length in E. pose proof (Fuel _ _ _ _ _ _ _ _ _ _ H1 H2) as Lt.
  pose proof (compute_quiet (ending op cr) i w _ _ _ L Hq Hc ltac:(cbn [loop_limit ending]; lia)) as K.
  eexists. rewrite K. replace (result_of b2) with (result_of b'); [reflexivity|].
  unfold result_of. destruct F as [_ _ [F1 F2 _] _]. rewrite F1, F2. reflexivity.
Qed.

(** Forward products. *)
Lemma pert_start i d d1 p1 w2 : inputs_sized o d -> shape (disc p1) -> independent_inputs (disc p1) = independent d -> d1 = result_of p1 -> wfe crB w2 ->
  shape (disc (pert (prepare_fwd (ending op crB) i (restart d d1) w2))) /\
  same_start (disc p1) (disc (pert (prepare_fwd (ending op crB) i (restart d d1) w2))) /\ inputs_sized o (restart d d1).
Proof.
  intros [D1 D2] Sp Ip -> W2. assert (I2 : inputs_sized o (restart d (result_of p1))) by (split; cbn; [apply Sp|exact D2]).
  split; [|split; [constructor; [reflexivity|reflexivity|exact Ip]|exact I2]].
  exact (shape_put (ending op crB) _ _ I2 (wf_pert _ _ W2)).
Qed.

Lemma fwd_split i d w w1 v1 w2 w' dout : loops op -> wfe cr w -> wfe crA w1 -> wfe crA v1 -> wfe crB w2 -> inputs_sized o i -> inputs_sized o d ->
  compute_jacvec_product_fwd (ending op cr) i d w = (w', Ok dout) ->
  exists o1 w1' d1 v1' w2', compute (ending op crA) i w1 = (w1', Ok o1) /\ compute_jacvec_product_fwd (ending op crA) i d v1 = (v1', Ok d1) /\
    compute_jacvec_product_fwd (ending op crB) (restart i o1) (restart d d1) w2 = (w2', Ok dout).
Proof.
  intros L W W1 V1 W2 Hi Hd H.
  destruct (fwd_ok (ending op cr) i d w w' dout H) as (l & c' & st' & p' & Hc & Hl & Hp & -> & _).
  destruct (fsplit op Ha Hres crA crB cr P Pstep Before After _ _ _ _ _ _ Hc P0 (ctl w1) _ (prep_fwd_fsim op cr crA i d w w1 Hi Hd W W1))
    as (l1 & a1 & H1 & Wa1 & R).
  destruct (fchain op Ha Hres crA crA 0 _ _ _ _ _ _ H1 ltac:(intros k x y E; destruct crA; cbn; rewrite ?E; reflexivity) (ctl v1) (live (prepare_fwd (ending op crA) i d v1))
     (fsim_sym op _ _ (prep_fwd_fsim op crA crA i d v1 w1 Hi Hd V1 W1))) as (l1' & a1' & H1' & Al1 & F1).
  cbn [Nat.add] in H1'.
  change (derivative_sweep (ending op cr) l (pert (prepare_fwd (ending op cr) i d w))) with (derivative_sweep op l (pert (prepare_fwd (ending op cr) i d w))) in Hp.
  pose proof (restart_fsim op Ha Hres crA crB _ _ i w1 _ _ _ w2 Hi W1 W2 H1) as RF.
  destruct (R _ (ctl w2) RF) as (l2 & b2 & H2 & Al & F).
  assert (Wl1 : Forall wft l1) by (apply (chain_kept op Ha Hres _ _ _ _ _ _ _ H1), (ending_wft op crA), wf_live, wf_prepare; auto).
  assert (Wl2 : Forall wft l2) by (apply (chain_kept op Ha Hres _ _ _ _ _ _ _ H2), RF).
  pose proof (wf_prepare_fwd (ending op cr) i d w Hi Hd W) as PW. pose proof (wf_prepare_fwd (ending op crA) i d v1 Hi Hd V1) as PV.
  rewrite <- (dsweep_alike op _ _ Al), (dsweep_app op) in Hp.
  destruct (derivative_sweep op l1 (pert (prepare_fwd (ending op cr) i d w))) as [q|e] eqn:Eq; cbn [bind] in Hp; [|discriminate].
  destruct (dsweep_kept op Hdsz l1 Wl1 _ _ (wf_pert _ _ PW) Eq) as (Sq & _).
  pose proof (dsweep_io op Hdsz l1 Wl1 _ _ (wf_pert _ _ PW) (wf_pert _ _ PV) ltac:(constructor; reflexivity)) as D1. rewrite Eq in D1.
  destruct (derivative_sweep op l1 (pert (prepare_fwd (ending op crA) i d v1))) as [q1|e] eqn:Eq1; [|contradiction].
  destruct (dsweep_kept op Hdsz l1 Wl1 _ _ (wf_pert _ _ PV) Eq1) as (Sq1 & Iq1).
  destruct (pert_start (restart i (result_of a1)) d (result_of q1) q1 w2 Hd Sq1 Iq1 eq_refl W2) as (S2 & SS2 & Id2).
  pose proof (dsweep_io op Hdsz l2 Wl2 q _ Sq S2 ltac:(destruct D1, SS2; constructor; congruence)) as D2. rewrite Hp in D2.
  destruct (derivative_sweep op l2 _) as [q2|e] eqn:Eq2 in D2; [|contradiction].
  pose proof (alike_length _ _ Al) as E. rewrite app_length in E. pose proof (alike_length _ _ Al1) as E1. cbn [loop_limit ending] in Hl.
  pose proof (compute_quiet (ending op crA) i w1 _ _ _ L Hq H1 ltac:(cbn [loop_limit ending]; lia)) as K1.
  rewrite (dsweep_alike op _ _ Al1) in Eq1.
  pose proof (fwd_quiet (ending op crA) i d v1 _ _ _ _ Hq H1' ltac:(cbn [loop_limit ending]; lia) Eq1) as K2.
  destruct (fchain op Ha Hres crB crB 0 _ _ _ _ _ _ H2 ltac:(intros k x y E'; destruct crB; cbn; rewrite ?E'; reflexivity) (ctl w2)
     (live (prepare_fwd (ending op crB) (restart i (result_of a1)) (restart d (result_of q1)) w2))
     (fsim_sym op _ _ (prep_fwd_fsim op crB crB _ _ w2 w2 (restart_sized op i a1 Wa1 Hi) Id2 W2 W2))) as (l2' & b2' & H2' & Al2 & F2).
  cbn [Nat.add] in H2'. pose proof (alike_length _ _ Al2) as E2. rewrite (dsweep_alike op _ _ Al2) in Eq2.
  pose proof (fwd_quiet (ending op crB) (restart i (result_of a1)) (restart d (result_of q1)) w2 _ _ _ _ Hq H2' ltac:(cbn [loop_limit ending]; lia) Eq2) as K3.
  do 5 eexists. split; [exact K1|]. split; [exact K2|]. rewrite K3.
  replace (result_of p') with (result_of q2); [reflexivity|]. unfold result_of. destruct D2 as [D2 D3 _]. rewrite D2, D3. reflexivity.
Qed.

Lemma fwd_join i d w w1 v1 w2 o1 w1' d1 v1' w2' dout : loops op -> wfe cr w -> wfe crA w1 -> wfe crA v1 -> wfe crB w2 -> inputs_sized o i -> inputs_sized o d ->
  compute (ending op crA) i w1 = (w1', Ok o1) -> compute_jacvec_product_fwd (ending op crA) i d v1 = (v1', Ok d1) ->
  compute_jacvec_product_fwd (ending op crB) (restart i o1) (restart d d1) w2 = (w2', Ok dout) ->
  exists w', compute_jacvec_product_fwd (ending op cr) i d w = (w', Ok dout).
Proof.
  intros L W W1 V1 W2 Hi Hd K1 K2 K3.
  destruct (compute_ok (ending op crA) i w1 w1' o1 L K1) as (l1 & c1 & a1 & H1 & _ & -> & _).
  destruct (fwd_ok (ending op crA) i d v1 v1' d1 K2) as (m1 & e1 & b1 & q1 & G1 & _ & P1 & -> & _).
  destruct (fwd_ok (ending op crB) _ _ w2 w2' dout K3) as (m2 & e2 & b2 & q2 & G2 & _ & P2 & -> & _).
  pose proof (wf_prepare_fwd (ending op cr) i d w Hi Hd W) as PW. pose proof (wf_prepare_fwd (ending op crA) i d v1 Hi Hd V1) as PV.
  (* both runs of the first part end alike *)
  destruct (fchain op Ha Hres crA crA 0 _ _ _ _ _ _ G1 ltac:(intros k x y E; destruct crA; cbn; rewrite ?E; reflexivity) (ctl w1) (live (prepare (ending op crA) i w1))
     (prep_fwd_fsim op crA crA i d v1 w1 Hi Hd V1 W1)) as (n1 & x1 & N1 & _ & F1).
  destruct (chain_fun (ending op crA) _ _ _ _ _ _ H1 _ _ _ N1) as (-> & -> & ->).
  assert (Wx : wft x1) by apply F1.
  assert (Wm1 : Forall wft m1) by (apply (chain_kept op Ha Hres _ _ _ _ _ _ _ G1), (ending_wft op crA), PV).
  change (derivative_sweep (ending op crA) m1 (pert (prepare_fwd (ending op crA) i d v1)) = Ok q1) with
    (derivative_sweep op m1 (pert (prepare_fwd (ending op crA) i d v1)) = Ok q1) in P1.
  destruct (dsweep_kept op Hdsz m1 Wm1 _ _ (wf_pert _ _ PV) P1) as (Sq1 & Iq1).
  destruct (pert_start (restart i (result_of x1)) d (result_of q1) q1 w2 Hd Sq1 Iq1 eq_refl W2) as (S2 & SS2 & Id2).
  assert (RF : fsim op b1 (live (prepare_fwd (ending op crB) (restart i (result_of x1)) (restart d (result_of q1)) w2))).
  { refine (fsim_trans op _ _ _ F1 (fsim_trans op _ _ _ (restart_fsim op Ha Hres crA crB _ _ i w1 _ _ _ w2 Hi W1 W2 H1) _)).
    apply fsim_sym, prep_fwd_fsim; auto. exact (restart_sized op i x1 Wx Hi). }
  destruct (fjoin op Ha Hres crA crB cr P Pstep Before After _ _ _ _ _ _ G1 P0 _ _ _ _ _ (ctl w) (live (prepare_fwd (ending op cr) i d w)) RF G2
    (fsim_trans op _ _ _ (prep_fwd_fsim op crA crA i d v1 w1 Hi Hd V1 W1) (fsim_sym op _ _ (prep_fwd_fsim op cr crA i d w w1 Hi Hd W W1)))) as (l & b' & Hc & Al & F).
  assert (Wm2 : Forall wft m2) by (apply (chain_kept op Ha Hres _ _ _ _ _ _ _ G2), RF).
  pose proof (dsweep_io op Hdsz m1 Wm1 _ _ (wf_pert _ _ PV) (wf_pert _ _ PW) ltac:(constructor; reflexivity)) as D1. rewrite P1 in D1.
  destruct (derivative_sweep op m1 (pert (prepare_fwd (ending op cr) i d w))) as [q|e] eqn:Eq; [|contradiction].
  destruct (dsweep_kept op Hdsz m1 Wm1 _ _ (wf_pert _ _ PW) Eq) as (Sq & _).
  pose proof (dsweep_io op Hdsz m2 Wm2 _ q S2 Sq ltac:(destruct D1, SS2; constructor; congruence)) as D2.
  match type of D2 with match ?a with _ => _ end => replace a with (Ok q2) in D2 by (symmetry; exact P2) end.
  destruct (derivative_sweep op m2 q) as [q3|e] eqn:Eq3; [|contradiction].
  assert (Ep : derivative_sweep op l (pert (prepare_fwd (ending op cr) i d w)) = Ok q3).
  { rewrite <- (dsweep_alike op _ _ Al), (dsweep_app op), Eq. exact Eq3. }
  pose proof (alike_length _ _ Al) as E. rewrite app_length in E. pose proof (Fuel _ _ _ _ _ _ _ _ _ _ G1 G2) as Lt.
  pose proof (fwd_quiet (ending op cr) i d w _ _ _ _ Hq Hc ltac:(cbn [loop_limit ending]; lia) Ep) as K.
  eexists. rewrite K. replace (result_of q2) with (result_of q3); [reflexivity|].
  unfold result_of. destruct D2 as [D2 D3 _]. rewrite D2, D3. reflexivity.
Qed.

(** Reverse products. *)
Hypothesis Hign : ignores_stage_state_weights o.
Lemma asweep_shape l : Forall wft l -> forall p p', shape (disc p) -> adjoint_sweep op l p = Ok p' -> shape (disc p').
Proof.
  induction 1 as [|st l Hst _ IH]; intros p p' H1 E; cbn [adjoint_sweep] in E; [injection E as <-; auto|].
  unfold adjoint_step in E. destruct (compute_step_adjoint_derivative _ _ _ _ _) as [a|e] eqn:E1; cbn [bind] in E; [|discriminate].
  pose proof (compute_step_adjoint_shape _ _ _ _ _ _ Hasz (wt_shape _ _ Hst) H1 E1) as S1.
  exact (IH (w_disc (rk_set (disc p) a) p) p' (shape_rk_set op _ _ S1) E).
Qed.
Lemma rev_parts l1 l2 l d q (u w2 w1 : component T C) :
  Forall2 alike (l1 ++ l2) l -> Forall wft l1 -> Forall wft l2 -> outputs_sized o d ->
  shape (disc (pert u)) -> shape (disc (pert w2)) -> shape (disc (pert w1)) ->
  adjoint_sweep op (rev l2) (pert (prepare_rev d w2)) = Ok q ->
  outputs_sized o (weights (gradient_of q)) /\
  match adjoint_sweep op (rev l1) (pert (prepare_rev (weights (gradient_of q)) w1)), adjoint_sweep op (rev l) (pert (prepare_rev d u)) with
  | Ok a, Ok b => time_initial (gradient_of b) = time_initial (gradient_of a) /\ initial (gradient_of b) = initial (gradient_of a) /\
      forall Q : list T -> list T -> Prop, (forall x y z, Q x y -> Q (vadd x z) (vadd y z)) -> Q (independent (gradient_of q)) (vzeros (independent_input_size o)) ->
      Q (independent (gradient_of b)) (independent (gradient_of a))
  | Err e, Err e' => e = e'
  | _, _ => False
  end.
Proof.
  intros Al W1 W2 Hd Su S2 S1 Eq.
  assert (SP : forall (x : component T C) y, outputs_sized o y -> shape (disc (pert x)) -> shape (disc (pert (prepare_rev y x)))).
  { intros x y Hy Sx. destruct Sx; constructor; cbn; auto; rewrite glen_vzeros; auto. }
  pose proof (asweep_shape _ (Forall_rev' _ _ W2) _ _ (SP _ _ Hd S2) Eq) as Sq.
  assert (Ow : outputs_sized o (weights (gradient_of q))) by (unfold outputs_sized; cbn; apply Sq).
  split; [exact Ow|].
  assert (Alr : Forall2 alike (rev l2 ++ rev l1) (rev l)).
  { rewrite <- rev_app_distr. clear - Al. induction Al as [|x y l l' Hx _ IH]; [constructor|]. cbn. apply Forall2_app; [exact IH|constructor; [exact Hx|constructor]]. }
  rewrite <- (asweep_alike op _ _ Alr), (asweep_app op).
  pose proof (asweep_w op Hasz Hign eq ltac:(intros x y z ->; reflexivity) (rev l2) (Forall_rev' _ _ W2) _ _ (SP _ _ Hd S2) (SP _ _ Hd Su)) as A.
  rewrite Eq in A.
  assert (A0 : same_w eq (disc (pert (prepare_rev d w2))) (disc (pert (prepare_rev d u)))).
  { constructor; cbn; auto. rewrite (sh_ind _ _ _ _ _ _ S2), (sh_ind _ _ _ _ _ _ Su). reflexivity. }
  specialize (A A0). destruct (adjoint_sweep op (rev l2) (pert (prepare_rev d u))) as [q'|e] eqn:Eq'; [|contradiction]. cbn [bind].
  pose proof (asweep_shape _ (Forall_rev' _ _ W2) _ _ (SP _ _ Hd Su) Eq') as Sq'.
  assert (G : forall Q : list T -> list T -> Prop, (forall x y z, Q x y -> Q (vadd x z) (vadd y z)) -> Q (independent (gradient_of q)) (vzeros (independent_input_size o)) ->
    match adjoint_sweep op (rev l1) q', adjoint_sweep op (rev l1) (pert (prepare_rev (weights (gradient_of q)) w1)) with
    | Ok a, Ok b => same_w Q (disc a) (disc b) | Err e, Err e' => e = e' | _, _ => False end).
  { intros Q Qa Q0. apply (asweep_w op Hasz Hign Q Qa (rev l1) (Forall_rev' _ _ W1) _ _ Sq' (SP _ _ Ow S1)).
    destruct A as [A1 A2 A3]. constructor; cbn; [symmetry; exact A1|symmetry; exact A2|].
    rewrite <- A3, (sh_ind _ _ _ _ _ _ S1). exact Q0. }
  pose proof (G (fun _ _ => True) ltac:(auto) I) as G0.
  destruct (adjoint_sweep op (rev l1) q') as [b|e]; destruct (adjoint_sweep op (rev l1) (pert (prepare_rev (weights (gradient_of q)) w1))) as [a|e']; try contradiction; [|symmetry; exact G0].
  split; [exact (sw_time _ _ _ G0)|]. split; [exact (sw_state _ _ _ G0)|]. intros Q Qa Q0. exact (sw_ind _ _ _ (G Q Qa Q0)).
Qed.

Lemma rev_whole c c1 c2 i d o1 w1' : o_ckpt op = AllCheckpointer -> inputs_sized o i -> outputs_sized o d ->
  compute (ending op crA) i (setup (ending op crA) c1) = (w1', Ok o1) ->
  (forall g, rev_value (ending op cr) c i d g -> exists gB gA,
     rev_value (ending op crB) c2 (restart i o1) d gB /\ rev_value (ending op crA) c1 i (weights gB) gA /\ outputs_sized o (weights gB) /\
     time_initial g = time_initial gA /\ initial g = initial gA /\
     forall Q : list T -> list T -> Prop, (forall x y z, Q x y -> Q (vadd x z) (vadd y z)) -> Q (independent gB) (vzeros (independent_input_size o)) ->
     Q (independent g) (independent gA)) /\
  (forall gB gA, rev_value (ending op crB) c2 (restart i o1) d gB -> rev_value (ending op crA) c1 i (weights gB) gA ->
     exists g, rev_value (ending op cr) c i d g).
Proof.
  intros HA Hi Hd K1. assert (L : loops op) by (unfold loops; rewrite HA; exact I).
  pose proof (wf_setup (ending op cr) c) as W. pose proof (wf_setup (ending op crA) c1) as W1. pose proof (wf_setup (ending op crB) c2) as W2.
  destruct (compute_ok (ending op crA) i _ w1' o1 L K1) as (k1 & e1 & x1 & H1 & _ & -> & _).
  assert (Wk : wft x1 /\ Forall wft k1) by (destruct (chain_kept op Ha Hres _ _ _ _ _ _ _ H1) as (_ & _ & A & B); [apply (ending_wft op crA), wf_live, wf_prepare; auto|auto]).
  pose proof (restart_fsim op Ha Hres crA crB _ _ i _ _ _ _ _ Hi W1 W2 H1) as RF.
  assert (HI2 : inputs_sized o (restart i (result_of x1))) by (apply (restart_sized op); [apply Wk|exact Hi]).
  split.
  - intros g (l & c' & st' & p' & Hc & Hl & Hp & ->).
    destruct (fsplit op Ha Hres crA crB cr P Pstep Before After _ _ _ _ _ _ Hc P0 c1 _ (prep_fsim op cr crA i _ _ Hi W W1)) as (l1 & a1 & G1 & Wa1 & R).
    destruct (chain_fun (ending op crA) _ _ _ _ _ _ H1 _ _ _ G1) as (-> & -> & ->).
    destruct (R _ c2 RF) as (l2 & b2 & G2 & Al & F).
    assert (Wl2 : Forall wft l2) by (apply (chain_kept op Ha Hres _ _ _ _ _ _ _ G2), RF).
    pose proof (alike_length _ _ Al) as E. rewrite app_length in E. cbn [loop_limit ending] in Hl.
    change (adjoint_sweep (ending op cr) (rev l) (pert (prepare_rev d (setup (ending op cr) c))) = Ok p') with
      (adjoint_sweep op (rev l) (pert (prepare_rev d (setup (ending op cr) c))) = Ok p') in Hp.
    destruct (adjoint_sweep op (rev l2) (pert (prepare_rev d (setup (ending op crB) c2)))) as [q|e] eqn:Eq.
    + destruct (rev_parts l1 l2 l d q (setup (ending op cr) c) (setup (ending op crB) c2) (setup (ending op crA) c1) Al (proj2 Wk) Wl2 Hd (wf_pert _ _ W) (wf_pert _ _ W2) (wf_pert _ _ W1) Eq) as (Ow & M).
      rewrite Hp in M. destruct (adjoint_sweep op (rev l1) _) as [a|e] eqn:Ea in M; [|contradiction].
      exists (gradient_of q), (gradient_of a). split; [exists l2, c2, b2, q; split; [exact G2|]; split; [cbn [loop_limit ending]; lia|]; split; [exact Eq|reflexivity]|].
      split; [exists l1, c1, a1, a; split; [exact G1|]; split; [cbn [loop_limit ending]; lia|]; split; [exact Ea|reflexivity]|]. split; [exact Ow|exact M].
    + exfalso. assert (Alr : Forall2 alike (rev l2 ++ rev l1) (rev l)).
      { rewrite <- rev_app_distr. clear - Al. induction Al as [|x y l l' Hx _ IH]; [constructor|]. cbn. apply Forall2_app; [exact IH|constructor; [exact Hx|constructor]]. }
      rewrite <- (asweep_alike op _ _ Alr), (asweep_app op) in Hp.
      assert (SP : forall (x : component T C) y, outputs_sized o y -> shape (disc (pert x)) -> shape (disc (pert (prepare_rev y x)))).
      { intros x y Hy Sx. destruct Sx; constructor; cbn; auto; rewrite glen_vzeros; auto. }
      pose proof (asweep_w op Hasz Hign eq ltac:(intros x y z ->; reflexivity) (rev l2) (Forall_rev' _ _ Wl2) _ _ (SP _ _ Hd (wf_pert _ _ W2)) (SP _ _ Hd (wf_pert _ _ W))) as A.
      rewrite Eq in A. specialize (A ltac:(constructor; cbn; auto)).
      destruct (adjoint_sweep op (rev l2) (pert (prepare_rev d (setup (ending op cr) c)))) as [q'|e']; [contradiction|discriminate].
  - intros gB gA (l2 & e2 & b2 & q & G2 & _ & Eq & ->) (l1 & e1' & a1 & a & G1 & _ & Ea & ->).
    destruct (chain_fun (ending op crA) _ _ _ _ _ _ H1 _ _ _ G1) as (-> & _ & ->).
    destruct (fjoin op Ha Hres crA crB cr P Pstep Before After _ _ _ _ _ _ G1 P0 _ _ _ _ _ c (live (prepare (ending op cr) i (setup (ending op cr) c))) RF G2
      (prep_fsim op crA cr i _ _ Hi W1 W)) as (l & b' & Hc & Al & F).
    assert (Wl2 : Forall wft l2) by (apply (chain_kept op Ha Hres _ _ _ _ _ _ _ G2), RF).
    destruct (rev_parts l1 l2 l d q (setup (ending op cr) c) (setup (ending op crB) c2) (setup (ending op crA) c1) Al (proj2 Wk) Wl2 Hd (wf_pert _ _ W) (wf_pert _ _ W2) (wf_pert _ _ W1) Eq) as (Ow & M).
    match type of M with match ?x with _ => _ end => replace x with (Ok a) in M by (symmetry; exact Ea) end.
    destruct (adjoint_sweep op (rev l) (pert (prepare_rev d (setup (ending op cr) c)))) as [b|e] eqn:Eb; [|contradiction].
    pose proof (alike_length _ _ Al) as E. rewrite app_length in E. pose proof (Fuel _ _ _ _ _ _ _ _ _ _ G1 G2) as Lt.
    exists (gradient_of b), l, c, b', b. split; [exact Hc|]. split; [cbn [loop_limit ending]; lia|]. split; [exact Eb|reflexivity].
Qed.
End Split.
End Restart.
