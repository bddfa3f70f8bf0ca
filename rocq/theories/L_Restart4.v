(** Restarted runs: numbers of steps and final times. *)
From Coq Require Import List Lia Bool Arith QArith Reals Lra.
From Verif Require Import Base Ext M_Tableau M_State M_ODE M_Step M_Controller M_Measure M_Integrator
  SpecRK SpecShape SpecDeriv SpecRun SpecRestart L_Vec L_Generic L_Run L_Iter L_Whole L_RunProps L_Restart L_Restart2 L_Restart3 WitnessRun.
Import ListNotations.
Local Open Scope nat_scope.

Section Steps.
Context {T : Type} {N : Num T} {C : Type}.
Variable op : options T C.
Variables n m : nat.

Lemma count_chain k it c st l c' st' : chain (steps op k) it c st l c' st' -> length l = k - it.
Proof.
  induction 1 as [it c st F|it c st c1 st1 l c' st' F I _ IH]; cbn in F |- *.
  - apply Nat.leb_le in F; lia.
  - apply Nat.leb_gt in F; lia.
Qed.
Lemma steps_step : forall it (x : tistate T), it <= n -> is_iteration_finished (PredefinedNumberOfSteps n) it x = false -> S it <= n.
Proof. intros it x _ F. cbn in F. apply Nat.leb_gt in F. lia. Qed.
Lemma steps_before : forall it (x y : tistate T), final_time (disc x) = final_time (disc y) ->
  is_iteration_finished (PredefinedNumberOfSteps n) it x = false -> is_iteration_finished (PredefinedNumberOfSteps (n + m)) it y = false.
Proof. intros it x y _ F. cbn in *. apply Nat.leb_gt in F. apply Nat.leb_gt. lia. Qed.
Lemma steps_after : forall it (z : tistate T), it <= n -> is_iteration_finished (PredefinedNumberOfSteps n) it z = true ->
  forall k (x y : tistate T), final_time (disc x) = final_time (disc y) ->
  is_iteration_finished (PredefinedNumberOfSteps (n + m)) (it + k) y = is_iteration_finished (PredefinedNumberOfSteps m) k x.
Proof.
  intros it z H F k x y _. cbn in *. apply Nat.leb_le in F. assert (it = n) as -> by lia.
  destruct (Nat.leb_spec m k), (Nat.leb_spec (n + m) (n + k)); auto; lia.
Qed.
Lemma steps_fuel : n + m < loop_limit op -> forall cA a l1 cA' a1 cB b l2 cB' b', chain (steps op n) 0 cA a l1 cA' a1 -> chain (steps op m) 0 cB b l2 cB' b' ->
  length l1 + length l2 < loop_limit op.
Proof. intros H cA a l1 cA' a1 cB b l2 cB' b' H1 H2. apply count_chain in H1, H2. lia. Qed.

Lemma quiet_ending cr : quiet op -> quiet (ending op cr).
Proof. exact (fun H => H). Qed.

Lemma c92_compute : sized_ode (o_ode op) -> o_adaptive op = false -> loops op -> quiet op -> n + m < loop_limit op ->
  forall c w c1 w1 c2 w2 i out, reachable (steps op (n + m)) c w -> reachable (steps op n) c1 w1 -> reachable (steps op m) c2 w2 ->
  inputs_sized (o_ode op) i ->
  ((exists w', compute (steps op (n + m)) i w = (w', Ok out)) <->
   exists o1 w1' w2', compute (steps op n) i w1 = (w1', Ok o1) /\ compute (steps op m) (restart i o1) w2 = (w2', Ok out)).
Proof.
  intros Hs Ha L Q Lt c w c1 w1 c2 w2 i out R R1 R2 Hi.
  pose proof (reachable_wf (steps op (n + m)) c w Hs R) as W. pose proof (reachable_wf (steps op n) c1 w1 Hs R1) as W1.
  pose proof (reachable_wf (steps op m) c2 w2 Hs R2) as W2. split.
  - intros (w' & H).
    exact (run_split op Ha Hs Q _ _ _ (fun k => k <= n) (Nat.le_0_l n) steps_step steps_before steps_after i w w1 w2 w' out L W W1 W2 Hi H).
  - intros (o1 & w1' & w2' & H1 & H2).
    exact (run_join op Ha Hs Q _ _ _ (fun k => k <= n) (Nat.le_0_l n) steps_step steps_before steps_after (steps_fuel Lt) i w w1 w2 o1 w1' w2' out L W W1 W2 Hi H1 H2).
Qed.

Lemma c92_forward : sized_ode (o_ode op) -> o_adaptive op = false -> loops op -> quiet op -> n + m < loop_limit op ->
  forall c w c1 w1 c1' v1 c2 w2 i d dout, reachable (steps op (n + m)) c w -> reachable (steps op n) c1 w1 -> reachable (steps op n) c1' v1 ->
  reachable (steps op m) c2 w2 -> inputs_sized (o_ode op) i -> inputs_sized (o_ode op) d ->
  ((exists w', compute_jacvec_product_fwd (steps op (n + m)) i d w = (w', Ok dout)) <->
   exists o1 w1' d1 v1' w2', compute (steps op n) i w1 = (w1', Ok o1) /\ compute_jacvec_product_fwd (steps op n) i d v1 = (v1', Ok d1) /\
     compute_jacvec_product_fwd (steps op m) (restart i o1) (restart d d1) w2 = (w2', Ok dout)).
Proof.
  intros Hs Ha L Q Lt c w c1 w1 c1' v1 c2 w2 i d dout R R1 R1' R2 Hi Hd.
  pose proof (reachable_wf (steps op (n + m)) c w Hs R) as W. pose proof (reachable_wf (steps op n) c1 w1 Hs R1) as W1.
  pose proof (reachable_wf (steps op n) c1' v1 Hs R1') as V1. pose proof (reachable_wf (steps op m) c2 w2 Hs R2) as W2. split.
  - intros (w' & H).
    exact (fwd_split op Ha Hs Q _ _ _ (fun k => k <= n) (Nat.le_0_l n) steps_step steps_before steps_after (steps_fuel Lt) i d w w1 v1 w2 w' dout L W W1 V1 W2 Hi Hd H).
  - intros (o1 & w1' & d1 & v1' & w2' & H1 & H2 & H3).
    exact (fwd_join op Ha Hs Q _ _ _ (fun k => k <= n) (Nat.le_0_l n) steps_step steps_before steps_after (steps_fuel Lt) i d w w1 v1 w2 o1 w1' d1 v1' w2' dout L W W1 V1 W2 Hi Hd H1 H2 H3).
Qed.

Lemma restart_inputs : sized_ode (o_ode op) -> o_adaptive op = false -> loops op -> forall c i w' o1, inputs_sized (o_ode op) i ->
  compute (steps op n) i (setup (steps op n) c) = (w', Ok o1) -> inputs_sized (o_ode op) (restart i o1).
Proof.
  intros Hs Ha L c1 i w1' o1 Hi K1.
  destruct (compute_ok (steps op n) i _ _ _ L K1) as (l & c' & st' & Hc & _ & -> & E).
  destruct Hi as [H1 H2]. split; cbn; [|exact H2].
  assert (W0 : wf_ti op (live (prepare (steps op n) i (setup (steps op n) c1)))) by (apply (ending_wft op (PredefinedNumberOfSteps n)), wf_live, wf_prepare; [split; assumption|apply wf_setup]).
  apply (chain_kept op Ha (proj1 Hs) _ _ _ _ _ _ _ Hc W0).
Qed.

Lemma c92_reverse_gen : sized_ode (o_ode op) -> ignores_stage_state_weights (o_ode op) -> o_adaptive op = false -> o_ckpt op = AllCheckpointer -> quiet op -> n + m < loop_limit op ->
  forall c c1 c2 i d, inputs_sized (o_ode op) i -> outputs_sized (o_ode op) d ->
  forall o1 w1', compute (steps op n) i (setup (steps op n) c1) = (w1', Ok o1) ->
  (forall w' g, compute_jacvec_product_rev (steps op (n + m)) i d (setup (steps op (n + m)) c) = (w', Ok g) -> exists w2' gB v1' gA,
     compute_jacvec_product_rev (steps op m) (restart i o1) d (setup (steps op m) c2) = (w2', Ok gB) /\
     compute_jacvec_product_rev (steps op n) i (weights gB) (setup (steps op n) c1) = (v1', Ok gA) /\
     time_initial g = time_initial gA /\ initial g = initial gA /\
     forall Q : list T -> list T -> Prop, (forall x y z, Q x y -> Q (vadd x z) (vadd y z)) -> Q (independent gB) (vzeros (independent_input_size (o_ode op))) ->
       Q (independent g) (independent gA)) /\
  (forall w2' gB v1' gA, compute_jacvec_product_rev (steps op m) (restart i o1) d (setup (steps op m) c2) = (w2', Ok gB) ->
     compute_jacvec_product_rev (steps op n) i (weights gB) (setup (steps op n) c1) = (v1', Ok gA) ->
     exists w' g, compute_jacvec_product_rev (steps op (n + m)) i d (setup (steps op (n + m)) c) = (w', Ok g)).
Proof.
  intros Hs Hign Ha HA Q Lt c c1 c2 i d Hi Hd o1 w1' K1. assert (L : loops op) by (unfold loops; rewrite HA; exact I).
  destruct (rev_whole op Ha Hs _ _ _ (fun k => k <= n) (Nat.le_0_l n) steps_step steps_before steps_after (steps_fuel Lt) Hign c c1 c2 i d o1 w1' HA Hi Hd K1) as (A & B).
  assert (S2 : inputs_sized (o_ode op) (restart i o1)).
  { exact (restart_inputs Hs Ha L c1 i w1' o1 Hi K1). }
  assert (RV : forall k cc j e g, inputs_sized (o_ode op) j -> outputs_sized (o_ode op) e ->
    ((exists w', compute_jacvec_product_rev (steps op k) j e (setup (steps op k) cc) = (w', Ok g)) <-> rev_value (steps op k) cc j e g)).
  { intros k cc j e g Hj He. destruct Hs as (h1 & h2 & h3).
    apply (rev_value_iff (steps op k) h1 h3 Hign cc j e (setup (steps op k) cc) g HA Q (wf_setup _ _) Hj He). apply valid_setup. }
  split.
  - intros w' g H. destruct (A g (proj1 (RV _ _ _ _ _ Hi Hd) (ex_intro _ w' H))) as (gB & gA & V1 & V2 & Ow & E).
    destruct (proj2 (RV _ _ _ _ _ S2 Hd) V1) as (w2' & X1). destruct (proj2 (RV _ _ _ _ _ Hi Ow) V2) as (v1' & X2).
    exists w2', gB, v1', gA. auto.
  - intros w2' gB v1' gA X1 X2. pose proof (proj1 (RV _ _ _ _ _ S2 Hd) (ex_intro _ w2' X1)) as V1.
    assert (Ow : outputs_sized (o_ode op) (weights gB)).
    { destruct V1 as (l & c' & st' & p' & Hc & _ & Hp & ->). 
      assert (W0 : wf_ti op (live (prepare (steps op m) (restart i o1) (setup (steps op m) c2)))) by (apply (ending_wft op (PredefinedNumberOfSteps m)), wf_live, wf_prepare; [exact S2|apply wf_setup]).
      assert (Wl : Forall (wf_ti op) l) by apply (chain_kept op Ha (proj1 Hs) _ _ _ _ _ _ _ Hc W0).
      unfold outputs_sized; cbn.
      apply (asweep_shape op Hs _ (Forall_rev' _ _ Wl) _ _ (wf_pert _ _ (wf_prepare_rev (steps op m) d _ Hd (wf_setup (steps op m) c2))) Hp). }
    destruct (B gB gA V1 (proj1 (RV _ _ _ _ _ Hi Ow) (ex_intro _ v1' X2))) as (g & V).
    destruct (proj2 (RV _ _ _ _ _ Hi Hd) V) as (w' & X). exists w', g. exact X.
Qed.
End Steps.

Section Rev.
Context {T : Type} {N : Num T} {C : Type}.
Variable op : options T C.
Lemma rev_gradient_sized : sized_ode (o_ode op) -> ignores_stage_state_weights (o_ode op) -> o_adaptive op = false -> o_ckpt op = AllCheckpointer -> quiet op ->
  forall k c i d w' g, inputs_sized (o_ode op) i -> outputs_sized (o_ode op) d ->
  compute_jacvec_product_rev (steps op k) i d (setup (steps op k) c) = (w', Ok g) -> inputs_sized (o_ode op) g.
Proof.
  intros Hs Hign Ha HA Q k c i d w' g Hi Hd H. pose proof Hs as (h1 & h2 & h3).
  destruct (proj1 (rev_value_iff (steps op k) h1 h3 Hign c i d (setup (steps op k) c) g HA Q (wf_setup _ _) Hi Hd (valid_setup _ _ _)) (ex_intro _ w' H))
    as (l & c' & st' & p' & Hc & _ & Hp & ->).
  assert (W0 : wf_ti op (live (prepare (steps op k) i (setup (steps op k) c)))) by (apply (ending_wft op (PredefinedNumberOfSteps k)), wf_live, wf_prepare; [exact Hi|apply wf_setup]).
  assert (Wl : Forall (wf_ti op) l) by apply (chain_kept op Ha (proj1 Hs) _ _ _ _ _ _ _ Hc W0).
  pose proof (asweep_shape op Hs _ (Forall_rev' _ _ Wl) _ _ (wf_pert _ _ (wf_prepare_rev (steps op k) d _ Hd (wf_setup (steps op k) c))) Hp) as S.
  split; apply S.
Qed.
Lemma c92_reverse n m : sized_ode (o_ode op) -> ignores_stage_state_weights (o_ode op) -> o_adaptive op = false -> o_ckpt op = AllCheckpointer -> quiet op -> n + m < loop_limit op ->
  forall c c1 c2 i d o1 w1', inputs_sized (o_ode op) i -> outputs_sized (o_ode op) d ->
  compute (steps op n) i (setup (steps op n) c1) = (w1', Ok o1) ->
  (forall w' g, compute_jacvec_product_rev (steps op (n + m)) i d (setup (steps op (n + m)) c) = (w', Ok g) -> exists w2' gB v1' gA,
     compute_jacvec_product_rev (steps op m) (restart i o1) d (setup (steps op m) c2) = (w2', Ok gB) /\
     compute_jacvec_product_rev (steps op n) i (weights gB) (setup (steps op n) c1) = (v1', Ok gA) /\
     time_initial g = time_initial gA /\ initial g = initial gA) /\
  (forall w2' gB v1' gA, compute_jacvec_product_rev (steps op m) (restart i o1) d (setup (steps op m) c2) = (w2', Ok gB) ->
     compute_jacvec_product_rev (steps op n) i (weights gB) (setup (steps op n) c1) = (v1', Ok gA) ->
     exists w' g, compute_jacvec_product_rev (steps op (n + m)) i d (setup (steps op (n + m)) c) = (w', Ok g) /\
       time_initial g = time_initial gA /\ initial g = initial gA).
Proof.
  intros Hs Hign Ha HA Q Lt c c1 c2 i d o1 w1' Hi Hd K.
  destruct (c92_reverse_gen op n m Hs Hign Ha HA Q Lt c c1 c2 i d Hi Hd o1 w1' K) as (A & B). split.
  - intros w' g H. destruct (A w' g H) as (w2' & gB & v1' & gA & X1 & X2 & X3 & X4 & _). exists w2', gB, v1', gA; auto.
  - intros w2' gB v1' gA X1 X2. destruct (B w2' gB v1' gA X1 X2) as (w' & g & H). exists w', g. split; [exact H|].
    destruct (A w' g H) as (w3 & gB' & v3 & gA' & Y1 & Y2 & Y3 & Y4 & _).
    rewrite X1 in Y1. injection Y1 as <- <-. rewrite X2 in Y2. injection Y2 as <- <-. auto.
Qed.
End Rev.

(** Over the reals. *)
Lemma vnth_vadd_lt (x z : list R) k : k < length (vadd x z) -> nth k (vadd x z) 0%R = (nth k x 0 + nth k z 0)%R.
Proof. unfold vadd. rewrite length_map2. intros H. rewrite (nth_map2 _ _ _ _ 0%R 0%R) by lia. reflexivity. Qed.
Lemma c92_parameters C (op : options R C) n m : sized_ode (o_ode op) -> ignores_stage_state_weights (o_ode op) -> o_adaptive op = false -> o_ckpt op = AllCheckpointer -> quiet op -> n + m < loop_limit op ->
  forall c c1 c2 i d o1 w1' w' w2' v1' g gA gB, inputs_sized (o_ode op) i -> outputs_sized (o_ode op) d ->
  compute (steps op n) i (setup (steps op n) c1) = (w1', Ok o1) ->
  compute_jacvec_product_rev (steps op (n + m)) i d (setup (steps op (n + m)) c) = (w', Ok g) ->
  compute_jacvec_product_rev (steps op m) (restart i o1) d (setup (steps op m) c2) = (w2', Ok gB) ->
  compute_jacvec_product_rev (steps op n) i (weights gB) (setup (steps op n) c1) = (v1', Ok gA) ->
  length (independent g) = independent_input_size (o_ode op) /\
  forall k, nth k (independent g) 0%R = (nth k (independent gB) 0 + nth k (independent gA) 0)%R.
Proof.
  intros Hs Hign Ha HA Q Lt c c1 c2 i d o1 w1' w' w2' v1' g gA gB Hi Hd K H X1 X2.
  destruct (proj1 (c92_reverse_gen op n m Hs Hign Ha HA Q Lt c c1 c2 i d Hi Hd o1 w1' K) w' g H) as (w3 & gB' & v3 & gA' & Y1 & Y2 & _ & _ & S).
  rewrite X1 in Y1. injection Y1 as <- <-. rewrite X2 in Y2. injection Y2 as <- <-.
  pose proof (rev_gradient_sized op Hs Hign Ha HA Q _ _ _ _ _ _ Hi Hd H) as Lg.
  assert (S2 : inputs_sized (o_ode op) (restart i o1)) by exact (restart_inputs op n Hs Ha (ltac:(unfold loops; rewrite HA; exact I)) c1 i w1' o1 Hi K).
  pose proof (rev_gradient_sized op Hs Hign Ha HA Q _ _ _ _ _ _ S2 Hd X1) as LB.
  assert (Ow : outputs_sized (o_ode op) (weights gB)) by exact (proj1 LB).
  pose proof (rev_gradient_sized op Hs Hign Ha HA Q _ _ _ _ _ _ Hi Ow X2) as LA.
  split; [apply Lg|].
  destruct (S (fun x y => length x = length y /\ forall k, k < length x -> nth k x 0%R = (nth k (independent gB) 0 + nth k y 0)%R)) as (E1 & E2).
  - intros x y z (e1 & e2). assert (L : length (vadd x z) = length (vadd y z)) by (unfold vadd; rewrite !length_map2, e1; reflexivity).
    split; [exact L|]. intros k Hk. rewrite !vnth_vadd_lt by lia. unfold vadd in Hk. rewrite length_map2 in Hk. rewrite e2 by lia. lra.
  - unfold vzeros. rewrite repeat_length. split; [apply LB|]. intros k Hk. rewrite nth_repeat. cbn. lra.
  - intros k. destruct (Nat.lt_ge_cases k (length (independent g))) as [Lk|Lk]; [apply E2; exact Lk|].
    rewrite !nth_overflow; [lra|..]; destruct Lg as [_ Lg]; destruct LA as [_ LA]; destruct LB as [_ LB]; cbn in *; lia.
Qed.

Lemma c92_until C (op : options R C) : sized_ode (o_ode op) -> o_adaptive op = false -> loops op -> quiet op ->
  forall t1 t2, (t1 <= t2)%R -> forall c w c1 w1 c2 w2 i w' out, reachable (until op t2) c w -> reachable (until op t1) c1 w1 -> reachable (until op t2) c2 w2 ->
  inputs_sized (o_ode op) i -> compute (until op t2) i w = (w', Ok out) ->
  exists o1 w1' w2', compute (until op t1) i w1 = (w1', Ok o1) /\ compute (until op t2) (restart i o1) w2 = (w2', Ok out).
Proof.
  intros Hs Ha L Q t1 t2 Lt c w c1 w1 c2 w2 i w' out R R1 R2 Hi H.
  pose proof (reachable_wf (until op t2) c w Hs R) as W. pose proof (reachable_wf (until op t1) c1 w1 Hs R1) as W1.
  pose proof (reachable_wf (until op t2) c2 w2 Hs R2) as W2.
  refine (run_split op Ha Hs Q (PredefinedFinalTime t1) (PredefinedFinalTime t2) (PredefinedFinalTime t2) (fun _ => True) I _ _ _ i w w1 w2 w' out L W W1 W2 Hi H).
  - auto.
  - intros it x y E F. cbn in *. rewrite E in F.
    unfold Rleb in *. destruct (Rle_dec (t1 - _) 0); [discriminate|]. destruct (Rle_dec (t2 - _) 0); [lra|reflexivity].
  - intros it z _ _ k x y E. cbn. rewrite E. reflexivity.
Qed.

(** An adaptive run over two steps, and two over one. *)
Definition c92_adaptive : Prop := forall (op : options (ext Q) (controller (ext Q))) cfg ctl,
  sized_ode (o_ode op) -> o_ctl op = ctl_call cfg -> (exists ps, build_chain ps = Some ctl) -> loops op -> quiet op -> 1 + 1 < loop_limit op ->
  forall i w' out o1 w1' w2' out2, inputs_sized (o_ode op) i ->
  compute (steps op 2) i (setup (steps op 2) ctl) = (w', Ok out) ->
  compute (steps op 1) i (setup (steps op 1) ctl) = (w1', Ok o1) ->
  compute (steps op 1) (restart i o1) (setup (steps op 1) ctl) = (w2', Ok out2) -> out2 = out.
Lemma pick {W A} (p : W * res A) (f : A -> bool) : match snd p with Ok o => f o | Err _ => false end = true -> exists w o, p = (w, Ok o) /\ f o = true.
Proof. destruct p as [w [o|e]]; cbn; [eauto|discriminate]. Qed.
Definition at_time (t : ext Q) (o : outputs (ext Q)) : bool := neqb (time_final o) t.
Definition not_at_time (t : ext Q) (o : outputs (ext Q)) : bool := negb (neqb (time_final o) t).
Definition after_one (o : outputs (ext Q)) : bool :=
  match snd (compute (steps nop 1) (restart nin o) (setup (steps nop 1) nctl)) with Ok o2 => not_at_time (Fin (65 # 8)%Q) o2 | Err _ => false end.
Lemma nop_two : exists w o, compute (steps nop 2) nin (setup (steps nop 2) nctl) = (w, Ok o) /\ at_time (Fin (65 # 8)%Q) o = true.
Proof. apply pick. vm_compute. reflexivity. Qed.
Lemma nop_one : exists w o, compute (steps nop 1) nin (setup (steps nop 1) nctl) = (w, Ok o) /\ after_one o = true.
Proof. apply pick. vm_compute. reflexivity. Qed.
Lemma nop_again o : after_one o = true -> exists w o2, compute (steps nop 1) (restart nin o) (setup (steps nop 1) nctl) = (w, Ok o2) /\ not_at_time (Fin (65 # 8)%Q) o2 = true.
Proof. exact (pick _ _). Qed.
Lemma nop_inputs : inputs_sized (o_ode nop) nin.
Proof. split; reflexivity. Qed.
Lemma nop_quiet : quiet nop.
Proof. intros ? ? []. Qed.
Lemma c92_adaptive_refuted : ~ c92_adaptive.
Proof.
  intros H. destruct nop_two as (w' & out & E2 & E). destruct nop_one as (w1' & o1 & E1 & F).
  destruct (nop_again o1 F) as (w2' & o2 & E3 & G).
  pose proof (H nop ncfg nctl quadrature_sized eq_refl (ex_intro _ _ nctl_built) I nop_quiet ltac:(apply Nat.ltb_lt; reflexivity)
    nin w' out o1 w1' w2' o2 nop_inputs E2 E1 E3) as K.
  clear - K E G. subst o2. unfold at_time in E. unfold not_at_time in G. rewrite E in G. discriminate.
Qed.
