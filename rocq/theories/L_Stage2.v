(** The stage problems of SimpleLinearODE and the Prothero-Robinson problem:
    which ODE they implement, their linear solves, and when they succeed. *)
From Coq Require Import String.
From Coq Require Import List Bool Arith Reals Lia Lra.
From Verif Require Import Base Ext M_ODE M_Metadata M_Components SpecMetadata SpecRK SpecDeriv SpecComponents
  M_Packing SpecPacking SpecComponent SpecTotal M_Stage L_Vec L_Metadata L_Components L_Packing L_Packing3 L_Packing6 L_Deriv L_Stage.
Import ListNotations.
Local Open Scope string_scope.
Local Open Scope R_scope.
Local Open Scope list_scope.

Definition first_of (r : res (list metadata)) : option metadata :=
  match r with Ok (m :: _) => Some m | _ => None end.
Definition simple_md : metadata := Eval vm_compute in
  match first_of (metadata_of 1 simple_variables ["y"] []) with Some m => m
  | None => {| time_variable := None; time_integration_array_size := 0; time_independent_input_size := 0;
               time_integration_quantities := []; time_independent_quantities := [] |} end.
Definition prothero_md : metadata := Eval vm_compute in
  match first_of (metadata_of 1 prothero_variables ["x"] []) with Some m => m
  | None => {| time_variable := None; time_integration_array_size := 0; time_independent_input_size := 0;
               time_integration_quantities := []; time_independent_quantities := [] |} end.
Lemma simple_metadata : metadata_of 1 simple_variables ["y"] [] = Ok [simple_md].
Proof. vm_compute. reflexivity. Qed.
Lemma prothero_metadata : metadata_of 1 prothero_variables ["x"] [] = Ok [prothero_md].
Proof. vm_compute. reflexivity. Qed.

(** Lists of known length. *)
Lemma len1 {A} (l : list A) : length l = 1%nat -> exists a, l = [a].
Proof. destruct l as [|a [|]]; try discriminate; eauto. Qed.
Lemma len2 {A} (l : list A) : length l = 2%nat -> exists a b, l = [a; b].
Proof. destruct l as [|a [|b [|]]]; try discriminate; eauto. Qed.
Lemma len3 {A} (l : list A) : length l = 3%nat -> exists a b c, l = [a; b; c].
Proof. destruct l as [|a [|b [|c [|]]]]; try discriminate; eauto. Qed.
Ltac lens := repeat match goal with
  | H : length ?l = 1%nat |- _ => apply len1 in H as (? & ->)
  | H : length ?l = 2%nat |- _ => apply len2 in H as (? & ? & ->)
  | H : length ?l = 3%nat |- _ => apply len3 in H as (? & ? & ? & ->)
  end.
Lemma neqb_false (x : R) : neqb x 0 = false -> x <> 0.
Proof. intros H E. subst. unfold neqb, RNum, Reqb in H. destruct (Req_EM_T 0 0); [discriminate|congruence]. Qed.
Lemma false_neqb (x : R) : x <> 0 -> neqb x 0 = false.
Proof. intros H. unfold neqb, RNum, Reqb. destruct (Req_EM_T x 0); [congruence|reflexivity]. Qed.

Notation simple := (stage_problem simple_component).
Notation prothero lam := (stage_problem (prothero_component lam)).

(** ** SimpleLinearODE: y' = - y *)
Definition decay (t : R) (p y : list R) : list R := map Ropp y.

Lemma simple_keeps : keeps_layout simple.
Proof. apply stage_keeps, simple_regular. Qed.
Lemma simple_implements : implements simple simple_md decay.
Proof.
  intros h a i o i' o' t y acc p k Ly La Lp Lk _ Hq _ E Hk.
  cbn [time_integration_array_size time_independent_input_size simple_md] in *. lens.
  destruct (Hq _ _ (or_introl eq_refl) eq_refl eq_refl) as (s1 & s2 & Es1 & G1 & Es2 & G2). injection Es1 as <-. injection Es2 as <-.
  destruct (Hk _ (or_introl eq_refl) eq_refl) as (n & En & Gn). injection En as <-.
  apply (nonlinear_inv _ simple_regular) in E as (xi & xs & us & u & L1 & L2 & L3 & -> & -> & Sg & Cu & -> & -> & L4).
  cbn in L1, L2, L3, L4. lens. cbn in G1, G2, Gn. injection G1 as ->. injection G2 as ->. injection Gn as Gn.
  cbn in Cu. injection Cu as <-. cbn in Gn. cbn in Sg. apply neqb_false in Sg. cbn. f_equal. rewrite <- Gn. field. exact Sg.
Qed.
Lemma simple_sources : distinct_sources simple simple_md.
Proof. unfold distinct_sources. vm_compute. repeat constructor; cbn; intuition discriminate. Qed.
Lemma simple_outputs : distinct_outputs simple_md.
Proof. unfold distinct_outputs. vm_compute. repeat constructor; cbn; intuition discriminate. Qed.
Lemma simple_time x : scalar_time simple simple_md (stage_vectors simple_component x).
Proof. intros tv s y E. discriminate. Qed.

Lemma simple_transposed : solves_transposed simple.
Proof.
  intros h a i o g r x r' w g' w' y _ _ _ _ E1 E2.
  apply (fwd_inv _ simple_regular _ _ i o) in E1 as (xo & rs & qs & u & L1 & L2 & L3 & -> & -> & Sg & Fu & -> & -> & L4).
  apply (rev_inv _ simple_regular _ _ i o) in E2 as (yo & ws & us & v & M1 & M2 & M3 & -> & -> & _ & Fv & -> & -> & M4).
  cbn in L1, L2, L3, L4, M1, M2, M3, M4. lens.
  cbn in Fu, Fv. injection Fu as <-. injection Fv as <- <-.
  cbn.
  ring.
Qed.

Lemma entry_moves (f : R -> R) l k : derivable_pt_lim f 0 l -> derivable_pt_lim (fun e => nth k [f e] 0) 0 (nth k [l] 0).
Proof. intros H. destruct k as [|[|k]]; [exact H| |]; apply (derivable_pt_lim_const 0). Qed.
Lemma derivable_pt_lim_value f x l l' : derivable_pt_lim f x l -> l = l' -> derivable_pt_lim f x l'.
Proof. now intros H <-. Qed.
Lemma derivable_pt_lim_scal_right f x l a : derivable_pt_lim f x l -> derivable_pt_lim (fun e => f e * a) x (l * a).
Proof.
  intros H. apply (derivable_pt_lim_value _ _ (l * a + f x * 0)); [|ring].
  apply (derivable_pt_lim_mult f (fun _ => a)); [exact H|apply derivable_pt_lim_const].
Qed.
Lemma moves3 n0 n1 n2 (f0 f1 f2 : R -> R) l0 l1 l2 n k :
  derivable_pt_lim f0 0 l0 -> derivable_pt_lim f1 0 l1 -> derivable_pt_lim f2 0 l2 ->
  derivable_pt_lim (fun e => look n k (vec_of [n0; n1; n2] [f0 e; f1 e; f2 e])) 0 (look n k (vec_of [n0; n1; n2] [l0; l1; l2])).
Proof.
  intros H0 H1 H2. unfold look, vec_of. cbn [map2 get].
  destruct (String.eqb n n0); [apply entry_moves, H0|]. destruct (String.eqb n n1); [apply entry_moves, H1|].
  destruct (String.eqb n n2); [apply entry_moves, H2|apply derivable_pt_lim_const].
Qed.
Lemma simple_differentiable : problem_differentiable (source_names simple simple_md) simple.
Proof.
  intros del h a i V r i1 o1 g x r' D0 LV Lg VC RS E1 E2.
  apply (fwd_inv _ simple_regular _ _ (i1 0) (o1 0)) in E2 as (xo & rs & qs & u & L1 & L2 & L3 & -> & -> & Sg & Fu & -> & -> & L4).
  cbn in L1, L2, L3, L4.
  apply len3 in L1 as (g0 & g1 & g2 & ->). apply len2 in L2 as (r0 & r1 & ->). apply len1 in L3 as (r2 & ->). apply len1 in L4 as (u0 & ->). cbn in Sg. apply neqb_false in Sg.
  assert (Q : r2 = 0). { apply (RS "test_comp.y_stage" 0%nat). vm_compute. intuition discriminate. }
  subst r2. cbn in Fu. injection Fu as <-.
  assert (O : forall e, Rabs e < del -> o1 e = vec_of (out_names simple_component)
    [look "_auto_ivc.v0" 0 (V e); look "_auto_ivc.v1" 0 (V e);
     - (look "_auto_ivc.v0" 0 (V e) + h * look "_auto_ivc.v1" 0 (V e)) / (1 + h * a)]).
  { intros e B. specialize (E1 e B).
    apply (nonlinear_inv _ simple_regular) in E1 as (xi & ys & us & v & M1 & M2 & M3 & _ & EV & _ & Cv & _ & -> & M4).
    cbn in M1, M2, M3, M4. lens. rewrite EV. cbn in Cv. injection Cv as <-. reflexivity. }
  pose proof (VC "_auto_ivc.v0" 0%nat) as C0. pose proof (VC "_auto_ivc.v1" 0%nat) as C1. cbn in C0, C1.
  assert (C2 : derivable_pt_lim (fun e => - (look "_auto_ivc.v0" 0 (V e) + h * look "_auto_ivc.v1" 0 (V e)) / (1 + h * a)) 0
    (- (- r0 + h * - r1) / (1 + h * a))).
  { apply (derivable_pt_lim_scal_right (fun e => - (look "_auto_ivc.v0" 0 (V e) + h * look "_auto_ivc.v1" 0 (V e)))
      0 _ (/ (1 + h * a))). apply derivable_pt_lim_opp, derivable_pt_lim_plus; [exact C0|]. apply derivable_pt_lim_scal. exact C1. }
  intros n k.
  apply (dlim_ext_near (fun e => look n k (vec_of (out_names simple_component)
    [look "_auto_ivc.v0" 0 (V e); look "_auto_ivc.v1" 0 (V e);
     - (look "_auto_ivc.v0" 0 (V e) + h * look "_auto_ivc.v1" 0 (V e)) / (1 + h * a)])) _ _ del D0).
  { intros e B. now rewrite (O e B). }
  set (v0 := fun e => look "_auto_ivc.v0" 0 (V e)) in *. set (v1 := fun e => look "_auto_ivc.v1" 0 (V e)) in *.
  apply (moves3 _ _ _ v0 v1 (fun e => - (v0 e + h * v1 e) / (1 + h * a))); [exact C0|exact C1|].
  eapply derivable_pt_lim_value; [exact C2|]. cbn. field. exact Sg.
Qed.

(** Whether the calls return. *)
Lemma simple_answers x norm h a : 1 + h * a <> 0 ->
  answers (openmdao_ode simple simple_md (stage_vectors simple_component x) norm) h a.
Proof.
  intros H. apply false_neqb in H. split; [|split].
  - intros [y s p t] (L1 & L2 & L3). cbn in L1, L2, L3. lens. destruct p; [|discriminate].
    cbv -[Rplus Rmult Ropp Rdiv Rinv neqb IZR RNum]. rewrite H. eexists; reflexivity.
  - intros lp [y s p t] L (L1 & L2 & L3). cbn in L, L1, L2, L3. lens. destruct p; [|discriminate].
    destruct lp as [|l0 [|l1 [|l2 [|l3 [|l4 [|]]]]]]; try discriminate.
    cbv -[Rplus Rmult Ropp Rdiv Rinv neqb IZR RNum]. rewrite H. eexists; reflexivity.
  - intros lp [u s p] L L1 L2 L3. cbn in L, L1, L2, L3. lens. destruct p; [|discriminate].
    destruct lp as [|l0 [|l1 [|l2 [|l3 [|l4 [|]]]]]]; try discriminate.
    cbv -[Rplus Rmult Ropp Rdiv Rinv neqb IZR RNum]. rewrite H. eexists; reflexivity.
Qed.

(** ** Prothero-Robinson: x' = lambda (x - phi(t)) + phi'(t) *)
Definition prothero_rhs (lam t : R) (p x : list R) : list R := map (fun z => lam * (z - phi t) + d_phi t) x.

Lemma prothero_keeps lam : keeps_layout (prothero lam).
Proof. apply stage_keeps, prothero_regular. Qed.
Lemma prothero_implements lam : implements (prothero lam) prothero_md (prothero_rhs lam).
Proof.
  intros h a i o i' o' t y acc p k Ly La Lp Lk Ht Hq _ E Hk.
  cbn [time_integration_array_size time_independent_input_size prothero_md] in *. lens.
  destruct (Ht _ eq_refl) as (s & Es & Gt). injection Es as <-.
  destruct (Hq _ _ (or_introl eq_refl) eq_refl eq_refl) as (s1 & s2 & Es1 & G1 & Es2 & G2). injection Es1 as <-. injection Es2 as <-.
  destruct (Hk _ (or_introl eq_refl) eq_refl) as (n & En & Gn). injection En as <-.
  apply (nonlinear_inv _ (prothero_regular lam)) in E as (xi & xs & us & u & L1 & L2 & L3 & -> & -> & Sg & Cu & -> & -> & L4).
  cbn in L1, L2, L3, L4. lens. cbn in Gt, G1, G2, Gn. injection Gt as ->. injection G1 as ->. injection G2 as ->. injection Gn as Gn.
  cbn in Cu. injection Cu as <-. cbn in Gn. cbn in Sg. apply neqb_false in Sg. cbn. f_equal. rewrite <- Gn. field. exact Sg.
Qed.
Lemma prothero_sources lam : distinct_sources (prothero lam) prothero_md.
Proof. unfold distinct_sources. cbv. repeat constructor; cbn; intuition discriminate. Qed.
Lemma prothero_outputs : distinct_outputs prothero_md.
Proof. unfold distinct_outputs. vm_compute. repeat constructor; cbn; intuition discriminate. Qed.
Lemma prothero_time lam x : scalar_time (prothero lam) prothero_md (stage_vectors (prothero_component lam) x).
Proof. intros tv s y [= <-] [= <-] G. cbn in G. injection G as <-. reflexivity. Qed.
Lemma prothero_answers lam x norm h a : 1 - lam * h * a <> 0 ->
  answers (openmdao_ode (prothero lam) prothero_md (stage_vectors (prothero_component lam) x) norm) h a.
Proof.
  intros H. apply false_neqb in H. split; [|split].
  - intros [y s p t] (L1 & L2 & L3). cbn in L1, L2, L3. lens. destruct p; [|discriminate].
    cbv -[Rplus Rminus Rmult Ropp Rdiv Rinv neqb IZR RNum sin cos PI]. rewrite H. eexists; reflexivity.
  - intros lp [y s p t] L (L1 & L2 & L3). cbn in L, L1, L2, L3. lens. destruct p; [|discriminate].
    destruct lp as [|l0 [|l1 [|l2 [|l3 [|l4 [|l5 [|l6 [|]]]]]]]]; try discriminate.
    cbv -[Rplus Rminus Rmult Ropp Rdiv Rinv neqb IZR RNum]. rewrite H. eexists; reflexivity.
  - intros lp [u s p] L L1 L2 L3. cbn in L, L1, L2, L3. lens. destruct p; [|discriminate].
    destruct lp as [|l0 [|l1 [|l2 [|l3 [|l4 [|l5 [|l6 [|]]]]]]]]; try discriminate.
    cbv -[Rplus Rminus Rmult Ropp Rdiv Rinv neqb IZR RNum]. rewrite H. eexists; reflexivity.
Qed.
