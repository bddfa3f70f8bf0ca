(** The integrator component of the problem of WitnessPacking.v: named vectors,
    options, and a problem with the same variables for the ODE x1' = t + p,
    x2' = x1. *)
From Coq Require Import String.
From Coq Require Import List Bool Arith Reals Lia Lra QArith.
From Verif Require Import Base Ext M_Tableau M_State M_ODE M_Step M_Integrator M_Metadata M_Components SpecMetadata SpecRK SpecDeriv SpecRun SpecShape SpecComponents
  M_Packing SpecPacking M_Component SpecComponent L_Vec L_Step L_Components L_Packing L_Packing3 L_Packing6 L_Component L_Component2 L_Component3 L_Component4
  L_Deriv L_Whole L_WholeR L_Packing2 L_Packing4 L_Packing5 L_RunProps Witness WitnessRun WitnessPacking.
Import ListNotations.
Local Open Scope string_scope.
Local Open Scope R_scope.
Local Open Scope list_scope.

Lemma returns_with {W A} (p : W * res A) (P : A -> Prop) :
  match snd p with Ok x => P x | Err _ => False end -> exists w x, p = (w, Ok x) /\ P x.
Proof. destruct p as [w [x|e]]; [eauto|intros []]. Qed.

Definition demo_io : list (string * nat) * list (string * nat) :=
  ([("time_initial", 1%nat); ("x_initial", 2%nat); ("p", 1%nat)], [("time_final", 1%nat); ("x_final", 2%nat)]).
Lemma demo_declared : declare_all demo_size demo_md = Ok demo_io.
Proof. reflexivity. Qed.

Definition cin {T} (t x y p : T) : vec T := [("time_initial", [t]); ("x_initial", [x; y]); ("p", [p])].
Definition cout {T} (t x y : T) : vec T := [("time_final", [t]); ("x_final", [x; y])].
Definition carr {T} (t x y p : T) : inputs T := {| time_initial := t; initial := [x; y]; independent := [p] |}.
Definition ares {T} (t x y : T) : outputs T := {| time_final := t; final := [x; y] |}.

Lemma cin_holds {T} (t x y p : T) : holds_inputs demo_md (cin t x y p) (carr t x y p).
Proof. split; [reflexivity|]. split; intros q [<-|[]]; reflexivity. Qed.
Lemma cout_holds {T} (t x y : T) : holds_outputs demo_md (cout t x y) (ares t x y).
Proof. split; [reflexivity|]. intros q [<-|[]]; reflexivity. Qed.

Definition cop (lam : R) : options R unit :=
  gop heun (openmdao_ode (demo lam demo_source) demo_md (demo_state 1) (fun _ => 0)) AllCheckpointer false (1/2)
    (PredefinedNumberOfSteps 2).
(** A component that has been called before. *)
Definition used (op : options R unit) : component R unit :=
  run_om_calls op demo_md [OMCompute (cin 1 2 3 4) (cout 0 0 0)] (setup op tt).
Lemma used_in_use op : in_use op demo_md demo_io tt (used op).
Proof. exists [OMCompute (cin 1 2 3 4) (cout 0 0 0)]. split; [|reflexivity]. repeat constructor. Qed.
Lemma cop_sized lam : sized_ode (o_ode (cop lam)).
Proof.
  eapply om_sized with (rank := 0%nat) (pb := demo lam demo_source); [exact demo_metadata|reflexivity|apply demo_keeps|reflexivity].
Qed.

(** The stage update of x1' = t + p, x2' = x1, which needs no solver. *)
Definition chain_nonlinear (h a : R) (i o : vec R) : res (vec R * vec R) :=
  on_demo o (fun t o1 o2 a1 a2 p _ _ =>
    if same_layouts (layout i) demo_in_layout
    then Ok (demo_in t o1 o2 a1 a2 p, demo_vec t o1 o2 a1 a2 p (t + p) (o1 + h * (a1 + a * (t + p)))) else Err ValueError).
Definition chain : problem R :=
  {| p_source := demo_source; p_nonlinear := chain_nonlinear; p_linear_fwd := demo_fwd 1; p_linear_rev := demo_rev 1 |}.
Definition chain_rhs (t : R) (p y : list R) : list R := [t + vnth 0 p; vnth 0 y].
Lemma chain_keeps : keeps_layout chain.
Proof.
  destruct (demo_keeps 1 demo_source) as (A & B & C). split; [|split]; [|exact B|exact C].
  intros h a i o i' o' H. cbn [chain p_nonlinear] in H.
  apply on_demo_inv in H as (t & o1 & o2 & a1 & a2 & p & u1 & u2 & -> & H).
  destruct (same_layouts _ _) eqn:D; [|discriminate]. unfold same_layouts in D.
  destruct (list_eq_dec _ _ _) as [E|]; [|discriminate]. injection H as <- <-. rewrite E. split; reflexivity.
Qed.
Lemma chain_implements : implements chain demo_md chain_rhs.
Proof.
  intros h a i o i' o' t y acc p k Ly La Lp Lk Ht Hq Hp E Hk.
  cbn [time_integration_array_size time_independent_input_size demo_md] in *.
  destruct y as [|y1 [|y2 [|]]]; try discriminate. destruct acc as [|a1 [|a2 [|]]]; try discriminate.
  destruct p as [|p [|]]; try discriminate. destruct k as [|k1 [|k2 [|]]]; try discriminate.
  destruct (Ht _ eq_refl) as (s & Es & Gt). injection Es as <-.
  destruct (Hq _ _ (or_introl eq_refl) eq_refl eq_refl) as (s1 & s2 & Es1 & G1 & Es2 & G2). injection Es1 as <-. injection Es2 as <-.
  destruct (Hp _ (or_introl eq_refl) eq_refl) as (s3 & Es3 & G3). injection Es3 as <-.
  destruct (Hk _ (or_introl eq_refl) eq_refl) as (n & En & Gn). injection En as <-.
  cbn [chain p_nonlinear] in E. unfold chain_nonlinear in E.
  apply on_demo_inv in E as (t' & o1 & o2 & c1 & c2 & p' & u1 & u2 & -> & E).
  destruct (same_layouts _ _); [|discriminate]. injection E as _ <-.
  cbn in Gt, G1, G2, G3, Gn. injection Gt as ->. injection G1 as -> ->. injection G2 as -> ->. injection G3 as ->.
  injection Gn as E1 E2. cbn. rewrite <- E1, <- E2. reflexivity.
Qed.
Definition sop : options R unit :=
  gop heun (openmdao_ode chain demo_md (demo_state 1) (fun _ => 0)) AllCheckpointer false (1/2)
    (PredefinedNumberOfSteps 2).

(** Reverse products after [compute] at the same inputs, and after [compute] at
    others. *)
Lemma demo_reverse zi : layout zi = declared input_kind demo_io -> exists w2 v w3 din,
  component_compute (cop 2) demo_md (cin 0 1 2 3) (cout 7 8 9) (setup (cop 2) tt) = (w2, Ok v) /\
  component_rev (cop 2) demo_md (cin 0 1 2 3) zi (cout 1 2 3) w2 = (w3, Ok din).
Proof.
  intros L. destruct (cop_sized 2) as (S1 & S2 & S3). set (op := cop 2) in *.
  assert (Zi : inputs_sized (o_ode op) (carr 0 1 2 3)) by (split; reflexivity).
  assert (Zo : outputs_sized (o_ode op) (ares 1 2 3)) by reflexivity.
  destruct (returns (compute (N := RNum) op (carr 0 1 2 3) (run_calls op [] (setup op tt))) ltac:(vm_compute; reflexivity))
    as (w2 & out & E2).
  destruct (returns (compute_jacvec_product_rev (N := RNum) op (carr 0 1 2 3) (ares 1 2 3) (setup op tt)) ltac:(vm_compute; reflexivity))
    as (w4 & g & E4).
  destruct (proj2 (rev_after_compute op S1 S2 S3 (c39_ignores _ _ _ _) Reqb_eq tt _ _ _ g _ _
    eq_refl (gop_quiet _ _ _ _ _ _) (gop_stateless _ _ _ _ _ _) (Forall_nil _) Zi Zo E2) (ex_intro _ w4 E4)) as (w3 & E3).
  cbn [run_calls fold_left] in E2.
  assert (U0 : in_use op demo_md demo_io tt (setup op tt)) by (exists []; split; [constructor|reflexivity]).
  pose proof (by_name_compute 1 0 _ _ _ _ demo_md _ _ demo_metadata eq_refl demo_declared op eq_refl eq_refl (cop_sized 2)
    tt _ (cin 0 1 2 3) (cout 7 8 9) _ U0 eq_refl eq_refl Zi (cin_holds 0 1 2 3)) as B.
  rewrite E2 in B. destruct B as (v & B & _).
  assert (U2 : in_use op demo_md demo_io tt w2).
  { exists [OMCompute (cin 0 1 2 3) (cout 7 8 9)]. split; [repeat constructor|]. unfold run_om_calls. cbn [fold_left run_om_call].
    rewrite B. reflexivity. }
  destruct (scalar_get demo_md _ _ demo_declared _ zi _ L (time_initial_declared demo_md _ _ demo_declared)) as (t & Gt).
  pose proof (by_name_rev 1 0 _ _ _ _ demo_md _ _ demo_metadata eq_refl demo_declared op eq_refl eq_refl (cop_sized 2)
    tt _ (cin 0 1 2 3) zi (cout 1 2 3) _ _ t U2 eq_refl L eq_refl Zi (cin_holds 0 1 2 3) Zo (cout_holds 1 2 3) Gt) as B3.
  rewrite E3 in B3. destruct B3 as (din & B3 & _). exists w2, v, w3, din. auto.
Qed.

Lemma fresh_in_use (op : options R unit) : in_use op demo_md demo_io tt (setup op tt).
Proof. exists []; split; [constructor|reflexivity]. Qed.
Lemma c62_concrete : exists w w1 v w2 v0 w3 g w4 g0,
  in_use (cop 2) demo_md demo_io tt w /\
  component_fwd (cop 2) demo_md (cin 0 1 2 3) (cin 1 1 0 1) (cout 1 1 1) w = (w1, Ok v) /\
  component_fwd (cop 2) demo_md (cin 0 1 2 3) (cin 1 1 0 1) (cout 0 0 0) w = (w2, Ok v0) /\
  ~ sum_of (cout 1 1 1) v0 v /\
  component_rev (cop 2) demo_md (cin 0 1 2 3) (cin 1 1 1 1) (cout 1 2 3) w = (w3, Ok g) /\
  component_rev (cop 2) demo_md (cin 0 1 2 3) (cin 0 0 0 0) (cout 1 2 3) w = (w4, Ok g0) /\
  ~ sum_of (cin 1 1 1 1) g0 g.
Proof.
  destruct (returns (component_fwd (N := RNum) (cop 2) demo_md (cin 0 1 2 3) (cin 1 1 0 1) (cout 1 1 1) (setup (cop 2) tt))
    ltac:(vm_compute; reflexivity)) as (w1 & v & E1).
  destruct (returns (component_fwd (N := RNum) (cop 2) demo_md (cin 0 1 2 3) (cin 1 1 0 1) (cout 0 0 0) (setup (cop 2) tt))
    ltac:(vm_compute; reflexivity)) as (w2 & v0 & E2).
  destruct (returns (component_rev (N := RNum) (cop 2) demo_md (cin 0 1 2 3) (cin 1 1 1 1) (cout 1 2 3) (setup (cop 2) tt))
    ltac:(vm_compute; reflexivity)) as (w3 & g & E3).
  destruct (returns (component_rev (N := RNum) (cop 2) demo_md (cin 0 1 2 3) (cin 0 0 0 0) (cout 1 2 3) (setup (cop 2) tt))
    ltac:(vm_compute; reflexivity)) as (w4 & g0 & E4).
  exists (setup (cop 2) tt), w1, v, w2, v0, w3, g, w4, g0. split; [apply fresh_in_use|]. split; [exact E1|]. split; [exact E2|]. split.
  { intros S. pose proof (fwd_sum_iff 1 0 _ _ _ _ demo_md _ _ demo_metadata eq_refl demo_declared (cop 2) eq_refl eq_refl (cop_sized 2)
      tt _ (cin 0 1 2 3) (cin 1 1 0 1) (cout 1 1 1) (cout 0 0 0) _ _ _ _ (fresh_in_use _) eq_refl eq_refl eq_refl eq_refl ltac:(repeat constructor) E1 E2) as B.
    apply (fun S => proj1 B S _ 0%nat (or_introl eq_refl)) in S. cbn in S. lra. }
  split; [exact E3|]. split; [exact E4|].
  intros S. pose proof (rev_sum_iff 1 0 _ _ _ _ demo_md _ _ demo_metadata eq_refl demo_declared (cop 2) eq_refl eq_refl (cop_sized 2)
    tt _ (cin 0 1 2 3) (cin 1 1 1 1) (cout 1 2 3) (cin 0 0 0 0) _ _ _ _ (fresh_in_use _) eq_refl eq_refl eq_refl eq_refl ltac:(repeat constructor) E3 E4) as B.
  apply (fun S => proj1 (proj1 B S) _ 0%nat (or_introl eq_refl)) in S. cbn in S. lra.
Qed.

Definition moving (e : R) : vec R := cin (0 + 2 * e) (1 + e) 2 (3 + 5 * e).
Lemma moving_curve : vec_curve moving (cin 2 1 0 5).
Proof.
  assert (L : forall f b, (forall e, f e = f 0 + b * e) -> derivable_pt_lim f 0 b).
  { intros f b Hf eps He; exists (mkposreal 1 Rlt_0_1); intros h Hh _.
    rewrite Rplus_0_l, (Hf h). replace ((f 0 + b * h - f 0) / h - b) with 0 by (field; exact Hh).
    rewrite Rabs_R0; exact He. }
  intros n m. apply L. intros e. unfold look, moving, cin. cbn [get].
  destruct (String.eqb n "time_initial"); [destruct m as [|m]; [cbn; ring|cbn; destruct m; ring]|].
  destruct (String.eqb n "x_initial"); [destruct m as [|[|m]]; [cbn; ring|cbn; ring|cbn; destruct m; ring]|].
  destruct (String.eqb n "p"); [destruct m as [|m]; [cbn; ring|cbn; destruct m; ring]|]. ring.
Qed.
