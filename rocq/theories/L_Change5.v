(** Forward products in changed variables from reachable components; two linear
    ODEs with derivatives. *)
From Coq Require Import List Lia Bool Arith.
From Verif Require Import Base M_Tableau M_State M_ODE M_Step M_Controller M_Measure M_Integrator
  SpecRK SpecShape SpecDeriv SpecRun SpecChange SpecChange2 L_Vec L_Generic L_Run L_Iter L_RunProps L_Change L_Change2 L_Change3 L_Change4 WitnessRun.
Import ListNotations.
Local Open Scope nat_scope.

Section Main.
Context {T : Type} {N : Num T} {C : Type}.
Lemma c93_forward (op : options T C) o' ch dq : is_change (state_size (o_ode op)) (state_size o') ch ->
  (forall p, length p = independent_input_size (o_ode op) -> length (ch_parameters ch p) = independent_input_size o') ->
  (forall p, length p = independent_input_size (o_ode op) -> length (dq p) = independent_input_size o') ->
  sized_ode (o_ode op) -> sized_ode o' -> changed_ode ch (o_ode op) o' -> changed_derivatives ch dq (o_ode op) o' ->
  (o_adaptive op = true -> same_norms ch (o_ode op) o') -> quiet op ->
  forall c w c' v i d, inputs_sized (o_ode op) i -> inputs_sized (o_ode op) d ->
  reachable op c w -> reachable (change_options ch o' op) c' v -> ctl w = ctl v ->
  forall out', (exists v', compute_jacvec_product_fwd (change_options ch o' op) (change_inputs ch i) (change_dinputs ch dq d) v = (v', Ok out')) <->
  (exists w' out, compute_jacvec_product_fwd op i d w = (w', Ok out) /\ out' = change_doutputs ch out).
Proof.
  intros Hc Hp Hd H1 H2 Ho Hk Hn Hq c w c' v i d Si Sd Rw Rv Ec.
  apply (change_fwd op o' ch dq Hc Hp Hd Ho Hk (proj1 H1) (proj1 H2) (proj1 (proj2 H1)) (proj1 (proj2 H2)) Hn i d w v Hq Si Sd);
    [exact (reachable_wf op c w H1 Rw)|apply (reachable_wf (change_options ch o' op) c' v H2 Rv)|exact Ec].
Qed.
End Main.

(** [two_ode] (L_Change3.v) for right-hand sides that are their own
    derivatives. *)
Section Two.
Context {T : Type} {N : Num T}.
Definition linear_ode (size : nat) (f : T -> T -> (nat -> T) -> list T) : ode T := {|
  compute_update := compute_update (two_ode size f);
  compute_update_derivative := fun _ d h a => Ok {| stage_update := f (time d) (nth 0 (independent_input d) n0) (at_stage d h);
     stage_state := vzeros size; independent_output := [] |};
  compute_update_adjoint_derivative := fun _ _ _ _ => Err NotImplementedError;
  compute_state_norm := compute_state_norm (two_ode size f);
  state_size := size; independent_input_size := 1; independent_output_size := 0; linearization_point_size := 0 |}.
Definition lxy : ode T := linear_ode 2 (fun t p s => [nadd t p; s 0]).
Definition lyx : ode T := linear_ode 2 (fun t p s => [s 1; nadd t p]).
Lemma linear_sized size f : (forall t p s, length (f t p s) = size) -> sized_ode (linear_ode size f).
Proof.
  intros Hf. split; [|split].
  - intros i h a x lp H; injection H as <- <-; cbn; auto using glen_vzeros.
  - intros lp i h a x H; injection H as <-; cbn; auto using glen_vzeros.
  - intros lp i h a x H; discriminate.
Qed.
Lemma lxy_lyx : changed_ode (picked [1; 0]) lxy lyx /\ changed_derivatives (picked [1; 0]) (fun q => q) lxy lyx.
Proof.
  split.
  - intros i h a _ _ _. cbn. eexists; eexists. split; reflexivity.
  - intros i h a r lp r' lp' _ _ _ _ _ d _ _ _. cbn. eexists. split; reflexivity.
Qed.
End Two.
