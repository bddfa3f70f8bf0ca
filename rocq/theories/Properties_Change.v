(** C93: runs do not depend on the variables in which the ODE is written. *)
From Coq Require Import List Lia Bool Arith ZArith QArith Reals Lra.
From Verif Require Import Base Ext M_Tableau M_State M_ODE M_Step M_Controller M_Measure M_Integrator
  SpecRK SpecShape SpecDeriv SpecRun SpecChange L_Run L_Iter L_RunProps L_Change L_Change2 L_Change3 WitnessRun.
Import ListNotations.
Local Open Scope nat_scope.

(** ** C93 *)
Theorem C93_compute : forall (T : Type) (N : Num T) (C : Type) (op : options T C) (o' : ode T) (ch : change T),
  is_change (state_size (o_ode op)) (state_size o') ch ->
  (forall p, length p = independent_input_size (o_ode op) -> length (ch_parameters ch p) = independent_input_size o') ->
  sized_ode (o_ode op) -> sized_ode o' -> changed_ode ch (o_ode op) o' ->
  (o_adaptive op = true -> same_norms ch (o_ode op) o') -> loops op -> quiet op ->
  forall c w c' v i, inputs_sized (o_ode op) i -> reachable op c w -> reachable (change_options ch o' op) c' v -> ctl w = ctl v ->
  forall out', (exists v', compute (change_options ch o' op) (change_inputs ch i) v = (v', Ok out')) <->
  (exists w' out, compute op i w = (w', Ok out) /\ out' = change_outputs ch out).
Proof. exact (@c93_compute). Qed.
Print Assumptions C93_compute.

(** The states in another order, or without some on which the others do not
    depend, for every scalar type. *)
Theorem C93_reordering : forall (T : Type) (N : Num T) (C : Type) (op : options T C) (o' : ode T) (p : list nat),
  (forall k, In k p -> k < state_size (o_ode op)) -> state_size o' = length p ->
  independent_input_size o' = independent_input_size (o_ode op) ->
  sized_ode (o_ode op) -> sized_ode o' -> changed_ode (picked p) (o_ode op) o' ->
  (o_adaptive op = true -> same_norms (picked p) (o_ode op) o') -> loops op -> quiet op ->
  forall c i w' out, inputs_sized (o_ode op) i -> compute op i (setup op c) = (w', Ok out) ->
  exists v' out', compute (change_options (picked p) o' op)
      {| time_initial := time_initial i; initial := map (fun k => nth k (initial i) n0) p; independent := independent i |}
      (setup (change_options (picked p) o' op) c) = (v', Ok out') /\
    time_final out' = time_final out /\ final out' = map (fun k => nth k (final out) n0) p.
Proof. exact (@c93_reordering). Qed.
Print Assumptions C93_reordering.

(** Other units, linear combinations, another origin of states and time. *)
Theorem C93_affine : forall (C : Type) (op : options R C) (o' : ode R) (M : list (list R)) (v : list R) (tau : R),
  length v = length M -> state_size o' = length M -> independent_input_size o' = independent_input_size (o_ode op) ->
  sized_ode (o_ode op) -> sized_ode o' -> changed_ode (affine M v tau) (o_ode op) o' ->
  (o_adaptive op = true -> same_norms (affine M v tau) (o_ode op) o') -> loops op -> quiet op ->
  forall c i w' out, inputs_sized (o_ode op) i -> compute op i (setup op c) = (w', Ok out) ->
  exists v' out', compute (change_options (affine M v tau) o' op)
      {| time_initial := (time_initial i + tau)%R; initial := vadd (map (fun r => dot r (initial i)) M) v; independent := independent i |}
      (setup (change_options (affine M v tau) o' op) c) = (v', Ok out') /\
    time_final out' = (time_final out + tau)%R /\ final out' = vadd (map (fun r => dot r (final out)) M) v.
Proof. exact (@c93_affine). Qed.
Print Assumptions C93_affine.

(** Under error control the norms must agree: with a measure in other units the
    steps are others. *)
Theorem C93_units_refuted : ~ (forall (op : options Z unit) o' ch, is_change (state_size (o_ode op)) (state_size o') ch ->
  (forall p, length p = independent_input_size (o_ode op) -> length (ch_parameters ch p) = independent_input_size o') ->
  sized_ode (o_ode op) -> sized_ode o' -> changed_ode ch (o_ode op) o' -> loops op -> quiet op ->
  forall i w' out, inputs_sized (o_ode op) i -> compute op i (setup op tt) = (w', Ok out) ->
  exists v', compute (change_options ch o' op) (change_inputs ch i) (setup (change_options ch o' op) tt) = (v', Ok (change_outputs ch out))).
Proof. exact c93_units_refuted. Qed.
Print Assumptions C93_units_refuted.

(** *** Examples *)
Section Examples.
Local Open Scope Q_scope.
Let op := gop heun xy AllCheckpointer false (1 # 2) (PredefinedNumberOfSteps 3).
Let i : inputs Q := {| time_initial := 0; initial := [1; 2]; independent := [3] |}.
Example C93_example_premises : (forall k, In k [1%nat; 0%nat] -> (k < state_size (o_ode op))%nat) /\
  sized_ode (o_ode op) /\ sized_ode (yx (T := Q)) /\ sized_ode (xo (T := Q)) /\
  changed_ode (picked [1%nat; 0%nat]) (o_ode op) yx /\ changed_ode (picked [0%nat]) (o_ode op) xo /\ loops op /\ quiet op /\ inputs_sized (o_ode op) i.
Proof.
  split; [intros k [<-|[<-|[]]]; cbn; lia|]. split; [apply two_sized; reflexivity|]. split; [apply two_sized; reflexivity|].
  split; [apply two_sized; reflexivity|]. split; [apply xy_yx|]. split; [apply xy_xo|]. split; [exact I|].
  split; [apply gop_quiet|split; reflexivity].
Qed.
Example C93_example_run : match snd (compute op i (setup op tt)) with Ok out => negb (Qeq_bool (nth 0 (final out) 0) (nth 1 (final out) 0)) | Err _ => false end = true.
Proof. vm_compute. reflexivity. Qed.
End Examples.
(** y' = y in steps of one, in units of one half and from time 5 on. *)
Example C93_example_affine : changed_ode (affine [[2%R]] [0%R] 5%R) (two_ode 1 (fun t p s => [s 0])) (two_ode 1 (fun t p s => [s 0])).
Proof.
  intros j h a H1 H2 _. cbn. eexists; eexists. split; [reflexivity|]. unfold at_stage. cbn.
  destruct (step_input j) as [|x [|]], (stage_input j) as [|y [|]]; cbn in H1, H2; try discriminate. cbn. f_equal. lra.
Qed.
