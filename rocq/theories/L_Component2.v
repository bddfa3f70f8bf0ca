(** Calls by OpenMDAO are runs on the arrays behind the named vectors. *)
From Coq Require Import String.
From Coq Require Import List Reals Lia Lra Bool Arith.
From Verif Require Import Base Ext M_Tableau M_State M_ODE M_Step M_Controller M_Measure M_Integrator
  M_Metadata M_Components M_Packing M_Component SpecRK SpecShape SpecDeriv SpecRun SpecComponents SpecPacking
  SpecComponent L_Vec L_Step L_Deriv L_Generic L_Run L_Iter L_RunProps L_Components L_Metadata
  L_Packing L_Packing2 L_Packing4 L_Component.
Import ListNotations.
Local Open Scope string_scope.
Local Open Scope nat_scope.
Local Open Scope list_scope.

Section Sizes.
Context {T : Type} {N : Num T} {C : Type}.
Variable op : options T C.
Notation o := (o_ode op).
Hypothesis Hsz : sized_ode o.

Lemma compute_result i w w' out : compute op i w = (w', Ok out) ->
  time_final out = final_time (disc (live w')) /\ final out = final_state (disc (live w')).
Proof.
  unfold compute, mbind, reading. rewrite compute_preparation_eq.
  destruct (create_checkpointer op _) as [w1 [u1|]]; [|discriminate].
  destruct (iterate_forward op w1) as [w2 [u2|]]; [|discriminate].
  unfold mret. intros [= <- <-]. auto.
Qed.
Lemma fwd_result i d w w' out : compute_jacvec_product_fwd op i d w = (w', Ok out) ->
  time_final out = final_time (disc (pert w')) /\ final out = final_state (disc (pert w')).
Proof.
  unfold compute_jacvec_product_fwd, mbind, reading. rewrite fwd_preparation_eq.
  destruct (jacvec_fwd_run_steps op _ _ _) as [w1 [u1|]]; [|discriminate].
  unfold mret. intros [= <- <-]. auto.
Qed.
Lemma rev_result i d w w' g : compute_jacvec_product_rev op i d w = (w', Ok g) ->
  time_initial g = final_time (disc (pert w')) /\ initial g = final_state (disc (pert w')) /\
  independent g = independent_inputs (disc (pert w')).
Proof.
  unfold compute_jacvec_product_rev, mbind, reading, modify, mret.
  destruct (jacvec_rev_preparation_phase op i d w) as [w1 [u1|]]; [|discriminate].
  destruct (iterate_reverse op w1) as [w2 [u2|]]; [|discriminate].
  intros [= <- <-]. auto.
Qed.

Lemma wf_compute i w : wf op w -> inputs_sized o i -> wf op (fst (compute op i w)).
Proof. destruct Hsz as (A & B & D). intros W S. exact (wf_run_calls op A B D [CallCompute i] w (Forall_cons (CallCompute i) S (Forall_nil _)) W). Qed.
Lemma wf_fwd i d w : wf op w -> inputs_sized o i -> inputs_sized o d -> wf op (fst (compute_jacvec_product_fwd op i d w)).
Proof. destruct Hsz as (A & B & D). intros W S S'. exact (wf_run_calls op A B D [CallFwd i d] w (Forall_cons (CallFwd i d) (conj S S') (Forall_nil _)) W). Qed.
Lemma wf_rev i d w : wf op w -> inputs_sized o i -> outputs_sized o d -> wf op (fst (compute_jacvec_product_rev op i d w)).
Proof. destruct Hsz as (A & B & D). intros W S S'. exact (wf_run_calls op A B D [CallRev i d] w (Forall_cons (CallRev i d) (conj S S') (Forall_nil _)) W). Qed.

Lemma compute_sized i w w' out : wf op w -> inputs_sized o i -> compute op i w = (w', Ok out) -> outputs_sized o out.
Proof.
  intros W S E. pose proof (wf_compute i w W S) as W'. rewrite E in W'. cbn [fst] in W'.
  destruct (compute_result _ _ _ _ E) as (_ & R). unfold outputs_sized. rewrite R.
  apply (sh_final _ _ _ _ _ _ (wt_shape _ _ (wf_live _ _ W'))).
Qed.
Lemma fwd_sized i d w w' out : wf op w -> inputs_sized o i -> inputs_sized o d ->
  compute_jacvec_product_fwd op i d w = (w', Ok out) -> outputs_sized o out.
Proof.
  intros W S S' E. pose proof (wf_fwd i d w W S S') as W'. rewrite E in W'. cbn [fst] in W'.
  destruct (fwd_result _ _ _ _ _ E) as (_ & R). unfold outputs_sized. rewrite R.
  apply (sh_final _ _ _ _ _ _ (wf_pert _ _ W')).
Qed.
Lemma rev_sized i d w w' g : wf op w -> inputs_sized o i -> outputs_sized o d ->
  compute_jacvec_product_rev op i d w = (w', Ok g) -> inputs_sized o g.
Proof.
  intros W S S' E. pose proof (wf_rev i d w W S S') as W'. rewrite E in W'. cbn [fst] in W'.
  destruct (rev_result _ _ _ _ _ E) as (_ & R1 & R2). split; [rewrite R1|rewrite R2].
  - apply (sh_final _ _ _ _ _ _ (wf_pert _ _ W')).
  - apply (sh_ind _ _ _ _ _ _ (wf_pert _ _ W')).
Qed.
End Sizes.

Section Calls.
Context {T : Type} {N : Num T} {C : Type}.
Variables (procs rank : nat) (vs : list variable) (qs is : list string) (mds : list metadata) (md : metadata).
Variables (sz : string -> nat) (io : list (string * nat) * list (string * nat)).
Hypothesis Hmd : metadata_of procs vs qs is = Ok mds.
Hypothesis Hr : nth_error mds rank = Some md.
Hypothesis Hio : declare_all sz md = Ok io.
Variable op : options T C.
Notation o := (o_ode op).
Hypothesis Hn : state_size o = time_integration_array_size md.
Hypothesis Hi : independent_input_size o = time_independent_input_size md.
Hypothesis Hsz : sized_ode o.

Lemma in_sized i : in_ok md i <-> inputs_sized o i.
Proof. unfold in_ok, inputs_sized. rewrite Hn, Hi. tauto. Qed.
Lemma out_sized d : out_ok md d <-> outputs_sized o d.
Proof. unfold out_ok, outputs_sized. rewrite Hn. tauto. Qed.

Lemma read_live v w i : wf op w -> layout v = declared input_kind io -> inputs_sized o i -> holds_inputs md v i ->
  read_inputs md v (disc (live w)) = Ok i.
Proof.
  intros W L S H. pose proof (wt_shape _ _ (wf_live _ _ W)) as Sh.
  eapply read_inputs_at; eauto; [rewrite <- Hn; apply (sh_final _ _ _ _ _ _ Sh)|rewrite <- Hi; apply (sh_ind _ _ _ _ _ _ Sh)|now apply in_sized].
Qed.
Lemma read_pert v w i : wf op w -> layout v = declared input_kind io -> inputs_sized o i -> holds_inputs md v i ->
  read_inputs md v (disc (pert w)) = Ok i.
Proof.
  intros W L S H. pose proof (wf_pert _ _ W) as Sh.
  eapply read_inputs_at; eauto; [rewrite <- Hn; apply (sh_final _ _ _ _ _ _ Sh)|rewrite <- Hi; apply (sh_ind _ _ _ _ _ _ Sh)|now apply in_sized].
Qed.
Lemma read_pert_out v w d : wf op w -> layout v = declared output_kind io -> outputs_sized o d -> holds_outputs md v d ->
  read_outputs md v (disc (pert w)) = Ok d.
Proof.
  intros W L S H. pose proof (wf_pert _ _ W) as Sh.
  eapply read_outputs_at; eauto; [rewrite <- Hn; apply (sh_final _ _ _ _ _ _ Sh)|now apply out_sized].
Qed.
Lemma read_empty v i : layout v = declared input_kind io -> inputs_sized o i -> holds_inputs md v i ->
  read_inputs md v (create_empty_discretization_state (o_bt op) o) = Ok i.
Proof.
  intros L S H. eapply read_inputs_at; eauto; [cbn; unfold vzeros; rewrite repeat_length; assumption..|now apply in_sized].
Qed.

Lemma component_compute_eq inp outp i w : wf op w ->
  layout inp = declared input_kind io -> layout outp = declared output_kind io ->
  inputs_sized o i -> holds_inputs md inp i ->
  component_compute op md inp outp w =
  match compute op i w with (w', Ok out) => (w', Ok (pack_out md out)) | (w', Err e) => (w', Err e) end.
Proof.
  intros W L Lo S H. unfold component_compute, mbind, reading, mlift. rewrite (read_live inp w i W L S H).
  destruct (compute op i w) as [w' [out|e]] eqn:E; [|reflexivity].
  pose proof (proj2 (out_sized out) (compute_sized op Hsz _ _ _ _ W S E)) as So.
  pose proof (fill_outputs procs rank vs qs is mds md sz io Hmd Hr Hio outp out Lo So) as F.
  unfold bind in *. destruct (from_numpy_ti md output_kind (final out) outp); [|discriminate]. now rewrite F.
Qed.
Lemma component_fwd_eq inp dinp doutp i d t w : wf op w ->
  layout inp = declared input_kind io -> layout dinp = declared input_kind io -> layout doutp = declared output_kind io ->
  inputs_sized o i -> holds_inputs md inp i -> inputs_sized o d -> holds_inputs md dinp d ->
  get "time_final" doutp = Ok [t] ->
  component_fwd op md inp dinp doutp w =
  match compute_jacvec_product_fwd op i d w with
  | (w', Ok out) => (w', Ok (pack_out md {| time_final := nadd t (time_final out); final := final out |}))
  | (w', Err e) => (w', Err e) end.
Proof.
  intros W L Ld Lo S H Sd Hd G. unfold component_fwd, mbind, reading, mlift. rewrite (read_live inp w i W L S H).
  rewrite (read_pert dinp w d W Ld Sd Hd).
  destruct (compute_jacvec_product_fwd op i d w) as [w' [out|e]] eqn:E; [|reflexivity].
  pose proof (proj2 (out_sized out) (fwd_sized op Hsz _ _ _ _ _ W S Sd E)) as So.
  pose proof (add_outputs procs rank vs qs is mds md sz io Hmd Hr Hio doutp out t Lo So G) as F.
  unfold bind in *. destruct (from_numpy_ti md output_kind (final out) doutp); [|discriminate]. now rewrite F.
Qed.
Lemma component_rev_eq inp dinp doutp i d t w : wf op w ->
  layout inp = declared input_kind io -> layout dinp = declared input_kind io -> layout doutp = declared output_kind io ->
  inputs_sized o i -> holds_inputs md inp i -> outputs_sized o d -> holds_outputs md doutp d ->
  get "time_initial" dinp = Ok [t] ->
  component_rev op md inp dinp doutp w =
  match compute_jacvec_product_rev op i d w with
  | (w', Ok g) => (w', Ok (pack_in md {| time_initial := nadd t (time_initial g); initial := initial g; independent := independent g |}))
  | (w', Err e) => (w', Err e) end.
Proof.
  intros W L Ld Lo S H Sd Hd G. unfold component_rev, mbind, reading, mlift. rewrite (read_empty inp i L S H).
  rewrite (read_pert_out doutp w d W Lo Sd Hd).
  destruct (compute_jacvec_product_rev op i d w) as [w' [g|e]] eqn:E; [|reflexivity].
  pose proof (proj2 (in_sized g) (rev_sized op Hsz _ _ _ _ _ W S Sd E)) as So.
  now rewrite (add_inputs procs rank vs qs is mds md sz io Hmd Hr Hio dinp g t Ld So G).
Qed.

Lemma om_call_call k w : wf op w -> passes_declared io k ->
  exists k', call_sized o k' /\ run_om_call op md k w = run_call op k' w.
Proof.
  intros W P. destruct k as [i ou|i di dou|i di dou].
  - destruct P as (L1 & L2).
    destruct (inputs_of_vector procs rank vs qs is mds md sz io Hmd Hr Hio i L1) as (a & Sa & Ha).
    apply in_sized in Sa. exists (CallCompute a). split; [exact Sa|]. cbn [run_om_call run_call].
    rewrite (component_compute_eq i ou a w W L1 L2 Sa Ha). destruct (compute op a w) as [w' [x|e]]; reflexivity.
  - destruct P as (L1 & L2 & L3).
    destruct (inputs_of_vector procs rank vs qs is mds md sz io Hmd Hr Hio i L1) as (a & Sa & Ha).
    destruct (inputs_of_vector procs rank vs qs is mds md sz io Hmd Hr Hio di L2) as (b & Sb & Hb).
    destruct (scalar_get md sz io Hio _ dou _ L3 (time_final_declared md sz io Hio)) as (t & G).
    apply in_sized in Sa. apply in_sized in Sb. exists (CallFwd a b). split; [split; assumption|]. cbn [run_om_call run_call].
    rewrite (component_fwd_eq i di dou a b t w W L1 L2 L3 Sa Ha Sb Hb G). destruct (compute_jacvec_product_fwd op a b w) as [w' [x|e]]; reflexivity.
  - destruct P as (L1 & L2 & L3).
    destruct (inputs_of_vector procs rank vs qs is mds md sz io Hmd Hr Hio i L1) as (a & Sa & Ha).
    destruct (outputs_of_vector procs rank vs qs is mds md sz io Hmd Hr Hio dou L3) as (b & Sb & Hb).
    destruct (scalar_get md sz io Hio _ di _ L2 (time_initial_declared md sz io Hio)) as (t & G).
    apply in_sized in Sa. apply out_sized in Sb. exists (CallRev a b). split; [split; assumption|]. cbn [run_om_call run_call].
    rewrite (component_rev_eq i di dou a b t w W L1 L2 L3 Sa Ha Sb Hb G). destruct (compute_jacvec_product_rev op a b w) as [w' [x|e]]; reflexivity.
Qed.
Lemma run_call_wf k w : wf op w -> call_sized o k -> wf op (run_call op k w).
Proof. destruct Hsz as (A & B & D). intros W S. exact (wf_run_calls op A B D [k] w (Forall_cons _ S (Forall_nil _)) W). Qed.

Lemma in_use_reachable c w : in_use op md io c w -> reachable op c w.
Proof.
  intros (hist & F & ->). unfold reachable.
  assert (X : forall w0, wf op w0 -> exists h, Forall (call_sized o) h /\ run_om_calls op md hist w0 = run_calls op h w0).
  { induction F as [|k hist Pk F IH]; intros w0 W0.
    - exists []. split; [constructor|reflexivity].
    - destruct (om_call_call k w0 W0 Pk) as (k' & Sk & Ek).
      destruct (IH (run_call op k' w0) (run_call_wf k' w0 W0 Sk)) as (h & Sh & Eh).
      exists (k' :: h). split; [constructor; assumption|].
      unfold run_om_calls, run_calls in *. cbn [fold_left]. rewrite Ek. exact Eh. }
  destruct (X (setup op c)) as (h & Sh & Eh); [apply wf_setup; apply Hsz|]. exists h. split; [exact Sh|exact Eh].
Qed.
Lemma in_use_wf c w : in_use op md io c w -> wf op w.
Proof. intros U. eapply reachable_wf; eauto using in_use_reachable. Qed.

(** The statements of the properties. *)
Lemma vector_inputs inp : layout inp = declared input_kind io ->
  exists i, inputs_sized o i /\ holds_inputs md inp i /\ forall j, inputs_sized o j -> holds_inputs md inp j -> j = i.
Proof.
  intros L. destruct (inputs_of_vector procs rank vs qs is mds md sz io Hmd Hr Hio inp L) as (a & Sa & Ha).
  exists a. split; [now apply in_sized|]. split; [exact Ha|]. intros j Sj Hj. apply in_sized in Sj.
  exact (holds_in_unique procs rank vs qs is mds md Hmd Hr inp _ _ Sj Sa Hj Ha).
Qed.
Lemma vector_outputs outp : layout outp = declared output_kind io ->
  exists d, outputs_sized o d /\ holds_outputs md outp d /\ forall j, outputs_sized o j -> holds_outputs md outp j -> j = d.
Proof.
  intros L. destruct (outputs_of_vector procs rank vs qs is mds md sz io Hmd Hr Hio outp L) as (a & Sa & Ha).
  exists a. split; [now apply out_sized|]. split; [exact Ha|]. intros j Sj Hj. apply out_sized in Sj.
  exact (holds_out_unique procs rank vs qs is mds md Hmd Hr outp _ _ Sj Sa Hj Ha).
Qed.
Lemma by_name_compute c w inp outp i : in_use op md io c w ->
  layout inp = declared input_kind io -> layout outp = declared output_kind io ->
  inputs_sized o i -> holds_inputs md inp i ->
  match compute op i w with
  | (w', Ok out) => exists v, component_compute op md inp outp w = (w', Ok v) /\
                    layout v = declared output_kind io /\ holds_outputs md v out
  | (w', Err e) => component_compute op md inp outp w = (w', Err e)
  end.
Proof.
  intros U L Lo S H. pose proof (in_use_wf c w U) as W. rewrite (component_compute_eq inp outp i w W L Lo S H).
  destruct (compute op i w) as [w' [out|e]] eqn:E; [|reflexivity].
  pose proof (proj2 (out_sized out) (compute_sized op Hsz _ _ _ _ W S E)) as So.
  eexists. split; [reflexivity|].
  split; [eapply pack_out_layout|eapply pack_out_holds]; eassumption.
Qed.
Lemma by_name_fwd c w inp dinp doutp i d t : in_use op md io c w ->
  layout inp = declared input_kind io -> layout dinp = declared input_kind io -> layout doutp = declared output_kind io ->
  inputs_sized o i -> holds_inputs md inp i -> inputs_sized o d -> holds_inputs md dinp d ->
  get "time_final" doutp = Ok [t] ->
  match compute_jacvec_product_fwd op i d w with
  | (w', Ok out) => exists v, component_fwd op md inp dinp doutp w = (w', Ok v) /\ layout v = declared output_kind io /\
                    holds_outputs md v {| time_final := nadd t (time_final out); final := final out |}
  | (w', Err e) => component_fwd op md inp dinp doutp w = (w', Err e)
  end.
Proof.
  intros U L Ld Lo S H Sd Hd G. pose proof (in_use_wf c w U) as W.
  rewrite (component_fwd_eq inp dinp doutp i d t w W L Ld Lo S H Sd Hd G).
  destruct (compute_jacvec_product_fwd op i d w) as [w' [out|e]] eqn:E; [|reflexivity].
  pose proof (proj2 (out_sized out) (fwd_sized op Hsz _ _ _ _ _ W S Sd E)) as So.
  eexists. split; [reflexivity|].
  split; [eapply pack_out_layout|eapply pack_out_holds]; eassumption.
Qed.
Lemma by_name_rev c w inp dinp doutp i d t : in_use op md io c w ->
  layout inp = declared input_kind io -> layout dinp = declared input_kind io -> layout doutp = declared output_kind io ->
  inputs_sized o i -> holds_inputs md inp i -> outputs_sized o d -> holds_outputs md doutp d ->
  get "time_initial" dinp = Ok [t] ->
  match compute_jacvec_product_rev op i d w with
  | (w', Ok g) => exists v, component_rev op md inp dinp doutp w = (w', Ok v) /\ layout v = declared input_kind io /\
      holds_inputs md v {| time_initial := nadd t (time_initial g); initial := initial g; independent := independent g |}
  | (w', Err e) => component_rev op md inp dinp doutp w = (w', Err e)
  end.
Proof.
  intros U L Ld Lo S H Sd Hd G. pose proof (in_use_wf c w U) as W.
  rewrite (component_rev_eq inp dinp doutp i d t w W L Ld Lo S H Sd Hd G).
  destruct (compute_jacvec_product_rev op i d w) as [w' [g|e]] eqn:E; [|reflexivity].
  pose proof (proj2 (in_sized g) (rev_sized op Hsz _ _ _ _ _ W S Sd E)) as So.
  eexists. split; [reflexivity|].
  split; [eapply pack_in_layout|eapply pack_in_holds]; eassumption.
Qed.
End Calls.
