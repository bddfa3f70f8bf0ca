(** Calls by OpenMDAO over the reals: transposition, derivatives and steps by
    name. *)
From Coq Require Import String.
From Coq Require Import List Reals Lia Lra Bool Arith.
From Verif Require Import Base Ext M_Tableau M_State M_ODE M_Step M_Controller M_Measure M_Integrator
  M_Metadata M_Components M_Packing M_Component SpecRK SpecShape SpecDeriv SpecRun SpecComponents SpecPacking
  SpecComponent SpecConvergence L_Vec L_Step L_Deriv L_Generic L_Run L_Iter L_RunProps L_Components L_Metadata
  L_WholeR L_RunConvergence L_Packing L_Packing2 L_Packing3 L_Packing4 L_Packing5 L_Packing6 L_Packing7 L_Packing8
  L_Component L_Component2.
Import ListNotations.
Local Open Scope string_scope.
Local Open Scope R_scope.
Local Open Scope list_scope.

(** *** Inner products *)
Lemma vinner_app (a b c d : vec R) : length a = length c -> vinner (a ++ b) (c ++ d) = vinner a c + vinner b d.
Proof.
  unfold vinner. revert c; induction a as [|[n x] a IH]; intros [|[n' y] c] L; try discriminate; cbn [app inner]; [ring|].
  injection L as L. rewrite (IH c L). ring.
Qed.
Lemma vinner_maps {X} (nm nm' : quantity X -> string) (u w : list R) l :
  vinner (map (fun q => (nm q, part (q_array q) u)) l) (map (fun q => (nm' q, part (q_array q) w)) l)
  = lsum (map (fun q => dot (part (q_array q) u) (part (q_array q) w)) l).
Proof.
  unfold vinner. induction l as [|q l IH]; [reflexivity|]. cbn [map inner].
  change (lsum (?x :: ?y)) with (x + lsum y). now rewrite IH.
Qed.
Lemma dot_parts {X} (l : list (quantity X)) m (u w : list R) : laid_out 0 (map q_array l) m ->
  length u = m -> length w = m ->
  lsum (map (fun q => dot (part (q_array q) u) (part (q_array q) w)) l) = dot u w.
Proof.
  intros L Lu Lw. pose proof (dot_cuts _ _ _ u w (laid_out_lay _ _ _ L) Lu Lw) as D. cbn [skipn] in D.
  rewrite D, !map_map. reflexivity.
Qed.

Lemma zeros_get (v : vec R) n t : zeros v -> get n v = Ok [t] -> t = 0.
Proof.
  intros Z G. apply get_In in G. unfold zeros in Z. rewrite Forall_forall in Z. specialize (Z _ G). cbn in Z.
  now inversion Z.
Qed.

(** *** Where an entry of an array is *)
Lemma lay_find l : forall n m x, lay n l m -> (n <= x < m)%nat -> exists r, In r l /\ (fst r <= x < snd r)%nat.
Proof.
  induction l as [|[s e] l IH]; cbn [lay]; intros n m x L H; [lia|].
  destruct L as [(-> & He & L)|(-> & -> & L)].
  - destruct (Nat.lt_ge_cases x e); [exists (n, e); cbn; split; [auto|lia]|].
    destruct (IH e m x L) as (r & I & B); [lia|]. exists r. split; [right; exact I|exact B].
  - destruct (IH n m x L H) as (r & I & B). exists r. split; [right; exact I|exact B].
Qed.
Lemma curve_parts {X} (l : list (quantity X)) m del (Y : R -> list R) d : laid_out 0 (map q_array l) m ->
  0 < del -> (forall e, Rabs e < del -> length (Y e) = m) -> length d = m ->
  (forall q, In q l -> curve (fun e => part (q_array q) (Y e)) (part (q_array q) d)) -> curve Y d.
Proof.
  intros L D LY Ld H x. destruct (Nat.lt_ge_cases x m) as [Lt|Ge].
  - destruct (lay_find _ _ _ x (laid_out_lay _ _ _ L)) as (r & I & B); [lia|].
    rewrite map_map in I. apply in_map_iff in I as (q & <- & I). unfold rng in B. cbn [fst snd] in B.
    specialize (H q I (x - start_index (q_array q))%nat). rewrite vnth_part in H.
    assert (E : (x - start_index (q_array q) <? end_index (q_array q) - start_index (q_array q))%nat = true)
      by (apply Nat.ltb_lt; lia).
    rewrite E in H. replace (start_index (q_array q) + (x - start_index (q_array q)))%nat with x in H by lia.
    eapply derivable_ext; [|exact H]. intros e. cbn. rewrite vnth_part, E.
    now replace (start_index (q_array q) + (x - start_index (q_array q)))%nat with x by lia.
  - assert (O : forall z : list R, length z = m -> vnth x z = 0) by (intros z Lz; apply nth_overflow; lia).
    rewrite (O d Ld).
    apply (derivable_near del (fun _ => 0)); [exact D| |apply derivable_pt_lim_const].
    intros e He. now rewrite (O _ (LY e He)).
Qed.

Section Real.
Context {C : Type}.
Variables (procs rank : nat) (vs : list variable) (qs is : list string) (mds : list metadata) (md : metadata).
Variables (sz : string -> nat) (io : list (string * nat) * list (string * nat)).
Hypothesis Hmd : metadata_of procs vs qs is = Ok mds.
Hypothesis Hr : nth_error mds rank = Some md.
Hypothesis Hio : declare_all sz md = Ok io.
Let Lays := md_laid_out procs rank vs qs is mds md Hmd Hr.

Lemma inner_in (i j : inputs R) : in_ok md i -> in_ok md j -> vinner (pack_in md i) (pack_in md j) = dot_inputs i j.
Proof.
  intros (A1 & A2) (B1 & B2). unfold pack_in, dot_inputs.
  change (vinner ((?n, ?x) :: ?v) ((?n', ?y) :: ?w)) with (dot x y + vinner v w).
  rewrite vinner_app by (now rewrite !map_length). rewrite !vinner_maps.
  rewrite (dot_parts _ _ _ _ (proj1 Lays) A1 B1), (dot_parts _ _ _ _ (proj2 Lays) A2 B2). cbn [dot]. ring.
Qed.
Lemma inner_out (d e : outputs R) : out_ok md d -> out_ok md e -> vinner (pack_out md d) (pack_out md e) = dot_outputs d e.
Proof.
  intros A B. unfold pack_out, dot_outputs.
  change (vinner ((?n, ?x) :: ?v) ((?n', ?y) :: ?w)) with (dot x y + vinner v w).
  rewrite !vinner_maps. rewrite (dot_parts _ _ _ _ (proj1 Lays) A B). cbn [dot]. ring.
Qed.

Variables (pb : problem R) (st : om_state R) (norm : ode_out R -> R).
Hypothesis Hk : keeps_layout pb.
Variable op : options R C.
Hypothesis Ho : o_ode op = openmdao_ode pb md st norm.

Lemma om_sized : sized_ode (o_ode op).
Proof.
  rewrite Ho. split; [|split].
  - eapply c39_result_sizes; eauto.
  - eapply c39_derivative_sizes; eauto.
  - eapply c39_adjoint_sizes; eauto.
Qed.
Lemma om_n : state_size (o_ode op) = time_integration_array_size md.
Proof. now rewrite Ho. Qed.
Lemma om_i : independent_input_size (o_ode op) = time_independent_input_size md.
Proof. now rewrite Ho. Qed.

Notation vinp := (inputs_of_vector procs rank vs qs is mds md sz io Hmd Hr Hio).
Notation vout := (outputs_of_vector procs rank vs qs is mds md sz io Hmd Hr Hio).

(** *** Transposition *)
Lemma by_name_transposed c1 c2 w1 w2 inp dinp doutp zo zi outp w1' dout w2' v w3 din :
  solves_transposed pb -> well_formed st -> distinct_sources pb md -> distinct_outputs md -> scalar_time pb md st ->
  tableau_wf (o_bt op) -> o_ckpt op = AllCheckpointer ->
  in_use op md io c1 w1 -> in_use op md io c2 w2 -> ctl w1 = ctl w2 ->
  layout inp = declared input_kind io -> layout dinp = declared input_kind io ->
  layout doutp = declared output_kind io -> layout outp = declared output_kind io ->
  layout zo = declared output_kind io -> layout zi = declared input_kind io -> zeros zo -> zeros zi ->
  component_fwd op md inp dinp zo w1 = (w1', Ok dout) ->
  component_compute op md inp outp w2 = (w2', Ok v) ->
  component_rev op md inp zi doutp w2' = (w3, Ok din) ->
  vinner doutp dout = vinner din dinp.
Proof.
  intros Tr Wf Ds Do Sc Wt Ck U1 U2 Ec L1 L2 L3 L4 Lo Li Zo Zi E1 E2 E3.
  pose proof om_sized as Hsz. pose proof om_n as Hn. pose proof om_i as Hi.
  destruct (vinp inp L1) as (i & Si & HI). destruct (vinp dinp L2) as (d & Sd & Hd). destruct (vout doutp L3) as (x & Sx & Hx).
  pose proof (proj1 (in_sized md op Hn Hi i) Si) as Si'. pose proof (proj1 (in_sized md op Hn Hi d) Sd) as Sd'.
  pose proof (proj1 (out_sized md op Hn x) Sx) as Sx'.
  destruct (scalar_get md sz io Hio _ zo _ Lo (time_final_declared md sz io Hio)) as (t & Gt).
  destruct (scalar_get md sz io Hio _ zi _ Li (time_initial_declared md sz io Hio)) as (u & Gu).
  pose proof (zeros_get _ _ _ Zo Gt) as ->. pose proof (zeros_get _ _ _ Zi Gu) as ->.
  pose proof (in_use_wf procs rank vs qs is mds md sz io Hmd Hr Hio op Hn Hi Hsz _ _ U1) as W1.
  pose proof (in_use_wf procs rank vs qs is mds md sz io Hmd Hr Hio op Hn Hi Hsz _ _ U2) as W2.
  rewrite (component_fwd_eq procs rank vs qs is mds md sz io Hmd Hr Hio op Hn Hi Hsz inp dinp zo i d 0 w1 W1 L1 L2 Lo Si' HI Sd' Hd Gt) in E1.
  destruct (compute_jacvec_product_fwd op i d w1) as [wa [r1|]] eqn:F1; [|discriminate]. injection E1 as <- <-.
  rewrite (component_compute_eq procs rank vs qs is mds md sz io Hmd Hr Hio op Hn Hi Hsz inp outp i w2 W2 L1 L4 Si' HI) in E2.
  destruct (compute op i w2) as [wb [r2|]] eqn:F2; [|discriminate]. injection E2 as <- <-.
  assert (Wb : wf op wb). { pose proof (wf_compute op Hsz i w2 W2 Si') as Q. rewrite F2 in Q. exact Q. }
  rewrite (component_rev_eq procs rank vs qs is mds md sz io Hmd Hr Hio op Hn Hi Hsz inp zi doutp i x 0 wb Wb L1 Li L3 Si' HI Sx' Hx Gu) in E3.
  destruct (compute_jacvec_product_rev op i x wb) as [wc [g|]] eqn:F3; [|discriminate]. injection E3 as <- <-.
  pose proof (proj2 (out_sized md op Hn r1) (fwd_sized op Hsz _ _ _ _ _ W1 Si' Sd' F1)) as S1.
  pose proof (proj2 (in_sized md op Hn Hi g) (rev_sized op Hsz _ _ _ _ _ Wb Si' Sx' F3)) as S3.
  rewrite (holds_pack_out procs rank vs qs is mds md sz io Hmd Hr Hio doutp x L3 Sx Hx).
  rewrite (holds_pack_in procs rank vs qs is mds md sz io Hmd Hr Hio dinp d L2 Sd Hd).
  rewrite inner_out by assumption. rewrite inner_in by assumption.
  destruct (in_use_reachable procs rank vs qs is mds md sz io Hmd Hr Hio op Hn Hi Hsz _ _ U1) as (h1 & Fh1 & ->).
  destruct (in_use_reachable procs rank vs qs is mds md sz io Hmd Hr Hio op Hn Hi Hsz _ _ U2) as (h2 & Fh2 & ->).
  pose proof (c39_integrator procs rank vs qs is mds md pb st norm Hmd Hr Hk Tr Wf Ds Do Sc C op c1 c2 h1 h2 i d x wa r1 wb r2 wc g
    Ho Wt Ck Fh1 Fh2 Si' Sd' Sx' Ec F1 F2 F3) as Q.
  unfold dot_outputs, dot_inputs in *. cbn [time_final final time_initial initial independent].
  change (@nadd R RNum) with Rplus. rewrite !Rplus_0_l. exact Q.
Qed.

(** *** Derivatives *)
Lemma look_vnth n m (v : vec R) x : get n v = Ok x -> look n m v = vnth m x.
Proof. intros G. now rewrite (look_get _ _ _ _ G). Qed.

Lemma by_name_derivative n del (I : R -> vec R) dinp c w w' out outp zo w0 w0' dout :
  problem_differentiable (source_names pb md) pb -> well_formed st -> distinct_sources pb md -> scalar_time pb md st ->
  tableau_wf (o_bt op) -> o_adaptive op = false -> o_crit op = PredefinedNumberOfSteps n -> loops op -> 0 < del ->
  (forall e, Rabs e < del -> in_use op md io c (w e) /\ layout (I e) = declared input_kind io /\
     layout (outp e) = declared output_kind io /\
     component_compute op md (I e) (outp e) (w e) = (w' e, Ok (out e))) ->
  in_use op md io c w0 -> layout dinp = declared input_kind io -> vec_curve I dinp ->
  layout zo = declared output_kind io -> zeros zo ->
  component_fwd op md (I 0) dinp zo w0 = (w0', Ok dout) ->
  vec_curve out dout.
Proof.
  intros Df Wf Ds Sc Wt Ad Cr Lp Del H U0 L2 VC Lo Zo E1.
  pose proof om_sized as Hsz. pose proof om_n as Hn. pose proof om_i as Hi.
  set (s0 := create_empty_discretization_state (o_bt op) (o_ode op)).
  assert (B0 : Rabs 0 < del) by (rewrite Rabs_R0; exact Del).
  set (J := fun e => match read_inputs md (I e) s0 with Ok i => i
                     | Err _ => {| time_initial := 0; initial := []; independent := [] |} end).
  assert (HJ : forall e, Rabs e < del -> inputs_sized (o_ode op) (J e) /\ holds_inputs md (I e) (J e)).
  { intros e He. destruct (H e He) as (_ & Le & _). destruct (vinp (I e) Le) as (i & Si & HI).
    apply (in_sized md op Hn Hi) in Si.
    unfold J, s0. rewrite (read_empty procs rank vs qs is mds md sz io Hmd Hr Hio op Hn Hi (I e) i Le Si HI). auto. }
  destruct (vinp dinp L2) as (d & Sd & Hd). pose proof (proj1 (in_sized md op Hn Hi d) Sd) as Sd'.
  set (K := fun e => compute op (J e) (w e)).
  set (r := fun e => match snd (K e) with Ok x => x | Err _ => {| time_final := 0; final := [] |} end).
  assert (HK : forall e, Rabs e < del -> reachable op c (w e) /\ inputs_sized (o_ode op) (J e) /\
     compute op (J e) (w e) = (w' e, Ok (r e)) /\ out e = pack_out md (r e) /\ out_ok md (r e)).
  { intros e He. destruct (H e He) as (Ue & Le & Lo' & Ee). destruct (HJ e He) as (Se & He').
    pose proof (in_use_wf procs rank vs qs is mds md sz io Hmd Hr Hio op Hn Hi Hsz _ _ Ue) as We.
    rewrite (component_compute_eq procs rank vs qs is mds md sz io Hmd Hr Hio op Hn Hi Hsz (I e) (outp e) (J e) (w e) We Le Lo' Se He') in Ee.
    unfold r, K. destruct (compute op (J e) (w e)) as [wa [x|]] eqn:F; [|discriminate]. injection Ee as <- <-. cbn [snd].
    split; [eapply in_use_reachable; eauto|]. split; [exact Se|]. split; [reflexivity|]. split; [reflexivity|].
    apply (out_sized md op Hn). eapply compute_sized; eauto. }
  pose proof (in_use_wf procs rank vs qs is mds md sz io Hmd Hr Hio op Hn Hi Hsz _ _ U0) as W0.
  destruct (scalar_get md sz io Hio _ zo _ Lo (time_final_declared md sz io Hio)) as (t & Gt).
  pose proof (zeros_get _ _ _ Zo Gt) as ->.
  destruct (H 0 B0) as (_ & L0 & _). destruct (HJ 0 B0) as (S0 & H0).
  rewrite (component_fwd_eq procs rank vs qs is mds md sz io Hmd Hr Hio op Hn Hi Hsz (I 0) dinp zo (J 0) d 0 w0 W0 L0 L2 Lo S0 H0 Sd' Hd Gt) in E1.
  destruct (compute_jacvec_product_fwd op (J 0) d w0) as [wa [x|]] eqn:F; [|discriminate]. injection E1 as <- <-.
  pose proof (proj2 (out_sized md op Hn x) (fwd_sized op Hsz _ _ _ _ _ W0 S0 Sd' F)) as Sx.
  destruct Sd as (Sd1 & Sd2).
  assert (C1 : curve (fun e => initial (J e)) (initial d)).
  { apply (curve_parts (time_integration_quantities md) (time_integration_array_size md) del); auto.
    - apply Lays.
    - intros e He. destruct (HJ e He) as ((Q & _) & _). now rewrite <- Hn.
    - intros q Iq m. destruct Hd as (_ & Hd & _). rewrite <- (look_vnth _ _ _ _ (Hd q Iq)).
      apply (derivable_near del (fun e => look (q_name q ++ "_initial")%string m (I e))); [exact Del| |apply VC].
      intros e He. destruct (HJ e He) as (_ & _ & Q & _). now rewrite (look_vnth _ _ _ _ (Q q Iq)). }
  assert (C2 : curve (fun e => independent (J e)) (independent d)).
  { apply (curve_parts (time_independent_quantities md) (time_independent_input_size md) del); auto.
    - apply Lays.
    - intros e He. destruct (HJ e He) as ((_ & Q) & _). now rewrite <- Hi.
    - intros q Iq m. destruct Hd as (_ & _ & Hd). rewrite <- (look_vnth _ _ _ _ (Hd q Iq)).
      apply (derivable_near del (fun e => look (q_name q) m (I e))); [exact Del| |apply VC].
      intros e He. destruct (HJ e He) as (_ & _ & _ & Q). now rewrite (look_vnth _ _ _ _ (Q q Iq)). }
  assert (C3 : derivable_pt_lim (fun e => time_initial (J e)) 0 (time_initial d)).
  { destruct Hd as (Hd & _). change (time_initial d) with (vnth 0 [time_initial d]). rewrite <- (look_vnth _ _ _ _ Hd).
    apply (derivable_near del (fun e => look "time_initial" 0 (I e))); [exact Del| |apply VC].
    intros e He. destruct (HJ e He) as (_ & Q & _). now rewrite (look_vnth _ _ _ _ Q). }
  assert (Z4 : ode_differentiable (o_ode op)) by (rewrite Ho; eapply c39_differentiable; eauto).
  destruct (whole_derivative op n del J d c w w' r w0 wa x Wt Hsz Z4 Ad Cr Lp Del
    (fun e He => match HK e He with conj A (conj B (conj D _)) => conj A (conj B D) end)
    (in_use_reachable procs rank vs qs is mds md sz io Hmd Hr Hio op Hn Hi Hsz _ _ U0) Sd' C1 C2 C3 F) as (V1 & V2).
  intros nm m. cbn [time_final final].
  assert (X : forall y : outputs R, out_ok md y -> look nm m (pack_out md y) =
    match find (fun q => String.eqb nm (io_name output_kind q)) (time_integration_quantities md) with
    | Some q => if String.eqb nm "time_final" then vnth m [time_final y] else vnth m (part (q_array q) (final y))
    | None => if String.eqb nm "time_final" then vnth m [time_final y] else 0 end).
  { intros y _. unfold look, pack_out. cbn [get]. destruct (String.eqb nm "time_final").
    - destruct (find _ _); reflexivity.
    - generalize (time_integration_quantities md). intros ql. induction ql as [|q l IH]; [reflexivity|]. cbn [map get find].
      destruct (String.eqb nm (io_name output_kind q)); [reflexivity|exact IH]. }
  rewrite X by exact Sx. cbn [time_final final]. change (@nadd R RNum) with Rplus. rewrite !Rplus_0_l.
  apply (derivable_near del (fun e => look nm m (pack_out md (r e)))); [exact Del| |].
  { intros e He. destruct (HK e He) as (_ & _ & _ & -> & _). reflexivity. }
  set (fq := find (fun q => String.eqb nm (io_name output_kind q)) (time_integration_quantities md)) in *.
  apply (derivable_near del (fun e => match fq with
    | Some q => if String.eqb nm "time_final" then vnth m [time_final (r e)] else vnth m (part (q_array q) (final (r e)))
    | None => if String.eqb nm "time_final" then vnth m [time_final (r e)] else 0 end)); [exact Del| |].
  { intros e He. destruct (HK e He) as (_ & _ & _ & _ & Q). now rewrite (X (r e) Q). }
  assert (Y : derivable_pt_lim (fun e => vnth m [time_final (r e)]) 0 (vnth m [time_final x])).
  { destruct m as [|m]; [exact V2|].
    change (derivable_pt_lim (fun e => nth m [] 0) 0 (nth m [] 0)). destruct m; apply derivable_pt_lim_const. }
  destruct fq as [q|]; destruct (String.eqb nm "time_final"); try exact Y.
  - apply (part_curve (q_array q) (fun e => final (r e)) (final x) V1).
  - apply derivable_pt_lim_const.
Qed.

(** *** Steps *)
Lemma implements_solves f : implements pb md f -> distinct_sources pb md -> scalar_time pb md st ->
  solves_stage_equation (o_ode op) (state_size (o_ode op)) f.
Proof.
  intros Im Ds Sc inp h a r lp S1 S2 E. rewrite Ho in *. cbn [openmdao_ode state_size compute_update] in *.
  destruct (_ && _)%bool eqn:Q; [|discriminate].
  apply andb_prop in Q as (Q & Q3). apply andb_prop in Q as (_ & _). apply Nat.eqb_eq in Q3.
  apply bind_pair_ok in E as (st' & r' & E & Er). injection Er as ->.
  unfold om_compute_update in E. apply bind_ok in E as (v & Ev & E).
  apply bind_pair_ok in E as (i' & o' & En & E). apply bind_ok in E as (upd & Eu & [= <- <- <-]). cbn [stage_update].
  rewrite S1 in Eu.
  destruct (c25_ode_placed procs rank vs qs is mds md pb Hmd Hr inp 1 (om_out st) v Ds (fun tv s x A B D => Sc tv s x A B D) S1 S2 Q3 Ev)
    as (_ & P1 & P2 & P3 & _).
  destruct (c25_ode_read procs rank vs qs is mds md Hmd Hr o' upd Eu) as (Lu & P4).
  assert (M1 : forall l : list R, map (Rmult 1) l = l).
  { intros l. rewrite <- (map_id l) at 2. apply map_ext. intros; ring. }
  apply (Im h a (om_in st) v i' o' (time inp) (M_ODE.step_input inp) (stage_input inp) (independent_input inp) upd S1 S2 Q3 Lu).
  - intros tv Htv. destruct (P1 tv Htv) as (s & A & B). exists s. split; [exact A|]. now rewrite Rmult_1_l in B.
  - intros q sv Iq El Es. destruct (P2 q sv Iq El Es) as (s & s' & A & B & D & F). rewrite M1 in B, F. exists s, s'. auto.
  - intros q Iq El. destruct (P3 q Iq El) as (s & A & B). rewrite M1 in B. exists s. auto.
  - exact En.
  - exact P4.
Qed.

Lemma by_name_steps f c w inp outp w' v :
  implements pb md f -> distinct_sources pb md -> scalar_time pb md st ->
  tableau_wf (o_bt op) -> is_implicit (o_bt op) = false -> loops op ->
  in_use op md io c w -> layout inp = declared input_kind io -> layout outp = declared output_kind io ->
  component_compute op md inp outp w = (w', Ok v) ->
  exists i out hs, inputs_sized (o_ode op) i /\ holds_inputs md inp i /\
    outputs_sized (o_ode op) out /\ holds_outputs md v out /\ layout v = declared output_kind io /\
    rk_steps (t_stages (o_bt op)) (state_size (o_ode op)) (entry (t_A (o_bt op)))
      (fun k => vnth k (t_b (o_bt op))) (fun k => vnth k (t_c (o_bt op)))
      (fun t y => f t (independent i) y) (time_initial i) (initial i) hs (final out) /\
    time_final out = time_initial i + covered hs /\
    (o_adaptive op = false -> hs = repeat (o_step op) (length hs)).
Proof.
  intros Im Ds Sc Wt Ex Lp U L1 L2 E.
  pose proof om_sized as Hsz. pose proof om_n as Hn. pose proof om_i as Hi.
  destruct (vinp inp L1) as (i & Si & HI). pose proof (proj1 (in_sized md op Hn Hi i) Si) as Si'.
  pose proof (in_use_wf procs rank vs qs is mds md sz io Hmd Hr Hio op Hn Hi Hsz _ _ U) as W.
  rewrite (component_compute_eq procs rank vs qs is mds md sz io Hmd Hr Hio op Hn Hi Hsz inp outp i w W L1 L2 Si' HI) in E.
  destruct (compute op i w) as [wb [out|]] eqn:F; [|discriminate]. injection E as <- <-.
  pose proof (compute_sized op Hsz _ _ _ _ W Si' F) as So. pose proof (proj2 (out_sized md op Hn out) So) as So'.
  destruct (run_steps op f Wt Ex Hsz (implements_solves f Im Ds Sc) c w i wb out Lp
    (in_use_reachable procs rank vs qs is mds md sz io Hmd Hr Hio op Hn Hi Hsz _ _ U) Si' F)
    as (a & l & _ & _ & _ & _ & R1 & R2 & R3).
  exists i, out, (map (fun x => step_size (disc x)) l). split; [exact Si'|]. split; [exact HI|]. split; [exact So|].
  split; [eapply pack_out_holds; eauto|]. split; [eapply pack_out_layout; eauto|].
  split; [exact R1|]. split; [exact R2|]. intros A. rewrite map_length. exact (R3 A).
Qed.
End Real.
