(** C53: results of the OpenMDAO-backed ODE do not depend on earlier calls. *)
From Coq Require Import String.
From Coq Require Import List Bool Arith Reals Lia Lra.
From Verif Require Import Base Ext M_ODE M_Metadata M_Components SpecMetadata SpecRK SpecDeriv SpecComponents
  M_Packing SpecPacking L_Vec L_Components L_Metadata L_Metadata2 L_Packing L_Packing2 L_Packing3 L_Packing4 L_Packing5.
Import ListNotations.
Local Open Scope string_scope.
Local Open Scope R_scope.
Local Open Scope list_scope.

Section Same.
Context {T : Type} {N : Num T}.

Lemma refill_same (v : vec T) : forall w x, layout v = layout w -> refill v x = refill w x.
Proof.
  induction v as [|[n a] v IH]; intros [|[m b] w] x L; try discriminate; [reflexivity|].
  injection L as <- La L. cbn [refill]. rewrite La. f_equal. apply IH, L.
Qed.
Lemma assign_flat_same (v w : vec T) x : layout v = layout w -> assign_flat v x = assign_flat w x.
Proof. intros L. unfold assign_flat. rewrite (flat_length _ _ L), (refill_same _ _ x L). reflexivity. Qed.
Lemma set_point_same lp (st st' : om_state T) : same_layout st st' ->
  match set_linearization_point lp st, set_linearization_point lp st' with
  | Ok s, Ok s' => om_in s = om_in s' /\ om_out s = om_out s' /\ om_dout s = om_dout st /\ om_dres s = om_dres st /\
                   om_dout s' = om_dout st' /\ om_dres s' = om_dres st'
  | Err e, Err e' => e = e' | _, _ => False end.
Proof.
  intros (L1 & L2 & _). unfold set_linearization_point.
  rewrite (flat_length _ _ L1), (assign_flat_same _ _ (firstn _ lp) L1), (assign_flat_same _ _ (skipn _ lp) L2).
  destruct (assign_flat (om_in st') _); cbn [bind]; [|reflexivity].
  destruct (assign_flat (om_out st') _); cbn [bind]; [|reflexivity]. cbn; repeat split.
Qed.

Lemma assign_same n x (v : vec T) : forall v', layout v = layout v' ->
  match assign n x v, assign n x v' with
  | Ok w, Ok w' => layout w = layout w' /\ get n w = get n w' /\
      forall m, m <> n -> get m w = get m v /\ get m w' = get m v'
  | Err e, Err e' => e = e' | _, _ => False end.
Proof.
  unfold assign. induction v as [|[k a] v IH]; intros [|[k' b] v'] L; try discriminate; [reflexivity|].
  injection L as <- La L. cbn [update]. destruct (String.eqb n k) eqn:E.
  - rewrite La. destruct (_ =? _)%nat; cbn [bind]; [|reflexivity]. apply String.eqb_eq in E; subst k.
    unfold layout; cbn [map get fst snd]. rewrite String.eqb_refl. split; [f_equal; exact L|]. split; [reflexivity|].
    intros m Hm. apply String.eqb_neq in Hm. rewrite Hm. auto.
  - specialize (IH _ L). destruct (update _ n x v), (update _ n x v'); cbn [bind]; try contradiction; [|exact IH].
    destruct IH as (A & B & C). unfold layout in *; cbn [map get fst snd]. rewrite E, La.
    split; [f_equal; exact A|]. split; [exact B|]. intros m Hm. destruct (String.eqb m k); auto.
Qed.
Lemma run_plan_same p : forall (v v' : vec T) S, layout v = layout v' -> (forall n, In n S -> get n v = get n v') ->
  match run_plan p v, run_plan p v' with
  | Ok w, Ok w' => layout w = layout w' /\
      forall n, In n S \/ (exists W, p = map Ok W /\ In n (map fst W)) -> get n w = get n w'
  | Err e, Err e' => e = e' | _, _ => False end.
Proof.
  induction p as [|x p IH]; intros v v' S L A; unfold run_plan; cbn [scan].
  - split; [exact L|]. intros n [I|(W & E & I)]; [auto|]. destruct W; [contradiction|discriminate].
  - destruct x as [[n x]|e]; cbn [bind fst snd]; [|reflexivity].
    pose proof (assign_same n x v v' L) as H. destruct (assign n x v) as [w|], (assign n x v') as [w'|]; cbn [bind];
      try contradiction; [|exact H].
    destruct H as (H1 & H2 & H3). 
    assert (A' : forall m, In m (n :: S) -> get m w = get m w').
    { intros m I. destruct (string_dec m n) as [->|D]; [exact H2|]. destruct (H3 m D) as (-> & ->).
      apply A. destruct I as [I|I]; [congruence|exact I]. }
    specialize (IH w w' (n :: S) H1 A'). unfold run_plan in IH.
    destruct (scan _ w p), (scan _ w' p); try contradiction; [|exact IH].
    destruct IH as (B1 & B2). split; [exact B1|]. intros m [I|(W & E & I)]; [apply B2; left; now right|].
    destruct W as [|[n' y] W]; [discriminate|]. cbn in E. injection E as <- <- E.
    cbn in I. apply B2. destruct I as [<-|I]; [left; now left|right; eauto].
Qed.
End Same.

Lemma zeroed_same (v : vec R) : forall w, layout v = layout w -> zeroed v = zeroed w.
Proof.
  induction v as [|[n a] v IH]; intros [|[m b] w] L; try discriminate; [reflexivity|].
  injection L as <- La L. unfold zeroed; cbn [map fst snd]. f_equal; [|apply IH, L]. f_equal.
  clear IH L. revert b La; induction a as [|x a IH]; intros [|y b] La; try discriminate; [reflexivity|].
  cbn [map]. f_equal; [cbn; ring|]. apply IH. now injection La.
Qed.

Section C53.
Variables (procs rank : nat) (vs : list variable) (qs is : list string) (mds : list metadata) (md : metadata).
Variables (pb : problem R) (norm : ode_out R -> R).
Hypothesis Hmd : metadata_of procs vs qs is = Ok mds.
Hypothesis Hr : nth_error mds rank = Some md.

Let Lt := proj1 (md_laid_out _ _ _ _ _ _ _ Hmd Hr).
Let Li := proj2 (md_laid_out _ _ _ _ _ _ _ Hmd Hr).

Lemma c53_derivative_same (st st' : om_state R) : guess_free pb -> same_layout st st' ->
  forall lp d h a, compute_update_derivative (openmdao_ode pb md st norm) lp d h a
                 = compute_update_derivative (openmdao_ode pb md st' norm) lp d h a.
Proof.
  intros (G & _) S lp d h a. cbn [compute_update_derivative openmdao_ode]. destruct (_ && _); [|reflexivity].
  unfold om_derivative. pose proof (set_point_same lp _ _ S) as P. destruct S as (L1 & L2 & L3 & L4).
  destruct (set_linearization_point lp st) as [s|], (set_linearization_point lp st') as [s'|]; try contradiction;
    [|cbn; now rewrite P].
  destruct P as (E1 & E2 & E3 & E4 & E5 & E6). cbn [bind]. rewrite E4, E6, (zeroed_same _ _ L4).
  destruct (input_state_to_om_vector _ _ _ _ _) as [r|]; cbn [bind]; [|reflexivity].
  rewrite <- E1, <- E2, E3, E5.
  specialize (G h a (om_in s) (om_out s) _ _ r L3).
  destruct (p_linear_fwd _ _ _ _ _ (om_dout st) _) as [[x r1]|],
           (p_linear_fwd _ _ _ _ _ (om_dout st') _) as [[x' r1']|]; cbn [bind]; try contradiction.
  - subst x'. destruct (om_vector_to_output_state _ _ _); reflexivity.
  - now rewrite G.
Qed.
Lemma c53_adjoint_same (st st' : om_state R) : guess_free pb -> same_layout st st' ->
  forall lp w h a, compute_update_adjoint_derivative (openmdao_ode pb md st norm) lp w h a
                 = compute_update_adjoint_derivative (openmdao_ode pb md st' norm) lp w h a.
Proof.
  intros (_ & G) S lp w h a. cbn [compute_update_adjoint_derivative openmdao_ode].
  destruct (_ =? _)%nat; [|reflexivity].
  unfold om_adjoint. pose proof (set_point_same lp _ _ S) as P. destruct S as (L1 & L2 & L3 & L4).
  destruct (set_linearization_point lp st) as [s|], (set_linearization_point lp st') as [s'|]; try contradiction;
    [|cbn; now rewrite P].
  destruct P as (E1 & E2 & E3 & E4 & E5 & E6). cbn [bind]. rewrite E3, E5, (zeroed_same _ _ L3).
  destruct (output_state_to_om_vector _ _ _ _) as [r|]; cbn [bind]; [|reflexivity].
  rewrite <- E1, <- E2, E4, E6.
  specialize (G h a (om_in s) (om_out s) r _ _ L4).
  destruct (p_linear_rev _ _ _ _ _ _ (om_dres st)) as [[x r1]|],
           (p_linear_rev _ _ _ _ _ _ (om_dres st')) as [[x' r1']|]; cbn [bind]; try contradiction.
  - subst r1'. destruct (om_vector_to_input_state _ _ _ _); reflexivity.
  - now rewrite G.
Qed.
Lemma c53_update_same (st st' : om_state R) : start_free (source_names pb md) pb -> scalar_time pb md st ->
  same_layout st st' ->
  forall inp h a, compute_update (openmdao_ode pb md st norm) inp h a
                = compute_update (openmdao_ode pb md st' norm) inp h a.
Proof.
  intros F Sc (L1 & L2 & L3 & L4) inp h a. cbn [compute_update openmdao_ode].
  destruct (_ && _) eqn:Z; [|reflexivity].
  apply andb_prop in Z as (Z & Z3). apply andb_prop in Z as (Z1 & Z2). apply Nat.eqb_eq in Z1, Z2, Z3.
  assert (Z : sized_in md inp) by (repeat split; assumption). clear Z1 Z2 Z3.
  assert (Sc' : scalar pb md (om_out st')) by (eapply scalar_layout; [|exact Sc]; symmetry; exact L2).
  unfold om_compute_update.
  rewrite (input_is_plan pb md inp n1 (om_out st)) by exact Sc. rewrite (input_is_plan pb md inp n1 (om_out st')) by exact Sc'.
  pose proof (run_plan_same (input_plan pb md inp n1) _ _ [] L2 (fun n I => False_ind _ I)) as P.
  destruct (run_plan _ (om_out st)) as [v|] eqn:E, (run_plan _ (om_out st')) as [v'|]; try contradiction;
    [|cbn; now rewrite P].
  cbn [bind]. destruct P as (P1 & P2).
  rewrite (F h a (om_in st) v (om_in st') v' L1 P1).
  - destruct (p_nonlinear _ _ _ _ _) as [[i o]|]; cbn [bind]; [|reflexivity].
    destruct (om_vector_to_output_state _ _ _); reflexivity.
  - intros n I. apply P2. right.
    assert (E' : input_state_to_om_vector pb md inp n1 (om_out st) = Ok v) by (rewrite input_is_plan by exact Sc; exact E).
    destruct (run_plan_inv _ _ _ E) as (W & PW & HW). exists W. split; [exact PW|].
    destruct (input_writes pb md Lt Li _ _ _ _ Sc Z E') as (L & RL & _).
    rewrite <- (resolved_names _ _ _ RL) in I.
    unfold planned in PW. rewrite (input_plan_sels pb md Lt Li) in PW by assumption.
    apply resolved_plan in PW as (L' & RL' & ->). rewrite (resolved_unique _ _ _ _ RL RL') in I.
    unfold assignments. rewrite map_map. exact I.
Qed.

Lemma c53_history (st st' : om_state R) : keeps_layout pb -> guess_free pb -> history pb md st st' ->
  (forall lp d h a, compute_update_derivative (openmdao_ode pb md st' norm) lp d h a
                  = compute_update_derivative (openmdao_ode pb md st norm) lp d h a) /\
  (forall lp w h a, compute_update_adjoint_derivative (openmdao_ode pb md st' norm) lp w h a
                  = compute_update_adjoint_derivative (openmdao_ode pb md st norm) lp w h a).
Proof.
  intros K G H. pose proof (history_layout _ _ _ _ K H) as L.
  split; intros; [apply c53_derivative_same|apply c53_adjoint_same]; assumption.
Qed.
Lemma c53_history_update (st st' : om_state R) : keeps_layout pb -> start_free (source_names pb md) pb ->
  scalar_time pb md st -> history pb md st st' ->
  forall inp h a, compute_update (openmdao_ode pb md st' norm) inp h a
                = compute_update (openmdao_ode pb md st norm) inp h a.
Proof.
  intros K F Sc H inp h a. pose proof (history_layout _ _ _ _ K H) as L. symmetry. apply c53_update_same; auto.
  destruct L as (A & B & C & D). repeat split; symmetry; assumption.
Qed.
End C53.

(** *** C25 for the ODE: what is written where *)
Section Placed.
Variables (procs rank : nat) (vs : list variable) (qs is : list string) (mds : list metadata) (md : metadata).
Variables (pb : problem R).
Hypothesis Hmd : metadata_of procs vs qs is = Ok mds.
Hypothesis Hr : nth_error mds rank = Some md.

Let Lt := proj1 (md_laid_out _ _ _ _ _ _ _ Hmd Hr).
Let Li := proj2 (md_laid_out _ _ _ _ _ _ _ Hmd Hr).

Lemma resolved_in L n g : resolved pb md L -> In (n, g) (sels md) -> exists s, source_of pb n = Ok s /\ In (s, g) L.
Proof.
  unfold resolved. revert L. induction (sels md) as [|[n' g'] l IH]; intros [|p L] Rs I; cbn in Rs; try discriminate; [contradiction|].
  destruct (source_of pb n') as [s|] eqn:E; [|discriminate]. cbn in Rs. injection Rs as <- Rs.
  destruct I as [[= -> ->]|I]; [exists s; split; [exact E|left; reflexivity]|].
  destruct (IH _ Rs I) as (s' & E' & I'). exists s'. split; [exact E'|right; exact I'].
Qed.

Lemma c25_ode_placed inp f (v v' : vec R) : distinct_sources pb md ->
  (forall tv s x, time_variable md = Some tv -> p_source pb tv = Ok s -> get s v = Ok x -> length x = 1%nat) ->
  length (M_ODE.step_input inp) = time_integration_array_size md ->
  length (stage_input inp) = time_integration_array_size md ->
  length (independent_input inp) = time_independent_input_size md ->
  input_state_to_om_vector pb md inp f v = Ok v' ->
  layout v' = layout v /\
  (forall tv, time_variable md = Some tv -> exists s, p_source pb tv = Ok s /\ get s v' = Ok [f * time inp]) /\
  (forall q sv, In q (time_integration_quantities md) -> local (q_array q) = true ->
     step_input_var (q_translation q) = Some sv ->
     exists s s', p_source pb sv = Ok s /\ get s v' = Ok (map (Rmult f) (part (q_array q) (M_ODE.step_input inp))) /\
       source_of pb (accumulated_stage_var (q_translation q)) = Ok s' /\
       get s' v' = Ok (map (Rmult f) (part (q_array q) (stage_input inp)))) /\
  (forall q, In q (time_independent_quantities md) -> local (q_array q) = true ->
     exists s, source_of pb (q_translation q) = Ok s /\
       get s v' = Ok (map (Rmult f) (part (q_array q) (independent_input inp)))) /\
  (forall n, ~ In n (source_names pb md) -> get n v' = get n v).
Proof.
  intros Ds Sc S1 S2 S3 H. assert (Z : sized_in md inp) by (repeat split; assumption).
  split; [exact (put_input_layout _ _ _ _ _ _ H)|].
  destruct (input_writes pb md Lt Li _ _ _ _ Sc Z H) as (L & Rs & W).
  pose proof (resolved_nodup _ _ _ Rs Ds) as ND. pose proof (resolved_names _ _ _ Rs) as Nm.
  apply writes_inv in W as (_ & A & B & _).
  assert (En : map fst (assignments L inp f) = map fst L) by (unfold assignments; rewrite map_map; reflexivity).
  rewrite En in *.
  assert (X : forall n g, In (n, g) (sels md) -> exists s, source_of pb n = Ok s /\ get s v' = Ok (map (Rmult f) (g inp))).
  { intros n g I. destruct (resolved_in _ _ _ Rs I) as (s & Es & Is). exists s. split; [exact Es|].
    apply A; [exact ND|]. unfold assignments. apply in_map_iff. exists (s, g). split; [reflexivity|exact Is]. }
  split; [|split; [|split]].
  - intros tv Et. apply (X (Some tv) (fun i => [time i])). unfold sels, time_sels. rewrite Et. left; reflexivity.
  - intros q sv Iq El Ev.
    destruct (X (Some sv) (fun i => part (q_array q) (M_ODE.step_input i))) as (s & Es & G).
    { unfold sels. rewrite !in_app_iff. right; left. apply in_flat_map. exists q. split; [exact Iq|].
      unfold ti_sels. rewrite El, Ev. left; reflexivity. }
    destruct (X (accumulated_stage_var (q_translation q)) (fun i => part (q_array q) (stage_input i))) as (s' & Es' & G').
    { unfold sels. rewrite !in_app_iff. right; left. apply in_flat_map. exists q. split; [exact Iq|].
      unfold ti_sels. rewrite El, Ev. right; left; reflexivity. }
    exists s, s'. repeat split; assumption.
  - intros q Iq El. apply (X (q_translation q) (fun i => part (q_array q) (independent_input i))).
    unfold sels. rewrite !in_app_iff. right; right. apply in_flat_map. exists q. split; [exact Iq|].
    unfold ind_sels. rewrite El. left; reflexivity.
  - intros n NI. apply B. rewrite Nm. exact NI.
Qed.

Lemma c25_ode_read (v : vec R) upd :
  om_vector_to_output_state md v (vzeros (time_integration_array_size md)) = Ok upd ->
  length upd = time_integration_array_size md /\
  forall q, In q (time_integration_quantities md) -> local (q_array q) = true ->
    exists n, stage_output_var (q_translation q) = Some n /\ get n v = Ok (part (q_array q) upd).
Proof.
  intros H. destruct (read_output md Lt _ _ H) as (Lu & P). split; [exact Lu|]. intros q I El.
  specialize (P q I). rewrite El in P. destruct P as (n & En & G). exists n. split; [|exact G].
  unfold out_name, output_name in En. destruct (stage_output_var (q_translation q)); congruence.
Qed.
End Placed.
