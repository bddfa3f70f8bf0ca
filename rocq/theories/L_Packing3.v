(** C40: linearization points; writing ODE inputs and outputs as lists of
    assignments. *)
From Coq Require Import String.
From Coq Require Import List Bool Arith Lia.
From Verif Require Import Base M_ODE M_Metadata M_Components SpecMetadata SpecComponents M_Packing SpecPacking
  L_Components L_Metadata L_Metadata2 L_Packing L_Packing2.
Import ListNotations.
Local Open Scope string_scope.
Local Open Scope nat_scope.
Local Open Scope list_scope.

Section Points.
Context {T : Type} {N : Num T}.

Lemma flat_length (v w : vec T) : layout v = layout w -> length (flat v) = length (flat w).
Proof.
  revert w; induction v as [|[k x] v IH]; intros [|[k' y] w] L; try discriminate; [reflexivity|].
  injection L as <- Lx L. unfold flat in *; cbn. rewrite !app_length. now rewrite (IH w L), Lx.
Qed.
Lemma refill_flat (v w : vec T) : layout w = layout v -> refill w (flat v) = v.
Proof.
  revert w; induction v as [|[k x] v IH]; intros [|[k' y] w] L; try discriminate; [reflexivity|].
  injection L as -> Lx L. unfold flat; cbn. fold (flat v).
  rewrite firstn_app, skipn_app, Lx, Nat.sub_diag, firstn_all, skipn_all. cbn. rewrite app_nil_r.
  f_equal. apply IH, L.
Qed.
Lemma refill_layout (v : vec T) : forall x, length x = length (flat v) -> layout (refill v x) = layout v.
Proof.
  induction v as [|[k y] v IH]; intros x L; [reflexivity|]. unfold flat in L; cbn in L. rewrite app_length in L.
  unfold layout in *; cbn. rewrite firstn_length. f_equal; [f_equal; lia|].
  apply IH. rewrite skipn_length. unfold flat; lia.
Qed.
Lemma assign_flat_layout (v v' : vec T) x : assign_flat v x = Ok v' -> layout v' = layout v.
Proof.
  unfold assign_flat. destruct (length (flat v) =? length x) eqn:E; [|discriminate]. intros [= <-].
  apply Nat.eqb_eq in E. apply refill_layout. auto.
Qed.

Lemma set_layout lp (st st' : om_state T) : set_linearization_point lp st = Ok st' ->
  layout (om_in st') = layout (om_in st) /\ layout (om_out st') = layout (om_out st) /\
  om_dout st' = om_dout st /\ om_dres st' = om_dres st.
Proof.
  unfold set_linearization_point. intros H. apply bind_ok in H as (i & A & H). apply bind_ok in H as (o & B & H).
  injection H as <-. cbn. split; [eapply assign_flat_layout, A|]. split; [eapply assign_flat_layout, B|auto].
Qed.

Lemma restore (st st' : om_state T) :
  layout (om_in st') = layout (om_in st) -> layout (om_out st') = layout (om_out st) ->
  set_linearization_point (get_linearization_point st) st'
  = Ok {| om_in := om_in st; om_out := om_out st; om_dout := om_dout st'; om_dres := om_dres st' |}.
Proof.
  intros Li Lo. unfold set_linearization_point, get_linearization_point.
  rewrite (flat_length _ _ Li).
  rewrite firstn_app, skipn_app, Nat.sub_diag, firstn_all, skipn_all. cbn. rewrite app_nil_r.
  unfold assign_flat. rewrite (flat_length _ _ Li), (flat_length _ _ Lo), !Nat.eqb_refl. cbn.
  now rewrite !refill_flat by assumption.
Qed.
(** Only the lengths matter for whether it succeeds, and only the layout for
    the result. *)
Lemma set_same lp (st1 st2 st1' : om_state T) :
  layout (om_in st2) = layout (om_in st1) -> layout (om_out st2) = layout (om_out st1) ->
  set_linearization_point lp st1 = Ok st1' ->
  set_linearization_point lp st2
  = Ok {| om_in := om_in st1'; om_out := om_out st1'; om_dout := om_dout st2; om_dres := om_dres st2 |}.
Proof.
  intros Li Lo. unfold set_linearization_point, assign_flat.
  rewrite (flat_length _ _ Li), (flat_length _ _ Lo).
  assert (X : forall v w x, layout v = layout w -> refill (T:=T) v x = refill w x).
  { induction v as [|[k y] v IH]; intros [|[k' z] w] x L; try discriminate; [reflexivity|].
    injection L as -> Ly L. cbn. rewrite Ly, (IH w _ L). reflexivity. }
  rewrite (X _ _ _ Li). destruct (length (flat (om_in st1)) =? _); cbn [bind]; [|discriminate].
  rewrite (X _ _ _ Lo). destruct (length (flat (om_out st1)) =? _); cbn [bind]; [|discriminate].
  intros [= <-]. reflexivity.
Qed.

Lemma scan_layout {A} (f : vec T -> A -> res (vec T)) l : (forall v a v', f v a = Ok v' -> layout v' = layout v) ->
  forall v v', scan f v l = Ok v' -> layout v' = layout v.
Proof.
  intros H. induction l as [|a l IH]; intros v v' E; cbn in E; [now injection E as <-|].
  apply bind_ok in E as (v1 & E1 & E2). rewrite (IH _ _ E2). eapply H, E1.
Qed.
Lemma fill_layout n t (v v' : vec T) : fill n t v = Ok v' -> layout v' = layout v.
Proof.
  unfold fill. revert v'; induction v as [|[k y] v IH]; intros v' U; cbn [update] in U; [discriminate|].
  destruct (String.eqb n k).
  - injection U as <-. unfold layout; cbn. now rewrite map_length.
  - apply bind_ok in U as (w & U & E1). injection E1 as <-. unfold layout in *; cbn. now rewrite (IH _ U).
Qed.
Lemma put_source_layout pb a f arr n (v v' : vec T) : put_source pb a f arr n v = Ok v' -> layout v' = layout v.
Proof.
  unfold put_source. intros H. apply bind_ok in H as (x & _ & H). apply bind_ok in H as (s & _ & H).
  apply assign_inv in H; tauto.
Qed.
Lemma put_input_layout pb md inp f (v v' : vec T) : input_state_to_om_vector pb md inp f v = Ok v' ->
  layout v' = layout v.
Proof.
  unfold input_state_to_om_vector. intros H. apply bind_ok in H as (v1 & A & H). apply bind_ok in H as (v2 & B & C).
  transitivity (layout v2); [|transitivity (layout v1)].
  - revert C. apply scan_layout. intros w q w' E. destruct (local _); [|congruence]. eapply put_source_layout, E.
  - revert B. apply scan_layout. intros w q w' E. destruct (local _); [|congruence].
    destruct (step_input_var _); [|congruence]. apply bind_ok in E as (w1 & E1 & E2).
    apply put_source_layout in E1, E2. congruence.
  - destruct (time_variable md) as [tv|]; [|congruence]. apply bind_ok in A as (s & _ & A). eapply fill_layout, A.
Qed.
Lemma put_output_layout md upd f (v v' : vec T) : output_state_to_om_vector md upd f v = Ok v' -> layout v' = layout v.
Proof.
  apply scan_layout. intros w q w' E. cbn in E. destruct (local _); [|congruence].
  apply bind_ok in E as (x & _ & E). apply bind_ok in E as (n & _ & E). apply assign_inv in E; tauto.
Qed.
Lemma zeroed_layout (v : vec T) : layout (zeroed v) = layout v.
Proof. unfold layout, zeroed. rewrite map_map. apply map_ext. intros [n x]; cbn. now rewrite map_length. Qed.

Lemma bind_pair_ok {A B C} (m : res (A * B)) (k : A -> B -> res C) c :
  (let* (a, b) := m in k a b) = Ok c -> exists a b, m = Ok (a, b) /\ k a b = Ok c.
Proof. destruct m as [[a b]|]; cbn; [eauto|discriminate]. Qed.

Lemma update_inv_state pb md (st : om_state T) inp h a st' r lp :
  om_compute_update pb md st inp h a = Ok (st', (r, lp)) ->
  exists v, input_state_to_om_vector pb md inp n1 (om_out st) = Ok v /\
    p_nonlinear pb h a (om_in st) v = Ok (om_in st', om_out st') /\
    om_vector_to_output_state md (om_out st') (vzeros (length (M_ODE.step_input inp))) = Ok (stage_update r) /\
    stage_state r = vzeros (length (M_ODE.step_input inp)) /\ independent_output r = [] /\
    lp = get_linearization_point st' /\ om_dout st' = om_dout st /\ om_dres st' = om_dres st.
Proof.
  unfold om_compute_update. intros H. apply bind_ok in H as (v & A & H).
  apply bind_pair_ok in H as (i & o & B & H). cbn zeta in H. apply bind_ok in H as (u & C & H).
  injection H as <- <- <-. exists v. cbn. repeat split; auto.
Qed.
Lemma derivative_inv_state pb md (st : om_state T) lp d h a st' r :
  om_derivative pb md st lp d h a = Ok (st', r) ->
  exists st1 v, set_linearization_point lp st = Ok st1 /\
    input_state_to_om_vector pb md d (nopp n1) (zeroed (om_dres st1)) = Ok v /\
    p_linear_fwd pb h a (om_in st1) (om_out st1) (om_dout st1) v = Ok (om_dout st', om_dres st') /\
    om_vector_to_output_state md (om_dout st') (vzeros (length (M_ODE.step_input d))) = Ok (stage_update r) /\
    stage_state r = vzeros (length (M_ODE.step_input d)) /\ independent_output r = [] /\
    om_in st' = om_in st1 /\ om_out st' = om_out st1.
Proof.
  unfold om_derivative. intros H. apply bind_ok in H as (st1 & A & H). apply bind_ok in H as (v & B & H).
  apply bind_pair_ok in H as (x & r' & C & H). cbn zeta in H. apply bind_ok in H as (u & D & H).
  injection H as <- <-. exists st1, v. cbn. repeat split; auto.
Qed.
Lemma adjoint_inv_state pb md (st : om_state T) lp w h a st' x :
  om_adjoint pb md st lp w h a = Ok (st', x) ->
  exists st1 v, set_linearization_point lp st = Ok st1 /\
    output_state_to_om_vector md (stage_update w) (nopp n1) (zeroed (om_dout st1)) = Ok v /\
    p_linear_rev pb h a (om_in st1) (om_out st1) v (om_dres st1) = Ok (om_dout st', om_dres st') /\
    om_vector_to_input_state pb md (om_dres st')
      {| M_ODE.step_input := vzeros (time_integration_array_size md);
         stage_input := vzeros (time_integration_array_size md);
         independent_input := vzeros (time_independent_input_size md); time := n0 |} = Ok x /\
    om_in st' = om_in st1 /\ om_out st' = om_out st1.
Proof.
  unfold om_adjoint. intros H. apply bind_ok in H as (st1 & A & H). apply bind_ok in H as (v & B & H).
  apply bind_pair_ok in H as (d' & y & C & H). apply bind_ok in H as (u & D & H).
  injection H as <- <-. exists st1, v. cbn. repeat split; auto.
Qed.

Lemma history_layout pb md st st' : keeps_layout pb -> history pb md st st' -> same_layout st' st.
Proof.
  intros (K1 & K2 & K3) H. unfold same_layout. induction H as
    [st|st st1 st2 inp h a r H IH E|st st1 st2 lp d h a r H IH E|st st1 st2 lp w h a r H IH E].
  - auto.
  - destruct r as [r lp]. apply update_inv_state in E as (v & A & B & _ & _ & _ & _ & C & D).
    apply put_input_layout in A. apply K1 in B as (B1 & B2). rewrite C, D, B1, B2, A. tauto.
  - apply derivative_inv_state in E as (s1 & v & S & A & B & _ & _ & _ & C & D).
    apply set_layout in S as (S1 & S2 & S3 & S4). apply put_input_layout in A. rewrite zeroed_layout in A.
    apply K2 in B as (B1 & B2). rewrite C, D, S1, S2, B1, B2, A, S3, S4. tauto.
  - apply adjoint_inv_state in E as (s1 & v & S & A & B & _ & C & D).
    apply set_layout in S as (S1 & S2 & S3 & S4). apply put_output_layout in A. rewrite zeroed_layout in A.
    apply K3 in B as (B1 & B2). rewrite C, D, S1, S2, B1, B2, A, S3, S4. tauto.
Qed.

Lemma c40_restored pb md (st st1 st2 : om_state T) inp h a r lp :
  om_compute_update pb md st inp h a = Ok (st1, (r, lp)) -> same_layout st2 st1 ->
  exists st3, set_linearization_point lp st2 = Ok st3 /\ om_in st3 = om_in st1 /\ om_out st3 = om_out st1.
Proof.
  intros E (L1 & L2 & _). apply update_inv_state in E as (v & _ & _ & _ & _ & _ & -> & _).
  rewrite restore by assumption. eexists; split; [reflexivity|auto].
Qed.
Lemma c40_restored_later pb md (st st1 st2 : om_state T) inp h a r lp : keeps_layout pb ->
  om_compute_update pb md st inp h a = Ok (st1, (r, lp)) -> history pb md st1 st2 ->
  exists st3, set_linearization_point lp st2 = Ok st3 /\ om_in st3 = om_in st1 /\ om_out st3 = om_out st1.
Proof. intros K E H. eapply c40_restored; [exact E|]. eapply history_layout; eauto. Qed.
(** The exported array has the announced size. *)
Lemma c40_size pb md (st st1 : om_state T) inp h a r lp norm : keeps_layout pb ->
  om_compute_update pb md st inp h a = Ok (st1, (r, lp)) ->
  length lp = linearization_point_size (openmdao_ode pb md st norm).
Proof.
  intros (K & _) E. apply update_inv_state in E as (v & A & B & _ & _ & _ & -> & _).
  apply put_input_layout in A. apply K in B as (B1 & B2). unfold get_linearization_point; cbn.
  rewrite app_length. f_equal; apply flat_length; congruence.
Qed.

(** *** ODE inputs as lists of assignments *)
Definition plan := list (res (string * list T)).
Definition run_plan (p : plan) (v : vec T) : res (vec T) :=
  scan (fun v p => let* p := p in assign (fst p) (snd p) v) v p.

Definition put_of (pb : problem T) (a : array_metadata) (f : T) (arr : list T) (n : option string)
    : res (string * list T) :=
  let* x := reshape (M_Metadata.shape a) (slice (start_index a) (end_index a) arr) in
  let* s := source_of pb n in Ok (s, vscale f x).
Definition time_plan (pb : problem T) md (inp : ode_in T) f : plan :=
  match time_variable md with Some tv => [let* s := p_source pb tv in Ok (s, [nmul (time inp) f])] | None => [] end.
Definition ti_plan (pb : problem T) (inp : ode_in T) f (q : quantity ti_translation) : plan :=
  match local (q_array q), step_input_var (q_translation q) with
  | true, Some sv => [put_of pb (q_array q) f (M_ODE.step_input inp) (Some sv);
                      put_of pb (q_array q) f (stage_input inp) (accumulated_stage_var (q_translation q))]
  | _, _ => [] end.
Definition ind_plan (pb : problem T) (inp : ode_in T) f (q : quantity (option string)) : plan :=
  if local (q_array q) then [put_of pb (q_array q) f (independent_input inp) (q_translation q)] else [].
Definition input_plan pb md inp f : plan :=
  time_plan pb md inp f ++ flat_map (ti_plan pb inp f) (time_integration_quantities md)
  ++ flat_map (ind_plan pb inp f) (time_independent_quantities md).
Definition out_of (md : metadata) f (upd : list T) (q : quantity ti_translation) : plan :=
  if local (q_array q) then
    [let* x := reshape (M_Metadata.shape (q_array q)) (slice (start_index (q_array q)) (end_index (q_array q)) upd) in
     let* n := output_name (stage_output_var (q_translation q)) in Ok (n, vscale f x)]
  else [].
Definition output_plan md upd f : plan := flat_map (out_of md f upd) (time_integration_quantities md).

Lemma run_plan_app p q v : run_plan (p ++ q) v = let* w := run_plan p v in run_plan q w.
Proof.
  revert v; induction p as [|x p IH]; intros v; [reflexivity|]. unfold run_plan; cbn [app scan].
  destruct (let* p0 := x in assign (fst p0) (snd p0) v); cbn [bind]; [apply IH|reflexivity].
Qed.
Lemma run_plan_flat {A} (f : vec T -> A -> res (vec T)) (g : A -> plan) l :
  (forall v a, f v a = run_plan (g a) v) -> forall v, scan f v l = run_plan (flat_map g l) v.
Proof.
  intros H. induction l as [|a l IH]; intros v; [reflexivity|]. cbn [flat_map scan].
  rewrite run_plan_app, H. destruct (run_plan (g a) v); cbn [bind]; auto.
Qed.
Lemma put_source_plan pb a f arr n (v : vec T) : put_source pb a f arr n v = run_plan [put_of pb a f arr n] v.
Proof.
  unfold put_source, run_plan, put_of; cbn [scan].
  destruct (reshape _ _); cbn [bind]; [|reflexivity]. destruct (source_of pb n); cbn [bind fst snd]; [|reflexivity].
  destruct (assign _ _ v); reflexivity.
Qed.
Lemma bind_id {A} (m : res A) : (let* x := m in Ok x) = m.
Proof. destruct m; reflexivity. Qed.

Lemma input_is_plan pb md inp f (v : vec T) :
  (forall tv s x, time_variable md = Some tv -> p_source pb tv = Ok s -> get s v = Ok x -> length x = 1) ->
  input_state_to_om_vector pb md inp f v = run_plan (input_plan pb md inp f) v.
Proof.
  intros S. unfold input_state_to_om_vector, input_plan. rewrite run_plan_app.
  assert (E : match time_variable md with
    | Some tv => let* s := p_source pb tv in fill s (nmul (time inp) f) v
    | None => Ok v end = run_plan (time_plan pb md inp f) v).
  { unfold time_plan. destruct (time_variable md) as [tv|]; [|reflexivity].
    unfold run_plan; cbn [scan]. destruct (p_source pb tv) as [s|] eqn:Es; cbn [bind fst snd]; [|reflexivity].
    rewrite bind_id. apply fill_assign. intros x G. eapply S; eauto. }
  rewrite E. destruct (run_plan _ v) as [v1|]; cbn [bind]; [|reflexivity].
  rewrite run_plan_app. rewrite <- (run_plan_flat (fun v q =>
      if local (q_array q) then
        match step_input_var (q_translation q) with
        | Some sv =>
          let* v := put_source pb (q_array q) f (M_ODE.step_input inp) (Some sv) v in
          put_source pb (q_array q) f (stage_input inp) (accumulated_stage_var (q_translation q)) v
        | None => Ok v
        end
      else Ok v) (ti_plan pb inp f)).
  - destruct (scan _ v1 _) as [v2|]; cbn [bind]; [|reflexivity].
    apply run_plan_flat. intros w q. unfold ind_plan. destruct (local _); [apply put_source_plan|reflexivity].
  - intros w q. unfold ti_plan. destruct (local _); [|reflexivity].
    destruct (step_input_var _) as [sv|]; [|reflexivity].
    rewrite put_source_plan.
    change [put_of pb (q_array q) f (M_ODE.step_input inp) (Some sv);
            put_of pb (q_array q) f (stage_input inp) (accumulated_stage_var (q_translation q))]
      with ([put_of pb (q_array q) f (M_ODE.step_input inp) (Some sv)] ++
            [put_of pb (q_array q) f (stage_input inp) (accumulated_stage_var (q_translation q))]).
    rewrite run_plan_app. destruct (run_plan _ w); cbn [bind]; [apply put_source_plan|reflexivity].
Qed.
Lemma output_is_plan md upd f (v : vec T) :
  output_state_to_om_vector md upd f v = run_plan (output_plan md upd f) v.
Proof.
  apply run_plan_flat. intros w q. unfold out_of. cbn zeta. destruct (local _); [|reflexivity].
  unfold run_plan; cbn [scan]. destruct (reshape _ _); cbn [bind]; [|reflexivity].
  destruct (output_name _); cbn [bind fst snd]; [|reflexivity]. now rewrite bind_id.
Qed.

Definition planned (p : plan) (W : list (string * list T)) : Prop := p = map Ok W.
Lemma run_plan_inv p : forall v v', run_plan p v = Ok v' -> exists W, planned p W /\ writes W v = Ok v'.
Proof.
  induction p as [|x p IH]; intros v v' H; unfold run_plan in H; cbn [scan] in H.
  - exists []; split; [reflexivity|exact H].
  - apply bind_ok in H as (v1 & A & B). apply bind_ok in A as (w & -> & A).
    destruct (IH _ _ B) as (W & P & C). exists (w :: W). split; [unfold planned in *; cbn; now rewrite P|].
    unfold writes; cbn [scan]. rewrite A. exact C.
Qed.
Lemma run_planned W v : run_plan (map Ok W) v = writes W v.
Proof.
  revert v; induction W as [|w W IH]; intros v; [reflexivity|]. unfold run_plan, writes; cbn [map scan bind].
  destruct (assign _ _ v); cbn [bind]; [apply IH|reflexivity].
Qed.
End Points.
