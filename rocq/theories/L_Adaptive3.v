(** Proofs about whole runs with error control: final time, number of steps,
    closing steps that are never accepted. *)
From Coq Require Import List Reals Lra Lia Bool.
From Verif Require Import Base Ext M_Tableau M_State M_ODE M_Step M_Controller M_Measure M_Integrator
  SpecControl SpecRun SpecAdaptive L_Control L_Catalogue L_Run L_Iter L_Log L_Adaptive L_Adaptive2.
Import ListNotations.
Open Scope R_scope.

(** *** Runs that do not return *)
Section Going.
Local Open Scope nat_scope.
Context {T : Type} {N : Num T} {C : Type}.
Variable op : options T C.

Inductive going : nat -> C -> tistate T -> list (tistate T) -> C -> tistate T -> Prop :=
| going_none it c st : going it c st [] c st
| going_step it c st c1 st1 l c' st' :
    is_iteration_finished (o_crit op) it st = false ->
    iterate_on_step op (retry_limit op) c st = (c1, st1, Ok tt) ->
    going (S it) c1 st1 l c' st' -> going it c st (st1 :: l) c' st'.

Lemma chain_going it c st l c' st' : chain op it c st l c' st' -> going it c st l c' st'.
Proof. induction 1; econstructor; eassumption. Qed.

Lemma going_trajectory it c st l c' st' : going it c st l c' st' -> trajectory op st l.
Proof. induction 1; [exact I|]; split; [exists c, c1; assumption|assumption]. Qed.

Lemma going_last it c st l c' st' : going it c st l c' st' -> st' = last l st.
Proof.
  induction 1 as [|it c st c1 st1 l c' st' F I _ IH]; [reflexivity|].
  rewrite IH; destruct l as [|x l]; [reflexivity|].
  clear; revert x; induction l as [|y l IHl]; intros x; [reflexivity|].
  change (last (y :: l) st1 = last (y :: l) st); apply IHl.
Qed.

Lemma forward_loop_err keep : quiet op -> forall fuel it w w' e,
  forward_loop op keep fuel it w = (w', Err e) ->
  exists l c1 st1, going it (ctl w) (live w) l c1 st1 /\
    ((length l = fuel /\ e = OutOfFuel) \/
     (length l < fuel /\ is_iteration_finished (o_crit op) (it + length l) st1 = false /\
      exists c' st', iterate_on_step op (retry_limit op) c1 st1 = (c', st', Err e))).
Proof.
  intros Q; induction fuel as [|fuel IH]; intros it w w' e H; simpl in H.
  - injection H as _ <-; exists [], (ctl w), (live w); split; [constructor|left; auto].
  - unfold reading in H; destruct (is_iteration_finished (o_crit op) it (live w)) eqn:F; [discriminate|].
    destruct (iterate_on_step op (retry_limit op) (ctl w) (live w)) as [[c1 st1] r] eqn:E.
    destruct r as [[]|e1].
    + unfold mbind at 1 in H; rewrite (run_step_quiet op (S it) w c1 st1 Q E) in H.
      unfold mbind in H.
      destruct keep; unfold modify, mret in H;
        (apply IH in H as (l & c2 & st2 & G & D); exists (st1 :: l), c2, st2;
         split; [eapply going_step; [exact F|exact E|exact G]|]; simpl;
         rewrite Nat.add_succ_r; destruct D as [(D1 & D2)|(D1 & D2)];
         [left; split; [lia|exact D2]|right; split; [lia|exact D2]]).
    + unfold mbind at 1 in H; unfold run_step, reading, mbind in H.
      rewrite (before_quiet op Compute (S it) (live w) w Q) in H.
      unfold step_live in H; cbn [ctl live w_log] in H; rewrite E in H.
      injection H as _ <-.
      exists [], (ctl w), (live w); split; [constructor|]; right; simpl.
      rewrite Nat.add_0_r; split; [lia|]; split; [exact F|]; eauto.
Qed.

Lemma compute_err i w w' e : loops op -> quiet op -> compute op i w = (w', Err e) ->
  exists l c1 st1, going 0 (ctl w) (live (prepare op i w)) l c1 st1 /\
    ((length l = loop_limit op /\ e = OutOfFuel) \/
     (length l < loop_limit op /\ is_iteration_finished (o_crit op) (length l) st1 = false /\
      exists c' st', iterate_on_step op (retry_limit op) c1 st1 = (c', st', Err e))).
Proof.
  unfold loops, compute, create_checkpointer, iterate_forward; intros L Q H.
  unfold mbind in H; rewrite compute_preparation_eq in H.
  destruct (o_ckpt op) as [| |fs rs]; [| |contradiction]; unfold mret, modify, reading in H.
  - destruct (forward_loop op false (loop_limit op) 0 (prepare op i w)) as [w1 [[]|e1]] eqn:E; [discriminate|].
    injection H as _ <-; exact (forward_loop_err _ Q _ _ _ _ _ E).
  - destruct (forward_loop op true (loop_limit op) 0 (w_storage [] (prepare op i w))) as [w1 [[]|e1]] eqn:E;
      [discriminate|].
    injection H as _ <-; exact (forward_loop_err _ Q _ _ _ _ _ E).
Qed.

Lemma stateless_going it c st l c' st' : stateless op c -> going it c st l c' st' -> c' = c.
Proof.
  intros S G; induction G as [|it c st c1 st1 l c' st' F E G IH]; [reflexivity|].
  assert (c1 = c) by (apply (iterate_ctl op c S) in E; exact E).
  subst c1; apply IH, S.
Qed.

End Going.

(** *** Towards a prescribed final time *)
Section Final.
Variables (op : options (ext R) (controller (ext R))) (cfg : config (ext R)) (tf lb : R).
Hypothesis K : controlled op cfg tf lb.

Lemma finished_iff it st t : final_time (disc st) = Fin t ->
  is_iteration_finished (o_crit op) it st = true <-> tf <= t.
Proof.
  intros H; rewrite (cd_crit _ _ _ _ K); cbn; rewrite H; cbn; rewrite Rleb_iff; lra.
Qed.

Lemma going_within it c st l c' st' : going op it c st l c' st' -> within tf st -> within tf st'.
Proof.
  induction 1 as [|it c st c1 st1 l c' st' F E G IH]; intros W; [exact W|].
  apply IH; apply (step_within op cfg tf lb K _ _ _ _ _ E W).
Qed.
Lemma going_fits it c st l c' st' : going op it c st l c' st' -> fits tf lb st -> fits tf lb st'.
Proof.
  induction 1 as [|it c st c1 st1 l c' st' F E G IH]; intros W; [exact W|].
  apply IH; apply (step_fits op cfg tf lb K _ _ _ _ _ E W).
Qed.

Lemma going_times it c st l c' st' t : going op it c st l c' st' -> fits tf lb st ->
  final_time (disc st) = Fin t -> t <= tf -> 0 < lb ->
  INR (length l) * lb <= tf - t + lb /\
  (exists t', final_time (disc st') = Fin t' /\ t <= t' <= tf).
Proof.
  intros G; revert t; induction G as [|it c st c1 st1 l c' st' F E G IH]; intros t W Et Ht Hl.
  - split; [simpl; lra|exists t; split; [exact Et|lra]].
  - destruct (step_fits op cfg tf lb K _ _ _ _ _ E W) as (W1 & t0 & t1 & E0 & E1 & _ & H1 & H2).
    rewrite Et in E0; injection E0 as <-.
    assert (Hlen : INR (length (st1 :: l)) = INR (length l) + 1) by (cbn [length]; apply S_INR).
    rewrite Hlen.
    destruct (IH t1 W1 E1 H1 Hl) as (B1 & t2 & B2 & B3).
    destruct H2 as [H2|H2].
    + split; [lra|exists t2; split; [exact B2|lra]].
    + subst t1; split; [|exists t2; split; [exact B2|lra]].
      inversion G as [|it' c2 st2 c3 st3 l' c4 st4 F1 E3 G1]; subst.
      * simpl; lra.
      * exfalso. destruct (finished_iff (S it) st1 tf E1) as [_ X].
        rewrite X in F1 by lra; discriminate.
Qed.

(** Steps advance by at least the lower bound or end at the final time. *)
Lemma trajectory_fits l : forall a, trajectory op a l -> fits tf lb a ->
  Forall (fun p => exists t t', final_time (disc (fst p)) = Fin t /\ final_time (disc (snd p)) = Fin t' /\
     t' <= tf /\ (t + lb <= t' \/ t' = tf)) (combine (a :: l) l).
Proof.
  induction l as [|b l IH]; intros a; [constructor|]; intros [(c & c' & E) Tr] F.
  destruct (step_fits op cfg tf lb K _ _ _ _ _ E F) as (F1 & t & t' & E0 & E1 & _ & H1 & H2).
  cbn [combine]; constructor; [|exact (IH b Tr F1)].
  exists t, t'; cbn; intuition lra.
Qed.

Lemma trajectory_count l : forall a t, trajectory op a l -> fits tf lb a -> final_time (disc a) = Fin t ->
  t <= tf -> 0 < lb ->
  (forall k, (k < length l)%nat -> is_iteration_finished (o_crit op) k (nth k (a :: l) a) = false) ->
  INR (length l) * lb <= tf - t + lb.
Proof.
  assert (G : forall l a t it, trajectory op a l -> fits tf lb a -> final_time (disc a) = Fin t ->
    t <= tf -> 0 < lb ->
    (forall k, (k < length l)%nat -> is_iteration_finished (o_crit op) (it + k) (nth k (a :: l) a) = false) ->
    INR (length l) * lb <= tf - t + lb);
    [|intros a t Tr F Et Ht Hl Hk; exact (G l a t 0%nat Tr F Et Ht Hl Hk)].
  clear l; induction l as [|b l IH]; intros a t it Tr F Et Ht Hl Hk; [cbn; lra|].
  destruct Tr as [(c & c' & E) Tr].
  destruct (step_fits op cfg tf lb K _ _ _ _ _ E F) as (F1 & t0 & t1 & E0 & E1 & _ & H1 & H2).
  rewrite Et in E0; injection E0 as <-.
  change (length (b :: l)) with (S (length l)); rewrite S_INR.
  assert (Hk' : forall k, (k < length l)%nat -> is_iteration_finished (o_crit op) (S it + k) (nth k (b :: l) b) = false).
  { intros k Hl'; specialize (Hk (S k) ltac:(simpl; lia)); cbn [nth] in Hk.
    rewrite Nat.add_succ_r in Hk; rewrite (nth_indep (b :: l) b a) by (simpl; lia); exact Hk. }
  pose proof (IH b t1 (S it) Tr F1 E1 H1 Hl Hk') as B.
  destruct H2 as [H2|H2]; [lra|].
  destruct l as [|x l]; [simpl; lra|exfalso].
  specialize (Hk' 0%nat ltac:(simpl; lia)); cbn [nth] in Hk'.
  rewrite (proj2 (finished_iff _ b t1 E1)) in Hk' by lra; discriminate.
Qed.

Lemma c19_step_count i w w' out t0 h0 : loops op -> time_initial i = Fin t0 -> o_step op = Fin h0 ->
  lb <= h0 -> t0 + h0 <= tf -> 0 < lb -> compute op i w = (w', Ok out) ->
  exists a l, starts_at op i a /\ trajectory op a l /\
    log w' = log w ++ bracketed Compute (length (o_callbacks op Compute)) 1 a l /\
    Forall (fun p => exists t t', final_time (disc (fst p)) = Fin t /\ final_time (disc (snd p)) = Fin t' /\
      t' <= tf /\ (t + lb <= t' \/ t' = tf)) (combine (a :: l) l) /\
    INR (length l) <= (tf - t0) / lb + 1.
Proof.
  intros L E1 E2 H1 H2 H3 H; apply compute_log in H as (a & l & S & Tr & (_ & St) & Hg & _); [|exact L].
  assert (F : fits tf lb a).
  { destruct S as (A1 & _ & _ & A2); exists t0, h0; split; [split; congruence|auto]. }
  exists a, l; split; [exact S|]; split; [exact Tr|]; split; [exact Hg|].
  split; [apply trajectory_fits; assumption|].
  assert (B : INR (length l) * lb <= tf - t0 + lb).
  { apply (trajectory_count l a t0 Tr F); try assumption; [destruct S as (A1 & _); congruence|lra]. }
  apply Rmult_le_reg_r with lb; [exact H3|].
  replace (((tf - t0) / lb + 1) * lb) with (tf - t0 + lb) by (field; lra); exact B.
Qed.

Lemma start_within i a t0 h0 : starts_at op i a -> time_initial i = Fin t0 -> o_step op = Fin h0 ->
  t0 + h0 <= tf -> within tf a.
Proof.
  intros (A1 & _ & _ & A2) E1 E2 H; exists t0, h0; split; [split; congruence|exact H].
Qed.

Lemma start_fits i a t0 h0 : starts_at op i a -> time_initial i = Fin t0 -> o_step op = Fin h0 ->
  t0 + h0 <= tf -> lb <= h0 -> fits tf lb a.
Proof.
  intros (A1 & _ & _ & A2) E1 E2 H H2; exists t0, h0; split; [split; congruence|auto].
Qed.

Lemma c15_no_overshoot a l t h : about_to a t h -> t + h <= tf -> trajectory op a l ->
  Forall (fun b => exists t', final_time (disc b) = Fin t' /\ t' <= tf) l.
Proof.
  intros A H Tr; apply (trajectory_within op cfg tf lb K) in Tr; [|exists t, h; auto].
  eapply Forall_impl; [|exact Tr]; intros b [_ B]; exact B.
Qed.

Lemma last_in {A} (l : list A) (a : A) : last l a = a \/ In (last l a) l.
Proof.
  induction l as [|b l IH]; [left; reflexivity|].
  destruct l as [|x l]; [right; left; reflexivity|].
  right; right; change (last (b :: x :: l) a) with (last (x :: l) a).
  clear; revert x; induction l as [|y l IHl]; intros x; [left; reflexivity|].
  right; apply (IHl y).
Qed.

Lemma c15_final_time i w w' out t0 h0 : loops op -> time_initial i = Fin t0 -> o_step op = Fin h0 ->
  0 <= h0 -> t0 + h0 <= tf -> compute op i w = (w', Ok out) ->
  time_final out = Fin tf.
Proof.
  intros L E1 E2 H0 H1 H; apply compute_log in H as (a & l & S & Tr & (St & _) & _ & Ho & _); [|exact L].
  assert (A : about_to a t0 h0) by (destruct S as (S1 & _ & _ & S2); split; congruence).
  pose proof (c15_no_overshoot a l t0 h0 A H1 Tr) as F; rewrite Forall_forall in F.
  assert (X : exists t', final_time (disc (last l a)) = Fin t' /\ t' <= tf).
  { destruct (last_in l a) as [-> |I]; [exists t0; split; [apply A|lra]|exact (F _ I)]. }
  destruct X as (t' & Et & Ht).
  apply (finished_iff _ _ _ Et) in St.
  rewrite Ho, Et; f_equal; lra.
Qed.

(** *** A closing step shorter than the lower bound *)
Lemma base_bounds x st tmp em t h : about_to st t h -> trial op st tmp em ->
  let a := base_run cfg x (question op st tmp em) in
  exists s, step_size_suggestion a = Fin s /\
    s <= (if acceptance a then tf - (t + h) else tf - t) /\
    (lb <= s \/ s = (if acceptance a then tf - (t + h) else tf - t)).
Proof.
  intros A Ht; cbv zeta.
  apply (answer op cfg tf lb K st tmp em t h (Plain x false) (Plain x false)); auto.
  rewrite (cd_ctl _ _ _ _ K); cbn [ctl_call]; rewrite andb_false_r, andb_false_r; reflexivity.
Qed.

Lemma question_accept st tmp em t h : about_to st t h -> trial op st tmp em ->
  t + h = tf -> / 10 ^ 10 <= h -> / 10 ^ 10 <= Rabs (h - lb) -> ~ xle em (tol cfg) ->
  run_success cfg (question op st tmp em) = false.
Proof.
  intros A Ht E H1 H2 H3; destruct (run_success _ _) eqn:F; [exfalso|reflexivity].
  apply run_success_iff in F; destruct F as [F|[F|F]]; [exact (H3 F)| |].
  - rewrite (cd_lower _ _ _ _ K) in F; cbn [question delta_t] in F; destruct A as [_ A]; rewrite A in F.
    cbn in F; simpl in H2; lra.
  - rewrite (question_remaining op cfg tf lb K _ _ _ _ _ A Ht) in F; cbn [question delta_t] in F.
    destruct A as [_ A]; rewrite A in F; cbn [near] in F.
    replace (h - (tf - (t + h))) with h in F by lra.
    assert (0 < / 10 ^ 10) by (apply Rinv_0_lt_compat, pow_lt; lra).
    rewrite Rabs_right in F; lra.
Qed.

End Final.

(** Every member of a chain answering "rejected, same step size" makes the
    chain answer so. *)
Lemma chain_same {T} {N : Num T} cfg (c : controller T) q :
  nltb (delta_t q) (delta_t q) = false ->
  (forall x, In x (members c) -> base_run cfg x q = {| step_size_suggestion := delta_t q; acceptance := false |}) ->
  exists c', ctl_call cfg c q = (c', Ok {| step_size_suggestion := delta_t q; acceptance := false |}) /\
    members c' = members c.
Proof.
  intros Hi; induction c as [x im|x im nin cnt c IH]; intros H.
  - exists (Plain x im); cbn [ctl_call]; rewrite (H x (or_introl eq_refl)); cbn [acceptance step_size_suggestion].
    rewrite Hi; auto.
  - assert (D : decorator_run cfg x im q = (false, Ok {| step_size_suggestion := delta_t q; acceptance := false |})).
    { unfold decorator_run; rewrite (H x (or_introl eq_refl)); cbn [acceptance step_size_suggestion].
      rewrite Hi; reflexivity. }
    destruct IH as (c' & E & M); [intros y Hy; apply H; right; exact Hy|].
    destruct nin; cbn [ctl_call].
    + rewrite E; cbn [acceptance step_size_suggestion]; rewrite Hi, D; cbn [andb].
      eexists; split; [reflexivity|]; cbn; rewrite M; reflexivity.
    + rewrite D; eexists; split; reflexivity.
Qed.

Section Stuck.
Variables (op : options (ext R) (controller (ext R))) (cfg : config (ext R)) (tf lb : R).
Hypothesis K : controlled op cfg tf lb.

(** A trial that every member answers with "rejected, same step size". *)
Definition hopeless (xs : list (exponents (ext R))) (st : tistate (ext R)) : Prop :=
  exists tmp em, trial op st tmp em /\ (exists h, suggestion st = Fin h) /\
    forall x, In x xs -> base_run cfg x (question op st tmp em)
      = {| step_size_suggestion := suggestion st; acceptance := false |}.

Lemma hopeless_retry c st : hopeless (members c) st ->
  exists c', retry op c st c' st /\ members c' = members c.
Proof.
  intros (tmp & em & Ht & (h & Eh) & H).
  destruct (chain_same cfg c (question op st tmp em)) as (c' & E & M).
  - cbn [question delta_t]; rewrite Eh; cbn; apply Rltb_false; lra.
  - exact H.
  - exists c'; split; [|exact M].
    replace st with (with_suggestion (suggestion st) st) at 2 by (destruct st; reflexivity).
    eapply (retry_intro op c st tmp em c' {| step_size_suggestion := suggestion st; acceptance := false |});
      [exact Ht| |reflexivity].
    rewrite (cd_ctl _ _ _ _ K); exact E.
Qed.

Lemma hopeless_forever n : forall c st, hopeless (members c) st ->
  exists c', iterate_on_step op n c st = (c', st, Err OutOfFuel).
Proof.
  induction n as [|n IH]; intros c st H; [exists c; reflexivity|].
  destruct (hopeless_retry c st H) as (c' & R & M).
  destruct (IH c' st) as (c2 & E); [rewrite M; exact H|].
  exists c2; rewrite (retry_iterate op n c st c' st (cd_adaptive _ _ _ _ K) R); exact E.
Qed.

Lemma short_hopeless xs st tmp em t h : trial op st tmp em -> about_to st t h -> t + h = tf ->
  / 10 ^ 10 <= h -> h <= lb - / 10 ^ 10 -> ~ xle em (tol cfg) -> hopeless xs st.
Proof.
  intros Ht A E H1 H2 H3; exists tmp, em; split; [exact Ht|]; split; [exists h; apply A|].
  intros x _.
  assert (F : run_success cfg (question op st tmp em) = false).
  { apply (question_accept op cfg tf lb K st tmp em t h A Ht E H1); [|exact H3].
    assert (0 < / 10 ^ 10) by (apply Rinv_0_lt_compat, pow_lt; lra).
    rewrite Rabs_left; lra. }
  destruct (base_bounds op cfg tf lb K x st tmp em t h A Ht) as (s & Es & B1 & B2).
  rewrite acceptance_base_run, F in B1, B2.
  assert (s = h) as ->. { destruct B2; [|lra]. assert (0 < / 10 ^ 10) by (apply Rinv_0_lt_compat, pow_lt; lra). lra. }
  destruct A as [_ A]; rewrite A.
  destruct (base_run cfg x (question op st tmp em)) as [ss aa] eqn:Eb; cbn in Es; subst ss.
  assert (aa = run_success cfg (question op st tmp em)) as -> by (rewrite <- (acceptance_base_run cfg x), Eb; reflexivity).
  rewrite F; reflexivity.
Qed.

Lemma reacts_nan x q : reacts x -> error_measure q = NaN -> estimate_next_step cfg x q = NaN.
Proof.
  intros (al & Ea & Hal) En; unfold estimate_next_step; rewrite Ea, En.
  assert (P : npow (ndiv (tol cfg) NaN) (Fin al) = NaN).
  { destruct (tol cfg); cbn; rewrite (Reqb_neq al 0 Hal); reflexivity. }
  rewrite P.
  assert (M : forall a : ext R, nmul a NaN = NaN) by (intros [ | | | ]; reflexivity).
  assert (M' : forall a : ext R, nmul NaN a = NaN) by (intros [ | | | ]; reflexivity).
  rewrite M, !M'. destruct (negb _); [destruct (negb _)|]; rewrite ?M'; reflexivity.
Qed.

(** With error measure nan the estimate is the upper bound. *)
Lemma nan_suggestion x st tmp t h : reacts x -> about_to st t h -> trial op st tmp NaN ->
  run_success cfg (question op st tmp NaN) = false ->
  step_size_suggestion (base_run cfg x (question op st tmp NaN)) = pymin (Fin (tf - t)) (upper_bound cfg).
Proof.
  intros Hx A Ht F; unfold base_run; rewrite F; cbn [step_size_suggestion].
  assert (E0 : negb (neqb (error_measure (question op st tmp NaN)) n0) = true) by reflexivity.
  rewrite E0, (reacts_nan x (question op st tmp NaN) Hx eq_refl), (question_remaining op cfg tf lb K _ _ _ _ _ A Ht).
  pose proof (cd_bounds _ _ _ _ K) as B.
  assert (P1 : pymin (upper_bound cfg) NaN = upper_bound cfg).
  { unfold pymin; destruct (upper_bound cfg); reflexivity. }
  assert (P2 : pymax (lower_bound cfg) (upper_bound cfg) = upper_bound cfg).
  { unfold pymax; destruct (nltb _ _) eqn:E; [reflexivity|].
    apply xltb_false in E; apply xle_antisym; [exact B|].
    apply xnlt_le; [exact (xle_num_l _ _ B)|exact (xle_num_r _ _ B)|exact E]. }
  rewrite P1, P2; f_equal; cbn [question delta_t]; destruct A as [_ A]; rewrite A; cbn; f_equal; lra.
Qed.

Lemma nan_hopeless xs st tmp t h : Forall reacts xs -> trial op st tmp NaN -> about_to st t h -> t + h = tf ->
  / 10 ^ 10 <= h -> / 10 ^ 10 <= Rabs (h - lb) -> xle (Fin h) (upper_bound cfg) -> hopeless xs st.
Proof.
  intros Hx Ht A E H1 H2 H3; exists tmp, NaN; split; [exact Ht|]; split; [exists h; apply A|].
  intros x Ix; rewrite Forall_forall in Hx.
  assert (F : run_success cfg (question op st tmp NaN) = false).
  { apply (question_accept op cfg tf lb K st tmp NaN t h A Ht E H1 H2); intros []. }
  pose proof (nan_suggestion x st tmp t h (Hx x Ix) A Ht F) as S.
  destruct (base_run cfg x (question op st tmp NaN)) as [ss aa] eqn:Eb; cbn in S; subst ss.
  assert (aa = run_success cfg (question op st tmp NaN)) as -> by (rewrite <- (acceptance_base_run cfg x), Eb; reflexivity).
  rewrite F; destruct A as [_ A]; rewrite A; f_equal.
  replace (tf - t) with h by lra.
  destruct (pymin_cases (Fin h) (upper_bound cfg)) as [[[_ P] _]|[_ ->]]; [contradiction|reflexivity].
Qed.

(** Away from the final time a nan is reported. *)
Lemma chain_larger c q :
  (forall x, In x (members c) -> acceptance (base_run cfg x q) = false /\
     xlt (delta_t q) (step_size_suggestion (base_run cfg x q))) ->
  (outermost c -> exists c' e, ctl_call cfg c q = (c', Err e) /\
     (e = OuterErrorControllerError \/ e = InnerErrorControllerError)) /\
  (exists c' r, ctl_call cfg c q = (c', r) /\
     (r = Err OuterErrorControllerError \/ r = Err InnerErrorControllerError \/
      exists s, r = Ok s /\ acceptance s = false /\ xlt (delta_t q) (step_size_suggestion s))).
Proof.
  induction c as [x im|x im nin cnt c IH]; intros H.
  - destruct (H x (or_introl eq_refl)) as [Ha Hl]; cbn [ctl_call]; rewrite Ha.
    pose proof (proj2 (xltb_iff _ _) Hl) as Hb.
    change (nltb (delta_t q) (step_size_suggestion (base_run cfg x q)) = true) in Hb; rewrite Hb.
    split; [intros Ho; cbn in Ho; subst im; cbn; eauto|].
    destruct im; cbn; eauto 10.
  - destruct (H x (or_introl eq_refl)) as [Ha Hl].
    pose proof (proj2 (xltb_iff _ _) Hl) as Hb.
    change (nltb (delta_t q) (step_size_suggestion (base_run cfg x q)) = true) in Hb.
    assert (D : decorator_run cfg x im q = (false, if im then Err InnerErrorControllerError
                                                   else Ok (base_run cfg x q))).
    { unfold decorator_run; rewrite Ha, Hb; destruct im; reflexivity. }
    destruct IH as (_ & c' & r & E & P); [intros y Hy; apply H; right; exact Hy|].
    assert (X : exists c2 r2, ctl_call cfg (Decorated x im nin cnt c) q = (c2, r2) /\
       ((im = true -> exists e, r2 = Err e /\ (e = OuterErrorControllerError \/ e = InnerErrorControllerError)) /\
        (r2 = Err OuterErrorControllerError \/ r2 = Err InnerErrorControllerError \/
         exists s, r2 = Ok s /\ acceptance s = false /\ xlt (delta_t q) (step_size_suggestion s)))).
    { destruct nin; cbn [ctl_call].
      - rewrite E; destruct P as [-> |[-> |(s & -> & Sa & Sl)]].
        + rewrite D; do 2 eexists; split; [reflexivity|]; destruct im; split; eauto 10; discriminate.
        + do 2 eexists; split; [reflexivity|]; split; eauto.
        + rewrite Sa.
          assert (Z : nltb (step_size_suggestion s) (delta_t q) = false).
          { apply xltb_false; intros [Z _]; destruct Sl as [_ Sl]; auto. }
          rewrite Z; cbn [andb]; rewrite D.
          do 2 eexists; split; [reflexivity|]; destruct im; split; eauto 10; discriminate.
      - rewrite D; do 2 eexists; split; [reflexivity|]; destruct im; split; eauto 10; discriminate. }
    destruct X as (c2 & r2 & E2 & P1 & P2); split.
    + intros Ho; cbn in Ho; destruct (P1 Ho) as (e & -> & Pe); eauto.
    + eauto.
Qed.

Lemma nan_reported n c st tmp t h : outermost c -> Forall reacts (members c) -> trial op st tmp NaN ->
  about_to st t h -> ~ accept_rule cfg (question op st tmp NaN) -> t + h < tf -> xlt (Fin h) (upper_bound cfg) ->
  exists c' e, iterate_on_step op (S n) c st = (c', st, Err e) /\
    (e = OuterErrorControllerError \/ e = InnerErrorControllerError).
Proof.
  intros Ho Hx Ht A Na E H3.
  assert (F : run_success cfg (question op st tmp NaN) = false).
  { destruct (run_success _ _) eqn:F; [exfalso; apply Na, run_success_iff, F|reflexivity]. }
  destruct (proj1 (chain_larger c (question op st tmp NaN) ltac:(
    intros x Ix; rewrite Forall_forall in Hx; split; [exact F|];
    rewrite (nan_suggestion x st tmp t h (Hx x Ix) A Ht F); cbn [question delta_t];
    destruct A as [_ A]; rewrite A;
    destruct (pymin_cases (Fin (tf - t)) (upper_bound cfg)) as [[_ ->]|[_ ->]]; [exact H3|split; cbn; lra])) Ho)
    as (c' & e & Ec & Pe).
  exists c', e; split; [|exact Pe].
  destruct Ht as [T1 T2]; cbn [iterate_on_step]; rewrite (cd_adaptive _ _ _ _ K), T1, T2, (cd_ctl _ _ _ _ K).
  unfold question in Ec; rewrite Ec; reflexivity.
Qed.

End Stuck.

(** *** Runs with the integral controller *)
Section IntegralRun.
Variables (op : options (ext R) (controller (ext R))) (cfg : config (ext R)) (p eps kappa tf lb : R).
Hypothesis K : controlled op cfg tf lb.
Hypothesis KI : integral_control op cfg p eps kappa lb.
Notation c0 := (mk_plain (integral (Fin p))).

Lemma integral_stateless : stateless op c0.
Proof.
  intros _ q; rewrite (cd_ctl _ _ _ _ K); cbn [ctl_call mk_plain]; destruct (_ && _); reflexivity.
Qed.

(** The closing step is repeated unchanged. *)
Lemma closing_retries c st t h l c1 st1 : about_to st t h -> t + h = tf -> h < lb ->
  retries op c st l c1 st1 -> st1 = st.
Proof.
  intros A E Hl R; induction R as [|c st c1 st1 l c2 st2 R RR IH]; [reflexivity|].
  assert (st1 = st).
  { destruct R as [tmp em c3 stat Ht Ec Ea].
    destruct (answer op cfg tf lb K st tmp em t h c c3 stat A Ht Ec) as (s & Es & B1 & B2).
    rewrite Ea in B1, B2; assert (s = h) by (destruct B2; lra).
    unfold with_suggestion; rewrite Es; destruct A as [_ A]; subst s; rewrite <- A; destruct st; reflexivity. }
  subst st1; apply IH, A.
Qed.

Lemma integral_step_err st n e c' st' : errors_are_numbers op st -> fits tf lb st ->
  (forall t, final_time (disc st) = Fin t -> kappa ^ n * (tf - t) < lb + / 10 ^ 10) ->
  (n < retry_limit op)%nat ->
  iterate_on_step op (retry_limit op) c0 st = (c', st', Err e) ->
  (exists h, trial_fails op (with_suggestion h st) e) \/
  (e = OutOfFuel /\ exists t h tmp em, about_to st t h /\ t + h = tf /\ h < lb /\
     trial op st tmp em /\ ~ accept_rule cfg (question op st tmp em)).
Proof.
  intros En (t & h & A & H1 & H2) Hn Hr H.
  specialize (Hn t (proj1 A)).
  destruct (Rle_lt_dec lb h) as [Hl|Hl].
  - left.
    assert (TL : time_left (o_crit op) t lb) by (rewrite (cd_crit _ _ _ _ K); cbn; lra).
    assert (Hk : kappa ^ n * h < lb + / 10 ^ 10).
    { apply Rle_lt_trans with (2 := Hn); apply Rmult_le_compat_l; [|lra].
      apply pow_le; pose proof (ic_kappa _ _ _ _ _ _ KI); lra. }
    destruct (integral_ends op cfg p eps kappa lb KI st t h n _ _ _ _ En A Hl TL Hk Hr H)
      as (_ & l & st1 & R & _ & _ & F).
    exists (suggestion st1).
    rewrite <- (retries_with _ _ _ _ _ _ R); exact F.
  - assert (E : t + h = tf) by (destruct H2; lra).
    apply iterate_spec in H as (l & c1 & st1 & R & L & D); [|apply K].
    assert (st1 = st) by (eapply closing_retries; eassumption); subst st1.
    destruct D as [(D1 & _ & _ & D2)|(D1 & D2)].
    + right; split; [congruence|].
      inversion R as [|c3 st3 l2 c4 st4 R1 RR]; subst; [simpl in D1; lia|].
      destruct R1 as [tmp em c5 stat Ht Ec Ea].
      exists t, h, tmp, em; repeat split; try apply A; try assumption; try apply Ht.
      intros Acc; rewrite (cd_ctl _ _ _ _ K) in Ec; apply (c13 cfg _ _ _ _ Ec) in Acc; congruence.
    + assert (E' : tf - t <= h) by lra; clear E.
      inversion D2 as [|e1 He|tmp em c2 e1 Ht Ec]; subst.
      * left; exists (suggestion st'); destruct st'; exact He.
      * exfalso.
        assert (c1 = c0); [|subst c1].
        { clear - R K; remember c0 as c eqn:E in R; revert E; induction R as [|c st c1 st1 l c2 st2 R RR IH];
            intros E; [exact E|]; apply IH; destruct R as [tmp em c3 stat Ht Ec Ea]; subst c.
          rewrite (cd_ctl _ _ _ _ K) in Ec; cbn [ctl_call mk_plain] in Ec; destruct (_ && _) in Ec;
            injection Ec as <- _ || discriminate Ec; reflexivity. }
        destruct (base_bounds op cfg tf lb K (integral (Fin p)) _ tmp em t h A Ht) as (s & Es & B1 & B2).
        rewrite (cd_ctl _ _ _ _ K) in Ec; cbn [ctl_call mk_plain] in Ec.
        destruct (acceptance (base_run cfg (integral (Fin p)) (question op st' tmp em))) eqn:Ea;
          cbn [negb andb] in Ec; [discriminate Ec|].
        rewrite Es in Ec.
        assert (Z : nltb (delta_t (question op st' tmp em)) (Fin s) = false).
        { cbn [question delta_t]; destruct A as [_ A]; rewrite A; cbn; apply Rltb_false; lra. }
        rewrite Z in Ec; cbn [andb] in Ec; discriminate Ec.
Qed.

Lemma integral_run i w w' r t0 h0 n : reachable op c0 w -> loops op -> quiet op ->
  (forall a l, starts_at op i a -> trajectory op a l -> errors_are_numbers op (last l a)) ->
  time_initial i = Fin t0 -> o_step op = Fin h0 -> lb <= h0 -> t0 + h0 <= tf -> 0 < lb ->
  kappa ^ n * (tf - t0) < lb + / 10 ^ 10 -> (n < retry_limit op)%nat ->
  (tf - t0) / lb + 1 < INR (loop_limit op) ->
  compute op i w = (w', r) ->
  match r with
  | Ok out => time_final out = Fin tf
  | Err e => exists a l, starts_at op i a /\ trajectory op a l /\
      ((exists h, trial_fails op (with_suggestion h (last l a)) e) \/
       (e = OutOfFuel /\ exists t h tmp em, about_to (last l a) t h /\ t + h = tf /\ h < lb /\
          trial op (last l a) tmp em /\ ~ accept_rule cfg (question op (last l a) tmp em)))
  end.
Proof.
  intros Rw L Q En E1 E2 Hl Hf H0 Hn Hr Hloop H.
  destruct r as [out|e].
  - eapply c15_final_time; try eassumption; lra.
  - assert (Ec : ctl w = c0).
    { destruct Rw as (hist & _ & ->); apply ctl_run_calls; [apply integral_stateless|reflexivity]. }
    apply compute_err in H as (l & c1 & st1 & G & D); [|exact L|exact Q].
    rewrite Ec in G.
    pose proof (stateless_going op _ _ _ _ _ _ integral_stateless G) as ->.
    set (a := live (prepare op i w)) in *.
    assert (S : starts_at op i a) by apply starts_prepare.
    assert (F : fits tf lb a) by (eapply start_fits; eassumption).
    assert (Ea : final_time (disc a) = Fin t0) by (destruct S as (S1 & _); congruence).
    destruct (going_times op cfg tf lb K _ _ _ _ _ _ t0 G F Ea ltac:(lra) H0) as (B1 & t1 & B2 & B3).
    exists a, l; split; [exact S|]; split; [eapply going_trajectory; exact G|].
    assert (En1 : errors_are_numbers op st1).
    { rewrite (going_last op _ _ _ _ _ _ G); apply En; [exact S|eapply going_trajectory; exact G]. }
    rewrite <- (going_last op _ _ _ _ _ _ G).
    destruct D as [(D1 & ->)|(D1 & D2 & c' & st' & D3)].
    + exfalso; rewrite D1 in B1.
      assert ((tf - t0) / lb + 1 < (tf - t0 + lb) / lb).
      { apply Rlt_le_trans with (1 := Hloop); apply (Rmult_le_reg_r lb); [exact H0|].
        unfold Rdiv; rewrite Rmult_assoc, Rinv_l; lra. }
      replace ((tf - t0 + lb) / lb) with ((tf - t0) / lb + 1) in H by (field; lra). lra.
    + apply (integral_step_err st1 n e c' st' En1 (going_fits op cfg tf lb K _ _ _ _ _ _ G F)); auto.
      intros t Et; rewrite B2 in Et; injection Et as <-.
      apply Rle_lt_trans with (2 := Hn); apply Rmult_le_compat_l; [|lra].
      apply pow_le; pose proof (ic_kappa _ _ _ _ _ _ KI); lra.
Qed.

End IntegralRun.
