(** Proofs about runs with error control. *)
From Coq Require Import List Reals Lra Lia Bool.
From Verif Require Import Base Ext M_Tableau M_State M_ODE M_Step M_Controller M_Measure M_Integrator
  SpecControl SpecRun SpecAdaptive L_Control L_Run L_Iter L_Log.
Import ListNotations.

Section Generic.
Local Open Scope nat_scope.
Context {T : Type} {N : Num T} {C : Type}.
Variable op : options T C.

(** The time a step ends at, without assumptions on shapes. *)
Lemma stages_times bt (o : ode T) h : forall l s s',
  for_stages (fun s i => compute_stage bt o s h i) l s = Ok s' -> start_time s' = start_time s.
Proof.
  induction l as [|i l IH]; intros s s' H; simpl in H; [injection H as <-; reflexivity|].
  destruct (compute_stage bt o s h i) as [s1|e] eqn:E; cbn [bind] in H; [|discriminate].
  rewrite (IH _ _ H); clear IH H; unfold compute_stage in E.
  match type of E with context [compute_update o ?i ?h ?a] =>
    destruct (compute_update o i h a) as [[r lp]|e] end; cbn [bind] in E; [|discriminate].
  injection E as <-; reflexivity.
Qed.

Lemma step_time bt (o : ode T) s h s' : compute_step bt o s h = Ok s' ->
  final_time s' = nadd (final_time s) h.
Proof.
  unfold compute_step, compute_step_base; intros H.
  destruct (for_stages _ _ _) as [s1|e] eqn:E; cbn [bind] in H; [|discriminate].
  apply stages_times in E; cbn in E.
  destruct (compute_final_independent_outputs _) as [f|e]; cbn [bind] in H; [|discriminate].
  destruct (t_hat bt) as [[bh ph]|]; injection H as <-; cbn; rewrite E; reflexivity.
Qed.

Lemma trial_time st tmp em : trial op st tmp em ->
  final_time tmp = nadd (final_time (disc st)) (suggestion st).
Proof. intros [H _]; exact (step_time _ _ _ _ _ H). Qed.

(** The outcomes of the attempt loop. *)
Inductive ended (c : C) (st : tistate T) : C -> tistate T -> res unit -> Prop :=
| ended_accepted tmp em c1 stat :
    trial op st tmp em -> o_ctl op c (question op st tmp em) = (c1, Ok stat) -> acceptance stat = true ->
    ended c st c1 {| disc := rk_set (disc st) tmp; suggestion := step_size_suggestion stat;
                     step_hist := upd 0 (suggestion st) (roll1 (step_hist st));
                     err_hist := upd 0 em (roll1 (err_hist st)) |} (Ok tt)
| ended_failed e : trial_fails op st e -> ended c st c st (Err e)
| ended_controller tmp em c1 e :
    trial op st tmp em -> o_ctl op c (question op st tmp em) = (c1, Err e) ->
    ended c st c1 st (Err e).

Lemma iterate_unfold n c st : o_adaptive op = true ->
  (exists c1 st1 r, ended c st c1 st1 r /\ iterate_on_step op (S n) c st = (c1, st1, r)) \/
  (exists c1 st1, retry op c st c1 st1 /\ iterate_on_step op (S n) c st = iterate_on_step op n c1 st1).
Proof.
  intros Ha; cbn [iterate_on_step]; rewrite Ha.
  destruct (compute_step (o_bt op) (o_ode op) (disc st) (suggestion st)) as [tmp|e] eqn:E1;
    [|left; do 3 eexists; split; [|reflexivity]; apply ended_failed; left; exact E1].
  destruct (state_measure (o_meas op) (o_ode op) tmp) as [em|e] eqn:E2;
    [|left; do 3 eexists; split; [|reflexivity]; apply ended_failed; right; eauto].
  destruct (o_ctl op c _) as [c1 [stat|e]] eqn:E3;
    [|left; do 3 eexists; split; [|reflexivity]; eapply ended_controller; [split; eassumption|exact E3]].
  destruct (acceptance stat) eqn:E4.
  - left; do 3 eexists; split; [|reflexivity]; eapply ended_accepted; [split; eassumption|exact E3|exact E4].
  - right; exists c1; eexists; split; [|reflexivity].
    eapply retry_intro; [split; eassumption|exact E3|exact E4].
Qed.

Lemma iterate_spec n : forall c st c' st' r, o_adaptive op = true ->
  iterate_on_step op n c st = (c', st', r) ->
  exists l c1 st1, retries op c st l c1 st1 /\ length l <= n /\
    ((length l = n /\ c' = c1 /\ st' = st1 /\ r = Err OutOfFuel) \/
     (length l < n /\ ended c1 st1 c' st' r)).
Proof.
  induction n as [|n IH]; intros c st c' st' r Ha H.
  - injection H as <- <- <-; exists [], c, st; split; [constructor|]; split; [auto|left; auto].
  - destruct (iterate_unfold n c st Ha) as [(c1 & st1 & r1 & E & U)|(c1 & st1 & E & U)];
      rewrite U in H.
    + injection H as <- <- <-; exists [], c, st; split; [constructor|]; simpl; split; [lia|].
      right; split; [lia|exact E].
    + apply IH in H as (l & c2 & st2 & R & L & D); [|exact Ha].
      exists (suggestion st :: l), c2, st2; split; [econstructor; eassumption|]; simpl; split; [lia|].
      destruct D as [(D1 & D2)|(D1 & D2)]; [left; split; [lia|exact D2]|right; split; [lia|exact D2]].
Qed.

Lemma retry_disc c st c1 st1 : retry op c st c1 st1 -> disc st1 = disc st.
Proof. destruct 1; reflexivity. Qed.
Lemma retries_disc c st l c1 st1 : retries op c st l c1 st1 -> disc st1 = disc st.
Proof. induction 1; [reflexivity|]. rewrite IHretries; eapply retry_disc; eassumption. Qed.

Lemma with_suggestion_id (st : tistate T) : with_suggestion (suggestion st) st = st.
Proof. destruct st; reflexivity. Qed.

Lemma retries_with c st l c1 st1 : retries op c st l c1 st1 -> st1 = with_suggestion (suggestion st1) st.
Proof.
  induction 1 as [c st|c st c1 st1 l c2 st2 R RR IH]; [symmetry; apply with_suggestion_id|].
  rewrite IH; destruct R; reflexivity.
Qed.

Lemma retry_iterate n c st c1 st1 : o_adaptive op = true -> retry op c st c1 st1 ->
  iterate_on_step op (S n) c st = iterate_on_step op n c1 st1.
Proof.
  intros Ha [tmp em c2 stat [E1 E2] E3 E4]; cbn [iterate_on_step]; rewrite Ha, E1, E2.
  unfold question in E3; rewrite E3, E4; reflexivity.
Qed.

End Generic.

Section Controlled.
Open Scope R_scope.
Variables (op : options (ext R) (controller (ext R))) (cfg : config (ext R)) (tf lb : R).
Hypothesis K : controlled op cfg tf lb.

Lemma question_remaining st tmp em t h : about_to st t h -> trial op st tmp em ->
  remaining_time (question op st tmp em) = Fin (tf - (t + h)).
Proof.
  intros [A1 A2] Ht; cbn; rewrite (cd_crit _ _ _ _ K), (trial_time _ _ _ _ Ht), A1, A2; reflexivity.
Qed.

Lemma answer st tmp em t h c c1 stat : about_to st t h -> trial op st tmp em ->
  o_ctl op c (question op st tmp em) = (c1, Ok stat) ->
  exists s, step_size_suggestion stat = Fin s /\
    s <= (if acceptance stat then tf - (t + h) else tf - t) /\
    (lb <= s \/ s = (if acceptance stat then tf - (t + h) else tf - t)).
Proof.
  intros A Ht E; rewrite (cd_ctl _ _ _ _ K) in E.
  pose proof (question_remaining _ _ _ _ _ A Ht) as Hr; destruct A as [A1 A2].
  assert (Hd : delta_t (question op st tmp em) = Fin h) by exact A2.
  destruct (c14 cfg c (question op st tmp em) h c1 stat (cd_bounds _ _ _ _ K) Hd) as (_ & U & L & _);
    [rewrite Hr; discriminate|rewrite Hr; discriminate|exact E|].
  unfold time_limit in U, L; rewrite Hr, Hd in U, L; rewrite (cd_lower _ _ _ _ K) in L.
  destruct (step_size_suggestion stat) as [s| | |]; cbn in U, L; try contradiction.
  - exists s; split; [reflexivity|]; split.
    + destruct (acceptance stat); lra.
    + destruct L as [L|L]; [left; exact L|injection L as ->; right; destruct (acceptance stat); lra].
  - destruct L as [L|L]; [contradiction|discriminate].
Qed.

(** The invariant of a run: the next trial does not reach beyond [tf], and is
    not smaller than the lower bound unless it reaches [tf]. *)
Definition fits (st : tistate (ext R)) : Prop :=
  exists t h, about_to st t h /\ t + h <= tf /\ (lb <= h \/ t + h = tf).

Definition within (st : tistate (ext R)) : Prop :=
  exists t h, about_to st t h /\ t + h <= tf.

Lemma retry_within c st c1 st1 : retry op c st c1 st1 -> within st -> within st1.
Proof.
  intros [tmp em c2 stat Ht E Ea] (t & h & A & Hh).
  destruct (answer _ _ _ _ _ _ _ _ A Ht E) as (s & Es & B & _); rewrite Ea in B.
  exists t, s; split; [split; [apply A|exact Es]|lra].
Qed.

Lemma retry_fits c st c1 st1 : retry op c st c1 st1 -> fits st -> fits st1.
Proof.
  intros [tmp em c2 stat Ht E Ea] (t & h & A & Hh & _).
  destruct (answer _ _ _ _ _ _ _ _ A Ht E) as (s & Es & B & D); rewrite Ea in B, D.
  exists t, s; split; [split; [apply A|exact Es]|]; split; [lra|destruct D; [left|right]; lra].
Qed.

Lemma retries_within c st l c1 st1 : retries op c st l c1 st1 -> within st -> within st1.
Proof. induction 1; auto; intros F; apply IHretries; eapply retry_within; eassumption. Qed.
Lemma retries_fits c st l c1 st1 : retries op c st l c1 st1 -> fits st -> fits st1.
Proof. induction 1; auto; intros F; apply IHretries; eapply retry_fits; eassumption. Qed.

Lemma step_within n c st c' st' : iterate_on_step op n c st = (c', st', Ok tt) -> within st ->
  within st' /\ exists t', final_time (disc st') = Fin t' /\ t' <= tf.
Proof.
  intros H F; apply iterate_spec in H as (l & c1 & st1 & R & _ & D); [|apply K].
  apply (retries_within _ _ _ _ _ R) in F as (t & h & A & Hh).
  destruct D as [(_ & _ & _ & D)|(_ & D)]; [discriminate|].
  inversion D as [tmp em c2 stat Ht E Ea| |]; subst.
  destruct (answer _ _ _ _ _ _ _ _ A Ht E) as (s & Es & B & _); rewrite Ea in B.
  assert (E1 : final_time tmp = Fin (t + h)).
  { rewrite (trial_time _ _ _ _ Ht); destruct A as [-> ->]; reflexivity. }
  split.
  - exists (t + h), s; split; [split; [exact E1|exact Es]|lra].
  - exists (t + h); split; [exact E1|lra].
Qed.

Lemma step_fits n c st c' st' : iterate_on_step op n c st = (c', st', Ok tt) -> fits st ->
  fits st' /\ exists t t', final_time (disc st) = Fin t /\ final_time (disc st') = Fin t' /\
    step_size (disc st') = Fin (t' - t) /\ t' <= tf /\ (lb <= t' - t \/ t' = tf).
Proof.
  intros H F; apply iterate_spec in H as (l & c1 & st1 & R & _ & D); [|apply K].
  pose proof (retries_disc _ _ _ _ _ _ R) as Ed.
  apply (retries_fits _ _ _ _ _ R) in F as (t & h & A & Hh & Hl).
  destruct D as [(_ & _ & _ & D)|(_ & D)]; [discriminate|].
  inversion D as [tmp em c2 stat Ht E Ea| |]; subst.
  destruct (answer _ _ _ _ _ _ _ _ A Ht E) as (s & Es & B & L); rewrite Ea in B, L.
  assert (E1 : final_time tmp = Fin (t + h)).
  { rewrite (trial_time _ _ _ _ Ht); destruct A as [-> ->]; reflexivity. }
  split.
  - exists (t + h), s; split; [split; [exact E1|exact Es]|]; split; [lra|].
    destruct L; [left|right]; lra.
  - exists t, (t + h); split; [rewrite <- Ed; apply A|]; split; [exact E1|].
    split; [|split; [lra|destruct Hl; [left|right]; lra]].
    cbn. replace (t + h - t) with h by lra.
    destruct Ht as [Ht _].
    assert (Sz : step_size tmp = suggestion st1); [|rewrite Sz; apply A].
    unfold compute_step, compute_step_base in Ht.
    destruct (for_stages _ _ _) as [s1|e] eqn:E2; cbn [bind] in Ht; [|discriminate].
    assert (step_size s1 = suggestion st1).
    { apply L_Generic.loop_frame in E2 as (_ & _ & _ & E2 & _); exact E2. }
    destruct (compute_final_independent_outputs _) as [f|e]; cbn [bind] in Ht; [|discriminate].
    destruct (t_hat (o_bt op)) as [[bh ph]|]; injection Ht as <-; cbn; assumption.
Qed.

Lemma trajectory_within a l : trajectory op a l -> within a ->
  Forall (fun b => within b /\ exists t, final_time (disc b) = Fin t /\ t <= tf) l.
Proof.
  revert a; induction l as [|b l IH]; intros a H F; constructor; destruct H as [(c & c' & H) Hl];
    destruct (step_within _ _ _ _ _ H F) as [F1 F2].
  - split; assumption.
  - exact (IH b Hl F1).
Qed.

End Controlled.
