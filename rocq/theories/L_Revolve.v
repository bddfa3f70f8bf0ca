(** The recomputing checkpointer: any valid schedule gives the states and the
    products of the store-all one. *)
From Coq Require Import List Lia Bool Arith.
From Verif Require Import Base M_Tableau M_State M_ODE M_Step M_Controller M_Measure M_Integrator
  SpecRK SpecShape SpecDeriv SpecRun SpecRevolve L_Vec L_Step L_Generic L_Run L_Iter L_Whole L_Log L_RunProps.
Import ListNotations.
Local Open Scope nat_scope.

Section Steps.
Context {T : Type} {N : Num T} {C : Type}.
Variable op : options T C.

(** [l] are the states after successive steps from [a], controller [c]. *)
Fixpoint steps (c : C) (a : tistate T) (l : list (tistate T)) : Prop :=
  match l with
  | [] => True
  | b :: l' => iterate_on_step op (retry_limit op) c a = (c, b, Ok tt) /\ steps c b l'
  end.

Lemma last_cons {A} (x : A) l d : last (x :: l) d = last l x.
Proof.
  revert x d; induction l as [|y l IH]; intros x d; [reflexivity|].
  change (last (x :: y :: l) d) with (last (y :: l) d); rewrite !IH; reflexivity.
Qed.

Lemma steps_snoc c l : forall a b, steps c a (l ++ [b]) <->
  steps c a l /\ iterate_on_step op (retry_limit op) c (last l a) = (c, b, Ok tt).
Proof.
  induction l as [|x l IH]; intros a b; [cbn; tauto|].
  change ((x :: l) ++ [b]) with (x :: (l ++ [b])); cbn [steps]; rewrite last_cons.
  specialize (IH x b); tauto.
Qed.

Lemma steps_fun c l : forall a l2, steps c a l -> steps c a l2 -> length l = length l2 -> l = l2.
Proof.
  induction l as [|x l IH]; intros a [|y l2] H1 H2 E; try discriminate; [reflexivity|].
  destruct H1 as [A1 A2], H2 as [B1 B2]; rewrite A1 in B1; injection B1 as <-.
  f_equal; apply (IH x); auto.
Qed.

Lemma snoc_inv {A} n (l : list A) : length l = S n -> exists l0 x, l = l0 ++ [x] /\ length l0 = n.
Proof.
  intros H; destruct l as [|x l _] using rev_ind; [discriminate|].
  rewrite app_length in H; cbn in H; exists l, x; split; [reflexivity|lia].
Qed.

(** State number [k] of the run from [a]. *)
Definition at_ (c : C) (a : tistate T) (k : nat) (st : tistate T) : Prop :=
  exists l, steps c a l /\ length l = S k /\ st = last l a.

Lemma at_fun c a k x y : at_ c a k x -> at_ c a k y -> x = y.
Proof.
  intros (l & A & B & ->) (l2 & A2 & B2 & ->).
  rewrite (steps_fun c l a l2 A A2) by congruence; reflexivity.
Qed.

Lemma at_0 c a st : at_ c a 0 st <-> iterate_on_step op (retry_limit op) c a = (c, st, Ok tt).
Proof.
  split.
  - intros (l & A & B & ->); destruct l as [|x [|y l]]; try discriminate; apply A.
  - intros H; exists [st]; cbn; auto.
Qed.

Lemma last_snoc {A} (l : list A) x d : last (l ++ [x]) d = x.
Proof. rewrite last_last; reflexivity. Qed.

Lemma at_S c a k st : at_ c a (S k) st <->
  exists s0, at_ c a k s0 /\ iterate_on_step op (retry_limit op) c s0 = (c, st, Ok tt).
Proof.
  split.
  - intros (l & A & B & ->); destruct (snoc_inv _ _ B) as (l0 & x & -> & L); rewrite last_snoc.
    apply steps_snoc in A as [A1 A2]; exists (last l0 a); split; [exists l0; auto|exact A2].
  - intros (s0 & (l & A & B & ->) & H); exists (l ++ [st]); split; [apply steps_snoc; auto|].
    rewrite app_length, last_snoc; cbn; split; [lia|reflexivity].
Qed.

Lemma at_below c a k st : at_ c a k st -> forall j, j <= k -> exists s, at_ c a j s.
Proof.
  revert st; induction k as [|k IH]; intros st H j Hj.
  - replace j with 0 by lia; eauto.
  - destruct (Nat.eq_dec j (S k)) as [->|Hn]; [eauto|].
    apply at_S in H as (s0 & H & _); apply (IH s0 H); lia.
Qed.

(** *** Runs with a prescribed number of steps *)
Section Number.
Variables (n : nat) (c : C).
Hypothesis Hn : o_crit op = PredefinedNumberOfSteps n.
Hypothesis HS : stateless op c.

Lemma chain_steps it a l c' st' : chain op it c a l c' st' -> it <= n ->
  steps c a l /\ it + length l = n /\ c' = c /\ st' = last l a.
Proof.
  intros H; remember c as c0 eqn:Ec; revert Ec.
  induction H as [it c0 a F|it c0 a c1 b l c' st' F I _ IH]; intros Ec Hit; rewrite Hn in F; cbn in F; subst c0.
  - apply Nat.leb_le in F; cbn; repeat split; auto; lia.
  - apply Nat.leb_gt in F.
    assert (c1 = c) by (eapply iterate_ctl; eauto); subst c1.
    destruct (IH HS eq_refl) as (A & B & D & E); [lia|].
    rewrite last_cons; cbn [steps length]; repeat split; auto; lia.
Qed.

Lemma steps_chain l : forall it a, steps c a l -> it + length l = n ->
  chain op it c a l c (last l a).
Proof.
  induction l as [|b l IH]; intros it a H E; cbn in E.
  - constructor; rewrite Hn; cbn; apply Nat.leb_le; lia.
  - destruct H as [H1 H2]; rewrite last_cons; econstructor; [|exact H1|apply IH; [exact H2|lia]].
    rewrite Hn; cbn; apply Nat.leb_gt; lia.
Qed.

End Number.

(** *** Sweeping back *)
Lemma adjoint_sweep_app l1 l2 p :
  adjoint_sweep op (l1 ++ l2) p = let* q := adjoint_sweep op l1 p in adjoint_sweep op l2 q.
Proof.
  revert p; induction l1 as [|x l1 IH]; intros p; [reflexivity|]; cbn [app adjoint_sweep].
  destruct (adjoint_step op x p); cbn [bind]; auto.
Qed.

(** The sweep through the steps numbered [k], ..., 0. *)
Inductive sweep (c : C) (a : tistate T) : nat -> tistate T -> tistate T -> Prop :=
| sweep_0 st p p' : at_ c a 0 st -> adjoint_step op st p = Ok p' -> sweep c a 0 p p'
| sweep_S k st p p1 p' : at_ c a (S k) st -> adjoint_step op st p = Ok p1 -> sweep c a k p1 p' ->
    sweep c a (S k) p p'.

Lemma sweep_list c a k p p' : sweep c a k p p' <->
  exists l, steps c a l /\ length l = S k /\ adjoint_sweep op (rev l) p = Ok p'.
Proof.
  split.
  - induction 1 as [st p p' H1 H2|k st p p1 p' H1 H2 _ (l & A & B & D)].
    + apply at_0 in H1; exists [st]; cbn; rewrite H2; auto.
    + destruct H1 as (l2 & A2 & B2 & ->); exists l2; split; [exact A2|]; split; [exact B2|].
      destruct (snoc_inv _ _ B2) as (l0 & x & -> & L); rewrite last_snoc in H2.
      apply steps_snoc in A2 as [A2 _]; rewrite (steps_fun c l0 a l A2 A) by congruence.
      rewrite rev_app_distr; cbn; rewrite H2; exact D.
  - intros (l & A & B & D); revert l p A B D; induction k as [|k IH]; intros l p A B D.
    + destruct (snoc_inv _ _ B) as (l0 & x & -> & L); destruct l0; [|discriminate]; cbn in D.
      destruct (adjoint_step op x p) as [q|] eqn:E; [|discriminate]; injection D as <-.
      apply sweep_0 with x; [exists [x]; auto|exact E].
    + destruct (snoc_inv _ _ B) as (l0 & x & -> & L).
      rewrite rev_app_distr in D; cbn in D.
      destruct (adjoint_step op x p) as [q|] eqn:E; [|discriminate].
      apply sweep_S with x q; [exists (l0 ++ [x]); rewrite last_snoc; auto|exact E|].
      apply (IH l0); [apply steps_snoc in A; tauto|exact L|exact D].
Qed.

(** How far a sweep that began at [last] with [p0] has come. *)
Inductive back (c : C) (a : tistate T) (last : nat) (p0 : tistate T) : nat -> tistate T -> Prop :=
| back_start : back c a last p0 last p0
| back_step k st p p1 : back c a last p0 (S k) p -> at_ c a (S k) st -> adjoint_step op st p = Ok p1 ->
    back c a last p0 k p1.

Lemma back_sweep c a last p0 k p p' : back c a last p0 k p -> sweep c a k p p' -> sweep c a last p0 p'.
Proof. induction 1 as [|k st p p1 _ IH H1 H2]; intros H; [exact H|]; apply IH; econstructor; eauto. Qed.

Lemma sweep_back c a last p0 k p p' : back c a last p0 k p -> sweep c a last p0 p' -> sweep c a k p p'.
Proof.
  induction 1 as [|k st p p1 _ IH H1 H2]; intros H; [exact H|]; specialize (IH H).
  inversion IH as [|? st2 ? p2 ? G1 G2 G3]; subst.
  rewrite (at_fun _ _ _ _ _ H1 G1) in H2; rewrite H2 in G2; injection G2 as ->; exact G3.
Qed.

End Steps.

(** Which component fields calls of the library leave alone. *)
Section Frame.
Context {T : Type} {N : Num T} {C : Type}.
Variable op : options T C.

Lemma cached_hooks ev hook l k : forall i, preserves (fun w : component T C => cached w = k) (call_hooks ev hook i l).
Proof. intros i; apply pres_hooks; auto. Qed.

Lemma cached_run_step k j : preserves (fun w => cached w = k) (run_step op j).
Proof.
  apply pres_bind; [apply pres_reading; intros w H; apply cached_hooks; exact H|]; intros _.
  apply pres_bind; [|intros _; apply pres_reading; intros w H; apply cached_hooks; exact H].
  intros w H; unfold step_live; destruct (iterate_on_step _ _ _ _) as [[? ?] ?]; exact H.
Qed.

Lemma cached_rev_step k j st : preserves (fun w => cached w = k) (run_step_jacvec_rev op j st).
Proof.
  apply pres_bind; [apply cached_hooks|]; intros _.
  apply pres_bind; [|intros _; apply cached_hooks].
  intros w H; unfold reading, mbind, mlift, modify.
  destruct (compute_step_adjoint_derivative _ _ _ _ _); exact H.
Qed.

Lemma cached_action k x : preserves (fun w => cached w = k) (run_action op x).
Proof.
  destruct x as [a b|s|s|a b]; simpl.
  - generalize (b - a), (S a); clear; intros m; induction m as [|m IH]; intros j; [apply pres_ret|].
    apply pres_bind; [apply cached_run_step|]; intros _; apply IH.
  - apply pres_modify; auto.
  - apply pres_reading; intros w H; destruct (find _ _) as [[? ?]|]; exact H.
  - generalize (b - a), (S (S a)); clear; intros m; induction m as [|m IH]; intros j; [apply pres_ret|].
    apply pres_bind; [apply pres_reading; intros w H; apply cached_rev_step; exact H|]; intros _; apply IH.
Qed.

Lemma cached_actions l w : cached (fst (run_actions op l w)) = cached w.
Proof.
  assert (G : forall k, preserves (fun w => cached w = k) (run_actions op l)).
  { intros k; induction l as [|x l IH]; [apply pres_ret|].
    apply pres_bind; [apply cached_action|]; intros _; apply IH. }
  exact (G (cached w) w eq_refl).
Qed.

End Frame.

Section Revolve.
Context {T : Type} {N : Num T} {C : Type}.
Variable op : options T C.
Notation bt := (o_bt op).
Notation o := (o_ode op).
Hypothesis Sz : sized_ode o.
Variables (n : nat) (fs rs : list action) (c : C).
Hypothesis HP : o_ckpt op = PyrevolveCheckpointer fs rs.
Hypothesis HV : valid_schedule n fs rs.
Hypothesis HS : stateless op c.

(** States that agree in everything but the step size. *)
Definition alike (x y : tistate T) : Prop :=
  x = w_disc (w_step_size (step_size (disc x)) (disc y)) y.

Lemma alike_refl x : alike x x.
Proof. destruct x as [[] ? ? ?]; reflexivity. Qed.

Lemma alike_load x y z : alike y z -> alike (load_snapshot x y) z.
Proof. unfold alike, load_snapshot; intros ->; reflexivity. Qed.

Lemma alike_sim x y : wf_ti op x -> wf_ti op y -> alike x y -> sim op x y.
Proof. intros Hx Hy E; rewrite E in Hx |- *; constructor; auto; constructor; reflexivity. Qed.

Lemma alike_adjoint x y p : alike x y -> adjoint_step op x p = adjoint_step op y p.
Proof. intros ->; reflexivity. Qed.

Lemma alike_result x y : alike x y -> result_of x = result_of y.
Proof. intros ->; reflexivity. Qed.

Lemma ti_set_wf x y : wf_ti op x -> wf_ti op y -> ti_set x y = y.
Proof.
  intros Hx Hy; pose proof (wt_emb _ _ Hx) as E1; pose proof (wt_emb _ _ Hy) as E2.
  destruct x as [[] ? ? ?], y as [[] ? ? ?]; cbn in *; unfold ti_set, rk_set; cbn; congruence.
Qed.

Section From.
Variable a : tistate T.
Hypothesis Ha : wf_ti op a.
Notation at_ := (at_ op c a).

Lemma at_wf k st : at_ k st -> wf_ti op st.
Proof.
  destruct Sz as (S1 & _); revert st; induction k as [|k IH]; intros st H.
  - apply at_0 in H; exact (iterate_wf op S1 _ _ _ _ _ _ Ha H).
  - apply at_S in H as (s0 & H & I); exact (iterate_wf op S1 _ _ _ _ _ _ (IH _ H) I).
Qed.

(** The component is at the point the schedule says. *)
Record inv (p0 : tistate T) (s : sched) (w : component T C) : Prop := {
  iv_wf : wf op w;
  iv_ctl : ctl w = c;
  iv_pos : exists st, at_ (pos s) st /\ alike (live w) st;
  iv_last : pos s <= n;
  iv_saved : forall k p, saved s k = Some p ->
    p <= n /\ exists st e, at_ p st /\ find (fun e => Nat.eqb (fst e) k) (slots w) = Some e /\ alike (snd e) st;
  iv_pert : back op c a n p0 (next s) (pert w);
  iv_first : at_ 0 (first_complete w)
}.

Lemma step_from k st w c' st' r : at_ k st -> wf op w -> alike (live w) st ->
  iterate_on_step op (retry_limit op) c (live w) = (c', st', r) ->
  (r = Ok tt -> c' = c /\ at_ (S k) st') /\ ((exists s, at_ (S k) s) -> r = Ok tt).
Proof.
  intros H Hw HA I; destruct Sz as (S1 & _).
  destruct (iterate_on_step op (retry_limit op) c st) as [[c2 st2] r2] eqn:I2.
  destruct (iterate_sim op _ _ _ _ _ _ _ _ _ _ (alike_sim _ _ (wf_live _ _ Hw) (at_wf _ _ H) HA) I I2)
    as (E1 & E2 & E3).
  split.
  - intros ->; specialize (E3 eq_refl); subst.
    assert (c2 = c) by (eapply iterate_ctl; eauto); subst; split; [reflexivity|].
    apply at_S; exists st; auto.
  - intros (s & Hs); apply at_S in Hs as (s0 & B1 & B2).
    rewrite <- (at_fun op c a k _ _ H B1), I2 in B2; injection B2; congruence.
Qed.

Lemma run_step_inv j p0 s w w' r : inv p0 s w -> S (pos s) <= n -> run_step op j w = (w', r) ->
  (r = Ok tt -> inv p0 {| pos := S (pos s); next := next s; saved := saved s |} w') /\
  (quiet op -> (exists st, at_ (S (pos s)) st) -> r = Ok tt).
Proof.
  intros [Iw Ic (st & It & Ia) Il Is Ip If] Hn H.
  destruct (iterate_on_step op (retry_limit op) c (live w)) as [[c' st'] r'] eqn:E.
  destruct (step_from _ _ _ _ _ _ It Iw Ia E) as [E1 E2].
  pose proof (pres_run_step op (proj1 Sz) j w Iw) as P; rewrite H in P; cbn in P.
  split.
  - intros ->; destruct (run_step_ok op j w w' H) as (c2 & st2 & I2 & ->).
    rewrite Ic, E in I2; injection I2 as -> -> ->.
    destruct (E1 eq_refl) as [-> A]; constructor; cbn; auto.
    exists st2; split; [exact A|apply alike_refl].
  - intros Q Hs; specialize (E2 Hs); subst r'; rewrite <- Ic in E at 1.
    rewrite (run_step_quiet op j w c' st' Q E) in H; injection H as _ <-; reflexivity.
Qed.

Lemma forward_inv m : forall j p0 s w w' r, inv p0 s w -> pos s + m <= n ->
  forward_operator op m j w = (w', r) ->
  (r = Ok tt -> inv p0 {| pos := pos s + m; next := next s; saved := saved s |} w') /\
  (quiet op -> (exists st, at_ n st) -> r = Ok tt).
Proof.
  induction m as [|m IH]; intros j p0 s w w' r Hi Hm H.
  - injection H as <- <-; rewrite Nat.add_0_r; split; [|auto]; intros _; destruct s, Hi; constructor; auto.
  - cbn [forward_operator] in H; unfold mbind in H.
    destruct (run_step op j w) as [w1 r1] eqn:E.
    destruct (run_step_inv j p0 s w w1 r1 Hi ltac:(lia) E) as [A1 A2].
    destruct r1 as [[]|e].
    + destruct (IH (S j) p0 _ w1 w' r (A1 eq_refl) ltac:(cbn; lia) H) as [B1 B2]; cbn in B1.
      rewrite <- Nat.add_succ_comm; auto.
    + injection H as <- <-; split; [discriminate|]; intros Q (st & Hst); apply A2; [exact Q|].
      apply (at_below op c a n st Hst); lia.
Qed.

Lemma play_inv p0 s x s' w w' r : play n s x = Some s' -> inv p0 s w -> run_action op x w = (w', r) ->
  (r = Ok tt -> inv p0 s' w') /\
  (quiet op -> (exists st, at_ n st) -> (exists q, sweep op c a n p0 q) -> r = Ok tt).
Proof.
  intros HPl Hi H; destruct x as [x y|k|k|x y]; cbn [play run_action] in HPl, H.
  - destruct (_ && _ && _) eqn:B in HPl; [|discriminate]; injection HPl as <-.
    apply andb_prop in B as [B B3]; apply andb_prop in B as [B1 B2].
    apply Nat.eqb_eq in B1; apply Nat.leb_le in B2; apply Nat.leb_le in B3; subst x.
    destruct (forward_inv (y - pos s) (S (pos s)) p0 s w w' r Hi ltac:(lia) H) as [A1 A2].
    replace (pos s + (y - pos s)) with y in A1 by lia; auto.
  - injection HPl as <-; injection H as <- <-; split; [intros _|auto].
    pose proof Hi as [Iw Ic Ipos Il Is Ip If]; constructor; cbn; auto.
    + destruct Iw; constructor; cbn; auto.
    + intros j p; rewrite (Nat.eqb_sym k j); destruct (Nat.eqb j k) eqn:E.
      * intros [= <-]; split; [exact Il|]; destruct Ipos as (st & A1 & A2); exists st, (k, live w); auto.
      * apply Is.
  - destruct (saved s k) as [p|] eqn:E; [|discriminate]; injection HPl as <-.
    pose proof Hi as [Iw Ic Ipos Il Is Ip If]; destruct (Is k p E) as (Hp & st & [k' snap] & A1 & A2 & A3).
    unfold reading in H; rewrite A2 in H; injection H as <- <-; split; [intros _|auto].
    pose proof (find_forall _ _ _ _ (wf_slots _ _ Iw) A2) as Hs; cbn in Hs, A3.
    constructor; cbn; auto.
    + destruct Iw; constructor; cbn; auto; apply wf_load; auto.
    + exists st; split; [exact A1|]; apply alike_load; exact A3.
  - destruct (_ && _ && _) eqn:B in HPl; [|discriminate]; injection HPl as <-.
    apply andb_prop in B as [B B3]; apply andb_prop in B as [B1 B2].
    apply Nat.eqb_eq in B1; apply Nat.eqb_eq in B2; apply Nat.eqb_eq in B3; subst y.
    replace (S x - x) with 1 in H by lia; cbn [reverse_operator] in H; unfold mbind, reading in H.
    pose proof Hi as [Iw Ic (st & It & Ia) Il Is Ip If].
    rewrite B2 in It; rewrite B3 in Ip.
    destruct (run_step_jacvec_rev op (S (S x) + 0) (live w) w) as [w1 r1] eqn:E.
    pose proof (pres_rev_step op (proj2 (proj2 Sz)) (S (S x) + 0) (live w) (wf_live _ _ Iw) w Iw) as P.
    rewrite E in P; cbn in P.
    destruct r1 as [[]|e].
    + injection H as <- <-; split; [intros _|auto].
      destruct (run_step_jacvec_rev_ok op _ _ _ _ E) as (q & Q1 & ->).
      rewrite (alike_adjoint _ _ _ Ia) in Q1.
      constructor; cbn; auto; [rewrite B2; eauto|].
      exact (back_step op c a n p0 x st (pert w) q Ip It Q1).
    + injection H as <- <-; split; [discriminate|]; intros Q _ (q & Hq).
      pose proof (sweep_back op c a n p0 _ _ _ Ip Hq) as SB.
      inversion SB as [|? st2 ? p1 ? G1 G2 G3]; subst.
      rewrite <- (at_fun op c a _ _ _ It G1), <- (alike_adjoint _ _ _ Ia) in G2.
      rewrite (run_step_jacvec_rev_quiet op _ _ _ _ Q G2) in E; discriminate.
Qed.

Lemma plays_inv p0 l : forall s s' w w' r, plays n s l = Some s' -> inv p0 s w ->
  run_actions op l w = (w', r) ->
  (r = Ok tt -> inv p0 s' w') /\
  (quiet op -> (exists st, at_ n st) -> (exists q, sweep op c a n p0 q) -> r = Ok tt).
Proof.
  induction l as [|x l IH]; intros s s' w w' r HPl Hi H; cbn [plays run_actions] in HPl, H.
  - injection HPl as <-; injection H as <- <-; auto.
  - destruct (play n s x) as [s1|] eqn:E; [|discriminate].
    unfold mbind in H; destruct (run_action op x w) as [w1 r1] eqn:E1.
    destruct (play_inv p0 s x s1 w w1 r1 E Hi E1) as [A1 A2].
    destruct r1 as [[]|e]; [apply (IH s1 s' w1 w' r); auto|].
    injection H as <- <-; split; [discriminate|auto].
Qed.

(** Without reversing nothing is demanded of the adjoint steps. *)
Lemma play_next s x s' : play n s x = Some s' -> next s' <= next s.
Proof.
  destruct x as [x y|k|k|x y]; cbn [play]; intros H.
  - destruct (_ && _ && _) in H; [injection H as <-; auto|discriminate].
  - injection H as <-; auto.
  - destruct (saved s k); [injection H as <-; auto|discriminate].
  - destruct (_ && _ && _) eqn:B in H; [|discriminate]; injection H as <-.
    apply andb_prop in B as [B B3]; apply andb_prop in B as [B1 _].
    apply Nat.eqb_eq in B1; apply Nat.eqb_eq in B3; cbn; lia.
Qed.

Lemma plays_next l : forall s s', plays n s l = Some s' -> next s' <= next s.
Proof.
  induction l as [|x l IH]; intros s s' H; cbn in H; [injection H as <-; auto|].
  destruct (play n s x) as [s1|] eqn:E; [|discriminate].
  apply play_next in E; apply IH in H; lia.
Qed.

Lemma plays_forward p0 l : forall s s' w w' r, plays n s l = Some s' -> next s' = next s -> inv p0 s w ->
  run_actions op l w = (w', r) -> quiet op -> (exists st, at_ n st) -> r = Ok tt.
Proof.
  induction l as [|x l IH]; intros s s' w w' r HPl Hne Hi H Q Hst; cbn [plays run_actions] in HPl, H.
  - injection H as <- <-; reflexivity.
  - destruct (play n s x) as [s1|] eqn:E; [|discriminate].
    pose proof (play_next _ _ _ E) as N1; pose proof (plays_next _ _ _ HPl) as N2.
    unfold mbind in H; destruct (run_action op x w) as [w1 r1] eqn:E1.
    destruct (play_inv p0 s x s1 w w1 r1 E Hi E1) as [A1 A2].
    assert (r1 = Ok tt) as ->.
    { destruct x as [x y|k|k|x y].
      - cbn [play] in E; destruct (_ && _ && _) eqn:B in E; [|discriminate].
        apply andb_prop in B as [B B3]; apply andb_prop in B as [B1 B2].
        apply Nat.eqb_eq in B1; apply Nat.leb_le in B2; apply Nat.leb_le in B3; subst x.
        apply (forward_inv (y - pos s) (S (pos s)) p0 s w w1 r1 Hi ltac:(lia) E1); auto.
      - injection E1 as _ <-; reflexivity.
      - cbn [play run_action] in E, E1; destruct (saved s k) as [p|] eqn:Es; [|discriminate].
        destruct (iv_saved _ _ _ Hi k p Es) as (_ & st & [k' snap] & B1 & B2 & B3).
        unfold reading in E1; rewrite B2 in E1; injection E1 as _ <-; reflexivity.
      - exfalso; cbn [play] in E; destruct (_ && _ && _) eqn:B in E; [|discriminate].
        injection E as <-; cbn in *.
        apply andb_prop in B as [B B3]; apply andb_prop in B as [B1 B2].
        apply Nat.eqb_eq in B1; apply Nat.eqb_eq in B3; lia. }
    apply (IH s1 s' w1 w' r HPl); auto; lia.
Qed.

Lemma inv_restart p0 p1 s w : inv p0 s w -> next s = n ->
  shaped (t_stages bt) (state_size o) (independent_input_size o)
    (independent_output_size o) (linearization_point_size o) (disc p1) ->
  inv p1 s (w_pert p1 w).
Proof.
  intros [Iw Ic Ipos Il Is Ip If] Hn Hp; constructor; cbn; auto.
  - destruct Iw; constructor; auto.
  - rewrite Hn; constructor.
Qed.

End From.

(** *** compute *)
Notation begin i := (live (prepare op i (setup op c))).

Lemma begin_wf i : inputs_sized o i -> wf_ti op (begin i).
Proof. intros Hi; apply wf_live, wf_prepare; auto using wf_setup. Qed.

(** Where the forward schedule leads. *)
Definition forward_end (s : sched) : Prop :=
  plays n (start_of n) fs = Some s /\ pos s = n /\ next s = n /\
  exists s', plays n s rs = Some s' /\ next s' = 0.

Lemma forward_end_fun s1 s2 : forward_end s1 -> forward_end s2 -> s1 = s2.
Proof. intros (A & _) (B & _); congruence. Qed.

Lemma revolve_compute i w w' r : wf op w -> ctl w = c -> inputs_sized o i ->
  compute op i w = (w', r) ->
  (forall out, r = Ok out -> cached w' = cached (prepare op i w) /\
     exists s st, forward_end s /\ inv (begin i) (pert w') s w' /\ at_ op c (begin i) n st /\ out = result_of st) /\
  (quiet op -> forall st, at_ op c (begin i) n st -> r = Ok (result_of st)).
Proof.
  intros Hw Hc Hi H.
  pose proof (begin_wf i Hi) as Hb.
  assert (SM : sim op (live (prepare op i w)) (begin i)) by (apply sim_prepare; auto using wf_setup).
  pose proof (wf_prepare op i w Hi Hw) as Hp.
  destruct HV as (sf & sr & V1 & V2 & V3 & V4 & V5).
  unfold compute, create_checkpointer, iterate_forward in H; rewrite HP in H.
  unfold mbind at 1 in H; rewrite compute_preparation_eq in H; unfold mbind at 1, modify at 1 in H.
  set (w0 := w_slots [] (prepare op i w)) in H.
  assert (Hw0 : wf op w0) by (destruct Hp; constructor; cbn; auto).
  assert (Hc0 : ctl w0 = c) by exact Hc.
  change (live (prepare op i w)) with (live w0) in SM.
  assert (C0 : cached w0 = cached (prepare op i w)) by reflexivity.
  assert (F0 : slots w0 = []) by reflexivity.
  clearbody w0; rewrite <- C0; clear C0.
  unfold mbind at 1, mbind at 1, forward_operator, mbind at 1, mret at 1 in H.
  destruct (iterate_on_step op (retry_limit op) c (live w0)) as [[c1 st1] r1] eqn:E1.
  destruct (iterate_on_step op (retry_limit op) c (begin i)) as [[c2 st2] r2] eqn:E2.
  destruct (iterate_sim op _ _ _ _ _ _ _ _ _ _ SM E1 E2) as (X1 & X2 & X3).
  destruct (run_step op 0 w0) as [w1 [[]|e]] eqn:ER.
  2:{ injection H as <- <-; split; [discriminate|]; intros Q st Hst; exfalso.
      destruct (at_below op c _ n st Hst 0 ltac:(lia)) as (s0 & Hs0); apply at_0 in Hs0.
      rewrite Hs0 in E2; injection E2 as <- <- <-; subst r1.
      rewrite <- Hc0 in E1 at 1; rewrite (run_step_quiet op 0 w0 c1 st1 Q E1) in ER; discriminate. }
  pose proof (pres_run_step op (proj1 Sz) 0 w0 Hw0) as P1; rewrite ER in P1; cbn in P1.
  destruct (run_step_ok op 0 w0 w1 ER) as (c3 & st3 & I3 & E3).
  rewrite Hc0, E1 in I3; injection I3 as -> -> ->; specialize (X3 eq_refl); subst c2 st2 r2.
  assert (c3 = c) by (eapply iterate_ctl; eauto); subst c3.
  assert (A0 : at_ op c (begin i) 0 st3) by (apply at_0; exact E2).
  assert (L1 : live w1 = st3) by (rewrite E3; reflexivity).
  assert (K1 : cached w1 = cached w0) by (rewrite E3; reflexivity).
  assert (T1 : ctl w1 = c) by (rewrite E3; reflexivity).
  assert (G1 : slots w1 = []) by (rewrite E3; exact F0).
  clear E3 ER.
  unfold mbind at 1, modify in H.
  set (w2 := w_first_complete (ti_set (first_complete w1) (live w1)) w1) in H.
  assert (P2 : wf op w2).
  { destruct P1 as [Q1 Q2 Q3 Q4 Q5]; constructor; cbn; auto.
    rewrite (ti_set_wf _ _ Q5 Q1); exact Q1. }
  assert (I2 : inv (begin i) (pert w2) (start_of n) w2).
  { constructor; cbn [pos next saved start_of]; auto; try lia; try discriminate.
    - exists st3; split; [exact A0|]; cbn; rewrite L1; apply alike_refl.
    - constructor.
    - cbn; rewrite (ti_set_wf _ _ (wf_first _ _ P1) (wf_live _ _ P1)), L1; exact A0. }
  assert (K2 : cached w2 = cached w0) by (rewrite <- K1; reflexivity).
  clearbody w2.
  destruct (run_actions op fs w2) as [w3 r3] eqn:EA.
  destruct (plays_inv (begin i) Hb (pert w2) fs _ _ _ _ _ V1 I2 EA) as [B1 _].
  pose proof (plays_forward (begin i) Hb (pert w2) fs _ _ _ _ _ V1 ltac:(rewrite V3; reflexivity) I2 EA) as B2.
  assert (K3 : cached w3 = cached w2).
  { pose proof (cached_actions op fs w2) as K; rewrite EA in K; exact K. }
  destruct r3 as [[]|e].
  - injection H as <- <-; specialize (B1 eq_refl); clear B2.
    destruct (iv_pos _ _ _ _ B1) as (st & S1 & S2); rewrite V2 in S1.
    split.
    + intros out [= <-]; split; [congruence|]; exists sf, st.
      split; [split; eauto|]; split; [|split; [exact S1|exact (alike_result _ _ S2)]].
      destruct B1 as [Iw Ic Ipos Il Is Ip If]; constructor; auto; rewrite V3; constructor.
    + intros _ st' Hst'; rewrite (at_fun op c _ n _ _ Hst' S1), <- (alike_result _ _ S2); reflexivity.
  - injection H as <- <-; split; [discriminate|]; intros Q st Hst.
    specialize (B2 Q (ex_intro _ st Hst)); discriminate.
Qed.

(** *** Reverse products *)
Lemma revolve_reverse i p0 s w w' r : inputs_sized o i -> forward_end s -> inv (begin i) p0 s w ->
  p0 = pert w -> iterate_reverse op w = (w', r) ->
  (r = Ok tt -> sweep op c (begin i) n p0 (pert w')) /\
  (quiet op -> (exists q, sweep op c (begin i) n p0 q) -> r = Ok tt).
Proof.
  intros Hi (_ & V2 & V3 & sr & V4 & V5) HI Hp0 H; pose proof (begin_wf i Hi) as Hb.
  unfold iterate_reverse in H; rewrite HP in H; unfold mbind at 1 in H.
  destruct (run_actions op rs w) as [w1 r1] eqn:EA.
  destruct (plays_inv (begin i) Hb p0 rs s sr w w1 r1 V4 HI EA) as [B1 B2].
  assert (Hn : exists st, at_ op c (begin i) n st).
  { destruct (iv_pos _ _ _ _ HI) as (st & S1 & _); rewrite V2 in S1; eauto. }
  destruct r1 as [[]|e].
  2:{ injection H as <- <-; split; [discriminate|]; intros Q Hq; specialize (B2 Q Hn Hq); discriminate. }
  specialize (B1 eq_refl); clear B2; destruct B1 as [Iw Ic _ _ _ Ip If]; rewrite V5 in Ip.
  unfold mbind at 1, modify in H; cbn [reverse_operator] in H; unfold mbind, reading in H.
  rewrite (ti_set_wf _ _ (wf_live _ _ Iw) (wf_first _ _ Iw)) in H; cbn [live w_live] in H.
  destruct (run_step_jacvec_rev op (1 + 0) (first_complete w1) (w_live (first_complete w1) w1))
    as [w2 r2] eqn:E.
  destruct r2 as [[]|e]; injection H as <- <-.
  - split; [intros _|auto].
    destruct (run_step_jacvec_rev_ok op _ _ _ _ E) as (q & Q1 & ->).
    apply (back_sweep op c (begin i) n p0 0 (pert w1)); [exact Ip|].
    apply sweep_0 with (first_complete w1); [exact If|exact Q1].
  - split; [discriminate|]; intros Q (q & Hq).
    pose proof (sweep_back op c _ n p0 _ _ _ Ip Hq) as SB.
    inversion SB as [st ? ? G1 G2|]; subst.
    rewrite <- (at_fun op c _ _ _ _ If G1) in G2.
    rewrite (run_step_jacvec_rev_quiet op _ _ (w_live (first_complete w1) w1) _ Q G2) in E; discriminate.
Qed.

(** The checkpoints, if they will be used, belong to [i]. *)
Definition revolve_ready (i : inputs T) (w : component T C) : Prop :=
  (cache_hit i (cached w) = false /\ ctl w = c) \/
  (cache_hit i (cached w) = true /\ exists s, forward_end s /\ inv (begin i) (pert w) s w).

(** The product through [S n] steps. *)
Definition product (i : inputs T) (d : outputs T) (g : inputs T) : Prop :=
  exists l p', steps op c (begin i) l /\ length l = S n /\
    adjoint_sweep op (rev l) (pert (prepare_rev d (setup op c))) = Ok p' /\ g = gradient_of p'.

Hypothesis Hign : ignores_stage_state_weights o.

Lemma steps_wf l : forall a, wf_ti op a -> steps op c a l -> Forall (wf_ti op) l.
Proof.
  induction l as [|b l IH]; intros a Ha H; [constructor|]; destruct H as [H1 H2].
  pose proof (iterate_wf op (proj1 Sz) _ _ _ _ _ _ Ha H1) as Hb; constructor; eauto.
Qed.

Lemma sweep_product i d w q : inputs_sized o i -> outputs_sized o d -> wf op w ->
  sweep op c (begin i) n (pert (prepare_rev d w)) q -> product i d (gradient_of q).
Proof.
  intros Hi Hd Hw H; apply sweep_list in H as (l & A & B & D).
  pose proof (adjoint_sweep_io op (proj2 (proj2 Sz)) Hign (rev l)
    (Forall_rev' _ _ (steps_wf l _ (begin_wf i Hi) A))
    (pert (prepare_rev d w)) (pert (prepare_rev d (setup op c)))
    (wf_pert _ _ (wf_prepare_rev op d w Hd Hw))
    (wf_pert _ _ (wf_prepare_rev op d _ Hd (wf_setup op c)))
    (same_start_rev op d _ _ Hw (wf_setup op c))) as X.
  rewrite D in X.
  destruct (adjoint_sweep op (rev l) (pert (prepare_rev d (setup op c)))) as [p'|] eqn:E; [|tauto].
  exists l, p'; rewrite (same_gradient _ _ X); auto.
Qed.

Lemma product_sweep i d w g : inputs_sized o i -> outputs_sized o d -> wf op w ->
  product i d g -> exists q, sweep op c (begin i) n (pert (prepare_rev d w)) q.
Proof.
  intros Hi Hd Hw (l & p' & A & B & D & ->).
  pose proof (adjoint_sweep_io op (proj2 (proj2 Sz)) Hign (rev l)
    (Forall_rev' _ _ (steps_wf l _ (begin_wf i Hi) A))
    (pert (prepare_rev d w)) (pert (prepare_rev d (setup op c)))
    (wf_pert _ _ (wf_prepare_rev op d w Hd Hw))
    (wf_pert _ _ (wf_prepare_rev op d _ Hd (wf_setup op c)))
    (same_start_rev op d _ _ Hw (wf_setup op c))) as X.
  rewrite D in X.
  destruct (adjoint_sweep op (rev l) (pert (prepare_rev d w))) as [q|] eqn:E; [|tauto].
  exists q; apply sweep_list; exists l; auto.
Qed.

Lemma product_fun i d g1 g2 : product i d g1 -> product i d g2 -> g1 = g2.
Proof.
  intros (l & p & A & B & D & ->) (l2 & p2 & A2 & B2 & D2 & ->).
  rewrite (steps_fun op c l _ l2 A A2) in D by congruence; congruence.
Qed.

Lemma revolve_rev i d w g : quiet op -> wf op w -> inputs_sized o i -> outputs_sized o d ->
  revolve_ready i w ->
  ((exists w', compute_jacvec_product_rev op i d w = (w', Ok g)) <-> product i d g).
Proof.
  intros Q Hw Hi Hd HR.
  (* the component whose checkpoints are used *)
  assert (HB : (exists wb s, forward_end s /\ inv (begin i) (pert wb) s wb /\
      forall w' r, compute_jacvec_product_rev op i d w = (w', r) <->
        (let! _ := iterate_reverse op in
         let! r := reading (fun w => mret (gradient_of (pert w))) in
         modify (w_cached None) ;; mret r) (prepare_rev d wb) = (w', r)) \/
    (~ (exists st, at_ op c (begin i) n st) /\ exists w' e, compute_jacvec_product_rev op i d w = (w', Err e))).
  { unfold compute_jacvec_product_rev, jacvec_rev_preparation_phase.
    destruct HR as [[HC Hc]|[HC (s & F & HI)]].
    - destruct (compute op i w) as [wb r] eqn:E.
      destruct (revolve_compute i w wb r Hw Hc Hi E) as [A1 A2].
      destruct r as [out|e].
      + left; destruct (A1 out eq_refl) as (_ & s & st & F & HI & _).
        exists wb, s; split; [exact F|]; split; [exact HI|]; intros w' r.
        unfold mbind at 1, mbind at 1, mbind at 1, reading at 1; rewrite HC; unfold mbind at 1; rewrite E; reflexivity.
      + right; split.
        * intros (st & Hst); specialize (A2 Q st Hst); discriminate.
        * unfold mbind at 1, mbind at 1, reading at 1; rewrite HC; unfold mbind at 1; rewrite E; cbn; eauto.
    - left; exists w, s; split; [exact F|]; split; [exact HI|]; intros w' r.
      unfold mbind at 1, mbind at 1, mbind at 1, reading at 1; rewrite HC; reflexivity. }
  destruct HB as [(wb & s & F & HI & HE)|(Hno & w' & e & HE)].
  - pose proof (iv_wf _ _ _ _ HI) as Hwb.
    pose proof (wf_prepare_rev op d wb Hd Hwb) as Hpr.
    assert (HI' : inv (begin i) (pert (prepare_rev d wb)) s (prepare_rev d wb)).
    { apply (inv_restart _ _ (pert (prepare_rev d wb)) _ _ HI); [apply F|exact (wf_pert _ _ Hpr)]. }
    destruct (iterate_reverse op (prepare_rev d wb)) as [w1 r1] eqn:E.
    destruct (revolve_reverse i _ s _ w1 r1 Hi F HI' eq_refl E) as [B1 B2].
    split.
    + intros (w' & H); apply HE in H; unfold mbind at 1 in H; rewrite E in H.
      destruct r1 as [[]|e]; [|discriminate].
      unfold mbind, reading, mret, modify in H; injection H as _ <-.
      apply (sweep_product i d wb); auto.
    + intros HPd; destruct (product_sweep i d wb g Hi Hd Hwb HPd) as (q & Hq).
      assert (r1 = Ok tt) as -> by (apply B2; eauto).
      eexists; apply HE; unfold mbind at 1; rewrite E; unfold mbind, reading, mret, modify.
      rewrite (product_fun i d g _ HPd (sweep_product i d wb _ Hi Hd Hwb (B1 eq_refl))); reflexivity.
  - split.
    + intros (w2 & H); congruence.
    + intros (l & p' & A & B & _); exfalso; apply Hno; exists (last l (begin i)), l; auto.
Qed.

Lemma ready_setup i : revolve_ready i (setup op c).
Proof. left; split; reflexivity. Qed.

End Revolve.

(** ** All variants give the same values *)
Section Equivalent.
Context {T : Type} {N : Num T} {C : Type}.
Variable op : options T C.
Notation o := (o_ode op).
Hypothesis Sz : sized_ode o.
Variables (n : nat) (c : C).
Hypothesis Hn : o_crit op = PredefinedNumberOfSteps (S n).
Hypothesis Hl : S n < loop_limit op.
Hypothesis Q : quiet op.
Hypothesis HS : stateless op c.
Notation begin i := (live (prepare op i (setup op c))).

(** The result of [S n] steps. *)
Definition run_value (i : inputs T) (out : outputs T) : Prop :=
  exists st, at_ op c (begin i) n st /\ out = result_of st.

Lemma loop_run_value w i out : loops op -> wf op w -> ctl w = c -> inputs_sized o i ->
  ((exists w', compute op i w = (w', Ok out)) <-> run_value i out).
Proof.
  intros HL Hw Hc Hi; split.
  - intros (w' & H).
    destruct (compute_value op (proj1 Sz) i w w' out c HL Hw Hi H) as (l & c' & st' & A & B & E & _).
    rewrite Hc in A.
    destruct (chain_steps op (S n) c Hn HS _ _ _ _ _ A ltac:(lia)) as (D1 & D2 & D3 & D4).
    exists st'; split; [|exact E]; exists l; auto.
  - intros (st & (l & A & B & D) & ->).
    pose proof (steps_chain op (S n) c Hn l 0 _ A B) as X.
    rewrite <- Hc in X at 1.
    destruct (compute_value_conv op (proj1 Sz) i w c l _ _ HL Q Hw Hi X ltac:(lia)) as (w' & E & _).
    exists w'; rewrite E, D; reflexivity.
Qed.

Lemma revolve_run_value fs rs w i out : o_ckpt op = PyrevolveCheckpointer fs rs -> valid_schedule n fs rs ->
  wf op w -> ctl w = c -> inputs_sized o i ->
  ((exists w', compute op i w = (w', Ok out)) <-> run_value i out).
Proof.
  intros HP HV Hw Hc Hi; destruct (compute op i w) as [w' r] eqn:E.
  destruct (revolve_compute op Sz n fs rs c HP HV HS i w w' r Hw Hc Hi E) as [A B]; split.
  - intros (w2 & [= <- ->]); destruct (A out eq_refl) as (_ & s & st & _ & _ & D & F); exists st; auto.
  - intros (st & D & ->); exists w'; f_equal; exact (B Q st D).
Qed.

Lemma all_run_value w i out : fit n (o_ckpt op) -> wf op w -> ctl w = c -> inputs_sized o i ->
  ((exists w', compute op i w = (w', Ok out)) <-> run_value i out).
Proof.
  intros F Hw Hc Hi; destruct (o_ckpt op) as [| |fs rs] eqn:E.
  - apply loop_run_value; auto; unfold loops; rewrite E; exact I.
  - apply loop_run_value; auto; unfold loops; rewrite E; exact I.
  - exact (revolve_run_value fs rs w i out E F Hw Hc Hi).
Qed.

Hypothesis Hign : ignores_stage_state_weights o.

Lemma rev_value_product i d g : rev_value op c i d g <-> product op n c i d g.
Proof.
  split.
  - intros (l & c' & st' & p' & A & B & D & E).
    destruct (chain_steps op (S n) c Hn HS _ _ _ _ _ A ltac:(lia)) as (D1 & D2 & D3 & D4).
    exists l, p'; auto.
  - intros (l & p' & A & B & D & E).
    exists l, c, (last l (begin i)), p'; split; [exact (steps_chain op (S n) c Hn l 0 _ A B)|].
    rewrite B; auto.
Qed.

(** Fit to reverse: checkpoints that will be used belong to [i]. *)
Definition ready (i : inputs T) (w : component T C) : Prop :=
  match o_ckpt op with
  | NoCheckpointer => False
  | AllCheckpointer => valid_for op c i w
  | PyrevolveCheckpointer fs rs => revolve_ready op n fs rs c i w
  end.

Lemma all_rev_value w i d g : fit n (o_ckpt op) -> ready i w -> wf op w ->
  inputs_sized o i -> outputs_sized o d ->
  ((exists w', compute_jacvec_product_rev op i d w = (w', Ok g)) <-> product op n c i d g).
Proof.
  unfold ready; intros F R Hw Hi Hd; destruct (o_ckpt op) as [| |fs rs] eqn:E; [tauto| |].
  - rewrite (rev_value_iff op (proj1 Sz) (proj2 (proj2 Sz)) Hign c i d w g E Q Hw Hi Hd R).
    apply rev_value_product.
  - exact (revolve_rev op Sz n fs rs c E F HS Hign i d w g Q Hw Hi Hd R).
Qed.

Lemma ready_setup' i : reversing (o_ckpt op) -> ready i (setup op c).
Proof.
  unfold ready, reversing; destruct (o_ckpt op); intros H; [congruence|left|left]; split; reflexivity.
Qed.

Lemma cached_after i w : cache_hit i (cached (prepare op i w)) = cache_hit i (cached (prepare op i (setup op c))).
Proof. reflexivity. Qed.

Lemma ready_after i w w' out : fit n (o_ckpt op) -> reversing (o_ckpt op) -> wf op w -> ctl w = c ->
  inputs_sized o i -> compute op i w = (w', Ok out) -> ready i w'.
Proof.
  unfold ready, reversing; intros F R Hw Hc Hi H.
  pose proof (ctl_compute op c HS i _ Hc) as C1; rewrite H in C1; unfold has_ctl in C1; cbn in C1.
  destruct (o_ckpt op) as [| |fs rs] eqn:E; [congruence| |].
  - assert (HL : loops op) by (unfold loops; rewrite E; exact I).
    destruct (compute_value op (proj1 Sz) i w w' out c HL Hw Hi H) as (l & c' & st' & A & B & _ & D & _).
    rewrite Hc in A; unfold valid_for.
    destruct (cache_hit i (cached w')) eqn:EC; [right|left; auto].
    split; [reflexivity|]; exists l, c', st'; split; [exact A|]; split; [exact B|].
    apply D; unfold keeps; rewrite E; reflexivity.
  - destruct (revolve_compute op Sz n fs rs c E F HS i w w' _ Hw Hc Hi H) as [A _].
    destruct (A out eq_refl) as (_ & s & st & S1 & S2 & _); unfold revolve_ready.
    destruct (cache_hit i (cached w')) eqn:EC; [right|left; auto].
    split; [reflexivity|]; exists s; auto.
Qed.

End Equivalent.

Section Variants.
Context {T : Type} {N : Num T} {C : Type}.
Variable op : options T C.
Notation o := (o_ode op).
Hypothesis Sz : sized_ode o.
Variables (n : nat) (c : C).
Hypothesis Hn : o_crit op = PredefinedNumberOfSteps (S n).
Hypothesis Hl : S n < loop_limit op.
Hypothesis Q : quiet op.
Hypothesis HS : stateless op c.

Lemma reachable_ctl k w : reachable (with_ckpt op k) c w -> ctl w = c.
Proof. intros (h & F & ->); exact (ctl_run_calls (with_ckpt op k) c HS h (setup (with_ckpt op k) c) eq_refl). Qed.

Lemma compute_variants k1 k2 w1 w2 i out : fit n k1 -> fit n k2 ->
  reachable (with_ckpt op k1) c w1 -> reachable (with_ckpt op k2) c w2 -> inputs_sized o i ->
  ((exists w', compute (with_ckpt op k1) i w1 = (w', Ok out)) <->
   (exists w', compute (with_ckpt op k2) i w2 = (w', Ok out))).
Proof.
  intros F1 F2 R1 R2 Hi.
  rewrite (all_run_value (with_ckpt op k1) Sz n c Hn Hl Q HS w1 i out F1
    (reachable_wf (with_ckpt op k1) c w1 Sz R1) (reachable_ctl k1 w1 R1) Hi).
  rewrite (all_run_value (with_ckpt op k2) Sz n c Hn Hl Q HS w2 i out F2
    (reachable_wf (with_ckpt op k2) c w2 Sz R2) (reachable_ctl k2 w2 R2) Hi).
  reflexivity.
Qed.

Hypothesis Hign : ignores_stage_state_weights o.

(** The component is fresh, or [i] was just computed. *)
Definition current k (i : inputs T) (w : component T C) : Prop :=
  w = setup (with_ckpt op k) c \/
  exists v out, reachable (with_ckpt op k) c v /\ compute (with_ckpt op k) i v = (w, Ok out).

Lemma reverse_variants k1 k2 w1 w2 i d g : fit n k1 -> fit n k2 -> reversing k1 -> reversing k2 ->
  inputs_sized o i -> outputs_sized o d -> current k1 i w1 -> current k2 i w2 ->
  ((exists w', compute_jacvec_product_rev (with_ckpt op k1) i d w1 = (w', Ok g)) <->
   (exists w', compute_jacvec_product_rev (with_ckpt op k2) i d w2 = (w', Ok g))).
Proof.
  intros F1 F2 V1 V2 Hi Hd R1 R2.
  assert (G : forall k w, fit n k -> reversing k -> current k i w ->
    wf (with_ckpt op k) w /\ ready (with_ckpt op k) n c i w).
  { intros k w F V [->|(v & out & R & H)].
    - split; [apply wf_setup|apply (ready_setup' (with_ckpt op k) n c), V].
    - pose proof (reachable_wf (with_ckpt op k) c v Sz R) as Wv; split.
      + pose proof (pres_compute (with_ckpt op k) (proj1 Sz) (proj2 (proj2 Sz)) i Hi v Wv) as P.
        rewrite H in P; exact P.
      + exact (ready_after (with_ckpt op k) Sz n c HS i v w out F V Wv (reachable_ctl k v R) Hi H). }
  destruct (G k1 w1 F1 V1 R1) as [W1 Y1], (G k2 w2 F2 V2 R2) as [W2 Y2].
  rewrite (all_rev_value (with_ckpt op k1) Sz n c Hn Hl Q HS Hign w1 i d g F1 Y1 W1 Hi Hd).
  rewrite (all_rev_value (with_ckpt op k2) Sz n c Hn Hl Q HS Hign w2 i d g F2 Y2 W2 Hi Hd).
  reflexivity.
Qed.

End Variants.
