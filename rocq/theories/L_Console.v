(** The default callbacks print three lines per step. *)
From Coq Require Import String List Reals Lia Lra Arith.
From Verif Require Import Base M_Tableau M_State M_ODE M_Step M_Controller M_Measure M_Integrator M_Console
  SpecRK SpecShape SpecDeriv SpecRun SpecRevolve SpecCallback SpecConsole L_Iter L_Whole L_RunProps L_Log L_RevolveLog L_Callback.
Import ListNotations.
Local Open Scope nat_scope.

Section Generic.
Context {T : Type} {N : Num T}.
Variable clock : nat -> T.
Notation first := (setup_callbacks 0 no_option).
Notation after := (console_after clock first).

Lemma after_app l l' c : after (l ++ l') c = after l' (after l c).
Proof. apply fold_left_app. Qed.

(** The hooks of one step. *)
Definition step_events m n (a b : tistate T) : list (event T) :=
  map (fun i => Before m i n a) (seq 0 2) ++ map (fun i => After m i n b) (seq 0 2).
Lemma step_shown m n a b c :
  printed (after (step_events m n a b) c) = printed c ++ report clock (func_name m) [n] (readings c) /\
  readings (after (step_events m n a b) c) = S (S (readings c)).
Proof.
  destruct m; cbn; rewrite <- !app_assoc; split; reflexivity.
Qed.

Lemma report_app name ns ns' r : report clock name (ns ++ ns') r = report clock name ns r ++ report clock name ns' (2 * length ns + r).
Proof.
  revert r; induction ns as [|n ns IH]; intros r; [reflexivity|]; cbn [app report length].
  rewrite IH; replace (2 * S (length ns) + r) with (2 * length ns + S (S r)) by lia; reflexivity.
Qed.
Lemma report_length name ns r : length (report clock name ns r) = 3 * length ns.
Proof. revert r; induction ns as [|n ns IH]; intros r; [reflexivity|]; cbn [report length]; rewrite IH; lia. Qed.

Lemma bracketed_shown m a l : forall n c, let c' := after (bracketed m 2 n a l) c in
  printed c' = printed c ++ report clock (func_name m) (seq n (length l)) (readings c) /\
  readings c' = 2 * length l + readings c.
Proof.
  revert a; induction l as [|b l IH]; intros a n c; cbv zeta.
  - cbn; rewrite app_nil_r; auto.
  - change (bracketed m 2 n a (b :: l)) with
      (map (fun i => Before m i n a) (seq 0 2) ++ map (fun i => After m i n b) (seq 0 2) ++ bracketed m 2 (S n) b l).
    rewrite app_assoc; fold (step_events m n a b).
    rewrite after_app; destruct (step_shown m n a b c) as (P & R); destruct (IH b (S n) (after (step_events m n a b) c)) as (P' & R').
    rewrite P', R', P, R; split; [rewrite <- app_assoc; reflexivity|cbn [length]; lia].
Qed.

Lemma back_shown l : forall c,
  printed (after (bracketed_back 2 l) c) = printed c ++ report clock (func_name Rev) (rev (seq 1 (length l))) (readings c).
Proof.
  induction l as [|b l IH]; intros c; [cbn; rewrite app_nil_r; reflexivity|].
  change (bracketed_back 2 (b :: l)) with
      (map (fun i => Before Rev i (length (b :: l)) b) (seq 0 2) ++ map (fun i => After Rev i (length (b :: l)) b) (seq 0 2) ++ bracketed_back 2 l).
  rewrite app_assoc; change (map _ (seq 0 2) ++ map _ (seq 0 2)) with (step_events Rev (length (b :: l)) b b).
  rewrite after_app; destruct (step_shown Rev (length (b :: l)) b b c) as (P & R).
  rewrite IH, P, R; cbn [length]; rewrite seq_S, rev_app_distr; cbn [rev app plus].
  rewrite <- app_assoc; reflexivity.
Qed.

Section Calls.
Context {C : Type}.
Variable op : options T C.
Hypothesis D : default_callbacks 0 op.

Lemma two m : length (o_callbacks op m) = 2.
Proof. rewrite D; destruct m; reflexivity. Qed.

Lemma compute_prints i w w' out : loops op -> compute op i w = (w', Ok out) ->
  exists a l, starts_at op i a /\ trajectory op a l /\ stops op a l /\
    prints clock first w w' (report clock "compute" (seq 1 (length l))).
Proof.
  intros L H; destruct (compute_log op i w w' out L H) as (a & l & S & Tr & St & E & _).
  exists a, l; repeat split; try assumption; try apply S; try apply St.
  rewrite two in E; eexists; split; [exact E|]; intros c; apply (bracketed_shown Compute a l 1 c).
Qed.

Lemma fwd_prints i d w w' out : compute_jacvec_product_fwd op i d w = (w', Ok out) ->
  exists a l, starts_at op i a /\ trajectory op a l /\ stops op a l /\
    prints clock first w w' (report clock "compute_jacvec_product_fwd" (seq 1 (length l))).
Proof.
  intros H; destruct (fwd_log op i d w w' out H) as (a & l & S & Tr & St & E & _).
  exists a, l; repeat split; try assumption; try apply S; try apply St.
  rewrite two in E; eexists; split; [exact E|]; intros c; apply (bracketed_shown Fwd a l 1 c).
Qed.

Lemma rev_prints i d c w w1 out w2 g : sized_ode (o_ode op) ->
  (forall x : T, In x (initial i ++ independent i) -> neqb x x = true) ->
  o_ckpt op = AllCheckpointer -> reachable op c w -> inputs_sized (o_ode op) i ->
  compute op i w = (w1, Ok out) -> compute_jacvec_product_rev op i d w1 = (w2, Ok g) ->
  exists a l, starts_at op i a /\ trajectory op a l /\ stops op a l /\
    prints clock first w w1 (report clock "compute" (seq 1 (length l))) /\
    prints clock first w1 w2 (report clock "compute_jacvec_product_rev" (rev (seq 1 (length l)))).
Proof.
  intros Z F K W I H H2.
  destruct (store_all_reverse op (proj1 Z) i d w w1 out w2 g F K (reachable_wf op c w Z W) I H H2) as (a & l & p & p' & S & Tr & St & E & E2 & _).
  exists a, l; split; [exact S|]; split; [exact Tr|]; split; [exact St|]; rewrite two in E, E2; split.
  - eexists; split; [exact E|]; intros k; apply (bracketed_shown Compute a l 1 k).
  - eexists; split; [exact E2|]; intros k; rewrite back_shown, rev_length; reflexivity.
Qed.

Lemma recomputing_prints c n fs rs i w w' out :
  stateless op c -> o_ckpt op = PyrevolveCheckpointer fs rs -> valid_schedule n fs rs ->
  Forall forward_action fs -> ctl w = c -> compute op i w = (w', Ok out) ->
  prints clock first w w' (report clock "compute" (seq 0 (S n))).
Proof.
  intros A B V F K H; destruct (revolve_callbacks op c n fs rs i w w' out A B V F K H) as (a & l & S & Tr & Ln & E & _).
  rewrite two in E; eexists; split; [exact E|]; intros k; rewrite <- Ln; apply (bracketed_shown Compute a l 0 k).
Qed.

Lemma raising_prints i w w' r : loops op -> compute op i w = (w', r) ->
  exists a l k, starts_at op i a /\ trajectory op a l /\ 3 * length l <= k /\
    (3 * length l + 1 < k -> exists b, one_step op (last l a) b) /\
    prints clock first w w' (fun n => firstn k (report clock "compute" (seq 1 (S (length l))) n)).
Proof.
  intros L H; destruct (compute_log_any op i w w' r L H) as (a & l & ev & S & Tr & E & B).
  rewrite two in E, B; exists a, l.
  assert (K : exists j, (1 < j -> exists b, one_step op (last l a) b) /\
    forall c, printed (after ev c) = printed c ++ firstn j (report clock "compute" [Datatypes.S (length l)] (readings c))).
  { destruct B as [->|[(j & J & ->)|(b & j & O & J & ->)]].
    - exists 0; split; [lia|]; intros c; cbn; rewrite app_nil_r; reflexivity.
    - destruct j as [|[|[|j]]]; [exists 0|exists 1|exists 1|lia];
        (split; [lia|intros c; cbn; rewrite ?app_nil_r; reflexivity]).
    - destruct j as [|[|[|j]]]; [exists 1|exists 2|exists 3|lia];
        (split; [eauto|intros c; cbn; rewrite <- ?app_assoc; reflexivity]). }
  destruct K as (j & O & P); exists (3 * length l + j); split; [exact S|]; split; [exact Tr|]; split; [lia|].
  split; [intros Q; apply O; lia|].
  eexists; split; [exact E|]; intros c; rewrite after_app, P.
  destruct (bracketed_shown Compute a l 1 c) as (P1 & R1); rewrite P1, R1.
  rewrite seq_S, report_app, seq_length, firstn_app, report_length, seq_length.
  rewrite (firstn_all2 (report _ _ (seq 1 (length l)) _)) by (rewrite report_length, seq_length; lia).
  replace (3 * length l + j - 3 * length l) with j by lia.
  rewrite <- app_assoc; reflexivity.
Qed.
End Calls.

Lemma others_silent {C} (op : options T C) rank k w : rank <> 0 -> prints clock (setup_callbacks rank no_option) w (run_call op k w) (fun _ => []).
Proof.
  intros R; destruct (c90_reported op k w) as (l & E & _).
  exists l; split; [exact E|]; intros c; rewrite app_nil_r; clear E; revert c.
  induction l as [|e l IH]; intros c; [reflexivity|].
  cbn [console_after fold_left]; unfold console_after in IH; rewrite IH.
  unfold show, setup_callbacks, no_option; destruct (Nat.eqb_spec rank 0) as [?|_]; [lia|].
  destruct e as [m [|i] n st|m [|i] n st]; reflexivity.
Qed.
End Generic.

Lemma default_quiet {T} {N : Num T} {C} rank (op : options T C) : default_callbacks rank op -> quiet op.
Proof. intros D m cb H n st; rewrite D in H; apply in_map_iff in H as (b & <- & _); split; reflexivity. Qed.
Lemma default_no_influence {T} {N : Num T} {C} rank (op : options T C) l c : default_callbacks rank op ->
  outcomes op l (setup op c) = outcomes (without_callbacks op) l (setup (without_callbacks op) c).
Proof. intros D; apply c90_histories, (default_quiet rank), D. Qed.
Lemma chosen_lists rank option m l : option m = Some l -> setup_callbacks rank option m = l.
Proof. intros H; unfold setup_callbacks; rewrite H; reflexivity. Qed.

(** The times printed. *)
Lemma times_total (clock : nat -> R) name ns : (forall k, clock k <= clock (S k))%R -> forall r,
  Forall (fun t => 0 <= t)%R (times (report clock name ns r)) /\
  (total (times (report clock name ns r)) <= clock (2 * length ns + r)%nat - clock r)%R.
Proof.
  intros M; induction ns as [|n ns IH]; intros r.
  - split; [constructor|cbn; lra].
  - destruct (IH (S (S r))) as (F & T); split.
    + cbn; constructor; [pose proof (M r); cbn; lra|exact F].
    + replace (2 * length (n :: ns) + r) with (2 * length ns + S (S r)) by (cbn [length]; lia).
      cbn [report times total fold_right]; unfold total in T; pose proof (M (S r)); change (nsub (clock (S r)) (clock r)) with (clock (S r) - clock r)%R; lra.
Qed.
