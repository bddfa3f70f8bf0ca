(** Fixed-step runs to a prescribed final time in any arithmetic. *)
From Coq Require Import List Reals Lia Lra Bool Arith.
From Verif Require Import Base Ext M_Tableau M_State M_ODE M_Step M_Controller M_Measure M_Integrator
  SpecRK SpecShape SpecDeriv SpecRun SpecRounding L_Vec L_Step L_Generic L_Run L_Iter L_Whole L_Log L_Adaptive.
Import ListNotations.
Local Open Scope nat_scope.

Section Generic.
Context {T : Type} {N : Num T} {C : Type}.
Variable op : options T C.
Variable tf : T.
Hypothesis Hfix : o_adaptive op = false.
Hypothesis Hcrit : o_crit op = PredefinedFinalTime tf.

Lemma any_chain it c st l c' st' : chain op it c st l c' st' ->
  final_time (disc st') = added (length l) (final_time (disc st)) (suggestion st) /\
  nothing_left tf (added (length l) (final_time (disc st)) (suggestion st)) = true /\
  (forall k, k < length l -> nothing_left tf (added k (final_time (disc st)) (suggestion st)) = false).
Proof.
  induction 1 as [it c st F|it c st c1 st1 l c' st' F I _ (IH1 & IH2 & IH3)];
    unfold is_iteration_finished in F; rewrite Hcrit in F.
  - cbn; split; [reflexivity|]; split; [exact F|]; intros k Hk; inversion Hk.
  - destruct (iterate_fixed op _ _ _ _ _ Hfix I) as (s' & E & _ & ->).
    cbn [disc suggestion] in *.
    assert (Et : final_time (rk_set (disc st) s') = nadd (final_time (disc st)) (suggestion st))
      by exact (step_time _ _ _ _ _ E).
    rewrite Et in *; cbn [length added]; split; [exact IH1|]; split; [exact IH2|].
    intros [|k] Hk; [exact F|]; cbn [added]; apply IH3; lia.
Qed.

Lemma any_final_time i w w' out : loops op -> compute op i w = (w', Ok out) ->
  exists n a l, length l = n /\ starts_at op i a /\ trajectory op a l /\
    log w' = log w ++ bracketed Compute (length (o_callbacks op Compute)) 1 a l /\
    time_final out = added n (time_initial i) (o_step op) /\
    nothing_left tf (added n (time_initial i) (o_step op)) = true /\
    (forall k, k < n -> nothing_left tf (added k (time_initial i) (o_step op)) = false).
Proof.
  intros HL H.
  destruct (compute_ok op i w w' out HL H) as (l & c' & st' & Hch & _ & -> & E1).
  destruct (any_chain _ _ _ _ _ _ Hch) as (A1 & A2 & A3).
  exists (length l), (live (prepare op i w)), l; split; [reflexivity|].
  split; [apply starts_prepare|]; split; [exact (chain_trajectory op _ _ _ _ _ _ Hch)|].
  split. { rewrite E1, <- run_events_bracketed; unfold after_run; destruct (keeps op); reflexivity. }
  split; [exact A1|]; split; [exact A2|exact A3].
Qed.
End Generic.

Lemma exact_sums {T} {N : Num T} {C} (op : options T C) tf (val : T -> R) n i w w' out :
  o_adaptive op = false -> o_crit op = PredefinedFinalTime tf -> loops op ->
  compute op i w = (w', Ok out) ->
  (forall k, k <= n -> val (added k (time_initial i) (o_step op)) = (val (time_initial i) + INR k * val (o_step op))%R) ->
  (forall k, k <= n -> nothing_left tf (added k (time_initial i) (o_step op)) = true <->
                       (val tf <= val (added k (time_initial i) (o_step op)))%R) ->
  (val tf = val (time_initial i) + INR n * val (o_step op))%R -> (0 < val (o_step op))%R ->
  val (time_final out) = val tf /\
  exists a l, length l = n /\ starts_at op i a /\ trajectory op a l /\
    log w' = log w ++ bracketed Compute (length (o_callbacks op Compute)) 1 a l.
Proof.
  intros Hf Hc HL H He Hcmp HT Hh.
  destruct (any_final_time op tf Hf Hc i w w' out HL H) as (m & a & l & Em & Sa & Tr & Lg & Tf & P1 & P2).
  assert (m = n) as ->.
  { destruct (lt_eq_lt_dec m n) as [[Hl|Hl]|Hl]; [|exact Hl|].
    - exfalso; apply (Hcmp m) in P1; [|lia]; rewrite He in P1 by lia.
      apply lt_INR in Hl; nra.
    - exfalso; specialize (P2 n Hl).
      assert (Hn : nothing_left tf (added n (time_initial i) (o_step op)) = true)
        by (apply Hcmp; [lia|]; rewrite He by lia; lra).
      congruence. }
  split; [rewrite Tf, He by lia; lra|].
  exists a, l; auto.
Qed.
