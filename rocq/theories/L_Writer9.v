(** Lemmas: the file of a run that raises. *)
From Coq Require Import String.
From Coq Require Import List Bool Arith Lia.
From Verif Require Import Base M_Tableau M_State M_ODE M_Step M_Integrator M_Metadata M_Writer SpecRK SpecRun SpecMetadata SpecWriter
  L_Generic L_Iter L_Run L_Log L_RunProps L_Writer2 L_Writer4 L_Writer6 L_Writer7.
Import ListNotations.
Local Open Scope string_scope.
Local Open Scope nat_scope.
Local Open Scope list_scope.

Section Raising.
Context {T : Type} {N : Num T}.

Definition numbered (n : nat) (e : event T) : Prop := match e with Before _ _ it _ | After _ _ it _ => it = n end.

Lemma replay_touch period md i n old ev : n <> 1 -> lookup (step_name n) old = None -> Forall (numbered n) ev ->
  forall x r, Forall (fun p => fst p = step_name n) x -> replay period md i ev (Some (old ++ x)) = Ok r ->
  exists x', r = Some (old ++ x') /\ Forall (fun p => fst p = step_name n) x'.
Proof.
  intros Hn Ho F; induction F as [|e ev F1 F2 IH]; intros x r Hx H; cbn [replay] in H; [injection H as <-; eauto|].
  destruct e as [m j it st|m j it st]; cbn in F1; subst it; destruct m; try (exact (IH x r Hx H));
    (destruct (j =? i); cbn [bind] in H; [|exact (IH x r Hx H)]).
  - destruct (run_ops (before_ops period n md st) (Some (old ++ x))) as [fs|] eqn:E; [|discriminate]; cbn [bind] in H.
    destruct (touch_ops (step_name n) old _ Ho x fs (before_touches period n md st Hn) Hx E) as (x' & -> & Hx'); exact (IH x' r Hx' H).
  - destruct (run_ops (after_ops period n md st) (Some (old ++ x))) as [fs|] eqn:E; [|discriminate]; cbn [bind] in H.
    destruct (touch_ops (step_name n) old _ Ho x fs (after_touches period n md st Hn) Hx E) as (x' & -> & Hx'); exact (IH x' r Hx' H).
Qed.

Context {C : Type} (op : options T C).
Notation emb := (is_embedded (o_bt op)).
Variables (md : metadata).
Hypothesis U : undivided md.
Hypothesis Hsz : state_size (o_ode op) = time_integration_array_size md.
Hypothesis Hok : names_ok (names_of md) emb.

Lemma raising_file c w i w' out k period : 0 < period ->
  sized_ode (o_ode op) -> loops op -> reachable op c w -> inputs_sized (o_ode op) i ->
  compute op i w = (w', out) -> k < length (o_callbacks op Compute) ->
  exists a l ev, starts_at op i a /\ trajectory op a l /\ log w' = log w ++ ev /\
    (l <> [] -> forall fs fs', replay period md k ev fs = Ok fs' ->
      exists extra, fs' = Some (result_file (names_of md) (shapes_of md) period
         (instant_at md (time_initial i) (initial i) (if emb then Some n0 else None)) (map (instant_of emb md) l) ++ extra) /\
        Forall (fun p => fst p = step_name (S (length l))) extra).
Proof.
  intros Hp Hs HL Hr Hi H Hk; pose proof (reachable_wf op c w Hs Hr) as Hw.
  destruct (compute_log_any_live op i w w' out HL H) as (l & ev & Tr & E & B).
  pose proof (wf_live _ _ (wf_prepare op i w Hi Hw)) as Wa; pose proof (starts_prepare op i w) as Sa.
  exists (live (prepare op i w)), l, (bracketed Compute (length (o_callbacks op Compute)) 1 (live (prepare op i w)) l ++ ev).
  split; [exact Sa|]; split; [exact Tr|]; split; [exact E|]; intros Hl fs fs' Rp.
  rewrite replay_app, replay_bracketed in Rp by exact Hk.
  rewrite (trajectory_file op md U Hsz Hok period i _ l fs Hp (proj1 Hs) Wa Sa Tr Hl) in Rp; cbn [bind] in Rp.
  rewrite <- (app_nil_r (result_file _ _ _ _ _)) in Rp.
  eapply (replay_touch period md k (S (length l))); [destruct l; [contradiction|discriminate]| | |constructor|exact Rp].
  - rewrite <- (map_length (instant_of emb md) l); apply fresh_name.
  - destruct B as [->|[(j & _ & ->)|(b & j & _ & _ & ->)]]; [constructor| |]; repeat (apply Forall_app; split);
      apply Forall_forall; intros e I; apply in_map_iff in I; destruct I as (? & <- & _); reflexivity.
Qed.
End Raising.

(** The recomputing checkpointer numbers from 0. *)
Section Recomputing.
Context {T : Type} {N : Num T}.
Lemma numbered_from_zero period md k ncb (a : tistate T) l : l <> [] -> k < ncb ->
  replay period md k (bracketed Compute ncb 0 a l) None = Err FileError /\
  forall f, lookup "0" f <> None -> replay period md k (bracketed Compute ncb 0 a l) (Some f) = Err ValueError.
Proof.
  intros Hl Hk; destruct l as [|b l]; [contradiction|]; cbn [bracketed].
  assert (Z : 0 mod period = 0) by (destruct period; [reflexivity|apply Nat.mod_0_l; discriminate]).
  split.
  - rewrite replay_app, replay_before by lia; unfold before_ops; cbn [Nat.eqb run_ops run_op bind]; reflexivity.
  - intros f Hf; rewrite replay_app, replay_before by lia; unfold before_ops; rewrite Z.
    cbn [Nat.eqb app flat_map]; unfold make_step; cbn [app run_ops run_op bind].
    change (step_name 0) with "0"; destruct (lookup "0" f); [reflexivity|contradiction].
Qed.
End Recomputing.
