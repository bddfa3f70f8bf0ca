(** Lemmas: the file and the integrator; interrupted runs. *)
From Coq Require Import String.
From Coq Require Import List Bool Arith Lia Permutation.
From Verif Require Import Base M_Tableau M_State M_ODE M_Step M_Integrator M_Metadata M_Writer SpecRK SpecRun SpecMetadata SpecWriter
  L_Metadata L_Metadata2 L_Metadata3 L_Generic L_Iter L_Run L_Log L_RunProps L_Writer L_Writer2 L_Writer3 L_Writer4 L_Writer5.
Import ListNotations.
Local Open Scope string_scope.
Local Open Scope nat_scope.
Local Open Scope list_scope.

Section Alone.
Context {T : Type} {N : Num T}.

Lemma undivided_spread md (x : list T) : undivided md -> length x = time_integration_array_size md ->
  spread_all [md] [x] (map (fun q => local_part (q_array q) x) (time_integration_quantities md)).
Proof.
  intros U L; split; [reflexivity|]; split; [constructor; [rewrite map_length; reflexivity|constructor]|].
  intros j y E; rewrite nth_error_map in E; destruct (nth_error (time_integration_quantities md) j) as [q|] eqn:Eq; [|discriminate].
  injection E as <-; exists [(q_array q, x)]; unfold undivided in U; rewrite Forall_forall in U.
  destruct (U q (nth_error_In _ _ Eq)) as (U1 & U2 & U3 & U4 & U5 & U6).
  assert (Ll : length (local_part (q_array q) x) = prod (M_Metadata.shape (q_array q))).
  { unfold local_part, slice; rewrite firstn_length, skipn_length; lia. }
  split.
  - split.
    + constructor; [|constructor]; cbv zeta; cbn [fst snd]; split; [congruence|].
      destruct (in_dec Nat.eq_dec 0 (M_Metadata.shape (q_array q))) as [Z|Z]; [left; exact Z|right; split].
      * destruct (global_shape (q_array q)) as [|n rest] eqn:Eg; [contradiction|].
        exists n, rest, 0, n; rewrite U3, U4, U2, prod_cons; repeat split; auto.
      * rewrite U3, U4, <- Ll; unfold slice; cbn; rewrite Nat.sub_0_r, firstn_all; reflexivity.
    + intros k Lk; exists (q_array q, x); cbn [fst snd]; split; [left; reflexivity|]; split; [|lia].
      intros Z; apply prod_zero in Z; lia.
  - constructor; [|constructor]; exists q; auto.
Qed.

Fixpoint pairs (a : tistate T) (l : list (tistate T)) : list (list (tistate T) * list (tistate T)) :=
  match l with [] => [] | b :: l' => ([a], [b]) :: pairs b l' end.

Lemma replay_app period md i (l1 l2 : list (event T)) : forall fs,
  replay period md i (l1 ++ l2) fs = bind (replay period md i l1 fs) (replay period md i l2).
Proof.
  induction l1 as [|ev l1 IH]; intros fs; [reflexivity|]; cbn [app replay].
  destruct ev as [m j it st|m j it st]; destruct m; try apply IH; destruct (j =? i); cbn [bind]; try apply IH;
    destruct (run_ops _ fs) as [fs'|e]; cbn [bind]; try apply IH; reflexivity.
Qed.
Lemma replay_before period md i n (a : tistate T) : forall k s fs, s <= i < s + k ->
  replay period md i (map (fun j => Before Compute j n a) (seq s k)) fs = run_ops (before_ops period n md a) fs.
Proof.
  assert (Z : forall k s fs, i < s -> replay period md i (map (fun j => Before Compute j n a) (seq s k)) fs = Ok fs).
  { induction k as [|k IH]; intros s fs H; cbn [seq map replay]; [reflexivity|].
    destruct (Nat.eqb_spec s i); [lia|]; cbn [bind]; apply IH; lia. }
  induction k as [|k IH]; intros s fs H; [lia|]; cbn [seq map replay].
  destruct (Nat.eqb_spec s i) as [->|D].
  - destruct (run_ops _ fs); cbn [bind]; [apply Z; lia|reflexivity].
  - cbn [bind]; apply IH; lia.
Qed.
Lemma replay_after period md i n (a : tistate T) : forall k s fs, s <= i < s + k ->
  replay period md i (map (fun j => After Compute j n a) (seq s k)) fs = run_ops (after_ops period n md a) fs.
Proof.
  assert (Z : forall k s fs, i < s -> replay period md i (map (fun j => After Compute j n a) (seq s k)) fs = Ok fs).
  { induction k as [|k IH]; intros s fs H; cbn [seq map replay]; [reflexivity|].
    destruct (Nat.eqb_spec s i); [lia|]; cbn [bind]; apply IH; lia. }
  induction k as [|k IH]; intros s fs H; [lia|]; cbn [seq map replay].
  destruct (Nat.eqb_spec s i) as [->|D].
  - destruct (run_ops _ fs); cbn [bind]; [apply Z; lia|reflexivity].
  - cbn [bind]; apply IH; lia.
Qed.

Lemma replay_bracketed period md i k : i < k -> forall l n a fs,
  replay period md i (bracketed Compute k n a l) fs = run_steps period n [md] (pairs a l) fs.
Proof.
  intros Hi; induction l as [|b l IH]; intros n a fs; [reflexivity|]; cbn [bracketed pairs run_steps].
  rewrite !replay_app, replay_before by lia; unfold all_before, all_after; cbn [combine flat_map fst snd]; rewrite app_nil_r.
  destruct (run_ops (before_ops period n md a) fs) as [fs1|e]; cbn [bind]; [|reflexivity].
  rewrite replay_app, replay_after by lia.
  destruct (run_ops (after_ops period n md b) fs1) as [fs2|e]; cbn [bind]; [|reflexivity].
  apply IH.
Qed.

Section Integrator.
Context {C : Type} (op : options T C).
Notation emb := (is_embedded (o_bt op)).

Lemma wf_embedded st : wf_ti op st -> embedded_state st = emb.
Proof.
  intros W; unfold embedded_state; rewrite (wt_emb _ _ W); unfold emb0, create_empty_discretization_state, rk_init; cbn.
  destruct (is_embedded (o_bt op)); reflexivity.
Qed.
Lemma wf_size st : wf_ti op st -> length (final_state (disc st)) = state_size (o_ode op).
Proof. intros W; destruct (wt_shape _ _ W); auto. Qed.
Lemma wf_error st : wf_ti op st -> exists e, nth_error (err_hist st) 0 = Some e /\ hd_error (err_hist st) = Some e.
Proof. intros W; pose proof (wt_eh _ _ W) as L; destruct (err_hist st) as [|e l]; [discriminate|]; exists e; auto. Qed.

Lemma step_start a b : result_sizes (o_ode op) -> wf_ti op a -> one_step op a b ->
  wf_ti op b /\ start_time (disc b) = final_time (disc a) /\ start_state (disc b) = final_state (disc a).
Proof.
  intros Hr W H; pose proof (proj1 (step_size_hist op Hr a b W H)) as Wb; destruct H as (c & c' & H).
  destruct (iterate_step op _ _ _ _ _ (wt_sh _ _ W) H) as (h & tmp & E & -> & _).
  pose proof (compute_step_frame _ _ _ _ _ Hr (wt_shape _ _ W) E) as F.
  split; [exact Wb|]; cbn; split; [apply (fr_start_time _ _ _ _ _ F)|apply (fr_start_state _ _ _ _ _ F)].
Qed.

Variables (md : metadata).
Hypothesis U : undivided md.
Hypothesis Hsz : state_size (o_ode op) = time_integration_array_size md.
Hypothesis Hok : names_ok (names_of md) emb.

Lemma instant_flag st : wf_ti op st -> flagged emb (instant_of emb md st).
Proof.
  intros W; unfold flagged, instant_of, instant_at; cbn [i_error]; destruct (wf_error st W) as (e & _ & ->).
  destruct (is_embedded (o_bt op)); reflexivity.
Qed.
Lemma at_end_alone st : wf_ti op st -> at_end [md] [st] (instant_of emb md st).
Proof.
  intros W; split.
  - apply undivided_spread; [exact U|]; rewrite (wf_size st W); exact Hsz.
  - constructor; [|constructor]; destruct (wf_error st W) as (e & E1 & E2); cbn; split; [reflexivity|].
    unfold embedded_like; rewrite (wf_embedded st W), E2; destruct (is_embedded (o_bt op)).
    + split; [reflexivity|]; intros e' [= <-]; exact E1.
    + split; [reflexivity|discriminate].
Qed.

Lemma pairs_proper l : result_sizes (o_ode op) -> forall a, wf_ti op a -> trajectory op a l ->
  Forall2 (proper_step [md]) (pairs a l) (map (instant_of emb md) l) /\ Forall (flagged emb) (map (instant_of emb md) l).
Proof.
  intros Hr; induction l as [|b l IH]; intros a W Tr; cbn [pairs map]; [split; constructor|]; destruct Tr as [H1 H2].
  destruct (step_start a b Hr W H1) as (Wb & _); destruct (IH b Wb H2) as [I1 I2].
  split; constructor; try assumption.
  - split; [reflexivity|]; cbn [fst snd]; split; [|exact (at_end_alone b Wb)].
    constructor; [|constructor]; unfold embedded_like; rewrite (wf_embedded a W).
    symmetry; exact (instant_flag b Wb).
  - exact (instant_flag b Wb).
Qed.

Definition start_instant (i : inputs T) : instant T :=
  instant_at md (time_initial i) (initial i) (if emb then Some n0 else None).

Lemma pairs_start i a l : result_sizes (o_ode op) -> wf_ti op a -> starts_at op i a -> trajectory op a l ->
  forall s, hd_error (pairs a l) = Some s -> at_start [md] (snd s) (start_instant i).
Proof.
  intros Hr W (S1 & S2 & _) Tr s E; destruct l as [|b l]; [discriminate|]; injection E as <-; cbn [snd].
  destruct Tr as [H1 _]; destruct (step_start a b Hr W H1) as (Wb & E1 & E2); split.
  - cbn [map]; rewrite E2, S2; apply undivided_spread; [exact U|]; rewrite <- S2, (wf_size a W); exact Hsz.
  - constructor; [|constructor]; rewrite E1, S1; split; [reflexivity|].
    unfold embedded_like; rewrite (wf_embedded b Wb); cbn; destruct (is_embedded (o_bt op)); reflexivity.
Qed.

Lemma trajectory_file period i a l fs : 0 < period -> result_sizes (o_ode op) -> wf_ti op a -> starts_at op i a -> trajectory op a l ->
  l <> [] -> run_steps period 1 [md] (pairs a l) fs =
    Ok (Some (result_file (names_of md) (shapes_of md) period (start_instant i) (map (instant_of emb md) l))).
Proof.
  intros Hp Hr W Sa Tr Hl.
  destruct (writes_exists period [md] (pairs a l) 1 fs) as (out & Wr & <-).
  destruct (pairs_proper l Hr a W Tr) as [P1 P2].
  eapply (c34_main period (names_of md) (shapes_of md) emb [md] Hok); try eassumption; try discriminate.
  - constructor; [split; reflexivity|constructor].
  - reflexivity.
  - destruct l; [contradiction|discriminate].
  - exact (pairs_start i a l Hr W Sa Tr).
Qed.

Lemma run_file_of c w i w' out k period fs : 0 < period ->
  sized_ode (o_ode op) -> loops op -> reachable op c w -> inputs_sized (o_ode op) i ->
  compute op i w = (w', Ok out) -> k < length (o_callbacks op Compute) ->
  exists a l ev, starts_at op i a /\ trajectory op a l /\ stops op a l /\ live w' = last l a /\ log w' = log w ++ ev /\
    (l <> [] -> replay period md k ev fs =
       Ok (Some (result_file (names_of md) (shapes_of md) period (start_instant i) (map (instant_of emb md) l)))) /\
    (l = [] -> replay period md k ev fs = Ok fs).
Proof.
  intros Hp Hs HL Hr Hi H Hk; pose proof (reachable_wf op c w Hs Hr) as Hw.
  destruct (compute_ok op i w w' out HL H) as (l & c' & st' & Hch & _ & _ & E1).
  pose proof (wf_live _ _ (wf_prepare op i w Hi Hw)) as Wa.
  exists (live (prepare op i w)), l, (bracketed Compute (length (o_callbacks op Compute)) 1 (live (prepare op i w)) l).
  split; [apply starts_prepare|]; split; [exact (chain_trajectory op _ _ _ _ _ _ Hch)|].
  split; [exact (chain_stops op _ _ _ _ _ Hch)|].
  split. { rewrite E1, <- (chain_last op _ _ _ _ _ _ Hch); reflexivity. }
  split. { rewrite E1, <- run_events_bracketed; unfold after_run; destruct (keeps op); reflexivity. }
  split.
  - intros Hl; rewrite replay_bracketed by exact Hk.
    apply trajectory_file; try assumption; [apply Hs|apply starts_prepare|exact (chain_trajectory op _ _ _ _ _ _ Hch)].
  - intros ->; reflexivity.
Qed.
End Integrator.
End Alone.
