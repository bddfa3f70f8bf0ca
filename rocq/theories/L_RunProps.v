(** The lemmas about runs in the form of the property theorems: for every
    component that was set up and used in any way before. *)
From Coq Require Import List Reals Lia Lra Bool Arith.
From Verif Require Import Base Ext M_Tableau M_State M_ODE M_Step M_Controller M_Measure M_Integrator
  SpecRK SpecShape SpecDeriv SpecRun L_Vec L_Step L_Deriv L_Generic L_Run L_Iter L_Whole L_WholeR L_Log.
Import ListNotations.

Section Generic.
Local Open Scope nat_scope.
Context {T : Type} {N : Num T} {C : Type}.
Variable op : options T C.
Notation bt := (o_bt op).
Notation o := (o_ode op).
Notation ncb m := (length (o_callbacks op m)).

Lemma reachable_wf c w : sized_ode o -> reachable op c w -> wf op w.
Proof.
  intros (H1 & H2 & H3) (hist & Hh & ->).
  apply wf_run_calls; auto using wf_setup.
Qed.

Lemma reachable_setup c : reachable op c (setup op c).
Proof. exists []; split; [constructor|reflexivity]. Qed.

(** *** compute and the forward product follow the same steps *)
Lemma same_trajectory i d w w' out w0 w0' dout :
  sized_ode o -> loops op -> wf op w -> wf op w0 -> ctl w = ctl w0 -> inputs_sized o i -> inputs_sized o d ->
  compute op i w = (w', Ok out) -> compute_jacvec_product_fwd op i d w0 = (w0', Ok dout) ->
  exists a a0 l, starts_at op i a /\ starts_at op i a0 /\ trajectory op a l /\ trajectory op a0 l /\
    stops op a l /\
    log w' = log w ++ bracketed Compute (ncb Compute) 1 a l /\
    log w0' = log w0 ++ bracketed Fwd (ncb Fwd) 1 a0 l /\
    live w' = last l a /\ live w0' = last l a0 /\
    time_final out = final_time (disc (live w0')) /\ final out = final_state (disc (live w0')).
Proof.
  intros (Hres & _ & _) HL Hw Hw0 Hc Hi Hd H1 H2.
  destruct (compute_ok op i w w' out HL H1) as (l & c' & st' & Hch & _ & -> & E1).
  destruct (fwd_ok op i d w0 w0' dout H2) as (l0 & c0 & st0 & p' & Hch0 & _ & _ & _ & E2).
  destruct (chain_sim op Hres _ _ _ _ _ _ Hch _ (sim_prepare_fwd op i d w w0 Hi Hd Hw Hw0))
    as (b' & Hch1 & Hs).
  rewrite Hc in Hch1.
  destruct (chain_fun op _ _ _ _ _ _ Hch0 _ _ _ Hch1) as (-> & -> & ->).
  exists (live (prepare op i w)), (live (prepare_fwd op i d w0)), l.
  split; [apply starts_prepare|]; split; [apply starts_prepare_fwd|].
  split; [exact (chain_trajectory op _ _ _ _ _ _ Hch)|].
  split; [exact (chain_trajectory op _ _ _ _ _ _ Hch0)|].
  split; [exact (chain_stops op _ _ _ _ _ Hch)|].
  split. { rewrite E1, <- run_events_bracketed; unfold after_run; destruct (keeps op); reflexivity. }
  split. { rewrite E2, <- run_events_bracketed; reflexivity. }
  split. { rewrite E1, <- (chain_last op _ _ _ _ _ _ Hch); reflexivity. }
  split. { rewrite E2, <- (chain_last op _ _ _ _ _ _ Hch0); reflexivity. }
  rewrite E2; cbn; destruct (si_start _ _ _ Hs) as [S1 S2 S3]; auto.
Qed.

(** *** A step that raises *)
Lemma iterate_raises fuel : forall c st c' st' e, iterate_on_step op fuel c st = (c', st', Err e) ->
  disc st' = disc st /\ step_hist st' = step_hist st /\ err_hist st' = err_hist st.
Proof.
  induction fuel as [|fuel IH]; intros c st c' st' e H; cbn [iterate_on_step] in H.
  { injection H as <- <- <-; auto. }
  destruct (compute_step bt o (disc st) (suggestion st)) as [tmp|x]; [|injection H as <- <- <-; auto].
  destruct (o_adaptive op); [|discriminate].
  destruct (state_measure (o_meas op) o tmp) as [em|x]; [|injection H as <- <- <-; auto].
  destruct (o_ctl op c _) as [c1 [stat|x]]; [|injection H as <- <- <-; auto].
  destruct (acceptance stat); [discriminate|].
  apply IH in H; exact H.
Qed.

(** *** Histories of a run *)
Lemma trajectory_histories : sized_ode o -> o_adaptive op = true ->
  forall l a x u, wf_ti op a -> trajectory op a l ->
  nth 0 (step_hist a) n0 = x -> nth 0 (err_hist a) n0 = u ->
  exists hs es, length hs = length l /\ length es = length l /\
    forall k, k < length l ->
      (exists tmp, compute_step bt o (disc (nth k (a :: l) a)) (nth k hs n0) = Ok tmp /\
         state_measure (o_meas op) o tmp = Ok (nth k es n0) /\
         agree_but_embedded (disc (nth k l a)) tmp) /\
      step_hist (nth k l a) = [nth k hs n0; nth k (x :: hs) n0] /\
      err_hist (nth k l a) = [nth k es n0; nth k (u :: es) n0].
Proof.
  intros (Hres & _ & _) HA; induction l as [|b l IH]; intros a x u Hw Ht Hx Hu.
  { exists [], []; split; [reflexivity|]; split; [reflexivity|]; intros k Hk; inversion Hk. }
  destruct Ht as [Hs Ht].
  destruct (adaptive_step op a b HA Hw Hs) as (h & tmp & em & E1 & E2 & E3 & E4 & E5).
  destruct (step_size_hist op Hres a b Hw Hs) as [Hb _].
  destruct (IH b h em Hb Ht) as (hs & es & L1 & L2 & IH'); [rewrite E4; reflexivity|rewrite E5; reflexivity|].
  exists (h :: hs), (em :: es); split; [simpl; congruence|]; split; [simpl; congruence|].
  intros [|k] Hk.
  - cbn [nth]; split.
    + exists tmp; split; [exact E1|]; split; [exact E3|].
      unfold agree_but_embedded; rewrite E2; destruct tmp; reflexivity.
    + rewrite <- Hx, <- Hu; auto.
  - cbn [length] in Hk; assert (Hk' : k < length l) by lia.
    destruct (IH' k Hk') as ((tmp' & F1 & F2 & F3) & F4 & F5).
    change (nth (S k) (b :: l) a) with (nth k l a).
    change (nth (S k) (a :: b :: l) a) with (nth k (b :: l) a).
    rewrite (nth_indep l a b Hk').
    rewrite (nth_indep (b :: l) a b) by (simpl; lia).
    split; [|split].
    + exists tmp'; auto.
    + exact F4.
    + exact F5.
Qed.

Lemma run_histories c w i w' out : sized_ode o -> o_adaptive op = true -> loops op ->
  reachable op c w -> inputs_sized o i -> compute op i w = (w', Ok out) ->
  exists a l hs es, starts_at op i a /\ trajectory op a l /\ stops op a l /\
    log w' = log w ++ bracketed Compute (ncb Compute) 1 a l /\ live w' = last l a /\
    length hs = length l /\ length es = length l /\
    forall k, k < length l ->
      (exists tmp, compute_step bt o (disc (nth k (a :: l) a)) (nth k hs n0) = Ok tmp /\
         state_measure (o_meas op) o tmp = Ok (nth k es n0) /\
         agree_but_embedded (disc (nth k l a)) tmp) /\
      step_hist (nth k l a) = [nth k hs n0; nth k (n0 :: hs) n0] /\
      err_hist (nth k l a) = [nth k es n0; nth k (o_tol op :: es) n0].
Proof.
  intros Hs HA HL Hr Hi H; pose proof (reachable_wf c w Hs Hr) as Hw.
  destruct (compute_ok op i w w' out HL H) as (l & c' & st' & Hch & _ & _ & E1).
  pose proof (wf_live _ _ (wf_prepare op i w Hi Hw)) as Wa.
  destruct (trajectory_histories Hs HA l (live (prepare op i w)) n0 (o_tol op) Wa
              (chain_trajectory op _ _ _ _ _ _ Hch)) as (hs & es & L1 & L2 & P).
  { cbn. pose proof (wt_sh _ _ (wf_live _ _ Hw)) as L.
    destruct (step_hist (live w)); [discriminate|reflexivity]. }
  { cbn. pose proof (wt_eh _ _ (wf_live _ _ Hw)) as L.
    destruct (err_hist (live w)); [discriminate|reflexivity]. }
  exists (live (prepare op i w)), l, hs, es.
  split; [apply starts_prepare|]; split; [exact (chain_trajectory op _ _ _ _ _ _ Hch)|].
  split; [exact (chain_stops op _ _ _ _ _ Hch)|].
  split. { rewrite E1, <- run_events_bracketed; unfold after_run; destruct (keeps op); reflexivity. }
  split. { rewrite E1, <- (chain_last op _ _ _ _ _ _ Hch); reflexivity. }
  auto.
Qed.

(** *** The embedded arrays of the live state never change *)
Lemma embedded_zero c w e1 e2 : sized_ode o -> reachable op c w ->
  embedded (disc (live w)) = Some (e1, e2) ->
  e1 = vzeros (state_size o) /\ e2 = vzeros (state_size o).
Proof.
  intros Hs Hr H; pose proof (wt_emb _ _ (wf_live _ _ (reachable_wf c w Hs Hr))) as E.
  rewrite H in E; unfold emb0, create_empty_discretization_state, rk_init in E; cbn in E.
  destruct (is_embedded bt); [|discriminate]; injection E as -> ->; auto.
Qed.

(** *** No checkpoints, no reverse product *)
Lemma no_reverse_hit i d w w1 out : (forall x, In x (initial i ++ independent i) -> neqb x x = true) ->
  o_ckpt op = NoCheckpointer -> compute op i w = (w1, Ok out) ->
  exists w2, compute_jacvec_product_rev op i d w1 = (w2, Err NotImplementedError).
Proof.
  intros Hrefl HN H.
  assert (HL : loops op) by (unfold loops; rewrite HN; exact I).
  pose proof (hit_after_compute op i w w1 out Hrefl HL H) as Hit.
  unfold compute_jacvec_product_rev, jacvec_rev_preparation_phase, mbind, reading, modify, mret.
  rewrite Hit; unfold iterate_reverse; rewrite HN; eexists; reflexivity.
Qed.

(** *** Hooks of products, however they end *)
Lemma fwd_step_any n w w' e : run_step_jacvec_fwd op n w = (w', Err e) ->
  exists ev, broken_off op Fwd (ncb Fwd) n (live w) ev /\ log w' = log w ++ ev.
Proof.
  intros H; unfold run_step_jacvec_fwd, mbind, reading, before_hooks, after_hooks in H.
  destruct (call_hooks _ _ 0 (o_callbacks op Fwd) w) as [w1 [[]|x]] eqn:B.
  - pose proof (call_hooks_spec _ _ _ _ _ _ _ B) as (Bw & _ & Bl); specialize (Bl tt eq_refl).
    unfold step_live in H.
    destruct (iterate_on_step op (retry_limit op) (ctl w1) (live w1)) as [[c1 st1] [[]|x]] eqn:I.
    + assert (EL : live w1 = live w) by (rewrite Bw; reflexivity).
      unfold step_derivative_live, reading, mbind, mlift in H; cbn in H.
      destruct (compute_step_derivative _ _ _ _ _) as [dd|x]; unfold modify in H; cbn in H.
      * destruct (hooks_any _ _ _ _ _ _ _ H) as (j & Hj & Hw); exists
          (map (fun i => Before Fwd i n (live w)) (seq 0 (ncb Fwd)) ++
           map (fun i => After Fwd i n st1) (seq 0 j)); split.
        -- right; exists st1, j; split; [|split; [exact Hj|reflexivity]].
           exists (ctl w1), c1; rewrite <- EL; exact I.
        -- rewrite Hw; cbn; rewrite Bl; unfold hook_events; rewrite app_assoc; reflexivity.
      * injection H as <- <-; cbn.
        exists (map (fun i => Before Fwd i n (live w)) (seq 0 (ncb Fwd))); split; [|exact Bl].
        left; exists (ncb Fwd); split; [lia|reflexivity].
    + injection H as <- <-; cbn.
      exists (map (fun i => Before Fwd i n (live w)) (seq 0 (ncb Fwd))); split; [|exact Bl].
      left; exists (ncb Fwd); split; [lia|reflexivity].
  - injection H as <- <-.
    destruct (hooks_any _ _ _ _ _ _ _ B) as (j & Hj & Hw).
    exists (map (fun i => Before Fwd i n (live w)) (seq 0 j)); split; [left; eauto|].
    rewrite Hw; reflexivity.
Qed.

Lemma fwd_loop_any : forall fuel it w w' r, jacvec_fwd_run_steps op fuel it w = (w', r) ->
  exists l ev, trajectory op (live w) l /\
    log w' = log w ++ bracketed Fwd (ncb Fwd) (S it) (live w) l ++ ev /\
    (ev = [] \/ broken_off op Fwd (ncb Fwd) (S it + length l) (last l (live w)) ev).
Proof.
  induction fuel as [|fuel IH]; intros it w w' r H; cbn [jacvec_fwd_run_steps] in H.
  { injection H as <- <-; exists [], []; cbn; rewrite app_nil_r; auto. }
  unfold reading in H; destruct (is_iteration_finished (o_crit op) it (live w)).
  { injection H as <- <-; exists [], []; cbn; rewrite app_nil_r; auto. }
  unfold mbind at 1 in H; destruct (run_step_jacvec_fwd op (S it) w) as [w1 [[]|e]] eqn:R1.
  - destruct (run_step_jacvec_fwd_ok op _ _ _ R1) as (c1 & st1 & p1 & I & D & E1).
    destruct (IH _ _ _ _ H) as (l & ev & Ht & Hl & Hev).
    assert (EL : live w1 = st1) by (rewrite E1; reflexivity); rewrite EL in *.
    exists (st1 :: l), ev; split; [split; [exists (ctl w), c1; exact I|exact Ht]|].
    split.
    + rewrite Hl, E1; cbn [log w_ctl w_live w_pert w_log bracketed].
      unfold step_events, before_events, after_events, hook_events; rewrite <- !app_assoc; reflexivity.
    + destruct Hev as [->|Hev]; [left; reflexivity|right].
      rewrite last_cons; cbn [length]; replace (S it + S (length l)) with (S (S it) + length l) by lia.
      exact Hev.
  - injection H as <- <-.
    destruct (fwd_step_any _ _ _ _ R1) as (ev & Hev & Hl).
    exists [], ev; split; [exact I|]; cbn [bracketed length last app]; split; [exact Hl|right].
    rewrite Nat.add_0_r; exact Hev.
Qed.

Lemma fwd_log_any i d w w' r : compute_jacvec_product_fwd op i d w = (w', r) ->
  exists a l ev, starts_at op i a /\ trajectory op a l /\
    log w' = log w ++ bracketed Fwd (ncb Fwd) 1 a l ++ ev /\
    (ev = [] \/ broken_off op Fwd (ncb Fwd) (S (length l)) (last l a) ev).
Proof.
  intros H; unfold compute_jacvec_product_fwd in H; unfold mbind at 1 in H.
  rewrite fwd_preparation_eq in H; unfold mbind in H.
  destruct (jacvec_fwd_run_steps op (loop_limit op) 0 (prepare_fwd op i d w)) as [w1 r1] eqn:E.
  destruct (fwd_loop_any _ _ _ _ _ E) as (l & ev & Ht & Hl & Hev).
  exists (live (prepare_fwd op i d w)), l, ev.
  split; [apply starts_prepare_fwd|]; split; [exact Ht|].
  assert (log w' = log w1) as -> by (destruct r1; injection H as <- <-; reflexivity).
  split; [exact Hl|exact Hev].
Qed.

(** A sweep that breaks off has made an initial part of the hook calls. *)
Lemma firstn_app_exact {A} (a b : list A) n : firstn (length a + n) (a ++ b) = a ++ firstn n b.
Proof. rewrite firstn_app_2; reflexivity. Qed.

Lemma rev_step_any n st w w' r : run_step_jacvec_rev op n st w = (w', r) ->
  exists k, log w' = log w ++ firstn k (map (fun i => Before Rev i n st) (seq 0 (ncb Rev))
                                         ++ map (fun i => After Rev i n st) (seq 0 (ncb Rev))).
Proof.
  intros H; unfold run_step_jacvec_rev, mbind, reading, mlift, before_hooks, after_hooks in H.
  assert (F : forall (ev : nat -> event T) j k, j <= k -> map ev (seq 0 j) = firstn j (map ev (seq 0 k))).
  { intros ev j k Hj; rewrite firstn_map; f_equal.
    replace k with (j + (k - j)) by lia; rewrite seq_app, firstn_app, seq_length.
    rewrite Nat.sub_diag, firstn_O, app_nil_r, firstn_all2 by (rewrite seq_length; lia); reflexivity. }
  destruct (call_hooks _ _ 0 (o_callbacks op Rev) w) as [w1 [[]|x]] eqn:B.
  - pose proof (call_hooks_spec _ _ _ _ _ _ _ B) as (Bw & _ & Bl); specialize (Bl tt eq_refl).
    destruct (compute_step_adjoint_derivative _ _ _ _ _) as [dd|x]; unfold modify in H; cbn in H.
    + destruct (hooks_any _ _ _ _ _ _ _ H) as (j & Hj & Hw).
      exists (ncb Rev + j); rewrite Hw; cbn; rewrite Bl, <- app_assoc; unfold hook_events; f_equal.
      replace (ncb Rev + j) with (length (map (fun i => Before Rev i n st) (seq 0 (ncb Rev))) + j)
        by (rewrite map_length, seq_length; reflexivity).
      rewrite firstn_app_exact; f_equal; apply F, Hj.
    + injection H as <- <-; exists (ncb Rev); rewrite Bl; f_equal; unfold hook_events.
      replace (ncb Rev) with (length (map (fun i => Before Rev i n st) (seq 0 (ncb Rev))) + 0) at 2
        by (rewrite map_length, seq_length; lia).
      rewrite firstn_app_exact, firstn_O, app_nil_r; reflexivity.
  - injection H as <- <-; destruct (hooks_any _ _ _ _ _ _ _ B) as (j & Hj & Hw).
    exists j; rewrite Hw; cbn; f_equal.
    rewrite firstn_app, map_length, seq_length.
    replace (j - ncb Rev) with 0 by lia; rewrite firstn_O, app_nil_r; apply F, Hj.
Qed.

Lemma reverse_all_any : forall l w w' r, reverse_all op l w = (w', r) ->
  exists k, log w' = log w ++ firstn k (bracketed_back (ncb Rev) l).
Proof.
  induction l as [|st l IH]; intros w w' r H; cbn [reverse_all] in H.
  { injection H as <- <-; exists 0; rewrite app_nil_r; reflexivity. }
  unfold modify, mbind in H.
  destruct (run_step_jacvec_rev op (length (st :: l)) st (w_storage l w)) as [w1 [[]|e]] eqn:E.
  - destruct (run_step_jacvec_rev_ok op _ _ _ _ E) as (p' & _ & E1).
    destruct (IH _ _ _ H) as (k & Hk).
    exists (length (before_events op Rev (length (st :: l)) st ++ after_events op Rev (length (st :: l)) st) + k).
    cbn [bracketed_back]; rewrite app_assoc.
    change (map (fun j => Before Rev j (length (st :: l)) st) (seq 0 (ncb Rev)) ++
            map (fun j2 => After Rev j2 (length (st :: l)) st) (seq 0 (ncb Rev)))
      with (before_events op Rev (length (st :: l)) st ++ after_events op Rev (length (st :: l)) st).
    rewrite firstn_app_exact, Hk, E1; cbn [log w_pert w_log w_storage].
    unfold step_events; rewrite <- !app_assoc; reflexivity.
  - injection H as <- <-; destruct (rev_step_any _ _ _ _ _ E) as (k & Hk).
    cbn [log w_storage] in Hk; cbn [bracketed_back]; rewrite app_assoc.
    set (ev := map _ _ ++ map _ _) in *.
    exists (Nat.min k (length ev)); rewrite Hk; f_equal.
    rewrite firstn_app; replace (Nat.min k (length ev) - length ev) with 0 by lia.
    rewrite firstn_O, app_nil_r.
    destruct (Nat.le_gt_cases k (length ev)); [rewrite Nat.min_l by lia; reflexivity|].
    rewrite Nat.min_r, !firstn_all2 by lia; reflexivity.
Qed.

Lemma rev_log_any i d w w' r : o_ckpt op = AllCheckpointer -> cache_hit i (cached w) = true ->
  compute_jacvec_product_rev op i d w = (w', r) ->
  exists k, log w' = log w ++ firstn k (bracketed_back (ncb Rev) (storage w)).
Proof.
  intros HA Hit H.
  unfold compute_jacvec_product_rev, jacvec_rev_preparation_phase, mbind, reading, modify, mret in H.
  rewrite Hit in H; unfold iterate_reverse in H; rewrite HA in H; unfold reading in H.
  match type of H with context [reverse_all op ?l ?x] =>
    destruct (reverse_all op l x) as [w1 r1] eqn:E end.
  destruct (reverse_all_any _ _ _ _ E) as (k & Hk); exists k.
  destruct r1; injection H as <- <-; exact Hk.
Qed.

End Generic.

Lemma rev_after_failed {T} {N : Num T} {C} (op : options T C) :
  result_sizes (o_ode op) -> derivative_sizes (o_ode op) -> adjoint_sizes (o_ode op) ->
  ignores_stage_state_weights (o_ode op) -> (forall x y : T, neqb x y = true -> x = y) ->
  forall c hist i j d g w1 e,
  o_ckpt op = AllCheckpointer -> quiet op -> stateless op c ->
  Forall (call_sized (o_ode op)) hist -> inputs_sized (o_ode op) i -> inputs_sized (o_ode op) j ->
  outputs_sized (o_ode op) d ->
  compute op j (run_calls op hist (setup op c)) = (w1, Err e) ->
  initial i <> initial j \/ independent i <> independent j ->
  ((exists w', compute_jacvec_product_rev op i d w1 = (w', Ok g))
   <-> exists w', compute_jacvec_product_rev op i d (setup op c) = (w', Ok g)).
Proof.
  intros S1 S2 S3 Hi Hq c hist i j d g w1 e HA Q HS Fk Ii Ij Od H1 H.
  pose proof (rev_after_other op S1 S2 S3 Hi Hq c _ i j d g HA Q HS Fk Ii Ij Od H) as K.
  unfold run_calls in K, H1; rewrite fold_left_app in K; cbn [fold_left run_call] in K.
  rewrite H1 in K; exact K.
Qed.

Lemma repeatable {T} {N : Num T} {C} (op : options T C) c w1 w2 i w1' out :
  sized_ode (o_ode op) -> loops op -> quiet op -> stateless op c ->
  reachable op c w1 -> reachable op c w2 -> inputs_sized (o_ode op) i ->
  compute op i w1 = (w1', Ok out) -> exists w2', compute op i w2 = (w2', Ok out).
Proof.
  intros Sz HL Q HS H1 H2 Hi H.
  pose proof (reachable_wf op c w1 Sz H1) as W1; pose proof (reachable_wf op c w2 Sz H2) as W2.
  destruct Sz as (S1 & S2 & S3), H1 as (h1 & F1 & ->), H2 as (h2 & F2 & ->).
  apply (compute_repeatable op S1 i _ _ w1' out HL Q W1 W2); [|exact Hi|exact H].
  unfold has_ctl; rewrite (ctl_run_calls op c HS h1 (setup op c) eq_refl).
  symmetry; exact (ctl_run_calls op c HS h2 (setup op c) eq_refl).
Qed.

Section Real.
Local Open Scope R_scope.
Context {C : Type}.
Variable op : options R C.
Notation bt := (o_bt op).
Notation o := (o_ode op).
Notation ncb m := (length (o_callbacks op m)).

Lemma fixed_times c w i w' out : sized_ode o -> o_adaptive op = false -> loops op ->
  reachable op c w -> inputs_sized o i -> compute op i w = (w', Ok out) ->
  exists a l, starts_at op i a /\ trajectory op a l /\ stops op a l /\
    log w' = (log w ++ bracketed Compute (ncb Compute) 1 a l)%list /\ live w' = last l a /\
    (forall k, (k < length l)%nat ->
       let s := disc (nth k l a) in
       let t := time_initial i + INR k * o_step op in
       start_time s = t /\ final_time s = time_initial i + INR (S k) * o_step op /\
       step_size s = o_step op /\
       start_state s = final_state (disc (nth k (a :: l) a)) /\
       independent_inputs s = independent i /\
       forall j, (j < t_stages bt)%nat -> vnth j (stage_times s) = t + vnth j (t_c bt) * o_step op) /\
    time_final out = time_initial i + INR (length l) * o_step op /\
    final out = final_state (disc (last l a)).
Proof.
  intros Hs Hf HL Hr Hi H; pose proof (reachable_wf op c w Hs Hr) as Hw.
  destruct Hs as (Hres & _ & _).
  destruct (compute_ok op i w w' out HL H) as (l & c' & st' & Hch & _ & -> & E1).
  pose proof (wf_live _ _ (wf_prepare op i w Hi Hw)) as Wa.
  exists (live (prepare op i w)), l.
  split; [apply starts_prepare|]; split; [exact (chain_trajectory op _ _ _ _ _ _ Hch)|].
  split; [exact (chain_stops op _ _ _ _ _ Hch)|].
  split. { rewrite E1, <- run_events_bracketed; unfold after_run; destruct (keeps op); reflexivity. }
  split. { rewrite E1, <- (chain_last op _ _ _ _ _ _ Hch); reflexivity. }
  split; [|split].
  - intros k Hk.
    destruct (fixed_chain op Hres Hf _ _ _ _ _ _ Hch Wa k Hk) as (F1 & F2 & F3 & F4 & F5 & F6).
    cbv zeta in *. split; [exact F2|]; split; [exact F1|]; split; [exact F6|]; split; [exact F4|].
    split; [exact F5|]; intros j Hj; unfold vnth; rewrite (F3 j Hj), Rmult_comm with (r1 := nth j _ _).
    reflexivity.
  - exact (fixed_chain_end op Hres Hf _ _ _ _ _ _ Hch Wa).
  - rewrite (chain_last op _ _ _ _ _ _ Hch) at 1; reflexivity.
Qed.

(** The number of steps, for the two criteria. *)
Lemma fixed_count n c w i w' out : sized_ode o -> o_adaptive op = false -> loops op ->
  o_crit op = PredefinedNumberOfSteps n ->
  reachable op c w -> inputs_sized o i -> compute op i w = (w', Ok out) ->
  time_final out = time_initial i + INR n * o_step op /\
  exists a l, length l = n /\ trajectory op a l /\
    log w' = (log w ++ bracketed Compute (ncb Compute) 1 a l)%list.
Proof.
  intros Hs Hf HL Hn Hr Hi H; pose proof (reachable_wf op c w Hs Hr) as Hw.
  destruct Hs as (Hres & _ & _).
  destruct (compute_ok op i w w' out HL H) as (l & c' & st' & Hch & _ & -> & E1).
  pose proof (wf_live _ _ (wf_prepare op i w Hi Hw)) as Wa.
  assert (L : length l = n) by (rewrite (chain_count op _ _ _ _ _ _ n Hn Hch); lia).
  split.
  - rewrite <- L; exact (fixed_chain_end op Hres Hf _ _ _ _ _ _ Hch Wa).
  - exists (live (prepare op i w)), l; split; [exact L|].
    split; [exact (chain_trajectory op _ _ _ _ _ _ Hch)|].
    rewrite E1, <- run_events_bracketed; unfold after_run; destruct (keeps op); reflexivity.
Qed.

Lemma fixed_final_time T c w i w' out : sized_ode o -> o_adaptive op = false -> loops op ->
  o_crit op = PredefinedFinalTime T -> 0 < o_step op ->
  reachable op c w -> inputs_sized o i -> compute op i w = (w', Ok out) ->
  exists n a l, length l = n /\ trajectory op a l /\
    log w' = (log w ++ bracketed Compute (ncb Compute) 1 a l)%list /\
    time_final out = time_initial i + INR n * o_step op /\
    (forall k, (k < n)%nat -> time_initial i + INR k * o_step op < T) /\
    T <= time_final out /\
    (time_initial i <= T -> time_final out < T + o_step op).
Proof.
  intros Hs Hf HL HT Hh Hr Hi H; pose proof (reachable_wf op c w Hs Hr) as Hw.
  destruct Hs as (Hres & _ & _).
  destruct (compute_ok op i w w' out HL H) as (l & c' & st' & Hch & _ & -> & E1).
  pose proof (wf_live _ _ (wf_prepare op i w Hi Hw)) as Wa.
  pose proof (fixed_chain_end op Hres Hf _ _ _ _ _ _ Hch Wa) as E.
  destruct (chain_final_time op Hres Hf _ _ _ _ _ _ T HT Hch Wa) as [P1 P2].
  change (final_time (disc (live (prepare op i w)))) with (time_initial i) in *.
  change (suggestion (live (prepare op i w))) with (o_step op) in *.
  exists (length l), (live (prepare op i w)), l; split; [reflexivity|].
  split; [exact (chain_trajectory op _ _ _ _ _ _ Hch)|].
  split. { rewrite E1, <- run_events_bracketed; unfold after_run; destruct (keeps op); reflexivity. }
  split; [exact E|]; split; [exact P1|]; cbn [time_final result_of]; rewrite E; split; [exact P2|].
  intros Hle; destruct (length l) as [|m]; [simpl; lra|].
  specialize (P1 m ltac:(lia)); rewrite S_INR; lra.
Qed.

(** Such runs return, if every step from a state of the right shape does. *)
Lemma fixed_returns c w i : sized_ode o -> o_adaptive op = false -> loops op -> quiet op ->
  (0 < retry_limit op)%nat ->
  (forall s, shaped (t_stages bt) (state_size o) (independent_input_size o)
               (independent_output_size o) (linearization_point_size o) s ->
     exists s', compute_step bt o s (o_step op) = Ok s') ->
  match o_crit op with
  | PredefinedNumberOfSteps n => (n < loop_limit op)%nat
  | PredefinedFinalTime T => T <= time_initial i + INR (loop_limit op - 1) * o_step op /\ (0 < loop_limit op)%nat
  end ->
  reachable op c w -> inputs_sized o i -> exists w' out, compute op i w = (w', Ok out).
Proof.
  intros Hs Hf HL Hq Hret Htot Hcrit Hr Hi; pose proof (reachable_wf op c w Hs Hr) as Hw.
  destruct Hs as (Hres & _ & _).
  pose proof (wf_live _ _ (wf_prepare op i w Hi Hw)) as Wa.
  destruct (o_crit op) as [n|T] eqn:E.
  - destruct (chain_exists_count op Hres Hf Htot Hret n (ctl w) E n 0 (live (prepare op i w)))
      as (l & st' & Hch); [lia|exact Wa|reflexivity|].
    eexists; eexists; apply (compute_quiet op i w l (ctl w) st' HL Hq Hch).
    rewrite (chain_count op _ _ _ _ _ _ n E Hch); lia.
  - destruct (chain_exists_time op Hres Hf Htot Hret T (ctl w) E (loop_limit op - 1) 0 (live (prepare op i w)))
      as (l & st' & Hch & Hl); [apply Hcrit|exact Wa|reflexivity|].
    eexists; eexists; apply (compute_quiet op i w l (ctl w) st' HL Hq Hch); lia.
Qed.

(** *** Whole-run derivative *)
Lemma whole_derivative n del (I : R -> inputs R) (d : inputs R) (c : C) w w' out w0 w0' dout :
  tableau_wf bt -> sized_ode o -> ode_differentiable o -> o_adaptive op = false ->
  o_crit op = PredefinedNumberOfSteps n -> loops op -> 0 < del ->
  (forall e, Rabs e < del -> reachable op c (w e) /\ inputs_sized o (I e) /\
     compute op (I e) (w e) = (w' e, Ok (out e))) ->
  reachable op c w0 -> inputs_sized o d ->
  curve (fun e => initial (I e)) (initial d) ->
  curve (fun e => independent (I e)) (independent d) ->
  derivable_pt_lim (fun e => time_initial (I e)) 0 (time_initial d) ->
  compute_jacvec_product_fwd op (I 0) d w0 = (w0', Ok dout) ->
  curve (fun e => final (out e)) (final dout) /\
  derivable_pt_lim (fun e => time_final (out e)) 0 (time_final dout).
Proof.
  intros Hbt Hs Hd Hf Hn HL Hdel Hc Hr0 Hdi C1 C2 C3 H.
  assert (Hst : forall hist v, ctl v = c -> ctl (run_calls op hist v) = c) by
    (intros; apply ctl_run_calls; [intros Ha; congruence|assumption]).
  eapply (run_derivative op Hbt (proj1 Hs) (proj1 (proj2 Hs)) Hd Hf n Hn del I d w w' out w0 w0' dout);
    eauto.
  - intros e He; destruct (Hc e He) as (R1 & R2 & R3); split; [|split]; auto.
    eapply reachable_wf; eauto.
  - eapply reachable_wf; eauto.
  - destruct Hr0 as (h0 & _ & ->); destruct (Hc 0) as ((h1 & _ & ->) & _); [rewrite Rabs_R0; exact Hdel|].
    rewrite !Hst; reflexivity.
Qed.

(** *** Linearity of the forward product *)
Notation shape := (shaped (t_stages bt) (state_size o) (independent_input_size o)
                          (independent_output_size o) (linearization_point_size o)).

Record combines (al be : R) (x y z : rkstate R) : Prop := {
  co_time : final_time z = al * final_time x + be * final_time y;
  co_state : final_state z = vlin al (final_state x) be (final_state y);
  co_ind : independent_inputs z = vlin al (independent_inputs x) be (independent_inputs y)
}.

Lemma sweep_linear al be : tableau_wf bt -> sized_ode o -> ode_linear o ->
  forall l, Forall (wf_ti op) l -> forall x y z x' y' z',
  shape (disc x) -> shape (disc y) -> shape (disc z) ->
  combines al be (disc x) (disc y) (disc z) ->
  derivative_sweep op l x = Ok x' -> derivative_sweep op l y = Ok y' -> derivative_sweep op l z = Ok z' ->
  combines al be (disc x') (disc y') (disc z').
Proof.
  intros Hbt (Hres & Hdsz & Hasz) Hlin l Hl.
  induction Hl as [|st l Hst Hl IH]; intros x y z x' y' z' Sx Sy Sz Hc Hx Hy Hz; cbn [derivative_sweep] in *.
  { injection Hx as <-; injection Hy as <-; injection Hz as <-; exact Hc. }
  unfold derivative_step in *.
  destruct (compute_step_derivative bt o (disc st) (disc x) _) as [vx|] eqn:Ex; cbn [bind] in Hx; [|discriminate].
  destruct (compute_step_derivative bt o (disc st) (disc y) _) as [vy|] eqn:Ey; cbn [bind] in Hy; [|discriminate].
  destruct (compute_step_derivative bt o (disc st) (disc z) _) as [vz|] eqn:Ez; cbn [bind] in Hz; [|discriminate].
  destruct Hc as [C1 C2 C3].
  destruct (step_derivative_linear bt o _ _ _ _ Hbt eq_refl eq_refl eq_refl Hdsz Hlin
              _ _ _ _ _ _ _ _ al be (wt_shape _ _ Hst) Sx Sy Sz C1 C2 C3 Ex Ey Ez) as (D1 & D2 & D3 & _).
  destruct (compute_step_derivative_shape bt o _ _ _ _ Hdsz (wt_shape _ _ Hst) Sx Ex) as [Tx _].
  destruct (compute_step_derivative_shape bt o _ _ _ _ Hdsz (wt_shape _ _ Hst) Sy Ey) as [Ty _].
  destruct (compute_step_derivative_shape bt o _ _ _ _ Hdsz (wt_shape _ _ Hst) Sz Ez) as [Tz _].
  eapply (IH _ _ _ x' y' z'); [| | | |exact Hx|exact Hy|exact Hz]; cbn;
    try apply shape_rk_set; auto.
  constructor; assumption.
Qed.

Lemma forward_linear al be i dx dy dz wx wy wz x' y' z' ox oy oz :
  tableau_wf bt -> sized_ode o -> ode_linear o ->
  wf op wx -> wf op wy -> wf op wz -> ctl wx = ctl wz -> ctl wy = ctl wz ->
  inputs_sized o i -> inputs_sized o dx -> inputs_sized o dy -> inputs_sized o dz ->
  time_initial dz = al * time_initial dx + be * time_initial dy ->
  initial dz = vlin al (initial dx) be (initial dy) ->
  independent dz = vlin al (independent dx) be (independent dy) ->
  compute_jacvec_product_fwd op i dx wx = (x', Ok ox) ->
  compute_jacvec_product_fwd op i dy wy = (y', Ok oy) ->
  compute_jacvec_product_fwd op i dz wz = (z', Ok oz) ->
  time_final oz = al * time_final ox + be * time_final oy /\
  final oz = vlin al (final ox) be (final oy).
Proof.
  intros Hbt Hs Hlin Wx Wy Wz Cx Cy Si Sx Sy Sz E1 E2 E3 Hx Hy Hz.
  pose proof Hs as (Hres & Hdsz & Hasz).
  destruct (fwd_value op Hres i dx wx x' ox (ctl wz) Wx Si Sx Hx) as (lx & cx & sx & px & Kx & _ & Dx & ->).
  destruct (fwd_value op Hres i dy wy y' oy (ctl wz) Wy Si Sy Hy) as (ly & cy & sy & py & Ky & _ & Dy & ->).
  destruct (fwd_value op Hres i dz wz z' oz (ctl wz) Wz Si Sz Hz) as (lz & cz & sz & pz & Kz & _ & Dz & ->).
  rewrite Cx in Kx; rewrite Cy in Ky.
  destruct (chain_fun op _ _ _ _ _ _ Kx _ _ _ Kz) as (-> & _ & _).
  destruct (chain_fun op _ _ _ _ _ _ Ky _ _ _ Kz) as (-> & _ & _).
  destruct (chain_wf op Hres _ _ _ _ _ _ Kz) as [_ Fl].
  { apply wf_prepare; [exact Si|apply wf_setup]. }
  destruct (sweep_linear al be Hbt Hs Hlin lz Fl _ _ _ px py pz
    (wf_pert _ _ (wf_prepare_fwd op i dx wx Si Sx Wx)) (wf_pert _ _ (wf_prepare_fwd op i dy wy Si Sy Wy))
    (wf_pert _ _ (wf_prepare_fwd op i dz wz Si Sz Wz))
    (Build_combines al be (disc (pert (prepare_fwd op i dx wx))) (disc (pert (prepare_fwd op i dy wy)))
       (disc (pert (prepare_fwd op i dz wz))) E1 E2 E3) Dx Dy Dz) as [D1 D2 _].
  split; assumption.
Qed.

End Real.
