(** Callback calls of runs, and store-all checkpointing, for every scalar type. *)
From Coq Require Import List Lia Bool Arith.
From Verif Require Import Base M_Tableau M_State M_ODE M_Step M_Controller M_Measure M_Integrator
  SpecRK SpecShape SpecDeriv SpecRun L_Vec L_Step L_Generic L_Run L_Iter L_Whole.
Import ListNotations.

Local Open Scope nat_scope.

Section Log.
Context {T : Type} {N : Num T} {C : Type}.
Variable op : options T C.
Notation bt := (o_bt op).
Notation o := (o_ode op).
Notation ncb m := (length (o_callbacks op m)).

Lemma run_events_bracketed m it st l : run_events op m it st l = bracketed m (ncb m) (S it) st l.
Proof.
  revert it st; induction l as [|b l IH]; intros it st; simpl; [reflexivity|].
  rewrite IH; unfold step_events, before_events, after_events, hook_events.
  rewrite <- app_assoc; reflexivity.
Qed.

Lemma reverse_events_bracketed l : reverse_events op l = bracketed_back (ncb Rev) l.
Proof.
  induction l as [|b l IH]; simpl; [reflexivity|].
  rewrite IH; unfold step_events, before_events, after_events, hook_events.
  rewrite <- app_assoc; reflexivity.
Qed.

Lemma chain_trajectory it c st l c' st' : chain op it c st l c' st' -> trajectory op st l.
Proof. induction 1; simpl; [exact I|]; split; [unfold one_step; eauto|assumption]. Qed.

Lemma last_cons {A} (l : list A) a b : last (a :: l) b = last l a.
Proof.
  revert a b; induction l as [|x l IH]; intros; [reflexivity|].
  change (last (a :: x :: l) b) with (last (x :: l) b); rewrite (IH x b), (IH x a); reflexivity.
Qed.

Lemma chain_stops_from it c st l c' st' : chain op it c st l c' st' ->
  is_iteration_finished (o_crit op) (it + length l) (last l st) = true /\
  forall k, k < length l -> is_iteration_finished (o_crit op) (it + k) (nth k (st :: l) st) = false.
Proof.
  induction 1 as [it c st F|it c st c1 st1 l c' st' F I Hc [IH1 IH2]].
  - simpl; rewrite Nat.add_0_r; split; [exact F|]; intros; lia.
  - split.
    + rewrite (last_cons l st1 st); cbn [length]; rewrite Nat.add_succ_r; exact IH1.
    + intros [|k] Hk; [rewrite Nat.add_0_r; exact F|].
      specialize (IH2 k ltac:(simpl in Hk; lia)); rewrite Nat.add_succ_r.
      change (nth (S k) (st :: st1 :: l) st) with (nth k (st1 :: l) st).
      rewrite (nth_indep _ st st1) by (simpl in *; lia); exact IH2.
Qed.

Lemma chain_stops c st l c' st' : chain op 0 c st l c' st' -> stops op st l.
Proof. intros H; exact (chain_stops_from 0 c st l c' st' H). Qed.

Lemma starts_prepare i w : starts_at op i (live (prepare op i w)).
Proof. repeat split; reflexivity. Qed.

Lemma starts_prepare_fwd i d w : starts_at op i (live (prepare_fwd op i d w)).
Proof. repeat split; reflexivity. Qed.

Lemma result_last st l c' st' it c : chain op it c st l c' st' -> result_of st' = result_of (last l st).
Proof. intros H; rewrite (chain_last op _ _ _ _ _ _ H); reflexivity. Qed.

Lemma compute_log i w w' out : loops op -> compute op i w = (w', Ok out) ->
  exists a l, starts_at op i a /\ trajectory op a l /\ stops op a l /\
    log w' = log w ++ bracketed Compute (ncb Compute) 1 a l /\
    time_final out = final_time (disc (last l a)) /\ final out = final_state (disc (last l a)) /\
    live w' = last l a.
Proof.
  intros HL H; destruct (compute_ok op i w w' out HL H) as (l & c' & st' & Hc & Hl & -> & Ew).
  exists (live (prepare op i w)), l; split; [apply starts_prepare|].
  split; [eapply chain_trajectory; eauto|]; split; [eapply chain_stops; eauto|].
  pose proof (chain_last op _ _ _ _ _ _ Hc) as EL.
  split; [|split; [cbn; rewrite EL; reflexivity|split; [cbn; rewrite EL; reflexivity|]]].
  - rewrite Ew, <- run_events_bracketed; unfold after_run; destruct (keeps op); reflexivity.
  - rewrite Ew; unfold after_run; cbn; exact EL.
Qed.

Lemma fwd_log i d w w' out : compute_jacvec_product_fwd op i d w = (w', Ok out) ->
  exists a l, starts_at op i a /\ trajectory op a l /\ stops op a l /\
    log w' = log w ++ bracketed Fwd (ncb Fwd) 1 a l /\ live w' = last l a.
Proof.
  intros H; destruct (fwd_ok op i d w w' out H) as (l & c' & st' & p' & Hc & Hl & _ & _ & ->).
  exists (live (prepare_fwd op i d w)), l; split; [apply starts_prepare_fwd|].
  split; [eapply chain_trajectory; eauto|]; split; [eapply chain_stops; eauto|].
  split; [cbn; rewrite <- run_events_bracketed; reflexivity|].
  cbn; apply (chain_last op _ _ _ _ _ _ Hc).
Qed.

(** *** Runs that break off *)
Lemma hooks_any ev hook l : forall i (w w' : component T C) r,
  call_hooks ev hook i l w = (w', r) ->
  exists j, j <= length l /\ w' = w_log (log w ++ map ev (seq i j)) w.
Proof.
  induction l as [|cb l IH]; intros i w w' r H; simpl in H.
  - injection H as <- <-; exists 0; split; [lia|]; simpl; rewrite app_nil_r; destruct w; reflexivity.
  - unfold mbind, modify, mlift in H; destruct (hook cb) as [[]|e].
    + apply IH in H as (j & Hj & ->); exists (S j); split; [simpl; lia|].
      cbn; rewrite <- app_assoc; reflexivity.
    + injection H as <- <-; exists 1; split; [simpl; lia|]; reflexivity.
Qed.

Lemma run_step_any n w w' e : run_step op n w = (w', Err e) ->
  exists ev, broken_off op Compute (ncb Compute) n (live w) ev /\ log w' = log w ++ ev.
Proof.
  unfold run_step, reading, mbind, before_hooks, after_hooks; intros H.
  destruct (call_hooks (fun i => Before Compute i n (live w))
      (fun cb => before_iteration cb n (live w)) 0 (o_callbacks op Compute) w) as [w1 r1] eqn:E1.
  destruct r1 as [[]|e1].
  - pose proof (before_ok op Compute n (live w) w w1 E1) as ->.
    unfold step_live in H; cbn [ctl live w_log] in H.
    destruct (iterate_on_step op (retry_limit op) (ctl w) (live w)) as [[c1 st1] r2] eqn:I.
    destruct r2 as [[]|e2].
    + cbn [live w_ctl w_live] in H.
      apply hooks_any in H as (j & Hj & ->).
      exists (before_events op Compute n (live w) ++ map (fun i => After Compute i n st1) (seq 0 j)).
      split; [right; exists st1, j; split; [unfold one_step; eauto|auto]|].
      cbn; rewrite app_assoc; reflexivity.
    + injection H as <- _; exists (before_events op Compute n (live w)).
      split; [left; exists (ncb Compute); auto|reflexivity].
  - injection H as <- <-; apply hooks_any in E1 as (j & Hj & ->).
    exists (map (fun i => Before Compute i n (live w)) (seq 0 j)); split; [left; eauto|reflexivity].
Qed.

Lemma bracketed_app m k : forall l1 l2 n (a : tistate T),
  bracketed m k n a (l1 ++ l2) = bracketed m k n a l1 ++ bracketed m k (n + length l1) (last l1 a) l2.
Proof.
  induction l1 as [|b l1 IH]; intros l2 n a; [simpl; rewrite Nat.add_0_r; reflexivity|].
  cbn [app bracketed length]; rewrite IH, (last_cons l1 b a), <- !app_assoc.
  replace (n + S (length l1)) with (S n + length l1) by lia; reflexivity.
Qed.

Lemma forward_loop_any keep : forall fuel it w w' r, forward_loop op keep fuel it w = (w', r) ->
  exists l ev, trajectory op (live w) l /\
    log w' = log w ++ bracketed Compute (ncb Compute) (S it) (live w) l ++ ev /\
    (r = Ok tt -> ev = []) /\
    (ev = [] \/ broken_off op Compute (ncb Compute) (S it + length l) (last l (live w)) ev).
Proof.
  induction fuel as [|fuel IH]; intros it w w' r H.
  - injection H as <- <-; exists [], []; simpl; rewrite app_nil_r; repeat split; auto.
  - cbn [forward_loop] in H; unfold reading in H.
    destruct (is_iteration_finished (o_crit op) it (live w)).
    + injection H as <- <-; exists [], []; simpl; rewrite app_nil_r; repeat split; auto.
    + unfold mbind at 1 in H; destruct (run_step op (S it) w) as [w1 [[]|e]] eqn:E.
      * destruct (run_step_ok op _ _ _ E) as (c1 & st1 & I & ->).
        match type of H with mbind _ _ ?v = _ =>
          assert (E2 : exists v', (if keep then modify (fun w => w_storage (live w :: storage w) w)
                 else mret tt) v = (v', Ok tt) /\ live v' = st1 /\
                 log v' = log w ++ step_events op Compute (S it) (live w) st1) end.
        { destruct keep; eexists; (split; [reflexivity|]); split; reflexivity. }
        destruct E2 as (v' & E2 & L2 & G2); unfold mbind in H; rewrite E2 in H.
        apply IH in H as (l & ev & A1 & A2 & A3 & A4); rewrite L2, G2 in *.
        exists (st1 :: l), ev; split; [split; [unfold one_step; eauto|exact A1]|].
        split; [|split; [exact A3|]].
        -- rewrite A2; cbn [bracketed]; unfold step_events, before_events, after_events, hook_events.
           rewrite <- !app_assoc; reflexivity.
        -- rewrite (last_cons l st1 (live w)); cbn [length].
           replace (S it + S (length l)) with (S (S it) + length l) by lia; exact A4.
      * injection H as <- <-; destruct (run_step_any _ _ _ _ E) as (ev & B & G).
        exists [], ev; simpl; split; [exact I|]; split; [exact G|]; split; [discriminate|].
        right; rewrite Nat.add_0_r; exact B.
Qed.

Lemma compute_log_any_live i w w' r : loops op -> compute op i w = (w', r) ->
  exists l ev, trajectory op (live (prepare op i w)) l /\
    log w' = log w ++ bracketed Compute (ncb Compute) 1 (live (prepare op i w)) l ++ ev /\
    (ev = [] \/ broken_off op Compute (ncb Compute) (S (length l)) (last l (live (prepare op i w))) ev).
Proof.
  intros HL H; unfold compute in H; unfold mbind at 1 in H; rewrite compute_preparation_eq in H.
  set (w1 := if keeps op then w_storage [] (prepare op i w) else prepare op i w).
  assert (E : create_checkpointer op (prepare op i w) = (w1, Ok tt)).
  { unfold create_checkpointer, w1, keeps, loops in *; destruct (o_ckpt op); [reflexivity..|tauto]. }
  assert (F : iterate_forward op = forward_loop op (keeps op) (loop_limit op) 0).
  { unfold iterate_forward, keeps, loops in *; destruct (o_ckpt op); [reflexivity..|tauto]. }
  unfold mbind at 1 in H; rewrite E, F in H; unfold mbind in H.
  destruct (forward_loop op (keeps op) (loop_limit op) 0 w1) as [w2 r2] eqn:G.
  apply forward_loop_any in G as (l & ev & A1 & A2 & A3 & A4).
  assert (L : log w' = log w2) by (destruct r2 as [[]|e]; injection H as <- _; reflexivity).
  assert (Lw : live w1 = live (prepare op i w)) by (unfold w1; destruct (keeps op); reflexivity).
  assert (Gw : log w1 = log w) by (unfold w1; destruct (keeps op); reflexivity).
  rewrite Lw, Gw in *.
  exists l, ev; split; [exact A1|]; split; [rewrite L; exact A2|exact A4].
Qed.
Lemma compute_log_any i w w' r : loops op -> compute op i w = (w', r) ->
  exists a l ev, starts_at op i a /\ trajectory op a l /\
    log w' = log w ++ bracketed Compute (ncb Compute) 1 a l ++ ev /\
    (ev = [] \/ broken_off op Compute (ncb Compute) (S (length l)) (last l a) ev).
Proof.
  intros HL H; destruct (compute_log_any_live i w w' r HL H) as (l & ev & A).
  exists (live (prepare op i w)), l, ev; split; [apply starts_prepare|exact A].
Qed.

(** *** Store-all checkpointing *)
Lemma hooks_storage ev hook l : forall i x (w : component T C),
  call_hooks ev hook i l (w_storage x w)
  = (w_storage x (fst (call_hooks ev hook i l w)), snd (call_hooks ev hook i l w)).
Proof.
  induction l as [|cb l IH]; intros i x w; simpl; [reflexivity|].
  unfold mbind, modify, mlift; destruct (hook cb) as [[]|e]; [|reflexivity].
  change (w_log (log (w_storage x w) ++ [ev i]) (w_storage x w)) with (w_storage x (w_log (log w ++ [ev i]) w)).
  apply IH.
Qed.

Lemma run_step_storage n x w :
  run_step op n (w_storage x w) = (w_storage x (fst (run_step op n w)), snd (run_step op n w)).
Proof.
  unfold run_step, reading, mbind, before_hooks, after_hooks; rewrite hooks_storage.
  cbn [live w_storage].
  destruct (call_hooks _ _ 0 _ w) as [w1 [[]|e]]; cbn [fst snd]; [|reflexivity].
  unfold step_live; cbn [ctl live w_storage].
  destruct (iterate_on_step op (retry_limit op) (ctl w1) (live w1)) as [[c1 st1] [[]|e]]; [|reflexivity].
  change (w_ctl c1 (w_live st1 (w_storage x w1))) with (w_storage x (w_ctl c1 (w_live st1 w1))).
  rewrite hooks_storage; reflexivity.
Qed.

Lemma forward_loop_storage : forall fuel it x w,
  exists y, forward_loop op true fuel it (w_storage x w)
  = (w_storage y (fst (forward_loop op false fuel it w)), snd (forward_loop op false fuel it w)).
Proof.
  induction fuel as [|fuel IH]; intros it x w; cbn [forward_loop]; [eexists; reflexivity|].
  unfold reading; cbn [live w_storage].
  destruct (is_iteration_finished (o_crit op) it (live w)); [eexists; reflexivity|].
  unfold mbind; rewrite run_step_storage.
  destruct (run_step op (S it) w) as [w1 [[]|e]]; cbn [fst snd]; [|eexists; reflexivity].
  unfold modify, mret; apply (IH (S it) (live w1 :: x) w1).
Qed.

End Log.

Section StoreAll.
Context {T : Type} {N : Num T} {C : Type}.
Variable op : options T C.

(** Everything but the storage is the same, however the run ends. *)
Lemma store_all_transparent i w wa ra wn rn :
  compute (with_ckpt op AllCheckpointer) i w = (wa, ra) ->
  compute (with_ckpt op NoCheckpointer) i w = (wn, rn) ->
  ra = rn /\ wa = w_storage (storage wa) wn.
Proof.
  intros HA HN.
  assert (EA : compute (with_ckpt op AllCheckpointer) i w =
    match forward_loop op true (loop_limit op) 0 (w_storage [] (prepare op i w)) with
    | (w1, Ok _) => (w1, Ok (result_of (live w1)))
    | (w1, Err e) => (w1, Err e)
    end).
  { unfold compute; unfold mbind at 1; rewrite compute_preparation_eq; unfold mbind at 1; cbn.
    unfold mbind; reflexivity. }
  assert (EN : compute (with_ckpt op NoCheckpointer) i w =
    match forward_loop op false (loop_limit op) 0 (prepare op i w) with
    | (w1, Ok _) => (w1, Ok (result_of (live w1)))
    | (w1, Err e) => (w1, Err e)
    end).
  { unfold compute; unfold mbind at 1; rewrite compute_preparation_eq; unfold mbind at 1; cbn.
    unfold mbind; reflexivity. }
  rewrite EA in HA; rewrite EN in HN.
  destruct (forward_loop_storage op (loop_limit op) 0 [] (prepare op i w)) as [y E]; rewrite E in HA.
  destruct (forward_loop op false (loop_limit op) 0 (prepare op i w)) as [w1 [[]|e]]; cbn in HA, HN;
    injection HA as <- <-; injection HN as <- <-; split; reflexivity.
Qed.

Lemma no_reverse i d w w1 out : o_ckpt op = NoCheckpointer ->
  compute op i w = (w1, Ok out) ->
  exists w2 e, compute_jacvec_product_rev op i d w1 = (w2, Err e).
Proof.
  intros HN _; unfold compute_jacvec_product_rev, mbind at 1.
  destruct (jacvec_rev_preparation_phase op i d w1) as [w2 [[]|e]]; [|eauto].
  unfold iterate_reverse, mbind; rewrite HN; unfold mraise; eauto.
Qed.

End StoreAll.

(** *** One adaptive step, and the reverse sweep *)
Section Sweep.
Context {T : Type} {N : Num T} {C : Type}.
Variable op : options T C.
Notation bt := (o_bt op).
Notation o := (o_ode op).
Hypothesis Hres : result_sizes o.

Lemma roll_upd (h x y : T) : upd 0 h (roll1 [x; y]) = [h; x].
Proof. reflexivity. Qed.

Lemma len2 (l : list T) : length l = 2 -> l = [nth 0 l n0; nth 1 l n0].
Proof. destruct l as [|a [|b [|? ?]]]; simpl; intros; try discriminate; reflexivity. Qed.

Lemma adaptive_step a b : o_adaptive op = true -> wf_ti op a -> one_step op a b ->
  exists h tmp em, compute_step bt o (disc a) h = Ok tmp /\
    disc b = rk_set (disc a) tmp /\
    state_measure (o_meas op) o tmp = Ok em /\
    step_hist b = [h; nth 0 (step_hist a) n0] /\
    err_hist b = [em; nth 0 (err_hist a) n0].
Proof.
  intros HA Hw (c & c' & H).
  destruct (iterate_adaptive op _ _ _ _ _ HA H) as (h & tmp & em & cc & stat & [A1 A2 A3 A4 A5 A6 A7 A8]).
  exists h, tmp, em; split; [exact A1|]; split; [exact A2|]; split; [exact A3|].
  rewrite A7, A8, (len2 _ (wt_sh _ _ Hw)), (len2 _ (wt_eh _ _ Hw)), !roll_upd; auto.
Qed.

Lemma step_size_hist a b : wf_ti op a -> one_step op a b ->
  wf_ti op b /\ nth 0 (step_hist b) n0 = step_size (disc b).
Proof.
  intros Hw (c & c' & H); split; [exact (iterate_wf op Hres _ _ _ _ _ _ Hw H)|].
  destruct (iterate_step op _ _ _ _ _ (wt_sh _ _ Hw) H) as (h & tmp & E & -> & -> & _).
  cbn; symmetry; exact (fr_step _ _ _ _ _ (compute_step_frame bt o _ _ _ Hres (wt_shape _ _ Hw) E)).
Qed.

Lemma trajectory_sizes l : forall a, wf_ti op a -> trajectory op a l ->
  Forall (fun b => nth 0 (step_hist b) n0 = step_size (disc b)) l.
Proof.
  induction l as [|b l IH]; intros a Hw H; [constructor|]; destruct H as [H1 H2].
  destruct (step_size_hist a b Hw H1) as [Hb E]; constructor; eauto.
Qed.

Lemma adjoint_embedded s w h w' : compute_step_adjoint_derivative bt o s w h = Ok w' ->
  embedded w' = embedded w.
Proof.
  intros H; unfold compute_step_adjoint_derivative in H.
  destruct (for_stages _ _ _) as [w1|e] eqn:E; cbn [bind] in H; [|discriminate].
  injection H as <-.
  apply (for_stages_pres (fun x => embedded x = embedded w)) in E; [exact E| |reflexivity].
  intros a b i Ha Hb; unfold compute_stage_adjoint_derivative in Hb.
  destruct (compute_update_adjoint_derivative _ _ _ _ _) as [x|]; cbn [bind] in Hb; [|discriminate].
  injection Hb as <-; exact Ha.
Qed.

Lemma rk_set_self (a b : rkstate T) : embedded a = embedded b -> rk_set a b = b.
Proof. destruct b; unfold rk_set; cbn; intros ->; reflexivity. Qed.

Lemma sweep_through l : Forall (fun b => nth 0 (step_hist b) n0 = step_size (disc b)) l ->
  forall p p', adjoint_sweep op l p = Ok p' -> adjoint_through bt o l (disc p) = Ok (disc p').
Proof.
  induction 1 as [|st l E _ IH]; intros p p' H; cbn [adjoint_sweep adjoint_through] in *.
  - injection H as <-; reflexivity.
  - unfold adjoint_step in H; rewrite E in H.
    destruct (compute_step_adjoint_derivative bt o (disc st) (disc p) (step_size (disc st))) as [q|e] eqn:A;
      cbn [bind] in *; [|discriminate].
    apply IH in H; cbn in H; rewrite rk_set_self in H by (symmetry; exact (adjoint_embedded _ _ _ _ A)).
    exact H.
Qed.

Lemma hit_after_compute i w w1 out :
  (forall x : T, In x (initial i ++ independent i) -> neqb x x = true) -> loops op ->
  compute op i w = (w1, Ok out) -> cache_hit i (cached w1) = true.
Proof.
  intros Hrefl HL H.
  pose proof (cached_compute op i w HL) as E; rewrite H in E; cbn in E; rewrite E; cbn.
  assert (S : forall a : list T, (forall x, In x a -> neqb x x = true) -> array_equal a a = true).
  { induction a as [|x a IH]; simpl; intros Ha; [reflexivity|].
    rewrite Ha, IH by auto; reflexivity. }
  rewrite !S; [reflexivity| |]; intros x Hx; apply Hrefl, in_or_app; auto.
Qed.

Lemma store_all_reverse i d w w1 out w2 g :
  (forall x : T, In x (initial i ++ independent i) -> neqb x x = true) ->
  o_ckpt op = AllCheckpointer -> wf op w -> inputs_sized o i ->
  compute op i w = (w1, Ok out) -> compute_jacvec_product_rev op i d w1 = (w2, Ok g) ->
  exists a l p p', starts_at op i a /\ trajectory op a l /\ stops op a l /\
    log w1 = log w ++ bracketed Compute (length (o_callbacks op Compute)) 1 a l /\
    log w2 = log w1 ++ bracketed_back (length (o_callbacks op Rev)) (rev l) /\
    final_time p = time_final d /\ final_state p = final d /\
    independent_inputs p = vzeros (length (independent_inputs p)) /\
    adjoint_through bt o (rev l) p = Ok p' /\
    g = {| time_initial := final_time p'; initial := final_state p'; independent := independent_inputs p' |} /\
    storage w2 = [] /\ live w2 = live w1.
Proof.
  intros Hrefl HA Hw Hi HC HR.
  assert (HL : loops op) by (unfold loops; rewrite HA; exact I).
  assert (HK : keeps op = true) by (unfold keeps; rewrite HA; reflexivity).
  destruct (compute_ok op i w w1 out HL HC) as (l & c' & st' & Hch & _ & _ & E1).
  destruct (rev_ok op i d w1 w2 g HA HR) as (wb & p' & Hb & Hp & -> & E2).
  pose proof (hit_after_compute i w w1 out Hrefl HL HC) as Hit.
  rewrite Hit in Hb; subst wb.
  assert (Es : storage w1 = rev l).
  { rewrite E1; unfold after_run; rewrite HK; cbn; apply app_nil_r. }
  pose proof (wf_live _ _ (wf_prepare op i w Hi Hw)) as Wa.
  pose proof (chain_trajectory op _ _ _ _ _ _ Hch) as Htr.
  exists (live (prepare op i w)), l, (disc (pert (prepare_rev d w1))), (disc p').
  split; [apply starts_prepare|]; split; [exact Htr|]; split; [eapply chain_stops; eauto|].
  split. { rewrite E1, <- run_events_bracketed; unfold after_run; rewrite HK; reflexivity. }
  split. { rewrite E2, Es, <- reverse_events_bracketed; reflexivity. }
  split; [reflexivity|]; split; [reflexivity|].
  split. { cbn; unfold vzeros at 2; rewrite repeat_length; reflexivity. }
  split. { rewrite Es in Hp; apply sweep_through; [|exact Hp].
           apply Forall_rev', (trajectory_sizes l _ Wa Htr). }
  split; [reflexivity|]; rewrite E2; split; reflexivity.
Qed.

End Sweep.
