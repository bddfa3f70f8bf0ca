(** Reverse products in changed variables. *)
From Coq Require Import List Lia Bool Arith.
From Verif Require Import Base M_Tableau M_State M_ODE M_Step M_Controller M_Measure M_Integrator
  SpecRK SpecShape SpecDeriv SpecRun SpecChange SpecChange3 L_Vec L_Step L_Generic L_Deriv L_Run L_Iter L_Whole L_RunProps L_Scheme L_Restart L_Restart2 L_Restart3 L_Change L_Change2.
Import ListNotations.
Local Open Scope nat_scope.

Lemma same_count {A B} (P : A -> B -> Prop) l l' : Forall2 P l l' -> length l = length l'.
Proof. induction 1; cbn; auto. Qed.
Lemma map_upd {A B} (f : A -> B) v : forall k l, map f (upd k v l) = upd k (f v) (map f l).
Proof. induction k as [|k IH]; intros [|x l]; cbn; try reflexivity. rewrite IH. reflexivity. Qed.
Lemma Forall2_rev' {A B} (P : A -> B -> Prop) l l' : Forall2 P l l' -> Forall2 P (rev l) (rev l').
Proof. induction 1 as [|x y l l' H _ IH]; cbn; [constructor|]. apply Forall2_app; [exact IH|constructor; [exact H|constructor]]. Qed.

Section Change.
Context {T : Type} {N : Num T} {C : Type}.
Variables (op : options T C) (o' : ode T) (ch : change T).
Notation bt := (o_bt op).
Notation o := (o_ode op).
Notation op' := (change_options ch o' op).
Notation n := (state_size o).
Notation n' := (state_size o').
Notation shape := (shaped (t_stages bt) (state_size o) (independent_input_size o)
                          (independent_output_size o) (linearization_point_size o)).
Notation shape' := (shaped (t_stages bt) (state_size o') (independent_input_size o')
                          (independent_output_size o') (linearization_point_size o')).
Hypothesis Hch : is_change n n' ch.
Hypothesis Hpar : forall p, length p = independent_input_size o -> length (ch_parameters ch p) = independent_input_size o'.
Hypothesis Hode : changed_ode ch o o'.
Hypothesis Hres : result_sizes o.
Hypothesis Hres' : result_sizes o'.
Hypothesis Hnorm : o_adaptive op = true -> same_norms ch o o'.

(** Any relation between the linearization points of the two ODEs is passed on
    by runs. *)
Section Points.
Variable P : T -> T -> list T -> list T -> Prop.
Hypothesis HP : forall i h a r lp r' lp', length (step_input i) = n -> length (stage_input i) = n ->
  length (independent_input i) = independent_input_size o ->
  compute_update o i h a = Ok (r, lp) -> compute_update o' (change_in ch i) h a = Ok (r', lp') -> P h a lp lp'.

(** Linearization points of the first [k] stages. *)
Definition lins (h : T) (k : nat) (s s' : rkstate T) : Prop := forall j, j < k ->
  P h (entry (t_A bt) j j) (nth j (linearization_points s) []) (nth j (linearization_points s') []).

Lemma lins_stage k s s' h s1 s1' : k < t_stages bt -> srel op o' ch k s s' -> lins h k s s' ->
  compute_stage bt o s h k = Ok s1 -> compute_stage bt o' s' h k = Ok s1' -> lins h (S k) s1 s1'.
Proof.
  intros Hk H HL. pose proof (sr_shape _ _ _ _ _ _ H) as Sh. pose proof (sr_shape' _ _ _ _ _ _ H) as Sh'. unfold compute_stage.
  cbn [start_state w_stage_times stage_updates independent_inputs stage_times].
  rewrite (nth_upd_same k) with (l := stage_times s) by (rewrite (sh_st _ _ _ _ _ _ Sh); exact Hk).
  rewrite (nth_upd_same k) with (l := stage_times s') by (rewrite (sh_st _ _ _ _ _ _ Sh'); exact Hk).
  rewrite (change_accumulate op o' ch Hch k s s' Hk H), (sr_start _ _ _ _ _ _ H), (sr_time _ _ _ _ _ _ H), (sr_par _ _ _ _ _ _ H), <- (cg_time _ _ _ Hch).
  destruct (compute_update o _ h _) as [[r lp]|e] eqn:E1; cbn [bind]; [|discriminate].
  destruct (compute_update o' _ h _) as [[r' lp']|e'] eqn:E2; cbn [bind]; [|discriminate].
  pose proof (HP {| step_input := start_state s; stage_input := accumulate_stages bt k (stage_updates s);
    independent_input := independent_inputs s; time := nadd (start_time s) (nmul h (nth k (t_c bt) n0)) |} _ _ _ _ _ _ (sh_start _ _ _ _ _ _ Sh) (accumulate_len op k s Hk Sh) (sh_ind _ _ _ _ _ _ Sh) E1 E2) as K.
  intros [= <-] [= <-] j Hj. cbn [linearization_points w_linearization_points w_stage_independent_outputs w_stage_states w_stage_updates w_stage_times].
  destruct (Nat.eq_dec j k) as [->|Ne].
  - rewrite !nth_upd_same; [exact K|rewrite (sh_lp _ _ _ _ _ _ Sh'); exact Hk|rewrite (sh_lp _ _ _ _ _ _ Sh); exact Hk].
  - rewrite !nth_upd_other by congruence. apply HL. lia.
Qed.

Lemma lins_stages h : forall len k s s' s1 s1', k + len = t_stages bt -> srel op o' ch k s s' -> lins h k s s' ->
  for_stages (fun s i => compute_stage bt o s h i) (seq k len) s = Ok s1 ->
  for_stages (fun s i => compute_stage bt o' s h i) (seq k len) s' = Ok s1' -> lins h (k + len) s1 s1'.
Proof.
  induction len as [|len IH]; intros k s s' s1 s1' Hk H HL; cbn [seq for_stages].
  - intros [= <-] [= <-]. rewrite Nat.add_0_r. exact HL.
  - pose proof (change_stage op o' ch Hch Hode Hres Hres' k s s' h ltac:(lia) H) as E.
    destruct (compute_stage bt o s h k) as [u|e] eqn:E1; cbn [bind]; [|discriminate].
    destruct E as (u' & E2 & R). rewrite E2. cbn [bind]. rewrite <- Nat.add_succ_comm. apply IH; [lia|exact R|].
    exact (lins_stage k s s' h u u' ltac:(lia) H HL E1 E2).
Qed.

Lemma lins_step s s' h s1 s1' : trel op o' ch s s' -> compute_step bt o s h = Ok s1 -> compute_step bt o' s' h = Ok s1' ->
  lins h (t_stages bt) s1 s1'.
Proof.
  intros H. unfold compute_step, compute_step_base.
  assert (R0 : srel op o' ch 0 (w_step_size h (shift_state s)) (w_step_size h (shift_state s'))).
  { destruct H as [S1 S2 H1 H2 H3 H4]. constructor; cbn; auto; [destruct S1|destruct S2]; constructor; cbn; auto. }
  pose proof (lins_stages h (number_of_stages bt) 0 (w_step_size h (shift_state s)) (w_step_size h (shift_state s'))) as E. cbn [plus] in E.
  destruct (for_stages (fun s i => compute_stage bt o s h i) _ (w_step_size h (shift_state s))) as [u|e]; cbn [bind]; [|discriminate].
  destruct (for_stages (fun s i => compute_stage bt o' s h i) _ (w_step_size h (shift_state s'))) as [u'|e]; cbn [bind]; [|discriminate].
  specialize (E u u' eq_refl R0 ltac:(intros j Hj; lia) eq_refl eq_refl).
  destruct (compute_final_independent_outputs _) as [f|e]; cbn [bind]; [|discriminate].
  destruct (compute_final_independent_outputs _) as [f'|e]; cbn [bind]; [|discriminate].
  destruct (t_hat bt) as [[bh ph]|]; intros [= <-] [= <-]; exact E.
Qed.

(** Steps made, and sweeps over them. *)
Record lsim (a b : tistate T) : Prop := {
  ls_a : shape (disc a); ls_b : shape' (disc b); ls_h : step_hist a = step_hist b;
  ls_lins : lins (nth 0 (step_hist a) n0) (t_stages bt) (disc a) (disc b) }.

Lemma lsim_iterate c a b c1 a1 b1 c2 : tsim op o' ch a b -> iterate_on_step op (retry_limit op) c a = (c1, a1, Ok tt) ->
  iterate_on_step op' (retry_limit op) c b = (c2, b1, Ok tt) -> tsim op o' ch a1 b1 -> lsim a1 b1.
Proof.
  intros H Ia Ib H1.
  destruct (iterate_step op _ _ _ _ _ (wt_sh _ _ (ts_a _ _ _ _ _ H)) Ia) as (h & x & E & D & Hh & _).
  destruct (iterate_step op' _ _ _ _ _ (wt_sh _ _ (ts_b _ _ _ _ _ H)) Ib) as (h' & x' & E' & D' & Hh' & _).
  rewrite <- (ts_sh _ _ _ _ _ H1), Hh in Hh'. subst h'.
  constructor; [apply H1|apply H1|apply H1|]. rewrite Hh, D, D'.
  exact (lins_step _ _ _ _ _ (ts_state _ _ _ _ _ H) E E').
Qed.

Lemma lsim_chain it c a l c1 a1 : chain op it c a l c1 a1 -> forall b, tsim op o' ch a b ->
  exists l' b1, chain op' it c b l' c1 b1 /\ Forall2 lsim l l' /\ tsim op o' ch a1 b1.
Proof.
  induction 1 as [it c a F|it c a c1 a1 l c' a' F I _ IH]; intros b H.
  - exists [], b. split; [constructor; cbn [o_crit change_options]; rewrite (change_finished op o' ch Hch it a b H); exact F|]. auto.
  - pose proof (change_iterate op o' ch Hch Hode Hres Hres' Hnorm (retry_limit op) c a b H) as E. rewrite I in E. destruct E as (b1 & Ib & H1).
    destruct (IH b1 H1) as (l' & b' & Hc & Hl & H2). exists (b1 :: l'), b'. split; [|split; [constructor; [|exact Hl]|exact H2]].
    + econstructor; [cbn [o_crit change_options]; rewrite (change_finished op o' ch Hch it a b H); exact F|exact Ib|exact Hc].
    + exact (lsim_iterate _ _ _ _ _ _ _ H I Ib H1).
Qed.
Lemma unlsim_chain it c b l c1 b1 : chain op' it c b l c1 b1 -> forall a, tsim op o' ch a b ->
  exists l' a1, chain op it c a l' c1 a1 /\ Forall2 lsim l' l /\ tsim op o' ch a1 b1.
Proof.
  induction 1 as [it c b F|it c b c1 b1 l c' b' F I _ IH]; intros a H; cbn [o_crit change_options] in F; rewrite (change_finished op o' ch Hch it a b H) in F.
  - exists [], a. split; [constructor; exact F|]. auto.
  - pose proof (change_iterate op o' ch Hch Hode Hres Hres' Hnorm (retry_limit op) c a b H) as E. cbn [retry_limit change_options] in I.
    destruct (iterate_on_step op (retry_limit op) c a) as [[c2 a2] [u|e]] eqn:I2; [|destruct E as (b2 & Ib); rewrite I in Ib; discriminate].
    destruct E as (b2 & Ib & H1). rewrite I in Ib. destruct u.
    injection Ib as <- <-.
    destruct (IH a2 H1) as (l' & a' & Hc & Hl & H2). exists (a2 :: l'), a'. split; [|split; [constructor; [|exact Hl]|exact H2]].
    + econstructor; [exact F|exact I2|exact Hc].
    + exact (lsim_iterate _ _ _ _ _ _ _ H I2 I H1).
Qed.

End Points.

(** Weights. *)
Variables K Kq : list T -> list T.
Hypothesis HK : pulls_back n n' K.
Hypothesis HKq : pulls_back_parameters (independent_input_size o) (independent_input_size o') Kq.
Hypothesis Hadj : changed_adjoints ch K Kq o o'.
Hypothesis Has : adjoint_sizes o.
Hypothesis Has' : adjoint_sizes o'.
Notation cot := (same_cotangents K Kq o o').

Record wstage (s s' : rkstate T) : Prop := {
  ws_shape' : shape' s';
  ws_par : independent_inputs s = Kq (independent_inputs s');
  ws_times : stage_times s = stage_times s';
  ws_start : start_state s = K (start_state s');
  ws_time : start_time s = start_time s';
  ws_rows : stage_updates s = map K (stage_updates s') }.
Record wbetween (s s' : rkstate T) : Prop := {
  wb_shape : shape s; wb_shape' : shape' s';
  wb_par : independent_inputs s = Kq (independent_inputs s');
  wb_final : final_state s = K (final_state s');
  wb_time : final_time s = final_time s' }.

Lemma pull_add stage x ups : length x = n' -> Forall (fun r => length r = n') ups -> stage <= length ups ->
  add_to_updates bt stage (K x) (map K ups) = map K (add_to_updates bt stage x ups).
Proof.
  intros Hx. unfold add_to_updates.
  assert (G : forall l ups, Forall (fun r => length r = n') ups -> (forall i, In i l -> i < length ups) ->
    fold_left (fun ups i => upd i (vadd (nth i ups []) (vscale (entry (t_A bt) stage i) (K x))) ups) l (map K ups) =
    map K (fold_left (fun ups i => upd i (vadd (nth i ups []) (vscale (entry (t_A bt) stage i) x)) ups) l ups)).
  { induction l as [|i l IH]; intros u Hu Hl; cbn [fold_left]; [reflexivity|].
    assert (Hi : i < length u) by (apply Hl; left; reflexivity).
    assert (Hr : length (nth i u []) = n') by exact (Forall_nth_lt (fun r => length r = n') u [] i Hu Hi).
    rewrite <- IH.
    - rewrite map_upd, (pb_add _ _ _ HK), (pb_scale _ _ _ HK) by (rewrite ?glen_vscale; assumption).
      f_equal. f_equal. f_equal. rewrite (nth_indep _ [] (K [])) by (rewrite map_length; exact Hi). apply map_nth.
    - apply Forall_upd; [|exact Hu]. apply glen_vadd; [exact Hr|rewrite glen_vscale; exact Hx].
    - intros j Hj. rewrite length_upd. apply Hl. right; exact Hj. }
  intros Hu Hs. apply G; [exact Hu|]. intros i Hi. apply in_seq in Hi. lia.
Qed.

Lemma change_wstage x x' k s s' h : k < t_stages bt -> lins cot h (t_stages bt) x x' -> wstage s s' ->
  match compute_stage_adjoint_derivative bt o' (linearization_points x') s' h k with
  | Ok s1' => exists s1, compute_stage_adjoint_derivative bt o (linearization_points x) s h k = Ok s1 /\ wstage s1 s1'
  | Err e => compute_stage_adjoint_derivative bt o (linearization_points x) s h k = Err e
  end.
Proof.
  intros Hk HL H. pose proof (ws_shape' _ _ H) as Sh'. unfold compute_stage_adjoint_derivative.
  assert (Lk : k < length (stage_updates s')) by (rewrite (sh_su _ _ _ _ _ _ Sh'); exact Hk).
  pose proof (HL k Hk {| stage_update := nth k (stage_updates s) []; stage_state := nth k (stage_states s) [];
       independent_output := nth k (stage_independent_outputs s) [] |}
    {| stage_update := nth k (stage_updates s') []; stage_state := nth k (stage_states s') [];
       independent_output := nth k (stage_independent_outputs s') [] |}) as E. cbn [stage_update] in E.
  specialize (E (Forall_nth_lt (fun r => length r = n') _ [] k (sh_sur _ _ _ _ _ _ Sh') Lk)).
  specialize (E ltac:(rewrite (ws_rows _ _ H), (nth_indep _ [] (K [])) by (rewrite map_length; exact Lk); apply map_nth)).
  destruct (compute_update_adjoint_derivative o' _ _ h _) as [y'|e] eqn:E2; cbn [bind]; [|rewrite E; reflexivity].
  destruct E as (y & E1 & Y1 & Y2 & Y3 & Y4). rewrite E1. cbn [bind]. eexists. split; [reflexivity|].
  destruct (Has' _ _ _ _ _ E2) as (R1 & R2 & R3).
  constructor.
  - destruct (add_to_updates_shape bt k (stage_input y') (stage_updates s') _ _ R2 (sh_su _ _ _ _ _ _ Sh') (sh_sur _ _ _ _ _ _ Sh')) as (A1 & A2).
    destruct Sh'; constructor; cbn; rewrite ?length_upd; auto using glen_vadd.
  - cbn. rewrite (pq_add _ _ _ HKq) by (try apply Sh'; assumption). rewrite (ws_par _ _ H), Y3. reflexivity.
  - cbn. rewrite (ws_times _ _ H), Y4. reflexivity.
  - cbn. rewrite (pb_add _ _ _ HK) by (try apply Sh'; assumption). rewrite (ws_start _ _ H), Y1. reflexivity.
  - cbn. rewrite (ws_time _ _ H), (ws_times _ _ H), Y4. reflexivity.
  - cbn [stage_updates w_start_time w_stage_updates w_start_state w_stage_times w_independent_inputs].
    rewrite (ws_rows _ _ H), Y2. apply pull_add; [exact R2|apply Sh'|lia].
Qed.

Lemma change_wstages x x' h : lins cot h (t_stages bt) x x' -> forall l s s', (forall i, In i l -> i < t_stages bt) -> wstage s s' ->
  match for_stages (fun p i => compute_stage_adjoint_derivative bt o' (linearization_points x') p h i) l s' with
  | Ok s1' => exists s1, for_stages (fun p i => compute_stage_adjoint_derivative bt o (linearization_points x) p h i) l s = Ok s1 /\ wstage s1 s1'
  | Err e => for_stages (fun p i => compute_stage_adjoint_derivative bt o (linearization_points x) p h i) l s = Err e
  end.
Proof.
  intros HL. induction l as [|k l IH]; intros s s' Hl H; cbn [for_stages]; [eauto|].
  pose proof (change_wstage x x' k s s' h (Hl k (or_introl eq_refl)) HL H) as E.
  destruct (compute_stage_adjoint_derivative bt o' _ s' h k) as [s1'|e]; cbn [bind].
  - destruct E as (s1 & -> & R). cbn [bind]. apply IH; [intros i Hi; apply Hl; right; exact Hi|exact R].
  - rewrite E. reflexivity.
Qed.

Lemma change_wloop x x' h s s' : shape x -> shape' x' -> lins cot h (t_stages bt) x x' -> wbetween s s' ->
  match compute_step_adjoint_derivative bt o' x' s' h with
  | Ok s1' => exists s1, compute_step_adjoint_derivative bt o x s h = Ok s1 /\
      independent_inputs s1 = Kq (independent_inputs s1') /\ final_state s1 = K (final_state s1') /\ final_time s1 = final_time s1'
  | Err e => compute_step_adjoint_derivative bt o x s h = Err e
  end.
Proof.
  intros Sx Sx' HL H. pose proof (wb_shape _ _ H) as Sh. pose proof (wb_shape' _ _ H) as Sh'.
  unfold compute_step_adjoint_derivative, number_of_stages.
  match goal with |- context [for_stages (fun p i => compute_stage_adjoint_derivative bt o _ p h i) _ ?a] => set (A := a) end.
  match goal with |- context [for_stages (fun p i => compute_stage_adjoint_derivative bt o' _ p h i) _ ?a] => set (B := a) end.
  assert (Up : forall l ups, length ups = t_stages bt -> Forall (fun r => length r = n') ups ->
        let z := fold_left (fun ups i => upd i (vscale (nmul h (nth i (t_b bt) n0)) (final_state s')) ups) l ups
        in length z = t_stages bt /\ Forall (fun r => length r = n') z).
  { induction l as [|i l IH]; intros ups U1 U2; simpl; [auto|].
    apply IH; [rewrite length_upd; exact U1|].
    apply Forall_upd; [|exact U2]; rewrite glen_vscale; apply Sh'. }
  assert (HAB : wstage A B).
  { constructor; subst A B; cbn.
    - destruct (Up (seq 0 (t_stages bt)) (stage_updates s') (sh_su _ _ _ _ _ _ Sh') (sh_sur _ _ _ _ _ _ Sh')) as (U1 & U2).
      destruct Sx', Sh'; constructor; cbn; rewrite ?map_length, ?glen_vzeros; auto.
      clear - sh_sior; induction sh_sior; simpl; constructor; auto. rewrite glen_vzeros; assumption.
    - apply H.
    - rewrite (sh_st _ _ _ _ _ _ Sx), (sh_st _ _ _ _ _ _ Sx'). reflexivity.
    - apply H.
    - rewrite (wb_time _ _ H). reflexivity.
    - change (fold_left (fun u i => upd i (vscale (nmul h (nth i (t_b bt) n0)) (final_state s)) u) (seq 0 (t_stages bt)) (stage_updates s) =
        map K (fold_left (fun u i => upd i (vscale (nmul h (nth i (t_b bt) n0)) (final_state s')) u) (seq 0 (t_stages bt)) (stage_updates s'))).
      rewrite (fold_upd_overwrite (fun i => vscale (nmul h (nth i (t_b bt) n0)) (final_state s)) (t_stages bt) (stage_updates s) (map K (stage_updates s')))
        by (rewrite ?map_length; first [apply Sh|apply Sh']).
      rewrite (wb_final _ _ H). generalize (stage_updates s'). induction (seq 0 (t_stages bt)) as [|i l IH]; intros u; cbn [fold_left]; [reflexivity|].
      rewrite <- IH, map_upd, (pb_scale _ _ _ HK) by apply Sh'. reflexivity. }
  pose proof (change_wstages x x' h HL (rev (seq 0 (t_stages bt))) A B ltac:(intros i Hi; apply in_rev, in_seq in Hi; lia) HAB) as E.
  destruct (for_stages _ _ B) as [b|e]; cbn [bind]; [|rewrite E; reflexivity].
  destruct E as (a & -> & R). cbn [bind]. eexists. split; [reflexivity|]. cbn. destruct R; auto.
Qed.

Lemma change_wstep x x' h s s' : shape x -> shape' x' -> lins cot h (t_stages bt) x x' -> wbetween s s' ->
  match compute_step_adjoint_derivative bt o' x' s' h with
  | Ok s1' => exists s1, compute_step_adjoint_derivative bt o x s h = Ok s1 /\ wbetween s1 s1'
  | Err e => compute_step_adjoint_derivative bt o x s h = Err e
  end.
Proof.
  intros Sx Sx' HL H. pose proof (wb_shape _ _ H) as Sh. pose proof (wb_shape' _ _ H) as Sh'.
  destruct (compute_step_adjoint_derivative bt o' x' s' h) as [s1'|e] eqn:E'.
  - pose proof (compute_step_adjoint_shape bt o' _ _ _ _ Has' Sx' Sh' E') as Z'.
    assert (G : exists s1, compute_step_adjoint_derivative bt o x s h = Ok s1 /\
      independent_inputs s1 = Kq (independent_inputs s1') /\ final_state s1 = K (final_state s1') /\ final_time s1 = final_time s1').
    { pose proof (change_wloop x x' h s s' Sx Sx' HL H) as E. rewrite E' in E. exact E. }
    destruct G as (s1 & E & G1 & G2 & G3). exists s1. split; [exact E|].
    pose proof (compute_step_adjoint_shape bt o _ _ _ _ Has Sx Sh E) as Z. constructor; assumption.
  - pose proof (change_wloop x x' h s s' Sx Sx' HL H) as E. rewrite E' in E. exact E.
Qed.

Lemma change_wsweep l l' : Forall2 (lsim cot) l l' -> forall p p', wbetween (disc p) (disc p') ->
  match adjoint_sweep op' l' p' with
  | Ok q' => exists q, adjoint_sweep op l p = Ok q /\ wbetween (disc q) (disc q')
  | Err e => adjoint_sweep op l p = Err e
  end.
Proof.
  induction 1 as [|a b l l' Hab _ IH]; intros p p' H; cbn [adjoint_sweep]; [eauto|].
  unfold adjoint_step. cbn [o_bt o_ode change_options]. rewrite <- (ls_h _ _ _ Hab).
  pose proof (change_wstep (disc a) (disc b) (nth 0 (step_hist a) n0) _ _ (ls_a _ _ _ Hab) (ls_b _ _ _ Hab) (ls_lins _ _ _ Hab) H) as E.
  destruct (compute_step_adjoint_derivative bt o' _ _ _) as [d'|e]; cbn [bind].
  - destruct E as (d & -> & R). cbn [bind]. apply IH. destruct R as [S1 S2 R1 R2 R3].
    constructor; cbn; auto; [apply (shape_rk_set op)|apply (shape_rk_set op')]; assumption.
  - rewrite E. reflexivity.
Qed.

Lemma weights_sim c d : outputs_sized o' d ->
  wbetween (disc (pert (prepare_rev (pull_outputs K d) (setup op c)))) (disc (pert (prepare_rev d (setup op' c)))).
Proof.
  intros Hd. assert (Hd1 : outputs_sized o (pull_outputs K d)) by (apply (pb_length _ _ _ HK); exact Hd).
  pose proof (wf_pert _ _ (wf_prepare_rev op (pull_outputs K d) _ Hd1 (wf_setup op c))) as P.
  pose proof (wf_pert _ _ (wf_prepare_rev op' d _ Hd (wf_setup op' c))) as P'.
  constructor; [exact P|exact P'| |reflexivity|reflexivity].
  pose proof (wf_pert _ _ (wf_setup op c)) as W. pose proof (wf_pert _ _ (wf_setup op' c)) as W'.
  cbn [independent_inputs disc w_final_time w_independent_inputs w_final_state w_disc pert w_pert prepare_rev].
  rewrite (sh_ind _ _ _ _ _ _ W), (sh_ind _ _ _ _ _ _ W'). symmetry. apply (pq_zero _ _ _ HKq).
Qed.

Lemma change_gradient p p' : wbetween (disc p) (disc p') -> gradient_of p = pull_inputs K Kq (gradient_of p').
Proof. intros [_ _ R1 R2 R3]. unfold gradient_of, pull_inputs. cbn. rewrite R1, R2, R3. reflexivity. Qed.

Lemma change_rev_value c i d g : inputs_sized o i -> outputs_sized o' d ->
  (rev_value op c i (pull_outputs K d) g <-> exists g', rev_value op' c (change_inputs ch i) d g' /\ g = pull_inputs K Kq g').
Proof.
  intros Hi Hd. pose proof (weights_sim c d Hd) as D.
  pose proof (change_prepare op o' ch Hch Hpar i (setup op c) (setup op' c) Hi (wf_setup op c) (wf_setup op' c)) as P. split.
  - intros (l & c' & a & q & Ha & Hl & Hs & ->). destruct (lsim_chain cot Hadj _ _ _ _ _ _ Ha _ P) as (l' & b & Hb & Ll & R).
    pose proof (change_wsweep _ _ (Forall2_rev' _ _ _ Ll) _ _ D) as E. rewrite Hs in E.
    destruct (adjoint_sweep op' (rev l') _) as [q'|e] eqn:Eq; [|discriminate].
    destruct E as (q2 & E & B). injection E as <-.
    exists (gradient_of q'). split; [|exact (change_gradient q q' B)].
    exists l', c', b, q'. split; [exact Hb|]. split; [cbn; rewrite <- (same_count _ _ _ Ll); exact Hl|]. split; [exact Eq|reflexivity].
  - intros (g' & (l' & c' & b & q' & Hb & Hl & Hs & ->) & ->). destruct (unlsim_chain cot Hadj _ _ _ _ _ _ Hb _ P) as (l & a & Ha & Ll & R).
    pose proof (change_wsweep _ _ (Forall2_rev' _ _ _ Ll) _ _ D) as E. rewrite Hs in E. destruct E as (q & E & B).
    exists l, c', a, q. split; [exact Ha|]. split; [rewrite (same_count _ _ _ Ll); exact Hl|]. split; [exact E|].
    symmetry. exact (change_gradient q q' B).
Qed.
End Change.

Section Main.
Context {T : Type} {N : Num T} {C : Type}.
Lemma c93_reverse (op : options T C) o' ch K Kq : is_change (state_size (o_ode op)) (state_size o') ch ->
  (forall p, length p = independent_input_size (o_ode op) -> length (ch_parameters ch p) = independent_input_size o') ->
  pulls_back (state_size (o_ode op)) (state_size o') K ->
  pulls_back_parameters (independent_input_size (o_ode op)) (independent_input_size o') Kq ->
  sized_ode (o_ode op) -> sized_ode o' -> ignores_stage_state_weights (o_ode op) -> ignores_stage_state_weights o' ->
  changed_ode ch (o_ode op) o' -> changed_adjoints ch K Kq (o_ode op) o' ->
  (o_adaptive op = true -> same_norms ch (o_ode op) o') -> o_ckpt op = AllCheckpointer -> quiet op ->
  forall c i d, inputs_sized (o_ode op) i -> outputs_sized o' d ->
  forall g, (exists w', compute_jacvec_product_rev op i (pull_outputs K d) (setup op c) = (w', Ok g)) <->
  (exists v' g', compute_jacvec_product_rev (change_options ch o' op) (change_inputs ch i) d (setup (change_options ch o' op) c) = (v', Ok g') /\
     g = pull_inputs K Kq g').
Proof.
  intros Hc Hp HK HKq H1 H2 I1 I2 Ho Ha Hn HA Hq c i d Hi Hd g.
  assert (Hi' : inputs_sized o' (change_inputs ch i)).
  { destruct Hi as [X Y]. split; cbn; [apply (cg_states _ _ _ Hc); exact X|apply Hp; exact Y]. }
  assert (Hd1 : outputs_sized (o_ode op) (pull_outputs K d)) by (apply (pb_length _ _ _ HK); exact Hd).
  pose proof H1 as (X1 & X2 & X3). pose proof H2 as (Y1 & Y2 & Y3).
  rewrite (rev_value_iff op X1 X3 I1 c i _ (setup op c) g HA Hq (wf_setup _ _) Hi Hd1 (valid_setup _ _ _)).
  rewrite (change_rev_value op o' ch Hc Hp Ho X1 Y1 Hn K Kq HK HKq Ha X3 Y3 c i d g Hi Hd).
  pose proof (fun g' => rev_value_iff (change_options ch o' op) Y1 Y3 I2 c (change_inputs ch i) d (setup _ c) g' HA Hq (wf_setup _ _) Hi' Hd (valid_setup _ _ _)) as Z.
  split.
  - intros (g' & V & E). destruct (proj2 (Z g') V) as (v' & W). exists v', g'. auto.
  - intros (v' & g' & W & E). exists g'. split; [apply Z; exists v'; exact W|exact E].
Qed.
End Main.
