(** Facts about one Runge-Kutta step (M_Step.v) over the reals. *)
From Coq Require Import List Reals Lia Lra Bool.
From Verif Require Import Base Ext M_Tableau M_State M_ODE M_Step SpecRK SpecShape L_Vec.
Import ListNotations.
Open Scope R_scope.

Lemma Forall_repeat {A} (P : A -> Prop) x k : P x -> Forall P (repeat x k).
Proof. intros H; induction k; simpl; auto. Qed.

Lemma create_empty_shaped bt o :
  shaped (t_stages bt) (state_size o) (independent_input_size o)
         (independent_output_size o) (linearization_point_size o)
         (create_empty_discretization_state bt o).
Proof.
  constructor; cbn; unfold number_of_stages; rewrite ?repeat_length, ?length_vzeros;
    try reflexivity; apply Forall_repeat, length_vzeros.
Qed.

(** ** Loops over stages *)
Lemma for_stages_inv {T} (body : rkstate T -> nat -> res (rkstate T))
    (P : nat -> rkstate T -> Prop) m k s s' :
  P k s ->
  (forall i a b, (k <= i < k + m)%nat -> P i a -> body a i = Ok b -> P (S i) b) ->
  for_stages body (seq k m) s = Ok s' -> P (k + m)%nat s'.
Proof.
  revert k s; induction m as [|m IH]; intros k s H0 Hstep H; simpl in H.
  - injection H as <-; rewrite Nat.add_0_r; exact H0.
  - destruct (body s k) as [s1|e] eqn:E; simpl in H; [|discriminate].
    rewrite Nat.add_succ_r, <- Nat.add_succ_l.
    apply (IH (S k) s1); auto.
    + apply (Hstep k s s1); auto; lia.
    + intros i a b Hi; apply Hstep; lia.
Qed.

Lemma for_stages_app {T} (body : rkstate T -> nat -> res (rkstate T)) l1 l2 s :
  for_stages body (l1 ++ l2) s = (let* s1 := for_stages body l1 s in for_stages body l2 s1).
Proof.
  revert s; induction l1 as [|i l1 IH]; intros s; simpl; [reflexivity|].
  destruct (body s i); simpl; auto.
Qed.

Lemma for_stages_rev_inv {T} (body : rkstate T -> nat -> res (rkstate T))
    (P : nat -> rkstate T -> Prop) m s s' :
  P m s ->
  (forall i a b, (i < m)%nat -> P (S i) a -> body a i = Ok b -> P i b) ->
  for_stages body (rev (seq 0 m)) s = Ok s' -> P 0%nat s'.
Proof.
  revert s; induction m as [|m IH]; intros s H0 Hstep H.
  - simpl in H; injection H as <-; exact H0.
  - rewrite seq_S, rev_app_distr in H; simpl in H.
    destruct (body s m) as [s1|e] eqn:E; simpl in H; [|discriminate].
    apply (IH s1); [|intros i a b Hi; apply Hstep; lia|exact H].
    apply (Hstep m s s1); auto.
Qed.

(** ** accumulate_stages / accumulate_step *)
Lemma length_firstn_le {A} k (l : list A) : (k <= length l)%nat -> length (firstn k l) = k.
Proof. intros H; rewrite firstn_length; lia. Qed.

Lemma nth_firstn_lt {A} k (l : list A) i d : (i < k)%nat -> nth i (firstn k l) d = nth i l d.
Proof.
  revert l i; induction k as [|k IH]; intros [|x l] [|i] H; simpl; try lia; auto.
  apply IH; lia.
Qed.

Lemma Forall_firstn {A} (P : A -> Prop) k l : Forall P l -> Forall P (firstn k l).
Proof.
  intros H; apply Forall_forall; intros x Hx; rewrite Forall_forall in H; apply H.
  rewrite <- (firstn_skipn k l); apply in_or_app; left; exact Hx.
Qed.

Lemma accumulate_stages_spec bt n i field :
  tableau_wf bt -> (i < t_stages bt)%nat ->
  length field = t_stages bt -> Forall (fun r => length r = n) field ->
  length (accumulate_stages bt i field) = n /\
  forall m, vnth m (accumulate_stages bt i field)
    = rsum i (fun j => entry (t_A bt) i j * vnth m (nth j field [])).
Proof.
  intros Hbt Hi Hl Hf.
  assert (Hn : length (nth 0 field []) = n).
  { apply (Forall_nth_lt (fun r => length r = n)); auto; lia. }
  unfold accumulate_stages; rewrite Hn.
  destruct i as [|i].
  - split; [apply length_vzeros|]; intros m; apply vnth_vzeros.
  - assert (Hrow : length (nth (S i) (t_A bt) []) = t_stages bt).
    { apply (Forall_nth_lt (fun r => length r = t_stages bt)); [apply Hbt|].
      rewrite (tw_A _ Hbt); exact Hi. }
    destruct (einsum_spec n (firstn (S i) field) (firstn (S i) (nth (S i) (t_A bt) [])))
      as [H1 H2].
    + apply Forall_firstn; exact Hf.
    + rewrite !length_firstn_le by lia; reflexivity.
    + split; [exact H1|]; intros m; rewrite H2, length_firstn_le by lia.
      apply rsum_ext; intros j Hj.
      unfold vnth at 2; rewrite !nth_firstn_lt by exact Hj.
      unfold entry; cbn [n0 RNum]; lra.
Qed.

Lemma accumulate_stages_firstn bt i f1 f2 :
  (i <> 0)%nat -> length (nth 0 f1 []) = length (nth 0 f2 []) ->
  firstn i f1 = firstn i f2 -> accumulate_stages bt i f1 = accumulate_stages bt i f2.
Proof. intros Hi Hl H; unfold accumulate_stages; destruct i; [lia|]; rewrite H, Hl; reflexivity. Qed.

Lemma weighted_step_spec S n w h y field :
  length w = S -> length y = n -> length field = S -> Forall (fun r => length r = n) field ->
  length (vadd y (einsum_ij_i (length y) field (vscale h w))) = n /\
  forall m, vnth m (vadd y (einsum_ij_i (length y) field (vscale h w)))
    = vnth m y + h * rsum S (fun i => vnth i w * vnth m (nth i field [])).
Proof.
  intros Hw Hy Hl Hf.
  destruct (einsum_spec n field (vscale h w)) as [H1 H2]; auto.
  { rewrite length_vscale; congruence. }
  rewrite Hy; split; [apply length_vadd_eq; auto|].
  intros m; rewrite vnth_vadd by congruence; rewrite H2, Hl, <- rsum_scal.
  f_equal; apply rsum_ext; intros i Hi; rewrite vnth_vscale; lra.
Qed.

Lemma accumulate_step_spec bt n h y field :
  tableau_wf bt -> length y = n -> length field = t_stages bt ->
  Forall (fun r => length r = n) field ->
  length (accumulate_step bt y field h) = n /\
  forall m, vnth m (accumulate_step bt y field h)
    = vnth m y + h * rsum (t_stages bt) (fun i => vnth i (t_b bt) * vnth m (nth i field [])).
Proof. intros Hbt; apply weighted_step_spec, (tw_b _ Hbt). Qed.

(** ** One stage of the primal step *)
Lemma compute_stage_inv bt (o : ode R) s h i s' :
  compute_stage bt o s h i = Ok s' ->
  exists r lp,
    compute_update o {| step_input := start_state s;
        stage_input := accumulate_stages bt i (stage_updates s);
        independent_input := independent_inputs s;
        time := nth i (upd i (start_time s + h * vnth i (t_c bt)) (stage_times s)) 0 |}
      h (entry (t_A bt) i i) = Ok (r, lp) /\
    s' = w_linearization_points (upd i lp (linearization_points s))
          (w_stage_independent_outputs (upd i (independent_output r) (stage_independent_outputs s))
          (w_stage_states (upd i (stage_state r) (stage_states s))
          (w_stage_updates (upd i (stage_update r) (stage_updates s))
          (w_stage_times (upd i (start_time s + h * vnth i (t_c bt)) (stage_times s)) s)))).
Proof.
  unfold compute_stage; cbn [start_state stage_updates independent_inputs stage_times
    w_stage_times start_time]; intros H.
  match type of H with context [compute_update ?a ?b ?c ?d] =>
    destruct (compute_update a b c d) as [[r lp]|e] eqn:E end; cbn [bind] in H; [|discriminate].
  exists r, lp; split; [exact E|]; injection H as <-; reflexivity.
Qed.

Lemma accumulate_stages_upd_ge bt n i j v (field : list (list R)) :
  length field = t_stages bt -> Forall (fun r => length r = n) field -> length v = n ->
  (j <= i)%nat -> (i < t_stages bt)%nat ->
  accumulate_stages bt j (upd i v field) = accumulate_stages bt j field.
Proof.
  intros Hl Hf Hv Hji Hi.
  assert (H0 : length (nth 0 (upd i v field) []) = length (nth 0 field [])).
  { rewrite (Forall_nth_lt (fun r => length r = n) field [] 0) by (auto; lia).
    apply (Forall_nth_lt (fun r => length r = n)); [apply Forall_upd; auto|].
    rewrite length_upd; lia. }
  destruct j as [|j].
  - unfold accumulate_stages; rewrite H0; reflexivity.
  - apply accumulate_stages_firstn; [lia|exact H0|apply firstn_upd_ge; lia].
Qed.

Section PrimalStep.
Variables (bt : tableau R) (o : ode R) (n ni no nl : nat).
Let Sg := t_stages bt.
Hypothesis Hbt : tableau_wf bt.
Hypothesis Hn : state_size o = n.
Hypothesis Hno : independent_output_size o = no.
Hypothesis Hnl : linearization_point_size o = nl.
Hypothesis Hsz : result_sizes o.

Lemma compute_stage_shaped s h i s' :
  shaped Sg n ni no nl s -> (i < Sg)%nat -> compute_stage bt o s h i = Ok s' ->
  shaped Sg n ni no nl s'.
Proof.
  intros Hs Hi H; destruct (compute_stage_inv _ _ _ _ _ _ H) as (r & lp & E & ->).
  destruct (Hsz _ _ _ _ _ E) as (H1 & H2 & H3 & H4).
  destruct Hs; constructor; cbn; rewrite ?length_upd; auto; apply Forall_upd; congruence.
Qed.

(** What the stage loop has established when stage [i] is about to start. *)
Record primal_inv (y p : list R) (t h : R) (i : nat) (s : rkstate R) : Prop := {
  pi_shape : shaped Sg n ni no nl s;
  pi_y : start_state s = y;
  pi_p : independent_inputs s = p;
  pi_t : start_time s = t;
  pi_h : step_size s = h;
  pi_times : forall j, (j < i)%nat -> vnth j (stage_times s) = t + h * vnth j (t_c bt);
  pi_stage : forall j, (j < i)%nat ->
    compute_update o {| step_input := y;
        stage_input := accumulate_stages bt j (stage_updates s);
        independent_input := p; time := t + h * vnth j (t_c bt) |}
      h (entry (t_A bt) j j)
    = Ok ({| stage_update := nth j (stage_updates s) [];
             stage_state := nth j (stage_states s) [];
             independent_output := nth j (stage_independent_outputs s) [] |},
          nth j (linearization_points s) [])
}.

Lemma primal_inv_step y p t h i s s' :
  (i < Sg)%nat -> primal_inv y p t h i s -> compute_stage bt o s h i = Ok s' ->
  primal_inv y p t h (S i) s'.
Proof.
  intros Hi Hs H.
  assert (Hsh' := compute_stage_shaped s h i s' (pi_shape _ _ _ _ _ _ Hs) Hi H).
  destruct (compute_stage_inv _ _ _ _ _ _ H) as (r & lp & E & ->).
  destruct (Hsz _ _ _ _ _ E) as (L1 & L2 & L3 & L4).
  destruct Hs as [Hshape Hy Hp Ht Hh Htimes Hstage].
  assert (Hti : nth i (upd i (start_time s + h * vnth i (t_c bt)) (stage_times s)) 0
                = t + h * vnth i (t_c bt)).
  { rewrite nth_upd_same by (rewrite (sh_st _ _ _ _ _ _ Hshape); exact Hi); rewrite Ht; reflexivity. }
  rewrite Hti, Hy, Hp in E.
  constructor; try exact Hsh'; cbn; auto.
  - intros j Hj; destruct (Nat.eq_dec i j) as [<-|Hne].
    + exact Hti.
    + unfold vnth; rewrite nth_upd_other by exact Hne; apply Htimes; lia.
  - intros j Hj.
    rewrite (accumulate_stages_upd_ge bt n) by (try apply Hshape; try lia; rewrite L1; exact Hn).
    destruct (Nat.eq_dec i j) as [<-|Hne].
    + rewrite !nth_upd_same by
        (rewrite ?(sh_su _ _ _ _ _ _ Hshape), ?(sh_ss _ _ _ _ _ _ Hshape),
           ?(sh_lp _ _ _ _ _ _ Hshape), ?(sh_sio _ _ _ _ _ _ Hshape); exact Hi).
      rewrite E; destruct r; reflexivity.
    + rewrite !nth_upd_other by exact Hne; apply Hstage; lia.
Qed.

Lemma primal_loop s h s1 :
  shaped Sg n ni no nl s ->
  for_stages (fun s i => compute_stage bt o s h i) (seq 0 Sg)
    (w_step_size h (shift_state s)) = Ok s1 ->
  primal_inv (final_state s) (independent_inputs s) (final_time s) h Sg s1.
Proof.
  intros Hs H.
  apply (for_stages_inv _ (primal_inv (final_state s) (independent_inputs s) (final_time s) h)
           Sg 0 _ s1) in H; [exact H| |].
  - constructor; cbn; auto; try (intros; lia).
    destruct Hs; constructor; cbn; auto.
  - intros i a b Hi Ha Hb; apply (primal_inv_step _ _ _ _ i a b); auto; lia.
Qed.

(** Decomposition of a successful base step. *)
Lemma compute_step_base_inv s h s' :
  shaped Sg n ni no nl s -> compute_step_base bt o s h = Ok s' ->
  exists s1,
    primal_inv (final_state s) (independent_inputs s) (final_time s) h Sg s1 /\
    (0 < Sg)%nat /\
    s' = w_final_independent_outputs (vzeros no)
          (w_final_state (accumulate_step bt (start_state s1) (stage_updates s1) h)
          (w_final_time (start_time s1 + h) s1)).
Proof.
  intros Hs H; unfold compute_step_base in H; unfold number_of_stages in H.
  destruct (for_stages _ _ _) as [s1|e] eqn:E; cbn [bind] in H; [|discriminate].
  apply primal_loop in E; [|exact Hs].
  exists s1; split; [exact E|].
  pose proof (pi_shape _ _ _ _ _ _ E) as Hsh.
  cbn in H.
  destruct (stage_independent_outputs s1) as [|row rows] eqn:Er; cbn in H; [discriminate|].
  injection H as <-.
  pose proof (sh_sio _ _ _ _ _ _ Hsh) as HS; rewrite Er in HS; simpl in HS.
  pose proof (sh_sior _ _ _ _ _ _ Hsh) as HF; rewrite Er in HF; inversion HF as [|? ? Hrow _]; subst.
  split; [lia|].
  rewrite Hrow; reflexivity.
Qed.

(** The step as a whole, for any tableau: every stage was computed from the
    earlier ones, nothing else of the start data changed. *)
Record step_facts (s : rkstate R) (h : R) (s' : rkstate R) : Prop := {
  sf_inv : primal_inv (final_state s) (independent_inputs s) (final_time s) h Sg s';
  sf_final : final_state s' = accumulate_step bt (final_state s) (stage_updates s') h;
  sf_time : final_time s' = final_time s + h;
  sf_fio : final_independent_outputs s' = vzeros no;
  sf_pos : (0 < Sg)%nat
}.

Lemma compute_step_base_facts s h s' :
  shaped Sg n ni no nl s -> compute_step_base bt o s h = Ok s' -> step_facts s h s'.
Proof.
  intros Hs H; destruct (compute_step_base_inv s h s' Hs H) as (s1 & Hi & Hpos & ->).
  destruct Hi as [Hshape Hy Hp Ht Hh Htimes Hstage].
  constructor; cbn; auto.
  - constructor; cbn; auto.
    destruct Hshape; constructor; cbn; auto.
    + apply accumulate_step_spec; auto.
    + apply length_vzeros.
  - rewrite Hy; reflexivity.
  - rewrite Ht; reflexivity.
Qed.

Lemma compute_step_facts s h s' :
  shaped Sg n ni no nl s -> compute_step bt o s h = Ok s' -> step_facts s h s'.
Proof.
  intros Hs H; unfold compute_step in H.
  destruct (compute_step_base bt o s h) as [s1|e] eqn:E; cbn [bind] in H; [|discriminate].
  pose proof (compute_step_base_facts s h s1 Hs E) as F.
  destruct (t_hat bt) as [[bh ph]|]; injection H as <-; [|exact F].
  destruct F as [[Hshape Hy Hp Ht Hh Htimes Hstage] F2 F3 F4 F5].
  constructor; cbn; auto.
  constructor; cbn; auto.
  destruct Hshape; constructor; cbn; auto.
Qed.

End PrimalStep.

(** ** C01 *)
Lemma Reqb_true x y : Reqb x y = true <-> x = y.
Proof. unfold Reqb; destruct (Req_EM_T x y); split; congruence. Qed.

Lemma is_implicit_false_no_upper bt : is_implicit bt = false -> no_upper bt.
Proof.
  unfold is_implicit, is_diagonally_implicit; intros H i j Hij.
  destruct (is_explicit bt) eqn:E.
  - unfold is_explicit in E; rewrite forallb_forall in E.
    specialize (E i ltac:(apply in_seq; lia)); rewrite forallb_forall in E.
    apply Reqb_true, E, in_seq; lia.
  - cbn [orb] in H.
    match type of H with (if ?b then _ else _) = _ => destruct b eqn:E2; [|discriminate] end.
    rewrite forallb_forall in E2.
    specialize (E2 i ltac:(apply in_seq; lia)); rewrite forallb_forall in E2.
    apply Reqb_true, E2, in_seq; lia.
Qed.

Lemma step_rk_equations bt o n ni no nl f s h s' :
  tableau_wf bt -> state_size o = n -> independent_output_size o = no ->
  linearization_point_size o = nl -> result_sizes o ->
  no_upper bt ->
  solves_stage_equation o n f ->
  shaped (t_stages bt) n ni no nl s ->
  compute_step bt o s h = Ok s' ->
  rk_equations (t_stages bt) n (entry (t_A bt)) (fun i => vnth i (t_b bt))
    (fun i => vnth i (t_c bt)) (fun t y => f t (independent_inputs s) y)
    (final_time s) h (final_state s)
    (fun i => nth i (stage_updates s') []) (final_state s').
Proof.
  intros Hbt Hn Hno Hnl Hsz Hup Hf Hs H.
  pose proof (compute_step_facts bt o n ni no nl Hbt Hn Hno Hnl Hsz s h s' Hs H) as F.
  destruct F as [[Hshape Hy Hp Ht Hh Htimes Hstage] Ffin Ftime _ _].
  pose proof (sh_su _ _ _ _ _ _ Hshape) as Hsu; pose proof (sh_sur _ _ _ _ _ _ Hshape) as Hsur.
  pose proof (sh_final _ _ _ _ _ _ Hs) as Hfs.
  split.
  - intros i Hi; pose proof (Hstage i Hi) as E.
    destruct (accumulate_stages_spec bt n i (stage_updates s') Hbt Hi Hsu Hsur) as [Hacc1 Hacc2].
    epose proof (fun P Q => Hf _ _ _ _ _ P Q E) as G.
    specialize (G Hfs Hacc1); cbn [time independent_input step_input stage_input] in G.
    cbn [stage_update] in G; rewrite G at 1; f_equal; [lra|].
    unfold rk_stage_value; apply vmake_ext; intros m Hm; f_equal; f_equal.
    rewrite Hacc2.
    rewrite (rsum_trunc (t_stages bt) (S i)) by
      (try lia; intros j Hj; rewrite Hup by lia; lra).
    reflexivity.
  - destruct (accumulate_step_spec bt n h (final_state s) (stage_updates s') Hbt Hfs Hsu Hsur)
      as [Hl Hv].
    rewrite Ffin; apply (vec_eq n); [exact Hl|apply length_vmake|].
    intros m Hm; rewrite vnth_vmake by exact Hm; apply Hv.
Qed.
