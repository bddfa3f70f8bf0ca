(** Facts about one Runge-Kutta step (M_Step.v) for every scalar type. *)
From Coq Require Import List Arith Lia Bool.
From Verif Require Import Base M_Tableau M_State M_ODE M_Step SpecRK SpecShape L_Vec L_Step L_Generic.
Import ListNotations.

Section AnyScalar.
Context {T : Type} {N : Num T}.

Lemma accumulate_stages_firstn (bt : tableau T) i f1 f2 :
  (i <> 0)%nat -> length (nth 0 f1 []) = length (nth 0 f2 []) ->
  firstn i f1 = firstn i f2 -> accumulate_stages bt i f1 = accumulate_stages bt i f2.
Proof. intros Hi Hl H; unfold accumulate_stages; destruct i; [lia|]; rewrite H, Hl; reflexivity. Qed.

(** ** One stage of the primal step *)
Lemma compute_stage_inv (bt : tableau T) (o : ode T) s h i s' :
  compute_stage bt o s h i = Ok s' ->
  exists r lp,
    compute_update o {| step_input := start_state s;
        stage_input := accumulate_stages bt i (stage_updates s);
        independent_input := independent_inputs s;
        time := nth i (upd i (nadd (start_time s) (nmul h (nth i (t_c bt) n0))) (stage_times s)) n0 |}
      h (entry (t_A bt) i i) = Ok (r, lp) /\
    s' = w_linearization_points (upd i lp (linearization_points s))
          (w_stage_independent_outputs (upd i (independent_output r) (stage_independent_outputs s))
          (w_stage_states (upd i (stage_state r) (stage_states s))
          (w_stage_updates (upd i (stage_update r) (stage_updates s))
          (w_stage_times (upd i (nadd (start_time s) (nmul h (nth i (t_c bt) n0))) (stage_times s)) s)))).
Proof.
  unfold compute_stage; cbn [start_state stage_updates independent_inputs stage_times
    w_stage_times start_time]; intros H.
  match type of H with context [compute_update ?a ?b ?c ?d] =>
    destruct (compute_update a b c d) as [[r lp]|e] eqn:E end; cbn [bind] in H; [|discriminate].
  exists r, lp; split; [reflexivity|]; injection H as <-; reflexivity.
Qed.

Lemma accumulate_stages_upd_ge (bt : tableau T) n i j v (field : list (list T)) :
  length field = t_stages bt -> Forall (fun r => length r = n) field -> length v = n ->
  (j <= i)%nat -> (i < t_stages bt)%nat ->
  accumulate_stages bt j (upd i v field) = accumulate_stages bt j field.
Proof.
  intros Hl Hf Hv Hji Hi.
  assert (H0 : length (nth 0 (upd i v field) []) = length (nth 0 field [])).
  { rewrite (Forall_nth_lt (fun r => length r = n) field [] 0) by (auto; lia).
    apply (Forall_nth_lt (fun r => length r = n)); [apply Forall_upd; auto|].
    rewrite length_upd; lia. }
  destruct j as [|j].
  - unfold accumulate_stages; rewrite H0; reflexivity.
  - apply accumulate_stages_firstn; [lia|exact H0|apply firstn_upd_ge; lia].
Qed.

Section PrimalStep.
Variables (bt : tableau T) (o : ode T) (n ni no nl : nat).
Let Sg := t_stages bt.
Hypothesis Hbt : tableau_wf bt.
Hypothesis Hn : state_size o = n.
Hypothesis Hno : independent_output_size o = no.
Hypothesis Hnl : linearization_point_size o = nl.
Hypothesis Hsz : result_sizes o.

Lemma compute_stage_shaped s h i s' :
  shaped Sg n ni no nl s -> (i < Sg)%nat -> compute_stage bt o s h i = Ok s' ->
  shaped Sg n ni no nl s'.
Proof.
  intros Hs Hi H; destruct (compute_stage_inv _ _ _ _ _ _ H) as (r & lp & E & ->).
  destruct (Hsz _ _ _ _ _ E) as (H1 & H2 & H3 & H4).
  destruct Hs; constructor; cbn; rewrite ?length_upd; auto; apply Forall_upd; congruence.
Qed.

(** What the stage loop has established when stage [i] is about to start. *)
Record primal_inv (y p : list T) (t h : T) (i : nat) (s : rkstate T) : Prop := {
  pi_shape : shaped Sg n ni no nl s;
  pi_y : start_state s = y;
  pi_p : independent_inputs s = p;
  pi_t : start_time s = t;
  pi_h : step_size s = h;
  pi_times : forall j, (j < i)%nat -> nth j (stage_times s) n0 = nadd t (nmul h (nth j (t_c bt) n0));
  pi_stage : forall j, (j < i)%nat ->
    compute_update o {| step_input := y;
        stage_input := accumulate_stages bt j (stage_updates s);
        independent_input := p; time := nadd t (nmul h (nth j (t_c bt) n0)) |}
      h (entry (t_A bt) j j)
    = Ok ({| stage_update := nth j (stage_updates s) [];
             stage_state := nth j (stage_states s) [];
             independent_output := nth j (stage_independent_outputs s) [] |},
          nth j (linearization_points s) [])
}.

Lemma primal_inv_step y p t h i s s' :
  (i < Sg)%nat -> primal_inv y p t h i s -> compute_stage bt o s h i = Ok s' ->
  primal_inv y p t h (S i) s'.
Proof.
  intros Hi Hs H.
  assert (Hsh' := compute_stage_shaped s h i s' (pi_shape _ _ _ _ _ _ Hs) Hi H).
  destruct (compute_stage_inv _ _ _ _ _ _ H) as (r & lp & E & ->).
  destruct (Hsz _ _ _ _ _ E) as (L1 & L2 & L3 & L4).
  destruct Hs as [Hshape Hy Hp Ht Hh Htimes Hstage].
  assert (Hti : nth i (upd i (nadd (start_time s) (nmul h (nth i (t_c bt) n0))) (stage_times s)) n0
                = nadd t (nmul h (nth i (t_c bt) n0))).
  { rewrite nth_upd_same by (rewrite (sh_st _ _ _ _ _ _ Hshape); exact Hi); rewrite Ht; reflexivity. }
  rewrite Hti, Hy, Hp in E.
  constructor; try exact Hsh'; cbn; auto.
  - intros j Hj; destruct (Nat.eq_dec i j) as [<-|Hne].
    + exact Hti.
    + rewrite nth_upd_other by exact Hne; apply Htimes; lia.
  - intros j Hj.
    rewrite (accumulate_stages_upd_ge bt n) by (try apply Hshape; try lia; rewrite L1; exact Hn).
    destruct (Nat.eq_dec i j) as [<-|Hne].
    + rewrite !nth_upd_same by
        (rewrite ?(sh_su _ _ _ _ _ _ Hshape), ?(sh_ss _ _ _ _ _ _ Hshape),
           ?(sh_lp _ _ _ _ _ _ Hshape), ?(sh_sio _ _ _ _ _ _ Hshape); exact Hi).
      rewrite E; destruct r; reflexivity.
    + rewrite !nth_upd_other by exact Hne; apply Hstage; lia.
Qed.

Lemma primal_loop s h s1 :
  shaped Sg n ni no nl s ->
  for_stages (fun s i => compute_stage bt o s h i) (seq 0 Sg)
    (w_step_size h (shift_state s)) = Ok s1 ->
  primal_inv (final_state s) (independent_inputs s) (final_time s) h Sg s1.
Proof.
  intros Hs H.
  apply (for_stages_inv _ (primal_inv (final_state s) (independent_inputs s) (final_time s) h)
           Sg 0 _ s1) in H; [exact H| |].
  - constructor; cbn; auto; try (intros; lia).
    destruct Hs; constructor; cbn; auto.
  - intros i a b Hi Ha Hb; apply (primal_inv_step _ _ _ _ i a b); auto; lia.
Qed.

(** Decomposition of a successful base step. *)
Lemma compute_step_base_inv s h s' :
  shaped Sg n ni no nl s -> compute_step_base bt o s h = Ok s' ->
  exists s1,
    primal_inv (final_state s) (independent_inputs s) (final_time s) h Sg s1 /\
    (0 < Sg)%nat /\
    s' = w_final_independent_outputs (vzeros no)
          (w_final_state (accumulate_step bt (start_state s1) (stage_updates s1) h)
          (w_final_time (nadd (start_time s1) h) s1)).
Proof.
  intros Hs H; unfold compute_step_base in H; unfold number_of_stages in H.
  destruct (for_stages _ _ _) as [s1|e] eqn:E; cbn [bind] in H; [|discriminate].
  apply primal_loop in E; [|exact Hs].
  exists s1; split; [exact E|].
  pose proof (pi_shape _ _ _ _ _ _ E) as Hsh.
  cbn in H.
  destruct (stage_independent_outputs s1) as [|row rows] eqn:Er; cbn in H; [discriminate|].
  injection H as <-.
  pose proof (sh_sio _ _ _ _ _ _ Hsh) as HS; rewrite Er in HS; simpl in HS.
  pose proof (sh_sior _ _ _ _ _ _ Hsh) as HF; rewrite Er in HF; inversion HF as [|? ? Hrow _]; subst.
  split; [lia|].
  rewrite Hrow; reflexivity.
Qed.

(** The step as a whole, for any tableau: every stage was computed from the
    earlier ones, nothing else of the start data changed. *)
Record step_facts (s : rkstate T) (h : T) (s' : rkstate T) : Prop := {
  sf_inv : primal_inv (final_state s) (independent_inputs s) (final_time s) h Sg s';
  sf_final : final_state s' = accumulate_step bt (final_state s) (stage_updates s') h;
  sf_time : final_time s' = nadd (final_time s) h;
  sf_fio : final_independent_outputs s' = vzeros no;
  sf_pos : (0 < Sg)%nat
}.

Lemma compute_step_base_facts s h s' :
  shaped Sg n ni no nl s -> compute_step_base bt o s h = Ok s' -> step_facts s h s'.
Proof.
  intros Hs H; destruct (compute_step_base_inv s h s' Hs H) as (s1 & Hi & Hpos & ->).
  destruct Hi as [Hshape Hy Hp Ht Hh Htimes Hstage].
  pose proof (sh_start _ _ _ _ _ _ Hshape) as La; pose proof (sh_sur _ _ _ _ _ _ Hshape) as Lb.
  constructor; cbn; auto.
  - constructor; cbn; auto.
    destruct Hshape; constructor; cbn; auto.
    + unfold accumulate_step; rewrite La; apply glen_vadd; [exact La|apply glen_einsum, Lb].
    + apply glen_vzeros.
  - rewrite Hy; reflexivity.
  - rewrite Ht; reflexivity.
Qed.

Lemma compute_step_facts s h s' :
  shaped Sg n ni no nl s -> compute_step bt o s h = Ok s' -> step_facts s h s'.
Proof.
  intros Hs H; unfold compute_step in H.
  destruct (compute_step_base bt o s h) as [s1|e] eqn:E; cbn [bind] in H; [|discriminate].
  pose proof (compute_step_base_facts s h s1 Hs E) as F.
  destruct (t_hat bt) as [[bh ph]|]; injection H as <-; [|exact F].
  destruct F as [[Hshape Hy Hp Ht Hh Htimes Hstage] F2 F3 F4 F5].
  constructor; cbn; auto.
  constructor; cbn; auto.
  destruct Hshape; constructor; cbn; auto.
Qed.

End PrimalStep.

End AnyScalar.
