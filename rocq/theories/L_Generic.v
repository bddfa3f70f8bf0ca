(** Facts about single steps that hold for every scalar type: shapes, time,
    and independence of a step from leftovers in the state object. *)
From Coq Require Import List Lia.
From Verif Require Import Base M_Tableau M_State M_ODE M_Step SpecRK SpecShape SpecDeriv L_Vec L_Step L_Deriv.
Import ListNotations.

Section Generic.
Context {T : Type} {N : Num T}.

Lemma glen_vzeros n : length (vzeros (T := T) n) = n.
Proof. apply repeat_length. Qed.

Lemma glen_vadd (x y : list T) n : length x = n -> length y = n -> length (vadd x y) = n.
Proof. unfold vadd; intros H1 H2; rewrite length_map2; lia. Qed.

Lemma glen_vsub (x y : list T) n : length x = n -> length y = n -> length (vsub x y) = n.
Proof. unfold vsub; intros H1 H2; rewrite length_map2; lia. Qed.

Lemma glen_vscale c (x : list T) : length (vscale c x) = length x.
Proof. apply map_length. Qed.

Lemma glen_einsum n (field : list (list T)) (w : list T) :
  Forall (fun r => length r = n) field -> length (einsum_ij_i n field w) = n.
Proof.
  unfold einsum_ij_i; intros H.
  assert (G : forall acc, length acc = n ->
    length (fold_left (fun acc rw => vadd acc (map (fun x => nmul x (snd rw)) (fst rw)))
              (combine field w) acc) = n).
  { revert w; induction H as [|r field Hr _ IH]; intros w acc Hacc; [exact Hacc|].
    destruct w as [|x w]; [exact Hacc|]; simpl; apply IH.
    apply glen_vadd; [exact Hacc|]; rewrite map_length; exact Hr. }
  apply G, glen_vzeros.
Qed.

Variables (bt : tableau T) (o : ode T).
Notation Sg := (t_stages bt).
Notation shape := (shaped Sg (state_size o) (independent_input_size o)
                          (independent_output_size o) (linearization_point_size o)).

Lemma create_shaped : shape (create_empty_discretization_state bt o).
Proof.
  unfold create_empty_discretization_state, rk_init, number_of_stages; constructor; cbn;
    rewrite ?repeat_length; auto using glen_vzeros; try (apply Forall_repeat, glen_vzeros).
Qed.

(** *** Forward step *)
Lemma compute_stage_shape s h i s' : result_sizes o ->
  shape s -> compute_stage bt o s h i = Ok s' -> shape s'.
Proof.
  intros Hr Hs H; unfold compute_stage in H.
  match type of H with context [compute_update o ?i ?h ?a] =>
    destruct (compute_update o i h a) as [[r lp]|e] eqn:E end; cbn [bind] in H; [|discriminate].
  destruct (Hr _ _ _ _ _ E) as (R1 & R2 & R3 & R4).
  injection H as <-; destruct Hs; constructor; cbn; rewrite ?length_upd; auto using Forall_upd.
Qed.

Lemma for_stages_pres (P : rkstate T -> Prop) body l s s' :
  (forall a b i, P a -> body a i = Ok b -> P b) ->
  P s -> for_stages body l s = Ok s' -> P s'.
Proof.
  intros Hb; revert s; induction l as [|i l IH]; intros s Hs H; simpl in H.
  - injection H as <-; exact Hs.
  - destruct (body s i) as [s1|e] eqn:E; cbn [bind] in H; [|discriminate].
    exact (IH s1 (Hb _ _ _ Hs E) H).
Qed.

Lemma glen_accumulate_step y field h :
  length y = state_size o -> Forall (fun r => length r = state_size o) field ->
  length (accumulate_step bt y field h) = state_size o.
Proof.
  intros Hy Hf; unfold accumulate_step.
  apply glen_vadd; [exact Hy|]; rewrite Hy; apply glen_einsum; exact Hf.
Qed.

(** Fields a step fixes, whatever the scalar type. *)
Record step_frame (s : rkstate T) (h : T) (s' : rkstate T) : Prop := {
  fr_shape : shape s';
  fr_start_state : start_state s' = final_state s;
  fr_start_time : start_time s' = final_time s;
  fr_ind : independent_inputs s' = independent_inputs s;
  fr_step : step_size s' = h;
  fr_time : final_time s' = nadd (final_time s) h;
  fr_times : forall i, (i < Sg)%nat ->
    nth i (stage_times s') n0 = nadd (final_time s) (nmul h (nth i (t_c bt) n0))
}.

Lemma compute_stage_frame s h i s' :
  compute_stage bt o s h i = Ok s' ->
  start_state s' = start_state s /\ start_time s' = start_time s /\
  independent_inputs s' = independent_inputs s /\ step_size s' = step_size s /\
  embedded s' = embedded s /\
  stage_times s' = upd i (nadd (start_time s) (nmul h (nth i (t_c bt) n0))) (stage_times s).
Proof.
  unfold compute_stage; intros H.
  match type of H with context [compute_update o ?i ?h ?a] =>
    destruct (compute_update o i h a) as [[r lp]|e] eqn:E end; cbn [bind] in H; [|discriminate].
  injection H as <-; cbn; auto 10.
Qed.

Lemma loop_frame h : forall l s s',
  for_stages (fun s i => compute_stage bt o s h i) l s = Ok s' ->
  start_state s' = start_state s /\ start_time s' = start_time s /\
  independent_inputs s' = independent_inputs s /\ step_size s' = step_size s /\
  embedded s' = embedded s /\
  (forall j, In j l -> (j < length (stage_times s))%nat ->
     nth j (stage_times s') n0 = nadd (start_time s) (nmul h (nth j (t_c bt) n0))) /\
  (forall j, ~ In j l -> nth j (stage_times s') n0 = nth j (stage_times s) n0).
Proof.
  induction l as [|i l IH]; intros s s' H; simpl in H.
  - injection H as <-; repeat split; auto; intros j [].
  - destruct (compute_stage bt o s h i) as [s1|e] eqn:E; cbn [bind] in H; [|discriminate].
    destruct (compute_stage_frame _ _ _ _ E) as (A1 & A2 & A3 & A4 & A5 & A6).
    destruct (IH _ _ H) as (B1 & B2 & B3 & B4 & B5 & B6 & B7).
    split; [congruence|]; split; [congruence|]; split; [congruence|]; split; [congruence|].
    split; [congruence|]; split.
    + intros j Hj Hl; destruct (in_dec PeanoNat.Nat.eq_dec j l) as [Hin|Hout].
      * rewrite (B6 j Hin) by (rewrite A6, length_upd; exact Hl); rewrite A2; reflexivity.
      * destruct Hj as [->|Hj]; [|contradiction].
        rewrite (B7 j Hout), A6; apply nth_upd_same; exact Hl.
    + intros j Hj; rewrite B7 by (intros Hc; apply Hj; right; exact Hc).
      rewrite A6; apply nth_upd_other; intros ->; apply Hj; left; reflexivity.
Qed.

Lemma compute_step_base_frame s h s' : result_sizes o -> shape s ->
  compute_step_base bt o s h = Ok s' -> step_frame s h s' /\ embedded s' = embedded s.
Proof.
  intros Hr Hs H; unfold compute_step_base, number_of_stages in H.
  destruct (for_stages _ _ _) as [s1|e] eqn:E; cbn [bind] in H; [|discriminate].
  assert (H1 : shape s1).
  { apply (for_stages_pres (fun s => shape s) _ _ _ _ (fun a b i => compute_stage_shape a h i b Hr)
             ) in E; [exact E|].
    destruct Hs; constructor; cbn; auto. }
  destruct (loop_frame _ _ _ _ E) as (B1 & B2 & B3 & B4 & B5 & B6 & _).
  cbn in B1, B2, B3, B4, B5, B6.
  destruct (stage_independent_outputs s1) as [|row rows] eqn:Ei; cbn in H; rewrite Ei in H;
    cbn in H; [discriminate|].
  injection H as <-.
  split; [|exact B5].
  constructor; cbn; auto.
  - pose proof (sh_sior _ _ _ _ _ _ H1) as Hrow; rewrite Ei in Hrow; inversion Hrow; subst.
    destruct H1; constructor; cbn; auto.
    + apply glen_accumulate_step; auto.
    + rewrite glen_vzeros; assumption.
  - rewrite B2; reflexivity.
  - intros i Hi; apply B6; [apply in_seq; lia|].
    rewrite (sh_st _ _ _ _ _ _ Hs); exact Hi.
Qed.

Lemma compute_step_frame s h s' : result_sizes o -> shape s ->
  compute_step bt o s h = Ok s' -> step_frame s h s'.
Proof.
  intros Hr Hs H; unfold compute_step in H.
  destruct (compute_step_base bt o s h) as [s1|e] eqn:E; cbn [bind] in H; [|discriminate].
  destruct (compute_step_base_frame _ _ _ Hr Hs E) as [F _].
  destruct (t_hat bt) as [[bh ph]|]; injection H as <-; [|exact F].
  destruct F as [Hsh F1 F2 F3 F4 F5 F6]; constructor; cbn; auto.
  destruct Hsh; constructor; cbn; auto.
Qed.

(** *** A step does not depend on leftovers *)
Record same_start (a b : rkstate T) : Prop := {
  ss_time : final_time a = final_time b;
  ss_state : final_state a = final_state b;
  ss_ind : independent_inputs a = independent_inputs b
}.

Definition rows_agree {A} (k : nat) (x y : list A) : Prop :=
  length x = length y /\ firstn k x = firstn k y.

Lemma rows_agree_upd {A} k i (v : A) x y :
  rows_agree i x y -> k = S i -> rows_agree k (upd i v x) (upd i v y).
Proof.
  intros [Hl Hf] ->; split; [rewrite !length_upd; exact Hl|].
  revert y i Hl Hf; induction x as [|a x IH]; intros [|b y] i Hl Hf; try discriminate; [reflexivity|].
  destruct i as [|i]; [reflexivity|].
  simpl in Hl, Hf; injection Hf as -> Hf; injection Hl as Hl.
  change (firstn (S (S i)) (upd (S i) v (b :: x)) = firstn (S (S i)) (upd (S i) v (b :: y))).
  simpl upd; rewrite !firstn_cons; f_equal; apply IH; auto.
Qed.

Record stage_agree (n k : nat) (a b : rkstate T) : Prop := {
  sa_ss : start_state a = start_state b;
  sa_t : start_time a = start_time b;
  sa_p : independent_inputs a = independent_inputs b;
  sa_h : step_size a = step_size b;
  sa_e : embedded a = embedded b;
  sa_st : rows_agree k (stage_times a) (stage_times b);
  sa_su : rows_agree k (stage_updates a) (stage_updates b);
  sa_row : length (nth 0 (stage_updates a) []) = length (nth 0 (stage_updates b) []);
  sa_sg : rows_agree k (stage_states a) (stage_states b);
  sa_io : rows_agree k (stage_independent_outputs a) (stage_independent_outputs b);
  sa_lp : rows_agree k (linearization_points a) (linearization_points b);
  sa_len : length (stage_times a) = n
}.

Lemma nth0_upd i (v : list T) x y :
  length x = length y ->
  length (nth 0 x []) = length (nth 0 y []) ->
  length (nth 0 (upd i v x) []) = length (nth 0 (upd i v y) []).
Proof. destruct x, y, i; simpl; intros; try discriminate; auto. Qed.

Lemma accumulate_agree i (x y : list (list T)) :
  rows_agree i x y -> length (nth 0 x []) = length (nth 0 y []) ->
  accumulate_stages bt i x = accumulate_stages bt i y.
Proof.
  intros [_ Hf] Hr; unfold accumulate_stages; rewrite Hr; destruct i; [reflexivity|].
  rewrite Hf; reflexivity.
Qed.

Lemma stage_step_agree n h i a b : (i < n)%nat -> stage_agree n i a b ->
  match compute_stage bt o a h i, compute_stage bt o b h i with
  | Ok a', Ok b' => stage_agree n (S i) a' b'
  | Err e, Err e' => e = e'
  | _, _ => False
  end.
Proof.
  intros Hi A; unfold compute_stage; cbn [stage_times start_state stage_updates independent_inputs
    w_stage_times start_time].
  rewrite (sa_t _ _ _ _ A).
  rewrite !nth_upd_same by
    (first [rewrite (sa_len _ _ _ _ A); exact Hi
           |rewrite <- (proj1 (sa_st _ _ _ _ A)), (sa_len _ _ _ _ A); exact Hi]).
  rewrite (sa_ss _ _ _ _ A), (sa_p _ _ _ _ A),
    (accumulate_agree i _ _ (sa_su _ _ _ _ A) (sa_row _ _ _ _ A)).
  destruct (compute_update _ _ _ _) as [[r lp]|e]; cbn [bind]; [|reflexivity].
  destruct A as [A1 A2 A3 A4 A5 A6 A7 A8 A9 A10 A11 A12].
  constructor; cbn; auto; try (apply rows_agree_upd; auto; fail).
  - apply nth0_upd; [apply A7|exact A8].
  - rewrite length_upd; exact A12.
Qed.

Lemma stages_agree n h : forall k j a b, (j + k <= n)%nat -> stage_agree n j a b ->
  match for_stages (fun s i => compute_stage bt o s h i) (seq j k) a,
        for_stages (fun s i => compute_stage bt o s h i) (seq j k) b with
  | Ok a', Ok b' => stage_agree n (j + k) a' b'
  | Err e, Err e' => e = e'
  | _, _ => False
  end.
Proof.
  induction k as [|k IH]; intros j a b Hj A; simpl.
  - rewrite PeanoNat.Nat.add_0_r; exact A.
  - pose proof (stage_step_agree n h j a b ltac:(lia) A) as Hst.
    destruct (compute_stage bt o a h j) as [a1|e]; destruct (compute_stage bt o b h j) as [b1|e'];
      cbn [bind]; try contradiction; [|exact Hst].
    specialize (IH (S j) a1 b1 ltac:(lia) Hst).
    replace (j + S k) with (S j + k) by lia; exact IH.
Qed.

Lemma rows_agree_all {A} k (x y : list A) : length x = k -> rows_agree k x y -> x = y.
Proof.
  intros Hx [Hl Hf]; rewrite <- (firstn_all x), <- (firstn_all y), <- Hl, Hx; exact Hf.
Qed.

Lemma compute_step_independent a b h :
  shape a -> shape b -> same_start a b -> embedded a = embedded b ->
  compute_step bt o a h = compute_step bt o b h.
Proof.
  intros Ha Hb [S1 S2 S3] He.
  assert (A : stage_agree Sg 0 (w_step_size h (shift_state a)) (w_step_size h (shift_state b))).
  { destruct Ha, Hb; constructor; cbn; auto; try (split; [congruence|reflexivity]).
    destruct (stage_updates a) as [|ra la], (stage_updates b) as [|rb lb]; simpl in *; try congruence.
    inversion sh_sur; inversion sh_sur0; congruence. }
  pose proof (stages_agree Sg h Sg 0 _ _ ltac:(lia) A) as L.
  assert (E : compute_step_base bt o a h = compute_step_base bt o b h).
  { unfold compute_step_base, number_of_stages.
    destruct (for_stages _ _ (w_step_size h (shift_state a))) as [a1|e] eqn:Ea;
      destruct (for_stages _ _ (w_step_size h (shift_state b))) as [b1|e'] eqn:Eb;
      cbn [bind]; try contradiction; [|congruence].
    assert (Hlen : forall s s1, shape s ->
      for_stages (fun s i => compute_stage bt o s h i) (seq 0 Sg) (w_step_size h (shift_state s)) = Ok s1 ->
      length (stage_times s1) = Sg /\ length (stage_updates s1) = Sg /\ length (stage_states s1) = Sg /\
      length (stage_independent_outputs s1) = Sg /\ length (linearization_points s1) = Sg /\
      final_independent_outputs s1 = final_independent_outputs s /\
      final_state s1 = final_state s /\ final_time s1 = final_time s).
    { intros s s1 Hs E; revert E.
      apply (for_stages_pres (fun x => length (stage_times x) = Sg /\ length (stage_updates x) = Sg /\
        length (stage_states x) = Sg /\
        length (stage_independent_outputs x) = Sg /\ length (linearization_points x) = Sg /\
        final_independent_outputs x = final_independent_outputs s /\
        final_state x = final_state s /\ final_time x = final_time s)).
      - intros x y i (X1 & X2 & X3 & X4 & X5 & X6 & X7 & X8) E; unfold compute_stage in E.
        match type of E with context [compute_update o ?i ?h ?a] =>
          destruct (compute_update o i h a) as [[r lp]|e] end; cbn [bind] in E; [|discriminate].
        injection E as <-; cbn; rewrite !length_upd; auto 10.
      - cbn; destruct Hs; auto 10. }
    destruct (Hlen a a1 Ha Ea) as (L1 & L2 & L3 & L4 & L5 & L6 & L7 & L8).
    destruct (Hlen b b1 Hb Eb) as (_ & _ & _ & _ & _ & L6' & L7' & L8').
    cbn [Nat.add] in L; destruct L as [K1 K2 K3 K4 K5 K6 K7 _ K8 K9 K10 _].
    apply rows_agree_all in K6, K7, K8, K9, K10; try assumption.
    clear - K1 K2 K3 K4 K5 K6 K7 K8 K9 K10.
    destruct a1, b1; cbn in *; subst.
    unfold w_final_state, w_final_time, w_final_independent_outputs; cbn.
    destruct (compute_final_independent_outputs _); reflexivity. }
  unfold compute_step; rewrite E; reflexivity.
Qed.

(** *** Forward and reverse derivative steps keep shapes *)
Lemma compute_step_derivative_shape s v h v' : derivative_sizes o -> shape s -> shape v ->
  compute_step_derivative bt o s v h = Ok v' ->
  shape v' /\ independent_inputs v' = independent_inputs v.
Proof.
  intros Hd Hs Hv H; unfold compute_step_derivative, number_of_stages in H.
  destruct (for_stages _ _ _) as [v1|e] eqn:E; cbn [bind] in H; [|discriminate].
  apply (for_stages_pres (fun x => shape x /\ independent_inputs x = independent_inputs v)) in E.
  - destruct E as [H1 H2].
    destruct (stage_independent_outputs s) as [|row rows] eqn:Ei; cbn in H; [discriminate|].
    injection H as <-; split; [|exact H2].
    pose proof (sh_sior _ _ _ _ _ _ Hs) as Hrow; rewrite Ei in Hrow; inversion Hrow; subst.
    destruct H1; constructor; cbn; auto.
    + apply glen_accumulate_step; auto.
    + rewrite glen_vzeros; assumption.
  - intros a b i [Ha1 Ha2] Hb; unfold compute_stage_derivative in Hb.
    match type of Hb with context [compute_update_derivative o ?l ?i ?h ?a] =>
      destruct (compute_update_derivative o l i h a) as [r|e] eqn:Er end; cbn [bind] in Hb; [|discriminate].
    destruct (Hd _ _ _ _ _ Er) as (R1 & R2 & R3).
    injection Hb as <-; split; [|exact Ha2].
    destruct Ha1; constructor; cbn; rewrite ?length_upd; auto using Forall_upd.
  - split; [|reflexivity]; destruct Hv; constructor; cbn; auto.
Qed.

Lemma add_to_updates_shape stage x ups n k :
  length x = n -> length ups = k -> Forall (fun r => length r = n) ups ->
  length (add_to_updates bt stage x ups) = k /\
  Forall (fun r => length r = n) (add_to_updates bt stage x ups).
Proof.
  intros Hx; unfold add_to_updates; generalize (seq 0 stage); intros l; revert ups.
  induction l as [|i l IH]; intros ups H1 H2; simpl; [auto|].
  apply IH; [rewrite length_upd; exact H1|].
  destruct (PeanoNat.Nat.lt_ge_cases i (length ups)) as [Hi|Hi].
  - apply Forall_upd; [|exact H2].
    apply glen_vadd; [|rewrite glen_vscale; exact Hx].
    exact (Forall_nth_lt (fun r => length r = n) ups [] i H2 Hi).
  - rewrite upd_oob by exact Hi; exact H2.
Qed.

Lemma compute_step_adjoint_shape s w h w' : adjoint_sizes o -> shape s -> shape w ->
  compute_step_adjoint_derivative bt o s w h = Ok w' -> shape w'.
Proof.
  intros Hd Hs Hw H; unfold compute_step_adjoint_derivative, number_of_stages in H.
  destruct (for_stages _ _ _) as [w1|e] eqn:E; cbn [bind] in H; [|discriminate].
  injection H as <-.
  assert (H1 : shape w1).
  { revert E; apply (for_stages_pres (fun x => shape x)).
    - intros a b i Ha Hb; unfold compute_stage_adjoint_derivative in Hb.
      match type of Hb with context [compute_update_adjoint_derivative o ?l ?i ?h ?a] =>
        destruct (compute_update_adjoint_derivative o l i h a) as [r|e] eqn:Er end;
        cbn [bind] in Hb; [|discriminate].
      destruct (Hd _ _ _ _ _ Er) as (R1 & R2 & R3).
      injection Hb as <-.
      destruct (add_to_updates_shape i (stage_input r) (stage_updates a) (state_size o) Sg R2
                  (sh_su _ _ _ _ _ _ Ha) (sh_sur _ _ _ _ _ _ Ha)) as [U1 U2].
      destruct Ha; constructor; cbn; rewrite ?length_upd; auto using glen_vadd.
    - assert (K : forall l ups, length ups = Sg -> Forall (fun r => length r = state_size o) ups ->
        let z := fold_left (fun ups i => upd i (vscale (nmul h (nth i (t_b bt) n0)) (final_state w)) ups) l ups
        in length z = Sg /\ Forall (fun r => length r = state_size o) z).
      { induction l as [|i l IH]; intros ups U1 U2; simpl; [auto|].
        apply IH; [rewrite length_upd; exact U1|].
        apply Forall_upd; [|exact U2]; rewrite glen_vscale; apply Hw. }
      destruct (K (seq 0 Sg) (stage_updates w) (sh_su _ _ _ _ _ _ Hw) (sh_sur _ _ _ _ _ _ Hw)) as [K1 K2].
      destruct Hs, Hw; constructor; cbn; rewrite ?map_length, ?glen_vzeros; auto.
      clear - sh_sior; induction sh_sior; simpl; constructor; auto.
      rewrite glen_vzeros; assumption. }
  destruct H1; constructor; cbn; auto.
Qed.

(** The adjoint step looks only at three fields of the weights when the ODE
    ignores stage-state weights. *)
Record agree_io (a b : rkstate T) : Prop := {
  ai_ss : start_state a = start_state b;
  ai_t : start_time a = start_time b;
  ai_p : independent_inputs a = independent_inputs b;
  ai_st : stage_times a = stage_times b;
  ai_su : stage_updates a = stage_updates b;
  ai_io : stage_independent_outputs a = stage_independent_outputs b
}.

Hypothesis Hign : ignores_stage_state_weights o.

Lemma adjoint_stage_io lin h i a b :
  agree_io a b ->
  match compute_stage_adjoint_derivative bt o lin a h i,
        compute_stage_adjoint_derivative bt o lin b h i with
  | Ok a', Ok b' => agree_io a' b'
  | Err e, Err e' => e = e'
  | _, _ => False
  end.
Proof.
  intros H; unfold compute_stage_adjoint_derivative.
  rewrite (Hign (nth i lin []) _
    {| stage_update := nth i (stage_updates b) []; stage_state := nth i (stage_states b) [];
       independent_output := nth i (stage_independent_outputs b) [] |})
    by (cbn; first [rewrite (ai_su _ _ H); reflexivity | rewrite (ai_io _ _ H); reflexivity]).
  destruct (compute_update_adjoint_derivative _ _ _ _ _) as [x|e]; cbn [bind]; [|reflexivity].
  destruct H; constructor; cbn; congruence.
Qed.

Lemma adjoint_loop_io lin h l a b :
  agree_io a b ->
  match for_stages (fun p i => compute_stage_adjoint_derivative bt o lin p h i) l a,
        for_stages (fun p i => compute_stage_adjoint_derivative bt o lin p h i) l b with
  | Ok a', Ok b' => agree_io a' b'
  | Err e, Err e' => e = e'
  | _, _ => False
  end.
Proof.
  revert a b; induction l as [|i l IH]; intros a b H; simpl; [exact H|].
  pose proof (adjoint_stage_io lin h i a b H) as Hs.
  destruct (compute_stage_adjoint_derivative bt o lin a h i) as [a1|e];
    destruct (compute_stage_adjoint_derivative bt o lin b h i) as [b1|e'];
    cbn [bind]; try contradiction; [apply IH; exact Hs | exact Hs].
Qed.

(** The result also depends on the primal state only through its
    linearization points and the shapes of two fields. *)
Lemma adjoint_io s1 s2 w1 w2 h :
  linearization_points s1 = linearization_points s2 ->
  length (stage_times s1) = length (stage_times s2) ->
  map (fun r : list T => vzeros (length r)) (stage_independent_outputs s1)
  = map (fun r : list T => vzeros (length r)) (stage_independent_outputs s2) ->
  same_start w1 w2 ->
  length (stage_updates w1) = t_stages bt -> length (stage_updates w2) = t_stages bt ->
  match compute_step_adjoint_derivative bt o s1 w1 h, compute_step_adjoint_derivative bt o s2 w2 h with
  | Ok a, Ok b => same_start a b
  | Err e, Err e' => e = e'
  | _, _ => False
  end.
Proof.
  intros El Et Eo [W1 W2 W3] L1 L2; unfold compute_step_adjoint_derivative, number_of_stages.
  rewrite El.
  match goal with |- match bind (for_stages ?f ?l ?a) _ with _ => _ end =>
    set (A := a) end.
  match goal with |- context [bind (for_stages ?f ?l (w_start_time ?x ?y)) _] =>
    set (B := w_start_time x y) end.
  assert (HAB : agree_io A B).
  { constructor; subst A B; cbn; try congruence.
    rewrite W2; apply fold_upd_overwrite; auto. }
  pose proof (adjoint_loop_io (linearization_points s2) h (rev (seq 0 (t_stages bt))) A B HAB) as HL.
  destruct (for_stages _ _ A) as [a|e]; destruct (for_stages _ _ B) as [b|e']; cbn [bind] in *; auto.
  constructor; cbn; destruct HL; auto.
Qed.

(** The forward derivative step likewise. *)
End Generic.
