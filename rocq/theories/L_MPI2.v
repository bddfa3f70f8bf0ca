(** Lemmas: the processes stay in step. *)
From Coq Require Import String.
From Coq Require Import List Bool Arith Lia.
From Verif Require Import Base M_Tableau M_State M_ODE M_Step M_Controller M_Measure M_Integrator M_Metadata M_MPI
  SpecMetadata SpecMPI L_Metadata L_Metadata2 L_Metadata3 L_MPI.
Import ListNotations.
Local Open Scope nat_scope.
Local Open Scope list_scope.

Section Pair.
Context {T : Type} {N : Num T}.
Variable ord : order T.
Variable excl : list string.
Variables m1 m2 : metadata.
Hypothesis Mt : matching m1 m2.

Let sl (q : quantity ti_translation) (x : list T) := slice (start_index (q_array q)) (end_index (q_array q)) x.

Definition agree (x1 x2 : list T) : Prop :=
  forall j q1 q2, nth_error (time_integration_quantities m1) j = Some q1 ->
    nth_error (time_integration_quantities m2) j = Some q2 ->
    mem (q_name q1) excl = false -> distributed (q_array q1) = false -> sl q1 x1 = sl q2 x2.

Lemma matching_nth j q1 q2 : nth_error (time_integration_quantities m1) j = Some q1 ->
  nth_error (time_integration_quantities m2) j = Some q2 -> alike m1 m2 q1 q2.
Proof.
  unfold matching in Mt; revert j; induction Mt as [|a b l l' P F IH]; intros [|j]; cbn; try discriminate; eauto.
  intros [= <-] [= <-]; exact P.
Qed.

Lemma shared_agree x1 x2 : shared excl m1 x1 = shared excl m2 x2 <-> agree x1 x2.
Proof.
  unfold shared, agree, sl.
  assert (H : Forall2 (alike m1 m2) (time_integration_quantities m1) (time_integration_quantities m2)) by exact Mt.
  induction H as [|a b l l' P F IH]; cbn.
  - split; [intros _ [|j] ? ?; discriminate|reflexivity].
  - rewrite <- (lk_name _ _ _ _ P), <- (lk_dist _ _ _ _ P).
    destruct (mem (q_name a) excl) eqn:Em; cbn; [|destruct (distributed (q_array a)) eqn:Ed; cbn].
    + rewrite IH; split; intros H.
      * intros [|j] q1 q2; cbn; [intros [= <-] [= <-]; congruence|apply H].
      * intros j; exact (H (S j)).
    + rewrite IH; split; intros H.
      * intros [|j] q1 q2; cbn; [intros [= <-] [= <-]; congruence|apply H].
      * intros j; exact (H (S j)).
    + split; intros H.
      * injection H as H1 H2; intros [|j] q1 q2; cbn; [intros [= <-] [= <-] _ _; exact H1|].
        apply IH, H2.
      * f_equal; [exact (H 0 a b eq_refl eq_refl Em Ed)|apply IH; intros j; exact (H (S j))].
Qed.

Lemma agree_vadd x1 x2 y1 y2 : agree x1 x2 -> agree y1 y2 -> agree (vadd x1 y1) (vadd x2 y2).
Proof. intros A B j q1 q2 H1 H2 E D; unfold sl, vadd; rewrite !slice_map2; f_equal; [apply (A j)|apply (B j)]; assumption. Qed.
Lemma agree_vsub x1 x2 y1 y2 : agree x1 x2 -> agree y1 y2 -> agree (vsub x1 y1) (vsub x2 y2).
Proof. intros A B j q1 q2 H1 H2 E D; unfold sl, vsub; rewrite !slice_map2; f_equal; [apply (A j)|apply (B j)]; assumption. Qed.

Definition rows_ok (m : metadata) (f : list (list T)) : Prop := Forall (fun r => length r = time_integration_array_size m) f.

Lemma agree_einsum f1 f2 w : rows_ok m1 f1 -> rows_ok m2 f2 -> Forall2 agree f1 f2 ->
  agree (einsum_ij_i (time_integration_array_size m1) f1 w) (einsum_ij_i (time_integration_array_size m2) f2 w).
Proof.
  intros R1 R2 F j q1 q2 H1 H2 E D; unfold sl; pose proof (matching_nth j q1 q2 H1 H2) as A.
  rewrite !slice_einsum by (try exact (lk_le1 _ _ _ _ A); try exact (lk_le2 _ _ _ _ A); assumption).
  rewrite (lk_width _ _ _ _ A D); f_equal.
  clear R1 R2; induction F as [|a b f1 f2 P F IH]; cbn; [reflexivity|f_equal; [|exact IH]].
  exact (P j q1 q2 H1 H2 E D).
Qed.

(** *** Intermediate values of the norm *)
Definition nonempty_portions (m : metadata) : Prop :=
  Forall (fun q => mem (q_name q) excl = false -> start_index (q_array q) < end_index (q_array q)) (time_integration_quantities m).
Definition ok_order (m : metadata) : Prop := (exists p, ord = Ord p) \/ nonempty_portions m.

Lemma np_norm_ok x : (exists p, ord = Ord p) \/ x <> [] -> exists n, np_norm ord x = Ok n.
Proof.
  intros [(p & ->)|H]; cbn.
  - repeat match goal with |- context[if ?b then _ else _] => destruct b end; eauto.
  - destruct ord; cbn; [..|repeat match goal with |- context[if ?b then _ else _] => destruct b end; eauto];
      destruct x; cbn; try congruence; eauto.
Qed.

Lemma partial_ok m q x : In q (time_integration_quantities m) -> ok_order m -> mem (q_name q) excl = false ->
  length x = time_integration_array_size m -> end_index (q_array q) <= time_integration_array_size m ->
  exists n, partial_norm_intermediate ord x (q_array q) = Ok n.
Proof.
  intros I O E L B; unfold partial_norm_intermediate.
  destruct (np_norm_ok (slice (start_index (q_array q)) (end_index (q_array q)) x)) as (n & ->); [|cbn; eauto].
  destruct O as [O|O]; [left; exact O|right]; unfold nonempty_portions in O; rewrite Forall_forall in O; specialize (O q I E).
  intros Z; apply (f_equal (@length _)) in Z; unfold slice in Z; rewrite firstn_length, skipn_length in Z; cbn in Z; lia.
Qed.

Lemma own_alike x1 x2 : length x1 = time_integration_array_size m1 -> length x2 = time_integration_array_size m2 ->
  ok_order m1 -> ok_order m2 -> agree x1 x2 ->
  exists d1 d2 n, own_intermediates ord excl m1 x1 = Ok (d1, n) /\ own_intermediates ord excl m2 x2 = Ok (d2, n).
Proof.
  intros L1 L2 O1 O2 A; unfold own_intermediates.
  assert (G : forall l1 l2, Forall2 (alike m1 m2) l1 l2 ->
    (forall q, In q l1 -> In q (time_integration_quantities m1)) -> (forall q, In q l2 -> In q (time_integration_quantities m2)) ->
    (forall j q1 q2, nth_error l1 j = Some q1 -> nth_error l2 j = Some q2 ->
       mem (q_name q1) excl = false -> distributed (q_array q1) = false -> sl q1 x1 = sl q2 x2) ->
    forall d1 d2 n, exists d1' d2' n',
    scan (fun (dn : T * T) q =>
      if mem (q_name q) excl then Ok dn
      else let* x := partial_norm_intermediate ord x1 (q_array q) in
        if distributed (q_array q) then Ok (add_to_intermediate ord (fst dn) x, snd dn)
        else Ok (fst dn, add_to_intermediate ord (snd dn) x)) (d1, n) l1 = Ok (d1', n') /\
    scan (fun (dn : T * T) q =>
      if mem (q_name q) excl then Ok dn
      else let* x := partial_norm_intermediate ord x2 (q_array q) in
        if distributed (q_array q) then Ok (add_to_intermediate ord (fst dn) x, snd dn)
        else Ok (fst dn, add_to_intermediate ord (snd dn) x)) (d2, n) l2 = Ok (d2', n')).
  { intros l1 l2 F; induction F as [|q1 q2 l1 l2 P F IH]; intros I1 I2 Ag d1 d2 n; cbn [scan]; [eauto 8|].
    assert (IH' := IH (fun q h => I1 q (or_intror h)) (fun q h => I2 q (or_intror h)) (fun j => Ag (S j))); clear IH.
    rewrite <- (lk_name _ _ _ _ P), <- (lk_dist _ _ _ _ P).
    destruct (mem (q_name q1) excl) eqn:Em; [apply IH'|].
    destruct (partial_ok m1 q1 x1) as (n1' & E1); auto; [apply I1; left; reflexivity|exact (proj2 (lk_le1 _ _ _ _ P))|].
    destruct (partial_ok m2 q2 x2) as (n2' & E2); auto; [apply I2; left; reflexivity|rewrite <- (lk_name _ _ _ _ P); exact Em|exact (proj2 (lk_le2 _ _ _ _ P))|].
    rewrite E1, E2; cbn [bind fst snd].
    destruct (distributed (q_array q1)) eqn:Ed; [apply IH'|].
    assert (n1' = n2') as ->; [|apply IH'].
    unfold partial_norm_intermediate in E1, E2; unfold sl in Ag; rewrite (Ag 0 q1 q2 eq_refl eq_refl Em Ed) in E1; congruence. }
  apply G; auto; intros q I; exact I.
Qed.

(** *** Aligned programs *)
Definition good_answers (x y : ode_out T * list T) : Prop :=
  length (stage_update (fst x)) = time_integration_array_size m1 /\
  length (stage_update (fst y)) = time_integration_array_size m2 /\
  agree (stage_update (fst x)) (stage_update (fst y)).

Inductive aligned {A} (Q : A -> A -> Prop) : prog T A -> prog T A -> Prop :=
| al_done a b : Q a b -> aligned Q (Done _ a) (Done _ b)
| al_solve i j h a k l : time i = time j ->
    (forall x y, good_answers x y -> aligned Q (k (Ok x)) (l (Ok y))) ->
    (forall e, aligned Q (k (Err e)) (l (Err e))) ->
    aligned Q (Solve _ i h a k) (Solve _ j h a l)
| al_reduce x y k l : (forall g, aligned Q (k g) (l g)) -> aligned Q (Reduce _ x k) (Reduce _ y l)
| al_jvp lp1 lp2 i j h a k l : (forall x y, aligned Q (k (Ok x)) (l (Ok y))) -> (forall e, aligned Q (k (Err e)) (l (Err e))) ->
    aligned Q (Jvp _ lp1 i h a k) (Jvp _ lp2 j h a l)
| al_vjp lp1 lp2 i j h a k l : (forall x y, aligned Q (k (Ok x)) (l (Ok y))) -> (forall e, aligned Q (k (Err e)) (l (Err e))) ->
    aligned Q (Vjp _ lp1 i h a k) (Vjp _ lp2 j h a l)
| al_hook m b s k l : aligned Q k l -> aligned Q (Hook _ m b s k) (Hook _ m b s l)
| al_decide h b k l : aligned Q k l -> aligned Q (Decide _ h b k) (Decide _ h b l).

Lemma aligned_bind {A B} (Q : A -> A -> Prop) (Q' : B -> B -> Prop) p1 p2 f1 f2 :
  aligned Q p1 p2 -> (forall a b, Q a b -> aligned Q' (f1 a) (f2 b)) -> aligned Q' (pbind p1 f1) (pbind p2 f2).
Proof. induction 1; intros F; cbn; [auto|constructor; auto..]. Qed.

(** Results that are the same exception, or related values. *)
Definition rel {A} (Q : A -> A -> Prop) (r1 r2 : res A) : Prop :=
  match r1, r2 with Ok a, Ok b => Q a b | Err e, Err e' => e = e' | _, _ => False end.

Lemma aligned_try {A B} (Q : A -> A -> Prop) (Q' : res B -> res B -> Prop) p1 p2 f1 f2 :
  aligned (rel Q) p1 p2 -> (forall a b, Q a b -> aligned Q' (f1 a) (f2 b)) -> (forall e, Q' (Err e) (Err e)) ->
  aligned Q' (ptry p1 f1) (ptry p2 f2).
Proof.
  intros P F E; eapply aligned_bind; [exact P|].
  intros [a|e] [b|e']; cbn; try contradiction; [apply F|intros <-; constructor; apply E].
Qed.

Section Run.
Context {C : Type}.
Variable op : options T C.
Hypothesis O1 : ok_order m1.
Hypothesis O2 : ok_order m2.

Lemma aligned_norm x1 x2 : length x1 = time_integration_array_size m1 -> length x2 = time_integration_array_size m2 ->
  agree x1 x2 -> aligned (rel eq) (p_norm ord excl m1 x1) (p_norm ord excl m2 x2).
Proof.
  intros L1 L2 A; unfold p_norm; destruct (own_alike x1 x2) as (d1 & d2 & n & -> & ->); auto.
  constructor; intros g; constructor; reflexivity.
Qed.

Lemma aligned_measure e1 e2 x1 x2 : length x1 = time_integration_array_size m1 -> length x2 = time_integration_array_size m2 ->
  length e1 = time_integration_array_size m1 -> length e2 = time_integration_array_size m2 ->
  agree e1 e2 -> agree x1 x2 ->
  aligned (rel eq) (p_measure op ord excl m1 e1 x1) (p_measure op ord excl m2 e2 x2).
Proof.
  intros; unfold p_measure; destruct (o_meas op); [apply aligned_norm; assumption|].
  eapply aligned_try; [apply aligned_norm; assumption| |reflexivity].
  intros a b <-; eapply aligned_try; [apply aligned_norm; assumption| |reflexivity].
  intros a' b' <-; constructor; reflexivity.
Qed.

Let S := number_of_stages (o_bt op).

(** States within a step: [i] stages have been computed. *)
Record midstep (i : nat) (s1 s2 : rkstate T) : Prop := {
  md_start1 : length (start_state s1) = time_integration_array_size m1;
  md_start2 : length (start_state s2) = time_integration_array_size m2;
  md_start : agree (start_state s1) (start_state s2);
  md_time : start_time s1 = start_time s2;
  md_u1 : length (stage_updates s1) = S;
  md_u2 : length (stage_updates s2) = S;
  md_r1 : rows_ok m1 (stage_updates s1);
  md_r2 : rows_ok m2 (stage_updates s2);
  md_u : Forall2 agree (firstn i (stage_updates s1)) (firstn i (stage_updates s2));
  md_t1 : length (stage_times s1) = S;
  md_t2 : length (stage_times s2) = S;
  md_o1 : length (stage_independent_outputs s1) = S;
  md_o2 : length (stage_independent_outputs s2) = S
}.

Lemma firstn_upd {A} (v : A) : forall i l, i < length l -> firstn (Datatypes.S i) (upd i v l) = firstn i l ++ [v].
Proof. induction i as [|i IH]; intros [|a l] H; cbn in *; try lia; [reflexivity|]; f_equal; apply IH; lia. Qed.

Lemma nth_upd (v d : T) : forall i l, i < length l -> nth i (upd i v l) d = v.
Proof. induction i as [|i IH]; intros [|a l] H; cbn in *; try lia; [reflexivity|]; apply IH; lia. Qed.

Lemma aligned_stage h i s1 s2 : i < S -> midstep i s1 s2 ->
  aligned (rel (midstep (Datatypes.S i))) (p_compute_stage op s1 h i) (p_compute_stage op s2 h i).
Proof.
  intros Hi [A1 A2 A3 A4 A5 A6 A7 A8 A9 A10 A11 A12 A13]; unfold p_compute_stage; cbv zeta.
  constructor.
  - cbn; rewrite !nth_upd by lia; rewrite A4; reflexivity.
  - intros [r1 p1] [r2 p2] (G1 & G2 & G3); cbn [fst] in *; constructor; cbn [bind rel].
    constructor; cbn; auto; try (rewrite upd_length; assumption); try (apply Forall_upd; assumption).
    change (match upd i (stage_update r1) (stage_updates s1) with [] => [] | a :: l => a :: firstn i l end)
      with (firstn (Datatypes.S i) (upd i (stage_update r1) (stage_updates s1))).
    change (match upd i (stage_update r2) (stage_updates s2) with [] => [] | a :: l => a :: firstn i l end)
      with (firstn (Datatypes.S i) (upd i (stage_update r2) (stage_updates s2))).
    rewrite !firstn_upd by lia; apply Forall2_app; [exact A9|]; constructor; [exact G3|constructor].
  - intros e; constructor; cbn; reflexivity.
Qed.

Lemma aligned_stages h k : forall i s1 s2, i + k = S -> midstep i s1 s2 ->
  aligned (rel (midstep S)) (p_for_stages (fun s i => p_compute_stage op s h i) (seq i k) s1)
                            (p_for_stages (fun s i => p_compute_stage op s h i) (seq i k) s2).
Proof.
  induction k as [|k IH]; intros i s1 s2 E Md; cbn [seq p_for_stages].
  - constructor; cbn; replace S with i by lia; exact Md.
  - eapply aligned_try; [apply aligned_stage; [lia|exact Md]| |intros e; reflexivity].
    intros a b Md'; apply IH; [lia|exact Md'].
Qed.

(** States between steps. *)
Record between (s1 s2 : rkstate T) : Prop := {
  bt_z1 : sized (o_bt op) m1 s1;
  bt_z2 : sized (o_bt op) m2 s2;
  bt_time : final_time s1 = final_time s2;
  bt_final : agree (final_state s1) (final_state s2)
}.
(** After a step. *)
Record stepped (s1 s2 : rkstate T) : Prop := {
  sp_between : between s1 s2;
  sp_emb : t_hat (o_bt op) <> None -> exists a1 a2 e1 e2,
     embedded s1 = Some (a1, e1) /\ embedded s2 = Some (a2, e2) /\
     length e1 = time_integration_array_size m1 /\ length e2 = time_integration_array_size m2 /\ agree e1 e2
}.

Lemma vadd_length (x y : list T) n : length x = n -> length y = n -> length (vadd x y) = n.
Proof. intros; unfold vadd; rewrite map2_length; lia. Qed.

Lemma aligned_compute_step h s1 s2 : between s1 s2 ->
  aligned (rel stepped) (p_compute_step op s1 h) (p_compute_step op s2 h).
Proof.
  intros [Z1 Z2 Et Ef]; unfold p_compute_step; cbv zeta.
  eapply aligned_try with (Q := fun a b => midstep S a b /\ (t_hat (o_bt op) = None -> embedded a = None /\ embedded b = None));
    [| |intros e; reflexivity].
  - (* the embedded arrays are not touched by the stages *)
    assert (K : midstep 0 (w_step_size h (shift_state s1)) (w_step_size h (shift_state s2)) /\
      (t_hat (o_bt op) = None -> embedded (w_step_size h (shift_state s1)) = None /\ embedded (w_step_size h (shift_state s2)) = None)).
    { destruct Z1, Z2; split; [|intros H; cbn; auto]; constructor; cbn; auto; constructor. }
    revert K; generalize (w_step_size h (shift_state s1)), (w_step_size h (shift_state s2)); clear s1 s2 Z1 Z2 Et Ef.
    assert (G : forall k i s1 s2, i + k = S ->
      midstep i s1 s2 /\ (t_hat (o_bt op) = None -> embedded s1 = None /\ embedded s2 = None) ->
      aligned (rel (fun a b => midstep S a b /\ (t_hat (o_bt op) = None -> embedded a = None /\ embedded b = None)))
       (p_for_stages (fun s i => p_compute_stage op s h i) (seq i k) s1)
       (p_for_stages (fun s i => p_compute_stage op s h i) (seq i k) s2)).
    { induction k as [|k IH]; intros i s1 s2 E Md; cbn [seq p_for_stages].
      - constructor; cbn; replace S with i by lia; exact Md.
      - eapply aligned_try with (Q := fun a b => midstep (Datatypes.S i) a b /\ (t_hat (o_bt op) = None -> embedded a = None /\ embedded b = None));
          [|intros a b; apply IH; lia|intros e; reflexivity].
        destruct Md as [Md Em]; pose proof (aligned_stage h i s1 s2 ltac:(lia) Md) as Al.
        unfold p_compute_stage in *; cbv zeta in *; inversion Al; subst; constructor; auto.
        + intros [r1 p1] [r2 p2] G; match goal with HH : forall x y, good_answers x y -> _ |- _ => specialize (HH _ _ G) end.
          match goal with HH : aligned _ _ _ |- _ => inversion HH as [? ? X| | | | | |] end; subst; constructor; cbn in *; split; [exact X|exact Em].
        + intros e; constructor; reflexivity. }
    intros a b; apply G; reflexivity.
  - intros a b [[A1 A2 A3 A4 A5 A6 A7 A8 A9 A10 A11 A12 A13] Em]; constructor.
    assert (Hu : Forall2 agree (stage_updates a) (stage_updates b)).
    { rewrite !firstn_all2 in A9 by lia; exact A9. }
    assert (La : forall w, length (vadd (start_state a) (einsum_ij_i (length (start_state a)) (stage_updates a) w)) = time_integration_array_size m1).
    { intros w; apply vadd_length; [exact A1|rewrite A1; apply einsum_len; exact A7]. }
    assert (Lb : forall w, length (vadd (start_state b) (einsum_ij_i (length (start_state b)) (stage_updates b) w)) = time_integration_array_size m2).
    { intros w; apply vadd_length; [exact A2|rewrite A2; apply einsum_len; exact A8]. }
    assert (Ag : forall w, agree (vadd (start_state a) (einsum_ij_i (length (start_state a)) (stage_updates a) w))
                                 (vadd (start_state b) (einsum_ij_i (length (start_state b)) (stage_updates b) w))).
    { intros w; apply agree_vadd; [exact A3|rewrite A1, A2; apply agree_einsum; assumption]. }
    cbn [stage_independent_outputs w_final_state w_final_time].
    assert (Hf : (exists o1 o2, compute_final_independent_outputs (stage_independent_outputs a) = Ok o1 /\
                               compute_final_independent_outputs (stage_independent_outputs b) = Ok o2) \/
                 (compute_final_independent_outputs (stage_independent_outputs a) = Err IndexError /\
                  compute_final_independent_outputs (stage_independent_outputs b) = Err IndexError)).
    { destruct (stage_independent_outputs a), (stage_independent_outputs b); cbn in A12, A13; try lia; cbn; eauto. }
    destruct Hf as [(o1 & o2 & -> & ->)|[-> ->]]; [|reflexivity]; cbn [bind].
    destruct (t_hat (o_bt op)) as [[bh ?]|] eqn:Eh; cbn [rel].
    + constructor; [|intros _].
      * constructor; [constructor|constructor| |]; cbn; auto;
          [apply La|congruence|apply Lb|congruence|rewrite A4; reflexivity|apply Ag].
      * unfold compute_error_estimate, accumulate_embedded_step, accumulate_step;
          cbn [embedded w_embedded final_state w_final_independent_outputs w_final_state start_state stage_updates w_final_time].
        do 4 eexists; split; [reflexivity|]; split; [reflexivity|].
        split; [unfold vsub; rewrite map2_length, !La; lia|].
        split; [unfold vsub; rewrite map2_length, !Lb; lia|].
        apply agree_vsub; apply Ag.
    + destruct (Em eq_refl) as [E1 E2]; constructor; [|congruence].
      constructor; [constructor|constructor| |]; cbn; auto; [apply La|apply Lb|rewrite A4; reflexivity|apply Ag].
Qed.

(** Integration states with the same decisions ahead. *)
Record twins (a b : tistate T) : Prop := {
  tw_between : between (disc a) (disc b);
  tw_h : suggestion a = suggestion b;
  tw_sh : step_hist a = step_hist b;
  tw_eh : err_hist a = err_hist b
}.
Definition same_result (x y : C * tistate T * res unit) : Prop :=
  fst (fst x) = fst (fst y) /\ twins (snd (fst x)) (snd (fst y)) /\ snd x = snd y.

Lemma between_set s1 s2 t1 t2 : between s1 s2 -> between t1 t2 -> between (rk_set s1 t1) (rk_set s2 t2).
Proof.
  intros [Z1 Z2 _ _] [[] [] Et Ef]; constructor; [constructor|constructor| |]; cbn; auto; [apply Z1|apply Z2].
Qed.

Lemma aligned_state_measure s1 s2 : stepped s1 s2 ->
  aligned (rel eq) (p_state_measure op ord excl m1 s1) (p_state_measure op ord excl m2 s2).
Proof.
  intros [[Z1 Z2 Et Ef] Em]; unfold p_state_measure.
  destruct (t_hat (o_bt op)) as [bh|] eqn:Eh.
  - destruct Em as (a1 & a2 & e1 & e2 & -> & -> & L1 & L2 & Ag); [discriminate|].
    apply aligned_measure; auto; [apply Z1|apply Z2].
  - rewrite (sz_embedded _ _ _ Z1 Eh), (sz_embedded _ _ _ Z2 Eh); constructor; reflexivity.
Qed.

Lemma aligned_iterate fuel : forall c a b, twins a b ->
  aligned same_result (p_iterate op ord excl m1 fuel c a) (p_iterate op ord excl m2 fuel c b).
Proof.
  induction fuel as [|fuel IH]; intros c a b Tw; cbn [p_iterate].
  - constructor; repeat split; auto; apply Tw.
  - pose proof Tw as [Bt Eh Es Ee]; rewrite <- Eh, <- Es, <- Ee.
    eapply aligned_bind; [apply aligned_compute_step; exact Bt|].
    intros [t1|e1] [t2|e2]; cbn [rel]; try contradiction; [|intros <-; constructor; split; [reflexivity|split; [exact Tw|reflexivity]]].
    intros Sp; pose proof (sp_between _ _ Sp) as Sb.
    assert (Bs := between_set _ _ _ _ Bt Sb).
    destruct (o_adaptive op).
    + eapply aligned_bind; [apply aligned_state_measure; exact Sp|].
      intros [m|e1] [m'|e2]; cbn [rel]; try contradiction; intros <-; [|constructor; split; [reflexivity|split; [exact Tw|reflexivity]]].
      rewrite <- (bt_time _ _ Sb).
      destruct (o_ctl op c _) as [c' [stat|e]]; [|constructor; split; [reflexivity|split; [exact Tw|reflexivity]]].
      constructor; destruct (acceptance stat).
      * constructor; split; [reflexivity|]; split; [constructor; cbn; auto|reflexivity].
      * apply IH; constructor; cbn; auto.
    + constructor; split; [reflexivity|]; split; [constructor; cbn; auto|reflexivity].
Qed.

Lemma finished_same i a b : twins a b -> is_iteration_finished (o_crit op) i a = is_iteration_finished (o_crit op) i b.
Proof. intros [[_ _ E _] _ _ _]; unfold is_iteration_finished; rewrite E; reflexivity. Qed.

Lemma aligned_forward fuel : forall i c a b, twins a b ->
  aligned same_result (p_forward op ord excl m1 fuel i c a) (p_forward op ord excl m2 fuel i c b).
Proof.
  induction fuel as [|fuel IH]; intros i c a b Tw; cbn [p_forward].
  - constructor; split; [reflexivity|split; [exact Tw|reflexivity]].
  - rewrite <- (finished_same i a b Tw); destruct (is_iteration_finished (o_crit op) i a).
    + constructor; split; [reflexivity|split; [exact Tw|reflexivity]].
    + constructor; eapply aligned_bind; [apply aligned_iterate; exact Tw|].
      intros [[c1 s1] r1] [[c2 s2] r2] (E1 & Tw' & E2); cbn [fst snd] in *; subst c2 r2.
      destruct r1 as [[]|e].
      * constructor; apply IH; exact Tw'.
      * constructor; split; [reflexivity|split; [exact Tw'|reflexivity]].
Qed.
End Run.
End Pair.
