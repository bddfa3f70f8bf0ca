(** Exceptions raised by callbacks. *)
From Coq Require Import List Lia.
From Verif Require Import Base M_Tableau M_State M_ODE M_Step M_Controller M_Measure M_Integrator SpecRun SpecCallback.
Import ListNotations.

Section Generic.
Context {T : Type} {N : Num T} {C : Type}.
Variable op : options T C.
Definition reported {A} (l : list (event T)) (r : res A) : Prop := all_answered op l \/ stopped_by op l r.
(** A method that reports exceptions of callbacks. *)
Definition honest {A} (m : method T C A) : Prop := forall w w' r, m w = (w', r) ->
  exists l, log w' = log w ++ l /\ reported l r.

Lemma reported_nil {A} (r : res A) : reported [] r.
Proof. left. constructor. Qed.
Lemma honest_ret {A} (a : A) : honest (mret a).
Proof. intros w w' r H. injection H as <- <-. exists []. rewrite app_nil_r. split; [reflexivity|apply reported_nil]. Qed.
Lemma honest_raise {A} e : honest (mraise e : method T C A).
Proof. intros w w' r H. injection H as <- <-. exists []. rewrite app_nil_r. split; [reflexivity|apply reported_nil]. Qed.
Lemma honest_modify f : (forall w, log (f w) = log w) -> honest (modify f).
Proof. intros F w w' r H. injection H as <- <-. exists []. rewrite app_nil_r. split; [apply F|apply reported_nil]. Qed.
Lemma honest_lift {A} (x : res A) : honest (mlift x).
Proof. intros w w' r H. injection H as <- <-. exists []. rewrite app_nil_r. split; [reflexivity|apply reported_nil]. Qed.
Lemma honest_reading {A} (f : component T C -> method T C A) : (forall w, honest (f w)) -> honest (reading f).
Proof. intros F w w' r H. exact (F w w w' r H). Qed.
Lemma honest_bind {A B} (m : method T C A) (k : A -> method T C B) : honest m -> (forall a, honest (k a)) -> honest (mbind m k).
Proof.
  intros M K w w' r H. unfold mbind in H. destruct (m w) as (w1 & [a|e]) eqn:E.
  - destruct (M _ _ _ E) as (l1 & L1 & R1). destruct (K a _ _ _ H) as (l2 & L2 & R2).
    exists (l1 ++ l2). split; [rewrite L2, L1, app_assoc; reflexivity|].
    destruct R1 as [R1|(? & ? & e & _ & _ & _ & D)]; [|discriminate D].
    destruct R2 as [R2|(l' & ev & e & -> & R2 & R3 & R4)]; [left; apply Forall_app; auto|].
    right. exists (l1 ++ l'), ev, e. rewrite app_assoc. split; [reflexivity|]. split; [apply Forall_app; auto|auto].
  - injection H as <- <-. destruct (M _ _ _ E) as (l & L & [R|(l' & ev & e' & -> & R1 & R2 & R3)]); [exists l; split; [exact L|left; exact R]|].
    injection R3 as ->. exists (l' ++ [ev]). split; [exact L|right; exists l', ev, e'; auto].
Qed.
Lemma honest_hooks (ev : nat -> event T) hook l : forall i,
  (forall j cb, nth_error l j = Some cb -> answers_with op (ev (i + j)) (hook cb)) -> honest (call_hooks ev hook i l).
Proof.
  induction l as [|cb l IH]; intros i H; cbn [call_hooks]; [apply honest_ret|].
  intros w w' r E. unfold mbind, modify, mlift in E. pose proof (H 0 cb eq_refl) as H0. rewrite PeanoNat.Nat.add_0_r in H0.
  destruct (hook cb) as [[]|e] eqn:Hc.
  - assert (X : honest (call_hooks ev hook (S i) l)).
    { apply IH. intros j cb' Hj. specialize (H (S j) cb' Hj). replace (S i + j) with (i + S j) by lia. exact H. }
    destruct (X _ _ _ E) as (l1 & L1 & R1).
    cbn [log w_log] in L1. exists (ev i :: l1). split; [rewrite L1, <- app_assoc; reflexivity|].
    destruct R1 as [R1|(l' & ev' & e & -> & R1 & R2 & R3)]; [left; constructor; auto|].
    right. exists (ev i :: l'), ev', e. split; [reflexivity|]. split; [constructor; auto|auto].
  - injection E as <- <-. exists [ev i]. split; [reflexivity|]. right. exists [], (ev i), e. repeat split; auto.
Qed.
Lemma honest_before m n st : honest (before_hooks op m n st).
Proof. apply honest_hooks. intros j cb H. cbn. eauto. Qed.
Lemma honest_after m n st : honest (after_hooks op m n st).
Proof. apply honest_hooks. intros j cb H. cbn. eauto. Qed.
Lemma honest_step_live : honest (step_live op).
Proof.
  intros w w' r H. unfold step_live in H. destruct (iterate_on_step _ _ _ _) as ((c' & st') & r0). injection H as <- <-.
  exists []. rewrite app_nil_r. split; [reflexivity|apply reported_nil].
Qed.
Ltac honestly := repeat lazymatch goal with
  | |- honest (mbind _ _) => apply honest_bind; [|intros]
  | |- honest (reading _) => apply honest_reading; intros
  | |- honest (mret _) => apply honest_ret
  | |- honest (mraise _) => apply honest_raise
  | |- honest (modify _) => apply honest_modify; reflexivity
  | |- honest (mlift _) => apply honest_lift
  | |- honest (before_hooks _ _ _ _) => apply honest_before
  | |- honest (after_hooks _ _ _ _) => apply honest_after
  | |- honest (step_live _) => apply honest_step_live
  end.
Lemma honest_run_step n : honest (run_step op n).
Proof. unfold run_step. honestly. Qed.
Lemma honest_rev_step n st : honest (run_step_jacvec_rev op n st).
Proof. unfold run_step_jacvec_rev. honestly. Qed.
Lemma honest_fwd_step n : honest (run_step_jacvec_fwd op n).
Proof. unfold run_step_jacvec_fwd, step_derivative_live. honestly. Qed.
Lemma honest_forward_loop keep : forall fuel it, honest (forward_loop op keep fuel it).
Proof.
  induction fuel as [|fuel IH]; intros it; cbn [forward_loop]; [apply honest_raise|].
  apply honest_reading. intros w. destruct (is_iteration_finished _ _ _); [apply honest_ret|].
  apply honest_bind; [apply honest_run_step|intros _]. apply honest_bind; [destruct keep; honestly|intros _; apply IH].
Qed.
Lemma honest_reverse_all l : honest (reverse_all op l).
Proof.
  induction l as [|st l IH]; cbn [reverse_all]; [apply honest_ret|].
  apply honest_bind; [honestly|intros _]. apply honest_bind; [apply honest_rev_step|intros _; exact IH].
Qed.
Lemma honest_forward_operator n : forall lo, honest (forward_operator op n lo).
Proof. induction n; intros lo; cbn [forward_operator]; [apply honest_ret|]. apply honest_bind; [apply honest_run_step|auto]. Qed.
Lemma honest_reverse_operator n lo : honest (reverse_operator op n lo).
Proof.
  induction n; cbn [reverse_operator]; [apply honest_ret|]. apply honest_bind; [|auto]. apply honest_reading. intros w. apply honest_rev_step.
Qed.
Lemma honest_actions l : honest (run_actions op l).
Proof.
  induction l as [|a l IH]; cbn [run_actions]; [apply honest_ret|]. apply honest_bind; [|auto].
  destruct a; cbn [run_action]; [apply honest_forward_operator|honestly| |apply honest_reverse_operator].
  apply honest_reading. intros w. destruct (find _ _) as [(k & snap)|]; honestly.
Qed.
Lemma honest_compute i : honest (compute op i).
Proof.
  unfold compute, compute_preparation_phase, create_checkpointer, iterate_forward.
  apply honest_bind; [honestly|intros _]. apply honest_bind; [destruct (o_ckpt op); honestly|intros _]. apply honest_bind; [|intros _; honestly].
  destruct (o_ckpt op); [apply honest_forward_loop..|].
  apply honest_bind; [apply honest_forward_operator|intros _]. apply honest_bind; [honestly|intros _; apply honest_actions].
Qed.
Lemma honest_fwd i d : honest (compute_jacvec_product_fwd op i d).
Proof.
  unfold compute_jacvec_product_fwd, jacvec_fwd_preparation_phase. apply honest_bind; [honestly|intros _]. apply honest_bind; [|intros _; honestly].
  generalize 0. induction (loop_limit op) as [|fuel IH]; intros it; cbn [jacvec_fwd_run_steps]; [apply honest_raise|].
  apply honest_reading. intros w. destruct (is_iteration_finished _ _ _); [apply honest_ret|]. apply honest_bind; [apply honest_fwd_step|intros _; apply IH].
Qed.
Lemma honest_rev i d : honest (compute_jacvec_product_rev op i d).
Proof.
  unfold compute_jacvec_product_rev, jacvec_rev_preparation_phase. apply honest_bind.
  { apply honest_bind; [|intros _; honestly]. apply honest_reading. intros w. destruct (cache_hit _ _); [apply honest_ret|].
    apply honest_bind; [apply honest_compute|intros _; apply honest_ret]. }
  intros _. apply honest_bind; [|intros _; honestly]. unfold iterate_reverse. destruct (o_ckpt op); [apply honest_raise| |].
  - apply honest_reading. intros w. apply honest_reverse_all.
  - apply honest_bind; [apply honest_actions|intros _]. apply honest_bind; [honestly|intros _; apply honest_reverse_operator].
Qed.

Lemma reported_map {A B} (f : A -> B) l (r : res A) : reported l r -> reported l (match r with Ok x => Ok (f x) | Err e => Err e end).
Proof. intros [R|(l' & ev & e & -> & R1 & R2 & ->)]; [left; exact R|right; exists l', ev, e; auto]. Qed.
Lemma c90_reported k w : exists l, log (run_call op k w) = log w ++ l /\ (all_answered op l \/ stopped_by op l (outcome op k w)).
Proof.
  destruct k as [i|i d|i d]; cbn [run_call outcome].
  - destruct (compute op i w) as (w' & r) eqn:E. apply honest_compute in E as (l & E1 & E2). exists l. split; [exact E1|apply reported_map, E2].
  - destruct (compute_jacvec_product_fwd op i d w) as (w' & r) eqn:E. apply honest_fwd in E as (l & E1 & E2). exists l. split; [exact E1|apply reported_map, E2].
  - destruct (compute_jacvec_product_rev op i d w) as (w' & r) eqn:E. apply honest_rev in E as (l & E1 & E2). exists l. split; [exact E1|apply reported_map, E2].
Qed.

(** Without callbacks: the same unless a callback raises. *)
Notation op0 := (without_callbacks op).
Definition raised {A} (w w' : component T C) (r : res A) : Prop :=
  exists l ev e, log w' = log w ++ l ++ [ev] /\ answers_with op ev (Err e) /\ r = Err e.
Definition sim {A} (m0 m : method T C A) : Prop := forall w0 w, same_but_log w0 w ->
  raised w (fst (m w)) (snd (m w)) \/
  (same_but_log (fst (m0 w0)) (fst (m w)) /\ snd (m0 w0) = snd (m w) /\ exists l, log (fst (m w)) = log w ++ l).
Lemma grows_refl (w : component T C) : exists l, log w = log w ++ l.
Proof. exists []. rewrite app_nil_r. reflexivity. Qed.
Lemma sbl_eq (w0 w : component T C) : same_but_log w0 w -> live w0 = live w /\ pert w0 = pert w /\ ctl w0 = ctl w /\ cached w0 = cached w /\ storage w0 = storage w /\
  slots w0 = slots w /\ first_complete w0 = first_complete w.
Proof. unfold same_but_log. destruct w, w0. cbn. intros H. injection H. intros. subst. auto 10. Qed.
Lemma sim_ret {A} (a : A) : sim (mret a) (mret a).
Proof. intros w0 w H. right. split; [exact H|]. split; [reflexivity|apply grows_refl]. Qed.
Lemma sim_raise {A} e : sim (mraise e : method T C A) (mraise e).
Proof. intros w0 w H. right. split; [exact H|]. split; [reflexivity|apply grows_refl]. Qed.
Lemma sim_lift {A} (x : res A) : sim (mlift x) (mlift x).
Proof. intros w0 w H. right. split; [exact H|]. split; [reflexivity|apply grows_refl]. Qed.
Lemma sim_modify f : (forall w0 w, same_but_log w0 w -> same_but_log (f w0) (f w)) -> (forall w, log (f w) = log w) -> sim (modify f) (modify f).
Proof.
  intros F G w0 w H. right. split; [apply F, H|]. split; [reflexivity|]. cbn [modify fst]. rewrite G. apply grows_refl.
Qed.
Lemma sim_bind {A B} (m0 m : method T C A) (k0 k : A -> method T C B) : sim m0 m -> (forall a, sim (k0 a) (k a)) -> sim (mbind m0 k0) (mbind m k).
Proof.
  intros M K w0 w H. unfold mbind. specialize (M _ _ H). destruct (m0 w0) as (w0' & r0), (m w) as (w' & r). cbn [fst snd] in M.
  destruct M as [(l & ev & e & M1 & M2 & ->)|(M1 & -> & l1 & M2)].
  - left. exists l, ev, e. auto.
  - destruct r as [a|e]; [|right; eauto]. destruct (K a _ _ M1) as [(l & ev & e & K1 & K2 & K3)|(K1 & K2 & l2 & K3)].
    + left. exists (l1 ++ l), ev, e. rewrite K1, M2, !app_assoc. auto.
    + right. split; [exact K1|]. split; [exact K2|]. exists (l1 ++ l2). rewrite K3, M2, app_assoc. reflexivity.
Qed.
Lemma sim_reading {A} (f0 f : component T C -> method T C A) :
  (forall w0 w, same_but_log w0 w -> sim (f0 w0) (f w)) -> sim (reading f0) (reading f).
Proof. intros F w0 w H. exact (F w0 w H w0 w H). Qed.
Lemma sim_hooks (ev : nat -> event T) hook l : forall i, (forall j cb, nth_error l j = Some cb -> answers_with op (ev (i + j)) (hook cb)) ->
  sim (mret tt) (call_hooks ev hook i l).
Proof.
  induction l as [|cb l IH]; intros i H; cbn [call_hooks]; [apply sim_ret|].
  intros w0 w E. unfold mbind, modify, mlift. pose proof (H 0 cb eq_refl) as H0. rewrite PeanoNat.Nat.add_0_r in H0.
  destruct (hook cb) as [[]|e] eqn:Hc.
  - destruct (IH (S i)) with (w0 := w0) (w := w_log (log w ++ [ev i]) w) as [(l' & ev' & e & K1 & K2 & K3)|(K1 & K2 & l2 & K3)].
    + intros j cb' Hj. specialize (H (S j) cb' Hj). replace (S i + j) with (i + S j) by lia. exact H.
    + unfold same_but_log in *. rewrite E. reflexivity.
    + left. exists ([ev i] ++ l'), ev', e. rewrite K1. cbn [log w_log]. rewrite <- !app_assoc. auto.
    + right. split; [exact K1|]. split; [exact K2|]. exists ([ev i] ++ l2). rewrite K3. cbn [log w_log]. rewrite <- !app_assoc. reflexivity.
  - left. exists [], (ev i), e. auto.
Qed.
Lemma sim_before m n st : sim (before_hooks op0 m n st) (before_hooks op m n st).
Proof. apply sim_hooks. intros j cb H. cbn. eauto. Qed.
Lemma sim_after m n st : sim (after_hooks op0 m n st) (after_hooks op m n st).
Proof. apply sim_hooks. intros j cb H. cbn. eauto. Qed.
Lemma sim_step_live : sim (step_live op0) (step_live op).
Proof.
  intros w0 w H. right. unfold step_live. destruct (sbl_eq _ _ H) as (-> & _ & -> & _).
  change (iterate_on_step op0) with (iterate_on_step op). cbn [retry_limit without_callbacks].
  destruct (iterate_on_step op _ _ _) as ((c' & st') & r0). cbn [fst snd].
  split; [unfold same_but_log in *; rewrite H; reflexivity|]. split; [reflexivity|]. apply (grows_refl w).
Qed.
Ltac field := let H := fresh in apply sim_modify; [intros ? ? H; unfold same_but_log in *; rewrite H; reflexivity|reflexivity].
Ltac similar := repeat lazymatch goal with
  | |- sim (mbind _ _) (mbind _ _) => apply sim_bind; [|intros]
  | |- sim (reading _) (reading _) => apply sim_reading; let H := fresh in let E1 := fresh in let E2 := fresh in let E3 := fresh in let E4 := fresh in intros ? ? H;
      destruct (sbl_eq _ _ H) as (E1 & E2 & E3 & E4 & _); rewrite ?E1, ?E2, ?E3, ?E4; clear H E1 E2 E3 E4
  | |- sim (mret _) (mret _) => apply sim_ret
  | |- sim (mraise _) (mraise _) => apply sim_raise
  | |- sim (modify _) (modify _) => field
  | |- sim (mlift _) (mlift _) => apply sim_lift
  | |- sim (before_hooks _ _ _ _) _ => apply sim_before
  | |- sim (after_hooks _ _ _ _) _ => apply sim_after
  | |- sim (step_live _) _ => apply sim_step_live
  end.
Lemma sim_run_step n : sim (run_step op0 n) (run_step op n).
Proof. unfold run_step. similar. Qed.
Lemma sim_rev_step n st : sim (run_step_jacvec_rev op0 n st) (run_step_jacvec_rev op n st).
Proof. unfold run_step_jacvec_rev. similar. Qed.
Lemma sim_fwd_step n : sim (run_step_jacvec_fwd op0 n) (run_step_jacvec_fwd op n).
Proof. unfold run_step_jacvec_fwd, step_derivative_live. similar. Qed.
Lemma sim_forward_loop keep : forall fuel it, sim (forward_loop op0 keep fuel it) (forward_loop op keep fuel it).
Proof.
  induction fuel as [|fuel IH]; intros it; cbn [forward_loop]; [apply sim_raise|].
  apply sim_reading. intros w0 w H. destruct (sbl_eq _ _ H) as (-> & _). cbn [o_crit without_callbacks].
  destruct (is_iteration_finished _ _ _); [apply sim_ret|].
  apply sim_bind; [apply sim_run_step|intros _]. apply sim_bind; [destruct keep; similar|intros _; apply IH].
Qed.
Lemma sim_reverse_all l : sim (reverse_all op0 l) (reverse_all op l).
Proof.
  induction l as [|st l IH]; cbn [reverse_all]; [apply sim_ret|].
  apply sim_bind; [similar|intros _]. apply sim_bind; [apply sim_rev_step|intros _; exact IH].
Qed.
Lemma sim_forward_operator n : forall lo, sim (forward_operator op0 n lo) (forward_operator op n lo).
Proof. induction n; intros lo; cbn [forward_operator]; [apply sim_ret|]. apply sim_bind; [apply sim_run_step|auto]. Qed.
Lemma sim_reverse_operator n lo : sim (reverse_operator op0 n lo) (reverse_operator op n lo).
Proof.
  induction n; cbn [reverse_operator]; [apply sim_ret|]. apply sim_bind; [|auto].
  apply sim_reading. intros w0 w H. destruct (sbl_eq _ _ H) as (-> & _). apply sim_rev_step.
Qed.
Lemma sim_actions l : sim (run_actions op0 l) (run_actions op l).
Proof.
  induction l as [|a l IH]; cbn [run_actions]; [apply sim_ret|]. apply sim_bind; [|auto].
  destruct a; cbn [run_action]; [apply sim_forward_operator|similar| |apply sim_reverse_operator].
  apply sim_reading. intros w0 w H. destruct (sbl_eq _ _ H) as (_ & _ & _ & _ & _ & -> & _). destruct (find _ _) as [(k & snap)|]; similar.
Qed.
Lemma sim_compute i : sim (compute op0 i) (compute op i).
Proof.
  unfold compute, compute_preparation_phase, create_checkpointer, iterate_forward. cbn [o_ckpt loop_limit without_callbacks].
  apply sim_bind; [similar|intros _]. apply sim_bind; [destruct (o_ckpt op); similar|intros _].
  apply sim_bind; [|intros _; similar].
  destruct (o_ckpt op); [apply sim_forward_loop..|].
  apply sim_bind; [apply sim_forward_operator|intros _]. apply sim_bind; [similar|intros _; apply sim_actions].
Qed.
Lemma sim_fwd i d : sim (compute_jacvec_product_fwd op0 i d) (compute_jacvec_product_fwd op i d).
Proof.
  unfold compute_jacvec_product_fwd, jacvec_fwd_preparation_phase. cbn [loop_limit without_callbacks].
  apply sim_bind; [similar|intros _]. apply sim_bind; [|intros _; similar].
  generalize 0. induction (loop_limit op) as [|fuel IH]; intros it; cbn [jacvec_fwd_run_steps]; [apply sim_raise|].
  apply sim_reading. intros w0 w H. destruct (sbl_eq _ _ H) as (-> & _). cbn [o_crit without_callbacks].
  destruct (is_iteration_finished _ _ _); [apply sim_ret|]. apply sim_bind; [apply sim_fwd_step|intros _; apply IH].
Qed.
Lemma sim_rev i d : sim (compute_jacvec_product_rev op0 i d) (compute_jacvec_product_rev op i d).
Proof.
  unfold compute_jacvec_product_rev, jacvec_rev_preparation_phase. apply sim_bind.
  { apply sim_bind; [|intros _; similar]. apply sim_reading. intros w0 w H. destruct (sbl_eq _ _ H) as (_ & _ & _ & -> & _).
    destruct (cache_hit _ _); [apply sim_ret|].
    apply sim_bind; [apply sim_compute|intros _; apply sim_ret]. }
  intros _. apply sim_bind; [|intros _; similar]. unfold iterate_reverse. cbn [o_ckpt without_callbacks]. destruct (o_ckpt op); [apply sim_raise| |].
  - apply sim_reading. intros w0 w H. destruct (sbl_eq _ _ H) as (_ & _ & _ & _ & -> & _). apply sim_reverse_all.
  - apply sim_bind; [apply sim_actions|intros _]. apply sim_bind; [similar|intros _; apply sim_reverse_operator].
Qed.
Lemma c90_transparent k w0 w : same_but_log w0 w ->
  (exists l, log (run_call op k w) = log w ++ l /\ stopped_by op l (outcome op k w)) \/
  (outcome op k w = outcome op0 k w0 /\ same_but_log (run_call op0 k w0) (run_call op k w)).
Proof.
  intros H. destruct (c90_reported k w) as (l & L & [R|R]); [right|left; exists l; auto].
  assert (NR : forall A (r : res A), ~ raised w (run_call op k w) r).
  { intros A r (l' & ev & e & E1 & E2 & E3). rewrite L in E1. apply app_inv_head in E1. subst l.
    unfold all_answered in R. apply Forall_app in R as (_ & R). inversion R as [|? ? R1]; subst.
    destruct ev as [m i n st|m i n st]; cbn in *; destruct R1 as (cb & A1 & A2), E2 as (cb' & B1 & B2); congruence. }
  destruct k as [i|i d|i d]; cbn [run_call outcome] in *.
  - destruct (sim_compute i w0 w H) as [X|(X & -> & _)]; [destruct (NR _ _ X)|auto].
  - destruct (sim_fwd i d w0 w H) as [X|(X & -> & _)]; [destruct (NR _ _ X)|auto].
  - destruct (sim_rev i d w0 w H) as [X|(X & -> & _)]; [destruct (NR _ _ X)|auto].
Qed.
Lemma c90_histories_from l : quiet op -> forall w0 w, same_but_log w0 w -> outcomes op l w = outcomes op0 l w0.
Proof.
  intros Q. induction l as [|k l IH]; intros w0 w H; cbn [outcomes]; [reflexivity|].
  destruct (c90_transparent k w0 w H) as [(l' & _ & l1 & ev & e & _ & _ & E & _)|(-> & E)]; [|rewrite (IH _ _ E); reflexivity].
  exfalso. destruct ev as [m i n st|m i n st]; destruct E as (cb & I & E); apply nth_error_In in I; destruct (Q m cb I n st) as (Q1 & Q2); congruence.
Qed.
Lemma c90_histories l c : quiet op -> outcomes op l (setup op c) = outcomes op0 l (setup op0 c).
Proof. intros Q. apply c90_histories_from; [exact Q|reflexivity]. Qed.
End Generic.
