(** Weights of reordered states; two linear ODEs with adjoint derivatives. *)
From Coq Require Import List Lia Bool Arith.
From Verif Require Import Base M_Tableau M_State M_ODE M_Step M_Controller M_Measure M_Integrator
  SpecRK SpecShape SpecDeriv SpecRun SpecChange SpecChange3 L_Vec L_Generic L_Change3 L_Change6.
Import ListNotations.
Local Open Scope nat_scope.

Section Picked.
Context {T : Type} {N : Num T}.
Lemma nth_vadd_in : forall (x y : list T) k, length x = length y -> k < length x -> nth k (vadd x y) n0 = nadd (nth k x n0) (nth k y n0).
Proof. induction x as [|a x IH]; intros [|b y] k E H; cbn in *; try lia. destruct k as [|k]; [reflexivity|]. apply IH; lia. Qed.
Lemma nth_vscale_in a : forall (x : list T) k, k < length x -> nth k (vscale a x) n0 = nmul a (nth k x n0).
Proof. induction x as [|b x IH]; intros k H; cbn in *; [lia|]. destruct k as [|k]; [reflexivity|]. apply IH; lia. Qed.
Lemma pulls_back_picked n' q : (forall k, In k q -> k < n') -> pulls_back (length q) n' (ch_slope (picked (T := T) q)).
Proof.
  intros Hq. constructor; cbn [ch_slope picked].
  - intros x y Hx Hy. induction q as [|k q IH]; cbn [map]; [reflexivity|].
    rewrite IH by (intros j Hj; apply Hq; right; exact Hj).
    rewrite nth_vadd_in by (rewrite ?Hx, ?Hy; auto using in_eq). reflexivity.
  - intros a x Hx. induction q as [|k q IH]; cbn [map]; [reflexivity|].
    rewrite IH by (intros j Hj; apply Hq; right; exact Hj).
    rewrite nth_vscale_in by (rewrite Hx; auto using in_eq). reflexivity.
  - intros x _. apply map_length.
Qed.
Lemma pulls_back_same q : pulls_back_parameters (T := T) q q (fun p => p).
Proof. constructor; reflexivity. Qed.

(** [two_ode] with an adjoint derivative: [g] gives the weight of time and
    parameter and the weights of the states. *)
Definition backward_ode (size : nat) (f : T -> T -> (nat -> T) -> list T) (g : (nat -> T) -> T * list T) : ode T := {|
  compute_update := compute_update (two_ode size f);
  compute_update_derivative := fun _ _ _ _ => Err NotImplementedError;
  compute_update_adjoint_derivative := fun _ r h _ =>
    let x := g (fun k => nth k (stage_update r) n0) in
    Ok {| step_input := snd x; stage_input := vscale h (snd x); independent_input := [fst x]; time := fst x |};
  compute_state_norm := compute_state_norm (two_ode size f);
  state_size := size; independent_input_size := 1; independent_output_size := 0; linearization_point_size := 0 |}.
Definition bxy : ode T := backward_ode 2 (fun t p s => [nadd t p; s 0]) (fun u => (u 0, [u 1; n0])).
Definition byx : ode T := backward_ode 2 (fun t p s => [s 1; nadd t p]) (fun u => (u 1, [n0; u 0])).
Lemma backward_sized size f g : (forall t p s, length (f t p s) = size) -> (forall u, length (snd (g u)) = size) -> sized_ode (backward_ode size f g).
Proof.
  intros Hf Hg. split; [|split].
  - intros i h a x lp H; injection H as <- <-; cbn; auto using glen_vzeros.
  - intros lp i h a x H; discriminate.
  - intros lp i h a x H; injection H as <-; cbn. split; [apply Hg|]. split; [|reflexivity].
    change (length (vscale h (snd (g (fun k => nth k (stage_update i) n0)))) = size). rewrite glen_vscale. apply Hg.
Qed.
Lemma backward_ignores size f g : ignores_stage_state_weights (backward_ode size f g).
Proof. intros lp r r' h a E _. cbn. rewrite E. reflexivity. Qed.
Lemma bxy_byx : changed_ode (picked [1; 0]) bxy byx /\
  changed_adjoints (picked [1; 0]) (ch_slope (picked (T := T) [1; 0])) (fun q => q) bxy byx.
Proof.
  split.
  - intros i h a _ _ _. cbn. eexists; eexists. split; reflexivity.
  - intros i h a s lp s' lp' _ _ _ _ _ r r' _ E. cbn in E |- *. rewrite E. eexists. split; [reflexivity|]. cbn. auto.
Qed.
End Picked.
