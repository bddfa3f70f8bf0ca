(** The stage problems of the shipped explicit components: what their solves do. *)
From Coq Require Import String.
From Coq Require Import List Bool Arith Reals Lia Lra.
From Verif Require Import Base Ext M_ODE M_Metadata M_Components SpecMetadata SpecRK SpecDeriv SpecComponents
  M_Packing SpecPacking SpecComponent M_Stage L_Vec L_Metadata L_Components L_Packing L_Packing3 L_Packing6.
Import ListNotations.
Local Open Scope string_scope.
Local Open Scope R_scope.
Local Open Scope list_scope.

Lemma vec_of_fst ns : forall xs, length xs = length ns -> map fst (vec_of ns xs) = ns.
Proof. induction ns as [|n ns IH]; intros [|x xs] L; try discriminate; [reflexivity|]. cbn. f_equal. apply IH. now injection L. Qed.
Lemma vec_of_flat ns : forall xs, length xs = length ns -> flat (vec_of ns xs) = xs.
Proof. induction ns as [|n ns IH]; intros [|x xs] L; try discriminate; [reflexivity|]. unfold flat in *. cbn. f_equal. apply IH. now injection L. Qed.
Lemma vec_of_layout ns : forall xs, length xs = length ns -> layout (vec_of ns xs) = map (fun n => (n, 1%nat)) ns.
Proof. induction ns as [|n ns IH]; intros [|x xs] L; try discriminate; [reflexivity|]. cbn. f_equal. apply IH. now injection L. Qed.

Lemma has_inv ns v : has ns v = true -> exists xs, length xs = length ns /\ v = vec_of ns xs.
Proof.
  unfold has. destruct (list_eq_dec _ _ _) as [<-|]; [|discriminate].
  induction v as [|[n x] v IH]; cbn [forallb map fst snd]; intros H; [exists []; auto|].
  apply andb_prop in H as [H1 H2]. apply Nat.eqb_eq in H1. destruct x as [|x [|]]; try discriminate.
  destruct (IH H2) as (xs & L & E). exists (x :: xs). cbn. split; [now rewrite L|]. f_equal. exact E.
Qed.
Lemma has_vec_of ns xs : length xs = length ns -> has ns (vec_of ns xs) = true.
Proof.
  intros L. unfold has. rewrite vec_of_fst by exact L. destruct (list_eq_dec _ _ _) as [_|N]; [|congruence].
  revert xs L. induction ns as [|n ns IH]; intros [|x xs] L; try discriminate; [reflexivity|]. cbn. apply IH. now injection L.
Qed.
Lemma layout_has ns v : layout v = map (fun n => (n, 1%nat)) ns -> has ns v = true.
Proof.
  intros H. unfold has. destruct (list_eq_dec _ _ _) as [E|N].
  - apply forallb_forall. intros p I. apply Nat.eqb_eq.
    assert (J : In (fst p, length (snd p)) (layout v)) by (unfold layout; apply in_map_iff; exists p; auto).
    rewrite H in J. apply in_map_iff in J as (n & J & _). now injection J.
  - exfalso. apply N. transitivity (map fst (layout v)); [unfold layout; rewrite map_map; reflexivity|].
    rewrite H, map_map. apply map_id.
Qed.
Lemma layout_vec_of ns v : layout v = map (fun n => (n, 1%nat)) ns -> exists xs, length xs = length ns /\ v = vec_of ns xs.
Proof. intros H. apply has_inv, layout_has, H. Qed.

(** The methods return as many entries as they are given. *)
Definition regular (c : explicit) : Prop :=
  (forall ex i o u, e_compute c ex i o = Ok u -> length u = length o) /\
  (forall ex i o u, e_fwd c ex i o = Ok u -> length u = length o) /\
  (forall ex i o u, e_rev c ex i o = Ok u -> length u = length i).

Lemma update_len {E} (f : E -> E -> res E) n x v v' : update f n x v = Ok v' -> length v' = length v.
Proof.
  revert v'. induction v as [|[m y] v IH]; intros v' H; cbn in H; [discriminate|].
  destruct (String.eqb n m).
  - destruct (f y x); [|discriminate]. injection H as <-. reflexivity.
  - destruct (update f n x v) as [w|]; [|discriminate]. injection H as <-. cbn. now rewrite (IH _ eq_refl).
Qed.
Lemma simple_regular : regular simple_component.
Proof.
  split; [|split]; intros ex i o u H; cbn in H; unfold simple_compute, simple_fwd, simple_rev in H.
  - repeat (apply bind_ok in H as (? & _ & H)). apply update_len in H. exact H.
  - apply bind_ok in H as (? & _ & H). apply bind_ok in H as (d & D & H). apply bind_ok in H as (? & _ & H).
    apply update_len in H, D. congruence.
  - apply bind_ok in H as (? & _ & H). apply bind_ok in H as (d & D & H). apply update_len in H, D. congruence.
Qed.
Lemma prothero_regular lam : regular (prothero_component lam).
Proof.
  split; [|split]; intros ex i o u H; cbn in H.
  - unfold prothero_compute in H. repeat (apply bind_ok in H as (? & _ & H)). apply update_len in H. exact H.
  - injection H as <-. reflexivity.
  - injection H as <-. reflexivity.
Qed.

Lemma combine_len {A B} (l : list A) (m : list B) : length l = length m -> length (combine l m) = length m.
Proof. rewrite combine_length. lia. Qed.

Section Problem.
Variable c : explicit.
Hypothesis Hc : regular c.
Notation k := (length (e_inputs c)).
Lemma in_names_len : length (in_names c) = k.
Proof. unfold in_names. apply map_length. Qed.
Lemma out_names_len : length (out_names c) = (k + length (e_outputs c))%nat.
Proof. unfold out_names, ivc_names. rewrite app_length, !map_length, seq_length. reflexivity. Qed.

Lemma nonlinear_inv h a i o i' o' : stage_nonlinear c h a i o = Ok (i', o') ->
  let ex := {| x_step_size := h; x_stage_factor := a |} in
  exists xi xs us u, length xi = k /\ length xs = k /\ length us = length (e_outputs c) /\
    i = vec_of (in_names c) xi /\ o = vec_of (out_names c) (xs ++ us) /\ e_singular c ex = false /\
    e_compute c ex (combine (e_inputs c) xs) (combine (e_outputs c) us) = Ok u /\
    i' = vec_of (in_names c) xs /\ o' = vec_of (out_names c) (xs ++ map snd u) /\ length u = length (e_outputs c).
Proof.
  intros H ex. unfold stage_nonlinear in H. destruct (has _ i) eqn:H1; [|discriminate]. destruct (has _ o) eqn:H2; [|discriminate].
  cbn [andb] in H. apply has_inv in H1 as (xi & L1 & ->), H2 as (xo & L2 & ->).
  rewrite in_names_len in L1. rewrite vec_of_flat in H by exact L2. rewrite out_names_len in L2.
  fold ex in H. destruct (e_singular c ex) eqn:S; [discriminate|].
  apply bind_ok in H as (u & U & H). injection H as <- <-.
  assert (L3 : length (firstn k xo) = k) by (rewrite firstn_length; lia).
  assert (L4 : length (skipn k xo) = length (e_outputs c)) by (rewrite skipn_length; lia).
  exists xi, (firstn k xo), (skipn k xo), u. rewrite firstn_skipn.
  repeat (split; [first [assumption | reflexivity]|]).
  apply (proj1 Hc) in U. rewrite U. rewrite combine_len; lia.
Qed.

Lemma fwd_inv h a i o x r x' r' : stage_linear_fwd c h a i o x r = Ok (x', r') ->
  let ex := {| x_step_size := h; x_stage_factor := a |} in
  exists xo rs qs u, length xo = (k + length (e_outputs c))%nat /\ length rs = k /\ length qs = length (e_outputs c) /\
    x = vec_of (out_names c) xo /\ r = vec_of (out_names c) (rs ++ qs) /\ e_singular c ex = false /\
    e_fwd c ex (combine (e_inputs c) (map Ropp rs)) (map (fun n => (n, 0)) (e_outputs c)) = Ok u /\
    x' = vec_of (out_names c) (map Ropp rs ++ map Ropp (vsub qs (map snd u))) /\
    r' = vec_of (out_names c) (rs ++ vsub qs (map snd u)) /\ length u = length (e_outputs c).
Proof.
  intros H ex. unfold stage_linear_fwd in H. destruct (has _ x) eqn:H1; [|discriminate]. destruct (has _ r) eqn:H2; [|discriminate].
  cbn [andb] in H. apply has_inv in H1 as (xi & L1 & ->), H2 as (xo & L2 & ->).
  rewrite vec_of_flat in H by exact L2. rewrite out_names_len in L1, L2.
  fold ex in H. destruct (e_singular c ex) eqn:S; [discriminate|].
  apply bind_ok in H as (u & U & H). injection H as <- <-.
  assert (L3 : length (firstn k xo) = k) by (rewrite firstn_length; lia).
  assert (L4 : length (skipn k xo) = length (e_outputs c)) by (rewrite skipn_length; lia).
  exists xi, (firstn k xo), (skipn k xo), u. rewrite firstn_skipn.
  repeat (split; [first [assumption | reflexivity]|]).
  apply (proj1 (proj2 Hc)) in U. rewrite U. apply map_length.
Qed.

Lemma rev_inv h a i o w y w' y' : stage_linear_rev c h a i o w y = Ok (w', y') ->
  let ex := {| x_step_size := h; x_stage_factor := a |} in
  exists yo ws us u, length yo = (k + length (e_outputs c))%nat /\ length ws = k /\ length us = length (e_outputs c) /\
    y = vec_of (out_names c) yo /\ w = vec_of (out_names c) (ws ++ us) /\ e_singular c ex = false /\
    e_rev c ex (map (fun n => (n, 0)) (e_inputs c)) (combine (e_outputs c) (map Ropp us)) = Ok u /\
    w' = vec_of (out_names c) (vsub ws (map snd u) ++ us) /\
    y' = vec_of (out_names c) (map Ropp (vsub ws (map snd u)) ++ map Ropp us) /\ length u = k.
Proof.
  intros H ex. unfold stage_linear_rev in H. destruct (has _ w) eqn:H1; [|discriminate]. destruct (has _ y) eqn:H2; [|discriminate].
  cbn [andb] in H. apply has_inv in H1 as (wo & L1 & ->), H2 as (yo & L2 & ->).
  rewrite vec_of_flat in H by exact L1. rewrite out_names_len in L1, L2.
  fold ex in H. destruct (e_singular c ex) eqn:S; [discriminate|].
  apply bind_ok in H as (u & U & H). injection H as <- <-.
  assert (L3 : length (firstn k wo) = k) by (rewrite firstn_length; lia).
  assert (L4 : length (skipn k wo) = length (e_outputs c)) by (rewrite skipn_length; lia).
  exists yo, (firstn k wo), (skipn k wo), u. rewrite firstn_skipn.
  repeat (split; [first [assumption | reflexivity]|]).
  apply (proj2 (proj2 Hc)) in U. rewrite U. apply map_length.
Qed.

Lemma len_sub (x y : list R) : length x = length y -> length (vsub x y) = length y.
Proof. revert y; induction x as [|a x IH]; intros [|b y] L; try discriminate; [reflexivity|]. cbn. f_equal. apply IH. now injection L. Qed.

Lemma stage_keeps : keeps_layout (stage_problem c).
Proof.
  split; [|split]; cbn [stage_problem p_nonlinear p_linear_fwd p_linear_rev].
  - intros h a i o i' o' H. apply nonlinear_inv in H as (xi & xs & us & u & L1 & L2 & L3 & -> & -> & _ & _ & -> & -> & L4).
    rewrite !vec_of_layout; rewrite ?in_names_len, ?out_names_len, ?app_length, ?map_length; auto; lia.
  - intros h a i o x r x' r' H. apply fwd_inv in H as (xo & rs & qs & u & L1 & L2 & L3 & -> & -> & _ & _ & -> & -> & L4).
    rewrite !vec_of_layout; rewrite ?out_names_len, ?app_length, ?map_length, ?len_sub, ?map_length; auto; rewrite ?map_length; lia.
  - intros h a i o x r x' r' H. apply rev_inv in H as (xo & rs & qs & u & L1 & L2 & L3 & -> & -> & _ & _ & -> & -> & L4).
    rewrite !vec_of_layout; rewrite ?out_names_len, ?app_length, ?map_length, ?len_sub, ?map_length; auto; rewrite ?map_length; lia.
Qed.
Lemma stage_formed x : well_formed (stage_vectors c x).
Proof. split; reflexivity. Qed.
End Problem.
