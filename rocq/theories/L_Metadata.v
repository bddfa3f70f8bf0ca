(** Lemmas about the metadata extraction. *)
From Coq Require Import String.
From Coq Require Import List Bool Arith Lia Permutation.
From Verif Require Import Base M_Metadata SpecMetadata.
Import ListNotations.
Local Open Scope nat_scope.
Local Open Scope list_scope.

Lemma mem_iff s l : mem s l = true <-> In s l.
Proof.
  unfold mem; rewrite existsb_exists; split.
  - intros (x & H & E); apply String.eqb_eq in E; subst; exact H.
  - intros H; exists s; split; [exact H|apply String.eqb_refl].
Qed.
Lemma mem_false s l : mem s l = false <-> ~ In s l.
Proof. rewrite <- mem_iff; destruct (mem s l); split; congruence. Qed.

Lemma shape_eqb_iff a : forall b, shape_eqb a b = true <-> a = b.
Proof.
  induction a as [|x a IH]; intros [|y b]; cbn; split; try congruence.
  - intros H; apply andb_prop in H as [H1 H2]; apply Nat.eqb_eq in H1; apply IH in H2; congruence.
  - intros [= -> ->]; rewrite Nat.eqb_refl; apply IH; reflexivity.
Qed.

Lemma bind_ok {A B} (m : res A) (k : A -> res B) b : bind m k = Ok b -> exists a, m = Ok a /\ k a = Ok b.
Proof. destruct m; cbn; [eauto|discriminate]. Qed.

(** *** Roles as tests *)
Definition bout v := mem "stage_output_var" (v_tags v).
Definition bstep v := negb (bout v) && mem "step_input_var" (v_tags v).
Definition bacc v := negb (bout v) && (negb (mem "step_input_var" (v_tags v)) && mem "accumulated_stage_var" (v_tags v)).

Lemma bout_iff v : bout v = true <-> stage_output v.
Proof. apply mem_iff. Qed.
Lemma bout_false v : bout v = false <-> ~ stage_output v.
Proof. apply mem_false. Qed.
Lemma bstep_iff v : bstep v = true <-> step_input v.
Proof. unfold bstep, step_input; rewrite andb_true_iff, negb_true_iff, bout_false; unfold has; rewrite mem_iff; tauto. Qed.
Lemma bacc_iff v : bacc v = true <-> accumulated_input v.
Proof.
  unfold bacc, accumulated_input; rewrite !andb_true_iff, !negb_true_iff, bout_false; unfold has.
  rewrite mem_iff, mem_false; tauto.
Qed.

Lemma filter_none {A} (P : A -> Prop) f (l : list A) : (forall x, f x = true <-> P x) ->
  filter f l = [] <-> none P l.
Proof.
  intros H; unfold none; induction l as [|x l IH]; cbn; [split; constructor|].
  destruct (f x) eqn:E; split.
  - discriminate.
  - intros F; inversion F; subst; apply H in E; contradiction.
  - intros F; constructor; [rewrite <- H; congruence|apply IH, F].
  - intros F; inversion F; subst; apply IH; assumption.
Qed.

Lemma filter_one {A} (P : A -> Prop) f (l : list A) x : (forall x, f x = true <-> P x) ->
  filter f l = [x] <-> exactly_one P l x.
Proof.
  intros H; split.
  - induction l as [|y l IH]; cbn; [discriminate|].
    destruct (f y) eqn:E; intros F.
    + injection F as -> F; exists [], l; repeat split; [apply H, E|constructor|].
      apply (filter_none P f l H), F.
    + destruct (IH F) as (l1 & l2 & -> & A1 & A2 & A3).
      exists (y :: l1), l2; repeat split; auto; constructor; [rewrite <- H; congruence|exact A2].
  - intros (l1 & l2 & -> & A1 & A2 & A3).
    apply (filter_none P f _ H) in A2, A3; apply H in A1.
    rewrite filter_app; cbn; rewrite A1, A2, A3; reflexivity.
Qed.

Lemma split_count {A} (f p : A -> bool) l :
  length (filter f (filter (fun x => negb (p x)) l ++ filter p l)) = length (filter f l).
Proof.
  rewrite filter_app, app_length.
  induction l as [|x l IH]; cbn; [reflexivity|].
  destruct (p x); cbn; destruct (f x); cbn; lia.
Qed.

Lemma length_one {A} (l : list A) : length l = 1 -> exists x, l = [x].
Proof. destruct l as [|x [|y l]]; cbn; try discriminate; eauto. Qed.

Lemma filter_comm {A} (f g : A -> bool) l : filter f (filter g l) = filter g (filter f l).
Proof.
  induction l as [|x l IH]; cbn; [reflexivity|].
  destruct (g x) eqn:G, (f x) eqn:F; cbn; rewrite ?F, ?G, IH; reflexivity.
Qed.

Lemma with_tags_one q l : with_tags [q] l = filter (fun v => mem q (v_tags v)) l.
Proof.
  unfold with_tags; apply filter_ext; intros v; unfold mem; cbn.
  induction (v_tags v) as [|t ts IH]; cbn; [reflexivity|].
  rewrite IH, orb_false_r, String.eqb_sym; reflexivity.
Qed.

Lemma in_tagged rank vs q v : In v (tagged_with rank vs q) <-> In v vs /\ has q v /\ here rank v.
Proof.
  unfold tagged_with, locals; rewrite with_tags_one, !filter_In, in_app_iff; unfold inputs_of, outputs_of.
  rewrite !filter_In, mem_iff; unfold has, here, is_local.
  destruct (v_output v), (local_shape rank v); cbn; intuition congruence.
Qed.

(** *** One quantity *)
Section One.
Variables (rank : nat) (vs : list variable).

(** What [_create_local_array_metadata] yields. *)
Definition described (n : nat) (v : variable) (sh : list nat) (a : array_metadata) : Prop :=
  shape a = sh /\ global_shape a = v_global_shape v /\ local a = true /\ start_index a = n /\ end_index a = n + prod sh.

Lemma create_ok n v sh a : create_local_array_metadata rank vs n (n + prod sh) v sh = Ok a -> described n v sh a.
Proof.
  unfold create_local_array_metadata; intros H; apply bind_ok in H as (g & _ & H); injection H as <-.
  repeat split.
Qed.

Definition last_name (l : list variable) (d : option string) : option string :=
  fold_left (fun _ v => Some (v_name v)) l d.

Lemma scan_ti_step f v f' : scan_ti rank vs f v = Ok f' ->
  f_outputs f' = length (filter bout [v]) + f_outputs f /\
  f_steps f' = length (filter bstep [v]) + f_steps f /\
  f_accumulated f' = length (filter bacc [v]) + f_accumulated f /\
  step_input_var (f_translation f') = last_name (filter bstep [v]) (step_input_var (f_translation f)) /\
  accumulated_stage_var (f_translation f') = last_name (filter bacc [v]) (accumulated_stage_var (f_translation f)) /\
  stage_output_var (f_translation f') = last_name (filter bout [v]) (stage_output_var (f_translation f)) /\
  (bout v = false -> f_size f' = f_size f /\ f_array f' = f_array f) /\
  (bout v = true -> exists sh a, local_shape rank v = Some sh /\ f_size f' = f_size f + prod sh /\
     f_array f' = Some a /\ create_local_array_metadata rank vs (f_size f) (f_size f + prod sh) v sh = Ok a).
Proof.
  unfold scan_ti, filter, bstep, bacc, bout.
  destruct (mem "stage_output_var" (v_tags v)); cbn.
  - destruct (local_shape rank v) as [sh|]; [|discriminate].
    intros H; apply bind_ok in H as (a & Ha & H); injection H as <-; cbn.
    repeat split; try discriminate; intros _; exists sh, a; auto.
  - destruct (mem "step_input_var" (v_tags v)); cbn; [intros [= <-]; cbn; repeat split; discriminate|].
    destruct (mem "accumulated_stage_var" (v_tags v)); cbn; intros [= <-]; cbn; repeat split; discriminate.
Qed.

Lemma scan_ti_counts l : forall f f', scan (scan_ti rank vs) f l = Ok f' ->
  f_outputs f' = length (filter bout l) + f_outputs f /\
  f_steps f' = length (filter bstep l) + f_steps f /\
  f_accumulated f' = length (filter bacc l) + f_accumulated f /\
  step_input_var (f_translation f') = last_name (filter bstep l) (step_input_var (f_translation f)) /\
  accumulated_stage_var (f_translation f') = last_name (filter bacc l) (accumulated_stage_var (f_translation f)) /\
  stage_output_var (f_translation f') = last_name (filter bout l) (stage_output_var (f_translation f)).
Proof.
  induction l as [|v l IH]; intros f f' H; cbn [scan] in H; [injection H as <-; repeat split|].
  apply bind_ok in H as (f1 & H1 & H2).
  apply IH in H2 as (A1 & A2 & A3 & A4 & A5 & A6).
  apply scan_ti_step in H1 as (B1 & B2 & B3 & B4 & B5 & B6 & _).
  rewrite A1, A2, A3, A4, A5, A6, B1, B2, B3, B4, B5, B6.
  cbn [filter]; destruct (bout v), (bstep v), (bacc v); cbn; repeat split; lia.
Qed.

Lemma scan_ti_none l : forall f f', filter bout l = [] -> scan (scan_ti rank vs) f l = Ok f' ->
  f_size f' = f_size f /\ f_array f' = f_array f.
Proof.
  induction l as [|v l IH]; intros f f' E H; cbn [scan] in H; [injection H as <-; auto|].
  apply bind_ok in H as (f1 & H1 & H2).
  apply scan_ti_step in H1 as (_ & _ & _ & _ & _ & _ & B & _).
  cbn in E; destruct (bout v); [discriminate|]; destruct (B eq_refl) as [B1 B2].
  destruct (IH _ _ E H2) as [A1 A2]; split; congruence.
Qed.

Lemma scan_ti_one l : forall f f' v, filter bout l = [v] -> scan (scan_ti rank vs) f l = Ok f' ->
  exists sh a, local_shape rank v = Some sh /\ f_size f' = f_size f + prod sh /\ f_array f' = Some a /\
    create_local_array_metadata rank vs (f_size f) (f_size f + prod sh) v sh = Ok a.
Proof.
  induction l as [|u l IH]; intros f f' v E H; cbn [scan] in H; [discriminate|].
  apply bind_ok in H as (f1 & H1 & H2).
  apply scan_ti_step in H1 as (_ & _ & _ & _ & _ & _ & B & C).
  cbn in E; destruct (bout u).
  - injection E as -> E; destruct (C eq_refl) as (sh & a & C1 & C2 & C3 & C4).
    destruct (scan_ti_none _ _ _ E H2) as [A1 A2].
    exists sh, a; repeat split; congruence.
  - destruct (B eq_refl) as [B1 B2]; destruct (IH _ _ _ E H2) as (sh & a & C1 & C2 & C3 & C4).
    rewrite B1 in *; eauto 10.
Qed.

(** The outcome for a quantity that is accepted. *)
Record accepted (q : string) (n m : nat) (qu : quantity ti_translation) : Prop := {
  ac_name : q_name qu = q;
  ac_output : exists v sh, exactly_one stage_output (tagged_with rank vs q) v /\ local_shape rank v = Some sh /\
    m = n + prod sh /\ described n v sh (q_array qu) /\
    create_local_array_metadata rank vs n (n + prod sh) v sh = Ok (q_array qu) /\
    stage_output_var (q_translation qu) = Some (v_name v);
  ac_pair : (none step_input (tagged_with rank vs q) /\ none accumulated_input (tagged_with rank vs q) /\
      step_input_var (q_translation qu) = None /\ accumulated_stage_var (q_translation qu) = None) \/
    (exists s a, exactly_one step_input (tagged_with rank vs q) s /\
      exactly_one accumulated_input (tagged_with rank vs q) a /\
      step_input_var (q_translation qu) = Some (v_name s) /\
      accumulated_stage_var (q_translation qu) = Some (v_name a))
}.

Lemma extract_ti_ok q n m qu : extract_time_integration_quantity rank vs q n = Ok (m, qu) -> accepted q n m qu.
Proof.
  unfold extract_time_integration_quantity; intros H.
  apply bind_ok in H as (f & Hs & H).
  pose proof (scan_ti_counts _ _ _ Hs) as (C1 & C2 & C3 & C4 & C5 & C6); cbn in C1, C2, C3, C4, C5, C6.
  rewrite Nat.add_0_r in C1, C2, C3.
  destruct (1 <? f_outputs f) eqn:E1; [discriminate|].
  destruct (1 <? f_steps f) eqn:E2; [discriminate|].
  destruct (1 <? f_accumulated f) eqn:E3; [discriminate|].
  destruct (f_outputs f <? 1) eqn:E4; [discriminate|].
  destruct (negb _) eqn:E5; [discriminate|].
  destruct (f_array f) as [a|] eqn:Ea; [|discriminate].
  injection H as <- <-.
  apply Nat.ltb_ge in E1, E2, E3, E4; apply negb_false_iff, orb_true_iff in E5.
  assert (L : length (filter bout (tagged_with rank vs q)) = 1) by lia.
  apply length_one in L as (v & Lv).
  destruct (scan_ti_one _ _ _ v Lv Hs) as (sh & a' & D1 & D2 & D3 & D4); cbn [f_size] in D2, D4.
  rewrite Ea in D3; injection D3 as <-.
  constructor; cbn.
  - reflexivity.
  - exists v, sh; split; [apply (filter_one stage_output bout), Lv; apply bout_iff|].
    split; [exact D1|]; split; [exact D2|]; split; [apply create_ok, D4|]; split; [exact D4|].
    rewrite C6, Lv; reflexivity.
  - rewrite !andb_true_iff, !Nat.eqb_eq in E5; destruct E5 as [[F1 F2]|[F1 F2]]; [left|right].
    + rewrite C2 in F1; rewrite C3 in F2; apply length_zero_iff_nil in F1, F2.
      rewrite C4, C5, F1, F2; repeat split.
      * apply (filter_none step_input bstep), F1; apply bstep_iff.
      * apply (filter_none accumulated_input bacc), F2; apply bacc_iff.
    + rewrite C2 in F1; rewrite C3 in F2; apply length_one in F1 as (s & F1); apply length_one in F2 as (x & F2).
      exists s, x; rewrite C4, C5, F1, F2; repeat split.
      * apply (filter_one step_input bstep), F1; apply bstep_iff.
      * apply (filter_one accumulated_input bacc), F2; apply bacc_iff.
Qed.

(** *** One independent input *)
Definition bind_in v := mem "time_independent_input_var" (v_tags v).

Lemma scan_ind_spec l : forall f f', scan (scan_ind rank vs) f l = Ok f' ->
  f_outputs f' = length (filter bind_in l) + f_outputs f /\
  f_translation f' = last_name (filter bind_in l) (f_translation f) /\
  (filter bind_in l = [] -> f_size f' = f_size f /\ f_array f' = f_array f) /\
  (forall v, filter bind_in l = [v] ->
     exists sh a, local_shape rank v = Some sh /\ f_size f' = f_size f + prod sh /\ f_array f' = Some a /\
       create_local_array_metadata rank vs (f_size f) (f_size f + prod sh) v sh = Ok a).
Proof.
  induction l as [|u l IH]; intros f f' H; cbn [scan] in H.
  - injection H as <-; cbn; repeat split; auto; discriminate.
  - apply bind_ok in H as (f1 & H1 & H2).
    apply IH in H2 as (A1 & A2 & A3 & A4); clear IH.
    unfold scan_ind in H1; cbn [filter]; unfold bind_in in *.
    destruct (mem "time_independent_input_var" (v_tags u)).
    + destruct (local_shape rank u) as [sh|] eqn:Es; [|discriminate].
      apply bind_ok in H1 as (a & Ha & H1); injection H1 as <-; cbn in *.
      split; [lia|]; split; [exact A2|]; split; [discriminate|].
      intros v [= -> E]; destruct (A3 E) as [B1 B2]; exists sh, a; auto.
    + injection H1 as <-; auto.
Qed.

Record accepted_ind (q : string) (n m : nat) (qu : quantity (option string)) : Prop := {
  ai_name : q_name qu = q;
  ai_input : exists v sh, exactly_one (has "time_independent_input_var") (tagged_with rank vs q) v /\
    local_shape rank v = Some sh /\ m = n + prod sh /\ described n v sh (q_array qu) /\
    create_local_array_metadata rank vs n (n + prod sh) v sh = Ok (q_array qu) /\
    q_translation qu = Some (v_name v)
}.

Lemma extract_ind_ok q n m qu : extract_time_independent_quantity rank vs q n = Ok (m, qu) -> accepted_ind q n m qu.
Proof.
  unfold extract_time_independent_quantity; intros H.
  apply bind_ok in H as (f & Hs & H).
  pose proof (scan_ind_spec _ _ _ Hs) as (C1 & C2 & C3 & C4); cbn [f_outputs f_translation f_size f_array] in *.
  rewrite Nat.add_0_r in C1.
  destruct (1 <? f_outputs f) eqn:E1; [discriminate|].
  destruct (f_outputs f <? 1) eqn:E4; [discriminate|].
  destruct (f_array f) as [a|] eqn:Ea; [|discriminate].
  injection H as <- <-; apply Nat.ltb_ge in E1, E4.
  assert (L : length (filter bind_in (tagged_with rank vs q)) = 1) by lia.
  apply length_one in L as (v & Lv).
  destruct (C4 v Lv) as (sh & a' & D1 & D2 & D3 & D4); injection D3 as <-.
  constructor; cbn; [reflexivity|].
  exists v, sh; split; [apply (filter_one _ bind_in), Lv; intros x; apply mem_iff|].
  split; [exact D1|]; split; [exact D2|]; split; [apply create_ok, D4|]; split; [exact D4|].
  rewrite C2, Lv; reflexivity.
Qed.

(** *** The loops over variables *)
(** Local quantities get adjacent ranges, others none. *)
Fixpoint laid_out (n : nat) (l : list array_metadata) (m : nat) : Prop :=
  match l with
  | [] => n = m
  | a :: l' =>
    if local a then start_index a = n /\ end_index a = n + prod (shape a) /\ laid_out (end_index a) l' m
    else (start_index a = 0 /\ end_index a = 0 /\ shape a = [0]) /\ laid_out n l' m
  end.

Lemma laid_out_app l : forall n m k l', laid_out n l m -> laid_out m l' k -> laid_out n (l ++ l') k.
Proof.
  induction l as [|a l IH]; cbn; intros n m k l' H1 H2; [subst; exact H2|].
  destruct (local a); [destruct H1 as (A & B & C)|destruct H1 as (A & C)]; eauto.
Qed.

(** What is known about the quantity made from output [v]. *)
Definition made_from (qs : list string) (v : variable) (qu : quantity ti_translation) : Prop :=
  tag_intersection qs (v_tags v) = [q_name qu] /\
  (if is_local rank v then exists n m, accepted (q_name qu) n m qu
   else qu = {| q_name := q_name qu; q_array := remote_array (v_global_shape v);
     q_translation := {| step_input_var := None; accumulated_stage_var := None; stage_output_var := None |} |}).

Lemma scan_output_spec qs l : forall acc acc', scan (scan_output rank vs qs) acc l = Ok acc' ->
  exists ql, snd acc' = snd acc ++ ql /\ Forall2 (made_from qs) l ql /\
    laid_out (fst acc) (map q_array ql) (fst acc').
Proof.
  induction l as [|v l IH]; intros acc acc' H; cbn [scan] in H.
  - injection H as <-; exists []; rewrite app_nil_r; repeat split; constructor.
  - apply bind_ok in H as (a1 & H1 & H2).
    apply IH in H2 as (ql & E1 & F & L); clear IH.
    unfold scan_output in H1; destruct (tag_intersection qs (v_tags v)) as [|q [|q' tl]] eqn:Et; try discriminate.
    destruct (is_local rank v) eqn:Ev.
    + apply bind_ok in H1 as ([m qu] & X & H1); injection H1 as <-; cbn [fst snd] in *.
      pose proof (extract_ti_ok _ _ _ _ X) as Ac.
      exists (qu :: ql); rewrite E1, <- app_assoc; split; [reflexivity|].
      pose proof (ac_name _ _ _ _ Ac) as En.
      destruct (ac_output _ _ _ _ Ac) as (u & sh & _ & _ & -> & (D1 & D2 & D3 & D4 & D5) & _).
      split; [constructor; [|exact F]; split; [congruence|]; rewrite Ev, En; eauto|].
      cbn; rewrite D3, D1; split; [exact D4|]; split; [exact D5|rewrite D5; exact L].
    + injection H1 as <-; cbn [fst snd] in *.
      eexists (_ :: ql); rewrite E1, <- app_assoc; split; [reflexivity|].
      split; [constructor; [|exact F]; split; [exact Et|rewrite Ev; reflexivity]|].
      cbn; split; [auto|exact L].
Qed.

Definition made_from_input (qs : list string) (v : variable) (qu : quantity (option string)) : Prop :=
  tag_intersection qs (v_tags v) = [q_name qu] /\
  (if is_local rank v then exists n m, accepted_ind (q_name qu) n m qu
   else qu = {| q_name := q_name qu; q_array := remote_array (v_global_shape v); q_translation := None |}).

Lemma scan_input_spec qs l : forall acc acc', scan (scan_input rank vs qs) acc l = Ok acc' ->
  exists ql, snd acc' = snd acc ++ ql /\ Forall2 (made_from_input qs) l ql /\
    laid_out (fst acc) (map q_array ql) (fst acc').
Proof.
  induction l as [|v l IH]; intros acc acc' H; cbn [scan] in H.
  - injection H as <-; exists []; rewrite app_nil_r; repeat split; constructor.
  - apply bind_ok in H as (a1 & H1 & H2).
    apply IH in H2 as (ql & E1 & F & L); clear IH.
    unfold scan_input in H1; destruct (tag_intersection qs (v_tags v)) as [|q [|q' tl]] eqn:Et; try discriminate.
    destruct (is_local rank v) eqn:Ev.
    + apply bind_ok in H1 as ([m qu] & X & H1); injection H1 as <-; cbn [fst snd] in *.
      pose proof (extract_ind_ok _ _ _ _ X) as Ac.
      exists (qu :: ql); rewrite E1, <- app_assoc; split; [reflexivity|].
      pose proof (ai_name _ _ _ _ Ac) as En.
      destruct (ai_input _ _ _ _ Ac) as (u & sh & _ & _ & -> & (D1 & D2 & D3 & D4 & D5) & _).
      split; [constructor; [|exact F]; split; [congruence|]; rewrite Ev, En; eauto|].
      cbn; rewrite D3, D1; split; [exact D4|]; split; [exact D5|rewrite D5; exact L].
    + injection H1 as <-; cbn [fst snd] in *.
      eexists (_ :: ql); rewrite E1, <- app_assoc; split; [reflexivity|].
      split; [constructor; [|exact F]; split; [exact Et|rewrite Ev; reflexivity]|].
      cbn; split; [auto|exact L].
Qed.

(** *** One process *)
Lemma process_ok qs is md : process_metadata rank vs qs is = Ok md ->
  Forall2 (made_from qs) (with_tags qs (outputs_of vs)) (time_integration_quantities md) /\
  laid_out 0 (map q_array (time_integration_quantities md)) (time_integration_array_size md) /\
  Forall2 (made_from_input is) (with_tags is (inputs_of vs)) (time_independent_quantities md) /\
  laid_out 0 (map q_array (time_independent_quantities md)) (time_independent_input_size md) /\
  search_for_time_variable rank vs = Ok (time_variable md).
Proof.
  unfold process_metadata; intros H; apply bind_ok in H as (m1 & H1 & H2).
  unfold extract_time_integration_metadata in H1; apply bind_ok in H1 as ([size ql] & S & H1).
  apply bind_ok in H1 as (tv & Tv & H1); injection H1 as <-.
  apply scan_output_spec in S as (ql' & E & F & L); cbn [fst snd app] in *; subst ql'.
  destruct is as [|i is].
  - injection H2 as <-; cbn; repeat split; auto.
    assert (X : with_tags [] (inputs_of vs) = []).
    { clear; unfold with_tags; induction (inputs_of vs) as [|v l IH]; cbn; [reflexivity|].
      replace (existsb _ (v_tags v)) with false; [exact IH|].
      symmetry; induction (v_tags v); cbn; auto. }
    rewrite X; constructor.
  - unfold add_time_independent_input_metadata in H2; apply bind_ok in H2 as ([s2 q2] & S2 & H2).
    injection H2 as <-; cbn [time_variable time_integration_array_size time_independent_input_size
      time_integration_quantities time_independent_quantities] in *.
    apply scan_input_spec in S2 as (ql' & E & F2 & L2); cbn [fst snd app] in *; subst ql'; auto.
Qed.

End One.

(** *** Layouts fill the array *)
Lemma laid_out_le l : forall n m, laid_out n l m -> n <= m.
Proof.
  induction l as [|a l IH]; cbn; intros n m H; [lia|].
  destruct (local a); destruct H as (A & H); [destruct H as (B & H)|]; apply IH in H; lia.
Qed.

Lemma laid_out_fills_from l : forall n m, laid_out n l m ->
  (forall k, n <= k < m -> exists j a, nth_error l j = Some a /\ holds a k) /\
  (forall j a, nth_error l j = Some a -> (local a = true -> n <= start_index a) /\ start_index a <= end_index a <= m) /\
  (forall j j' a a', j < j' -> nth_error l j = Some a -> nth_error l j' = Some a' ->
     local a = true -> local a' = true -> end_index a <= start_index a') /\
  (forall j j' a a' k, nth_error l j = Some a -> nth_error l j' = Some a' -> holds a k -> holds a' k -> j = j').
Proof.
  induction l as [|b l IH]; cbn [laid_out]; intros n m H.
  - subst; split; [intros k; lia|].
    repeat split; intros; try (destruct j; discriminate); destruct j; discriminate.
  - assert (H' : exists n', laid_out n' l m /\ n <= n' /\
        ((local b = true /\ start_index b = n /\ end_index b = n') \/
         (local b = false /\ start_index b = 0 /\ end_index b = 0 /\ n' = n))).
    { destruct (local b).
      - destruct H as (A & B & C); exists (end_index b); split; [exact C|]; split; [lia|auto].
      - destruct H as ((A1 & A2 & _) & C); exists n; auto 10. }
    clear H; destruct H' as (n' & L & Hn & D).
    pose proof (laid_out_le _ _ _ L) as Hm.
    destruct (IH _ _ L) as (A1 & A2 & A3 & A4); clear IH.
    assert (H0 : forall j a, nth_error l j = Some a -> holds a 0 -> False \/ True) by auto.
    assert (Hl : forall j a k, nth_error l j = Some a -> holds a k -> n' <= k).
    { intros j a k Hj [K1 K2]; destruct (A2 _ _ Hj) as [B1 B2].
      destruct (local a) eqn:La; [specialize (B1 eq_refl); lia|].
      assert (Z : forall l n m j a, laid_out n l m -> nth_error l j = Some a -> local a = false -> end_index a = 0).
      { clear; induction l as [|x l IH]; intros n m [|j] a; cbn; try discriminate.
        - intros H [= ->] E; rewrite E in H; apply H.
        - destruct (local x); [intros (_ & _ & H)|intros (_ & H)]; eauto. }
      rewrite (Z _ _ _ _ _ L Hj La) in K2; lia. }
    split; [|split; [|split]].
    + intros k Hk; destruct (Nat.lt_ge_cases k n') as [K|K].
      * exists 0, b; split; [reflexivity|].
        destruct D as [(_ & E1 & E2)|(_ & _ & _ & E)]; [split; lia|lia].
      * destruct (A1 k ltac:(lia)) as (j & a & B & C); exists (S j), a; auto.
    + intros [|j] a Hj; cbn in Hj.
      * injection Hj as <-; destruct D as [(Lb & E1 & E2)|(Lb & E1 & E2 & E3)]; [|rewrite Lb]; rewrite E1, E2; split; try lia; congruence.
      * destruct (A2 _ _ Hj) as [B1 B2]; split; [intros La; specialize (B1 La); lia|exact B2].
    + intros [|j] [|j'] a a' Hlt Hj Hj' La La'; cbn in Hj, Hj'; try lia.
      * injection Hj as <-; destruct D as [(Lb & E1 & E2)|(Lb & _)]; [|congruence].
        destruct (A2 _ _ Hj') as [B1 _]; specialize (B1 La'); lia.
      * apply (A3 j j'); auto; lia.
    + intros [|j] [|j'] a a' k Hj Hj' K K'; cbn in Hj, Hj'; auto.
      * injection Hj as <-; pose proof (Hl _ _ _ Hj' K'); destruct K as [K1 K2].
        destruct D as [(_ & E1 & E2)|(_ & E1 & E2 & _)]; rewrite ?E1, ?E2 in *; lia.
      * injection Hj' as <-; pose proof (Hl _ _ _ Hj K); destruct K' as [K1 K2].
        destruct D as [(_ & E1 & E2)|(_ & E1 & E2 & _)]; rewrite ?E1, ?E2 in *; lia.
      * f_equal; eapply A4; eauto.
Qed.

Lemma laid_out_fills l m : laid_out 0 l m -> fills l m.
Proof.
  intros H; destruct (laid_out_fills_from l 0 m H) as (A1 & A2 & A3 & A4); split; [|split; [|split]]; auto.
  - intros k Hk; apply A1; lia.
  - intros j a Hj; apply (A2 _ _ Hj).
Qed.
