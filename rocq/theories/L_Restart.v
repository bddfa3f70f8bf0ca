(** Lemmas about runs that are stopped and continued. *)
From Coq Require Import List Lia Bool Reals Arith.
From Verif Require Import Base Ext M_Tableau M_State M_ODE M_Step M_Controller M_Measure M_Integrator
  SpecRK SpecShape SpecDeriv SpecRun SpecRestart L_Vec L_Step L_Generic L_Run L_Iter L_Whole L_RunProps.
Import ListNotations.
Local Open Scope nat_scope.

Section Restart.
Context {T : Type} {N : Num T} {C : Type}.
Variable op : options T C.
Notation bt := (o_bt op).
Notation o := (o_ode op).
Notation wft := (wf_ti op).
Notation shape := (shaped (t_stages bt) (state_size o) (independent_input_size o)
                          (independent_output_size o) (linearization_point_size o)).
Hypothesis Ha : o_adaptive op = false.
Hypothesis Hres : result_sizes o.

Lemma wft_ending cr st : wft st -> wf_ti (ending op cr) st.
Proof. intros []; constructor; auto. Qed.
Lemma ending_wft cr st : wf_ti (ending op cr) st -> wft st.
Proof. intros []; constructor; auto. Qed.

(** Two states that fixed steps cannot tell apart; two states that derivative
    steps cannot tell apart. *)
Record fsim (a b : tistate T) : Prop := {
  fs_a : wft a; fs_b : wft b; fs_start : same_start (disc a) (disc b); fs_sugg : suggestion a = suggestion b }.
Definition alike (a b : tistate T) : Prop := disc a = disc b /\ nth 0 (step_hist a) n0 = nth 0 (step_hist b) n0.

Lemma fsim_refl a : wft a -> fsim a a.
Proof. intros W; constructor; auto; constructor; auto. Qed.
Lemma fsim_sym a b : fsim a b -> fsim b a.
Proof. intros [A B [S1 S2 S3] D]; constructor; auto; constructor; auto. Qed.
Lemma fsim_trans a b c : fsim a b -> fsim b c -> fsim a c.
Proof. intros [A B [S1 S2 S3] D] [A' B' [S1' S2' S3'] D']; constructor; auto; [constructor|]; congruence. Qed.
Lemma alike_sym a b : alike a b -> alike b a.
Proof. intros [A B]; split; auto. Qed.

Lemma fiterate cr1 cr2 fuel c1 c2 a b c1' a' : fsim a b ->
  iterate_on_step (ending op cr1) fuel c1 a = (c1', a', Ok tt) ->
  exists b', iterate_on_step (ending op cr2) fuel c2 b = (c2, b', Ok tt) /\ c1' = c1 /\ alike a' b' /\ fsim a' b'.
Proof.
  intros F H. pose proof (ending_wft _ _ (iterate_wf (ending op cr1) Hres _ _ _ _ _ _ (wft_ending cr1 _ (fs_a _ _ F)) H)) as Wa'.
  destruct fuel as [|fuel]; cbn [iterate_on_step] in *; [discriminate|].
  cbn [o_adaptive ending o_bt o_ode] in *. rewrite Ha in *. destruct F as [Wa Wb Ss Su].
  rewrite (compute_step_independent bt o (disc a) (disc b)) in H;
      [|apply Wa|apply Wb|exact Ss|rewrite (wt_emb _ _ Wa), (wt_emb _ _ Wb); reflexivity].
  rewrite Su in H.
  destruct (compute_step bt o (disc b) (suggestion b)) as [tmp|e] eqn:E1; [|discriminate].
  injection H as <- <-. eexists. split; [reflexivity|]. split; [reflexivity|].
  assert (Er : rk_set (disc a) tmp = rk_set (disc b) tmp)
    by (unfold rk_set; rewrite (wt_emb _ _ Wa), (wt_emb _ _ Wb); reflexivity).
  split.
  - split; [exact Er|]. change (nth 0 (upd 0 (suggestion b) (step_hist a)) n0 = nth 0 (upd 0 (suggestion b) (step_hist b)) n0).
    rewrite !nth_upd_same by (first [rewrite (wt_sh _ _ Wa); lia|rewrite (wt_sh _ _ Wb); lia]). reflexivity.
  - constructor; [exact Wa'| |rewrite <- Er; constructor; reflexivity|reflexivity].
    constructor; cbn [disc step_hist err_hist]; [|exact (wt_emb _ _ Wb)|rewrite length_upd; exact (wt_sh _ _ Wb)|exact (wt_eh _ _ Wb)].
    rewrite <- Er. exact (wt_shape _ _ Wa').
Qed.

Lemma fchain cr1 cr2 j : forall it c1 a l c1' a', chain (ending op cr1) it c1 a l c1' a' ->
  (forall k x y, final_time (disc x) = final_time (disc y) ->
     is_iteration_finished cr2 (j + k) y = is_iteration_finished cr1 k x) ->
  forall c2 b, fsim a b ->
  exists l2 b', chain (ending op cr2) (j + it) c2 b l2 c2 b' /\ Forall2 alike l l2 /\ fsim a' b'.
Proof.
  induction 1 as [it c a F|it c a c1 a1 l c' a' F I _ IH]; intros HF c2 b Hs; cbn [o_crit ending] in F.
  - exists [], b. split; [|split; [constructor|exact Hs]]. constructor. cbn [o_crit ending].
    rewrite (HF it a b) by apply Hs. exact F.
  - destruct (fiterate cr1 cr2 _ _ c2 a b _ _ Hs I) as (b1 & Ib & -> & Al & Hs1).
    destruct (IH HF c2 b1 Hs1) as (l2 & b' & Hc & Hl & Hs'). exists (b1 :: l2), b'.
    rewrite Nat.add_succ_r in Hc. split; [|split; [constructor; assumption|exact Hs']].
    econstructor; [|exact Ib|exact Hc]. cbn [o_crit ending]. rewrite (HF it a b) by apply Hs. exact F.
Qed.

Section Split.
Variables (crA crB cr : criterion T) (P : nat -> Prop).
Hypothesis Pstep : forall it x, P it -> is_iteration_finished crA it x = false -> P (S it).
Hypothesis Before : forall it x y, final_time (disc x) = final_time (disc y) ->
  is_iteration_finished crA it x = false -> is_iteration_finished cr it y = false.
Hypothesis After : forall it z, P it -> is_iteration_finished crA it z = true ->
  forall k x y, final_time (disc x) = final_time (disc y) -> is_iteration_finished cr (it + k) y = is_iteration_finished crB k x.

Lemma fjoin it cA a l1 cA' a1 : chain (ending op crA) it cA a l1 cA' a1 -> P it ->
  forall b cB l2 cB' b2 cX a2, fsim a1 b -> chain (ending op crB) 0 cB b l2 cB' b2 -> fsim a a2 ->
  exists l b', chain (ending op cr) it cX a2 l cX b' /\ Forall2 alike (l1 ++ l2) l /\ fsim b2 b'.
Proof.
  induction 1 as [it c a F|it c a c1 a1 l c' a' F I _ IH]; intros HP b cB l2 cB' b2 cX a2 H1 H2 H3; cbn [o_crit ending] in F.
  - destruct (fchain crB cr it 0 cB b l2 cB' b2 H2 (After it a HP F) cX a2) as (l & b' & Hc & Hl & Hs).
    { exact (fsim_trans _ _ _ (fsim_sym _ _ H1) H3). }
    rewrite Nat.add_0_r in Hc. exists l, b'. auto.
  - destruct (fiterate crA cr _ _ cX a a2 _ _ H3 I) as (x & Ix & -> & Al & Hx).
    destruct (IH (Pstep it a HP F) b cB l2 cB' b2 cX x H1 H2 Hx) as (l3 & b' & Hc & Hl & Hs).
    exists (x :: l3), b'. split; [|split; [constructor; assumption|exact Hs]].
    econstructor; [|exact Ix|exact Hc]. cbn [o_crit ending]. exact (Before it a a2 (ss_time _ _ (fs_start _ _ H3)) F).
Qed.

Lemma ftail it a aA l c c' a' : chain (ending op cr) it c a l c' a' -> P it -> fsim a aA -> is_iteration_finished crA it aA = true ->
    forall b cB, fsim aA b -> exists l2 b2, chain (ending op crB) 0 cB b l2 cB b2 /\ Forall2 alike l2 l /\ fsim b2 a'.
Proof.
  rename it into j. intros H HP HA F b cB Hb. pose proof (After j aA HP F) as R.
    revert b cB Hb. set (k := 0). assert (Hk : j + k = j) by (unfold k; lia). rewrite <- Hk in H. clearbody k.
    remember (j + k) as j' eqn:Ej. clear HP F Hk. revert k aA Ej HA.
    induction H as [it c a F|it c a c1 a1 l c' a' F I _ IH]; intros k aA -> HA b cB Hb; cbn [o_crit ending] in F.
    - exists [], b. split; [|split; [constructor|]].
      + constructor. cbn [o_crit ending]. rewrite <- (R k b a); [exact F|].
        rewrite (ss_time _ _ (fs_start _ _ HA)). symmetry. apply Hb.
      + apply fsim_sym. exact (fsim_trans _ _ _ HA Hb).
    - destruct (fiterate cr crB _ _ cB a b _ _ (fsim_trans _ _ _ HA Hb) I) as (x & Ix & -> & Al & Hx).
      destruct (IH (S k) a1 ltac:(lia) (fsim_refl _ (fs_a _ _ Hx)) x cB Hx)
        as (l2 & b2 & Hc & Hl & Hs).
      exists (x :: l2), b2. split; [|split; [constructor; [exact (alike_sym _ _ Al)|exact Hl]|exact Hs]].
      econstructor; [|exact Ix|exact Hc]. cbn [o_crit ending]. rewrite <- (R k b a); [exact F|].
      rewrite (ss_time _ _ (fs_start _ _ HA)). symmetry. apply Hb.
Qed.

Lemma fsplit it c a l c' a' : chain (ending op cr) it c a l c' a' -> P it ->
  forall cA aA, fsim a aA -> exists l1 a1, chain (ending op crA) it cA aA l1 cA a1 /\ wft a1 /\
  forall b cB, fsim a1 b -> exists l2 b2, chain (ending op crB) 0 cB b l2 cB b2 /\ Forall2 alike (l1 ++ l2) l /\ fsim b2 a'.
Proof.
  induction 1 as [it c a F|it c a c1 a1 l c' a' F I Hc IH]; intros HP cA aA HA.
  - destruct (is_iteration_finished crA it aA) eqn:FA.
    + exists [], aA. split; [constructor; exact FA|]. split; [apply HA|]. intros b cB Hb.
      exact (ftail it a aA [] c c a (chain_end _ _ _ _ F) HP HA FA b cB Hb).
    + exfalso. cbn [o_crit ending] in F. rewrite (Before it aA a) in F; [discriminate| |exact FA].
      symmetry. apply HA.
  - destruct (is_iteration_finished crA it aA) eqn:FA.
    + exists [], aA. split; [constructor; exact FA|]. split; [apply HA|]. intros b cB Hb.
      exact (ftail it a aA (a1 :: l) c c' a' (chain_step _ _ _ _ _ _ _ _ _ F I Hc) HP HA FA b cB Hb).
    + destruct (fiterate cr crA _ _ cA a aA _ _ HA I) as (x & Ix & -> & Al & Hx).
      destruct (IH (Pstep it aA HP FA) cA x Hx) as (l1 & x1 & Hc1 & W1 & Rest).
      exists (x :: l1), x1. split; [econstructor; [exact FA|exact Ix|exact Hc1]|]. split; [exact W1|].
      intros b cB Hb. destruct (Rest b cB Hb) as (l2 & b2 & K1 & K2 & K3). exists l2, b2. split; [exact K1|].
      split; [cbn; constructor; [exact (alike_sym _ _ Al)|exact K2]|exact K3].
Qed.
End Split.
End Restart.
