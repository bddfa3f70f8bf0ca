(** The error of runs with a method of order [p]. *)
From Coq Require Import List Reals Lia Lra Bool Arith QArith Qreals.
From Verif Require Import Base Ext M_Tableau M_State M_ODE M_Step M_Controller M_Measure M_Integrator M_Tableaux M_TableauxInit
  SpecRK SpecShape SpecRun SpecRevolve SpecTree SpecOrder SpecNodes SpecConvergence SpecSmooth
  L_Tableau L_StepProps L_Run L_RunProps L_Convergence L_RunConvergence L_Order L_Rows L_Series L_OrderConv.
Import ListNotations.
Open Scope nat_scope.
Open Scope R_scope.

Notation weights bt := (fun k => vnth k (t_b bt)).
Notation nodes bt := (fun k => vnth k (t_c bt)).

(** Without dependence on time the nodes do not matter. *)
Lemma rk_steps_nodes s n a b c c' f : (forall t t' y, f t y = f t' y) ->
  forall hs t y z, rk_steps s n a b c f t y hs z -> rk_steps s n a b c' f t y hs z.
Proof.
  intros Ha; induction hs as [|h hs IH]; intros t y z H; [exact H|].
  destruct H as (k & y1 & [H1 H2] & H3); exists k, y1; split; [split; [|exact H2]|apply IH, H3].
  intros i Hi; rewrite (H1 i Hi); apply Ha.
Qed.

Section Order.
Variables (bt : tableau R) (o : ode R) (f : R -> list R -> list R -> list R) (p : nat) (eps nu L t0 t1 : R) (xi : list R) (Y : R -> list R).
Notation size := (state_size o).
Notation g := (fun t y => f t xi y).
Hypothesis Hbt : tableau_wf bt.
Hypothesis Himp : is_implicit bt = false.
Hypothesis Hs : sized_ode o.
Hypothesis Hf : solves_stage_equation o size f.
Hypothesis Hp : (0 < p)%nat.
Hypothesis Hord : order_conditions (t_stages bt) (entry (t_A bt)) (weights bt) p eps.
Hypothesis Hrow : 0 <= nu /\ row_conditions (t_stages bt) (entry (t_A bt)) (nodes bt) nu \/
                  nu = 0 /\ forall t t' y, g t y = g t' y.
Hypothesis HL0 : 0 <= L.
Hypothesis HL : lipschitz size L g.
Hypothesis HY : solution size g t0 t1 Y.
Hypothesis Hsm : smooth_along size p g t0 t1 Y.

Lemma steps_order : exists K H, 0 <= K /\ 0 < H /\
  forall hs hm y z e, t0 + covered hs <= t1 -> Forall (fun h => 0 < h <= hm) hs -> 0 <= hm <= H ->
  length y = size -> 0 <= e -> within size e y (Y t0) ->
  rk_steps (t_stages bt) size (entry (t_A bt)) (weights bt) (nodes bt) g t0 y hs z ->
  within size (K * (e + hm ^ p + nu + eps)) z (Y (t0 + covered hs)).
Proof.
  destruct Hsm as (D & B & HB & HD).
  destruct Hrow as [[Hnu HR]|[En HA]].
  - destruct (order_steps size p g L Hp HL0 HL t0 t1 Y HY D B HB HD _ _ _ _ eps nu Hord HR Hnu) as (K & H & K0 & H0 & HK).
    exists K, H; split; [exact K0|]; split; [exact H0|]; intros; eapply HK; eauto; lra.
  - assert (HR : row_conditions (t_stages bt) (entry (t_A bt)) (fun i => rsum (t_stages bt) (entry (t_A bt) i)) 0).
    { intros i _; rewrite Rminus_eq_0, Rabs_R0; lra. }
    destruct (order_steps size p g L Hp HL0 HL t0 t1 Y HY D B HB HD _ _ _ _ eps 0 Hord HR (Rle_refl 0)) as (K & H & K0 & H0 & HK).
    exists K, H; split; [exact K0|]; split; [exact H0|]; intros; rewrite En; eapply HK; eauto; [lra|].
    eapply rk_steps_nodes; eauto.
Qed.

Lemma run_order : exists K H, 0 <= K /\ 0 < H /\
  forall C (op : options R C) c w i w' out d, o_bt op = bt -> o_ode op = o -> loops op -> reachable op c w ->
  inputs_sized o i -> independent i = xi -> time_initial i = t0 ->
  0 <= d -> within size d (initial i) (Y t0) ->
  compute op i w = (w', Ok out) -> time_final out <= t1 ->
  exists a l, starts_at op i a /\ trajectory op a l /\
    log w' = (log w ++ bracketed Compute (length (o_callbacks op Compute)) 1 a l)%list /\
    forall hm, Forall (fun x => 0 < step_size (disc x) <= hm) l -> 0 <= hm <= H ->
    within size (K * (d + hm ^ p + nu + eps)) (final out) (Y (time_final out)).
Proof.
  destruct steps_order as (K & H & K0 & H0 & HK); exists K, H; split; [exact K0|]; split; [exact H0|].
  intros C op c w i w' out d Ebt Eo Lo HR Hi Ei Et Hd W E Ht.
  destruct (run_steps op f ltac:(rewrite Ebt; exact Hbt) ltac:(rewrite Ebt; exact Himp) ltac:(rewrite Eo; exact Hs)
    ltac:(rewrite Eo; exact Hf) c w i w' out Lo HR ltac:(rewrite Eo; exact Hi) E) as (a & l & A1 & A2 & _ & A4 & A5 & A6 & _).
  exists a, l; split; [exact A1|]; split; [exact A2|]; split; [exact A4|]; intros hm HF Hm.
  rewrite Ebt, Eo, Ei, Et in A5; rewrite Et in A6; rewrite A6 in Ht |- *.
  apply (HK _ hm (initial i)); auto.
  - clear -HF; induction HF; constructor; auto.
  - apply Hi.
Qed.

(** [n] steps of the same size to the end. *)
Lemma fixed_order : t0 < t1 -> exists K N, 0 <= K /\ forall n, (N <= n)%nat ->
  forall C (op : options R C) c w i w' out, o_bt op = bt -> o_ode op = o -> o_adaptive op = false -> loops op ->
  o_crit op = PredefinedNumberOfSteps n -> o_step op = (t1 - t0) / INR n ->
  reachable op c w -> inputs_sized o i -> independent i = xi -> time_initial i = t0 -> initial i = Y t0 ->
  compute op i w = (w', Ok out) ->
  time_final out = t1 /\ within size (K * (((t1 - t0) / INR n) ^ p + nu + eps)) (final out) (Y t1).
Proof.
  intros H01; destruct steps_order as (K & H & K0 & H0 & HK).
  destruct (archimed ((t1 - t0) / H)) as [Ar _].
  exists K, (S (Z.to_nat (up ((t1 - t0) / H)))); split; [exact K0|].
  intros n Hn C op c w i w' out Ebt Eo Hfix Lo Hcrit Hstep HR Hi Ei Et E0 E.
  assert (Pos : 0 < (t1 - t0) / H) by (apply Rdiv_lt_0_compat; lra).
  assert (Hup : (0 < up ((t1 - t0) / H))%Z) by (apply lt_IZR; lra).
  assert (HIN : (t1 - t0) / H < INR n).
  { eapply Rlt_trans; [exact Ar|]; rewrite <- (Z2Nat.id (up _)) at 1 by lia; rewrite <- INR_IZR_INZ; apply lt_INR; lia. }
  assert (Hn0 : 0 < INR n) by lra.
  assert (Hh : 0 < o_step op <= H).
  { rewrite Hstep; split; [apply Rdiv_lt_0_compat; lra|].
    apply Rmult_le_reg_r with (INR n); [exact Hn0|].
    replace ((t1 - t0) / INR n * INR n) with (t1 - t0) by (field; lra).
    apply Rmult_lt_compat_r with (r := H) in HIN; [|lra].
    replace ((t1 - t0) / H * H) with (t1 - t0) in HIN by (field; lra); lra. }
  assert (Tf : time_final out = t1).
  { pose proof (fixed_count op n c w i w' out) as F; rewrite Eo in F.
    destruct (F Hs Hfix Lo Hcrit HR Hi E) as (T1 & _); rewrite T1, Hstep, Et; field; lra. }
  split; [exact Tf|].
  assert (W0 : within size 0 (initial i) (Y t0)).
  { intros m _; rewrite E0, Rminus_eq_0, Rabs_R0; lra. }
  destruct (run_steps op f ltac:(rewrite Ebt; exact Hbt) ltac:(rewrite Ebt; exact Himp) ltac:(rewrite Eo; exact Hs)
    ltac:(rewrite Eo; exact Hf) c w i w' out Lo HR ltac:(rewrite Eo; exact Hi) E) as (a & l & A1 & A2 & _ & A4 & A5 & A6 & A7).
  rewrite Ebt, Eo, Ei, Et in A5; rewrite Et in A6; specialize (A7 Hfix).
  rewrite <- Hstep, <- (Rplus_0_l (o_step op ^ p)), <- Tf, A6.
  apply (HK _ (o_step op) (initial i)); auto; [lra| |lra|apply Hi|lra].
  rewrite A7; apply repeat_Forall; lra.
Qed.
End Order.

(** The shipped tableaux. *)
Lemma shipped_fixed_order x e eh nu bt o f L t0 t1 xi Y :
  In (x, (e, eh)) precision -> In (x, nu) node_precision -> shipped_init x = Ok (bt, []) ->
  sized_ode o -> solves_stage_equation o (state_size o) f ->
  0 <= L -> lipschitz (state_size o) L (fun t y => f t xi y) -> t0 < t1 ->
  solution (state_size o) (fun t y => f t xi y) t0 t1 Y ->
  smooth_along (state_size o) (s_p x) (fun t y => f t xi y) t0 t1 Y ->
  exists K N, 0 <= K /\ forall n, (N <= n)%nat ->
  forall C (op : options R C) c w i w' out, o_bt op = bt -> o_ode op = o -> o_adaptive op = false -> loops op ->
  o_crit op = PredefinedNumberOfSteps n -> o_step op = (t1 - t0) / INR n ->
  reachable op c w -> inputs_sized o i -> independent i = xi -> time_initial i = t0 -> initial i = Y t0 ->
  compute op i w = (w', Ok out) ->
  time_final out = t1 /\ within (state_size o) (K * (((t1 - t0) / INR n) ^ s_p x + Q2R nu + Q2R e)) (final out) (Y t1).
Proof.
  intros Hx Hn Hi Hs Hf HL0 HL Ht HY Hsm.
  destruct (shipped_constructed x e eh Hx) as (bt' & E & W & Hst & Himp & Hp & _).
  rewrite Hi in E; injection E as <-.
  destruct (shipped_order x e eh bt [] Hx Hi) as [Ho _].
  pose proof (shipped_rows x e eh nu bt [] Hx Hn Hi) as Hr.
  assert (Pp : (0 < s_p x)%nat).
  { pose proof shipped_complete as G.
    assert (J : In x all_tableaux) by (rewrite <- G; apply in_map_iff; exists (x, (e, eh)); auto).
    revert J; clear; unfold all_tableaux; cbn; intuition (subst; cbn; lia). }
  apply (fixed_order bt o f (s_p x) (Q2R e) (Q2R nu) L t0 t1 xi Y); auto.
Qed.

(** *** The estimate of the error *)
Lemma conditions_fewer s a b p q e : (q <= p)%nat -> order_conditions s a b p e -> order_conditions s a b q e.
Proof. intros H G t Ht; apply G; lia. Qed.
Lemma smooth_fewer n p q f t0 t1 Y : (q <= p)%nat -> smooth_along n p f t0 t1 Y -> smooth_along n q f t0 t1 Y.
Proof.
  intros H (D & B & HB & HD); exists D, B; split; [exact HB|]; intros t Ht; destruct (HD t Ht) as [X1 X2 X3].
  constructor; [exact X1| |]; intros; [apply X2|apply X3]; auto; lia.
Qed.

Lemma estimate_order bt o f bh ph eps eps' nu p L t0 t1 xi Y ni :
  tableau_wf bt -> is_implicit bt = false -> result_sizes o -> solves_stage_equation o (state_size o) f ->
  t_hat bt = Some (bh, ph) -> (0 < p)%nat ->
  order_conditions (t_stages bt) (entry (t_A bt)) (weights bt) p eps ->
  order_conditions (t_stages bt) (entry (t_A bt)) (fun k => vnth k bh) p eps' ->
  0 <= nu -> row_conditions (t_stages bt) (entry (t_A bt)) (nodes bt) nu ->
  0 <= L -> lipschitz (state_size o) L (fun t y => f t xi y) ->
  solution (state_size o) (fun t y => f t xi y) t0 t1 Y ->
  smooth_along (state_size o) p (fun t y => f t xi y) t0 t1 Y ->
  exists K H, 0 <= K /\ 0 < H /\ forall s h s' d,
  shaped (t_stages bt) (state_size o) ni (independent_output_size o) (linearization_point_size o) s ->
  independent_inputs s = xi -> t0 <= final_time s <= t1 -> 0 < h <= H ->
  0 <= d -> within (state_size o) d (final_state s) (Y (final_time s)) ->
  compute_step bt o s h = Ok s' ->
  exists eb err, embedded s' = Some (eb, err) /\
    forall m, (m < state_size o)%nat -> Rabs (vnth m err) <= h * (K * (h ^ p + d + nu + (eps + eps'))).
Proof.
  intros Hbt Himp Hres Hf Hh Hp Ho Ho' Hnu Hr HL0 HL HY (D & B & HB & HD).
  destruct (estimate_step (state_size o) p (fun t y => f t xi y) L Hp HL0 HL t0 t1 Y HY D B HB HD _ _ (weights bt) (nodes bt) eps nu Ho Hr Hnu _ eps' Ho')
    as (K & H & K0 & H0 & HK).
  exists K, H; split; [exact K0|]; split; [apply H0|].
  intros s h s' d Sh Ei Ht Hs Hd W E.
  destruct (error_estimate_formula bt o _ ni _ _ s h s' _ _ Hbt eq_refl eq_refl eq_refl Hres Hh Sh E)
    as (eb & err & Ee & _ & _ & _ & F).
  exists eb, err; split; [exact Ee|]; intros m Hm; rewrite F.
  destruct (c01 bt o f ni s h s' Hbt Hres Himp Hf Sh E) as (R & _); rewrite Ei in R.
  apply (HK _ _ _ _ _ d Ht Hs (sh_final _ _ _ _ _ _ Sh) R Hd W m Hm).
Qed.

Lemma shipped_estimate_order x e eh nu bt bh ph o f L t0 t1 xi Y ni :
  In (x, (e, eh)) precision -> In (x, nu) node_precision -> shipped_init x = Ok (bt, []) -> s_hat x = Some (bh, ph) ->
  result_sizes o -> solves_stage_equation o (state_size o) f ->
  0 <= L -> lipschitz (state_size o) L (fun t y => f t xi y) ->
  solution (state_size o) (fun t y => f t xi y) t0 t1 Y ->
  let p := Nat.min (s_p x) ph in
  smooth_along (state_size o) p (fun t y => f t xi y) t0 t1 Y ->
  exists K H, 0 <= K /\ 0 < H /\ forall s h s' d,
  shaped (t_stages bt) (state_size o) ni (independent_output_size o) (linearization_point_size o) s ->
  independent_inputs s = xi -> t0 <= final_time s <= t1 -> 0 < h <= H ->
  0 <= d -> within (state_size o) d (final_state s) (Y (final_time s)) ->
  compute_step bt o s h = Ok s' ->
  exists eb err, embedded s' = Some (eb, err) /\
    forall m, (m < state_size o)%nat -> Rabs (vnth m err) <= h * (K * (h ^ p + d + Q2R nu + (Q2R e + Q2R eh))).
Proof.
  intros Hx Hn Hi Eh Hres Hf HL0 HL HY p Hsm.
  destruct (shipped_constructed x e eh Hx) as (bt' & E & W & Hst & Himp & Hp & _ & _ & _ & _ & Hh).
  rewrite Hi in E; injection E as <-; rewrite Eh in Hh.
  destruct (shipped_order x e eh bt [] Hx Hi) as [Ho Ho'].
  specialize (Ho' _ _ _ Eh Hh); cbn [fst] in Ho'.
  destruct (shipped_rows x e eh nu bt [] Hx Hn Hi) as [Hnu Hr].
  assert (Pp : (0 < p)%nat).
  { assert (J : In x all_tableaux) by (rewrite <- shipped_complete; apply in_map_iff; exists (x, (e, eh)); auto).
    unfold p; revert J Eh; clear; unfold all_tableaux; cbn; intros J Eh.
    repeat (destruct J as [<-|J]; [cbn in *; try discriminate; injection Eh as _ <-; lia|]); destruct J. }
  assert (Q1 : (p <= s_p x)%nat) by (unfold p; lia).
  assert (Q2 : (p <= ph)%nat) by (unfold p; lia).
  exact (estimate_order bt o f _ _ _ _ _ p L t0 t1 xi Y ni W Himp Hres Hf Hh Pp
    (conditions_fewer _ _ _ _ _ _ Q1 Ho) (conditions_fewer _ _ _ _ _ _ Q2 Ho') Hnu Hr HL0 HL HY Hsm).
Qed.

Lemma shipped_all : map fst precision = all_tableaux /\ map fst node_precision = all_tableaux /\
  forall x e eh, In (x, (e, eh)) precision -> exists bt, shipped_init x = Ok (bt, []).
Proof.
  split; [exact shipped_complete|]; split; [reflexivity|].
  intros x e eh H; destruct (shipped_constructed x e eh H) as (bt & E & _); exists bt; exact E.
Qed.
