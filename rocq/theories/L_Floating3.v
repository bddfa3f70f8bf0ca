(** One step in arithmetic with rounding errors. *)
From Coq Require Import List Reals Lia Lra Psatz Bool Arith.
From Verif Require Import Base Ext M_Tableau M_State M_ODE M_Step SpecRK SpecShape SpecTree SpecOrder SpecConvergence SpecSmooth SpecLocal SpecFloating
  L_Convergence L_Series L_Series2 L_OrderConv L_Local L_Local2 L_Vec L_Step L_Generic L_StepT L_Floating L_Floating2.
Import ListNotations.
Open Scope R_scope.

Lemma Forall_regular {T} (N : Num T) (P : T -> Prop) n l : length l = n -> (forall m, (m < n)%nat -> P (nth m l n0)) -> Forall P l.
Proof.
  intros <- H; apply Forall_forall; intros x Hx.
  apply (In_nth _ _ n0) in Hx; destruct Hx as (m & Hm & <-); apply H, Hm.
Qed.

Section RoundedStep.
Variables (n p : nat) (f : R -> list R -> list R) (X : box) (L rho : R).
Hypothesis Hp : (0 < p)%nat.
Hypothesis HL0 : 0 <= L.
Hypothesis HL : lipschitz_in n X L f.
Hypothesis Hrho : 0 < rho <= 1.
Variables (t0 t1 : R) (Y : R -> list R).
Hypothesis Ht : t0 <= t1.
Hypothesis HY : solution n f t0 t1 Y.
Hypothesis HT : forall t, t0 <= t <= t1 -> inside n X (3 * rho) t (Y t).
Hypothesis Hsm : smooth_close rho n p f t0 t1 Y.
Variables (s : nat) (a : nat -> nat -> R) (b c : nat -> R) (eps nu : R).
Hypothesis Hord : order_conditions s a b p eps.
Hypothesis Hrow : row_conditions s a c nu.
Hypothesis Hnu : 0 <= nu.
Hypothesis Hup : forall i j, (i < j < s)%nat -> a i j = 0.

Lemma rounded_step : exists C H E, 0 <= C /\ 0 < H <= 1 /\ 1 <= E /\
  forall T (N : Num T) value regular u big, rounded N value regular u big -> 0 <= u <= 1 -> E <= big ->
  forall (bt : tableau T) (o : ode T) ni xi, tableau_wf bt -> holds_values value regular u bt s a b c ->
  state_size o = n -> result_sizes o ->
  forall st h st' t e tol Hs D,
  shaped (t_stages bt) n ni (independent_output_size o) (linearization_point_size o) st ->
  compute_step bt o st h = Ok st' -> independent_inputs st = xi ->
  Forall regular (final_state st) -> regular (final_time st) -> regular h ->
  t0 <= t -> 0 < value h <= H -> value h <= Hs -> t + value h <= t1 ->
  0 <= e <= rho -> within n e (map value (final_state st)) (Y t) ->
  0 <= tol <= 1 -> 0 <= D -> Rabs (value (final_time st) - t) <= D -> D + u * E <= rho / 2 ->
  (forall k, (k < s)%nat -> nearly_solves_rounded value regular o n f xi X rho Hs tol (entry (t_A bt) k k)) ->
  Forall regular (final_state st') /\ regular (final_time st') /\
  Rabs (value (final_time st') - (t + value h)) <= D + u * E /\
  within n (e + value h * (C * (value h ^ p + e + nu + eps + tol + (D + u * E) + u * E)) + u * E)
    (map value (final_state st')) (Y (t + value h)).
Proof.
  destruct (perturbed_step n p f X L rho Hp HL0 HL Hrho t0 t1 Y Ht HY HT Hsm s a b c eps nu Hord Hrow Hnu Hup)
    as (C & H & M & C0 & HH & HM & HC).
  destruct (family_max s s a) as (Wa' & Wa0' & Wa1' & _).
  destruct (family_max 1 s (fun _ i => b i)) as (Wb' & Wb0' & Wb1' & _).
  destruct (family_max 1 s (fun _ i => c i)) as (Cb' & Cb0' & Cb1' & _).
  set (Wa := Wa' + 1); set (Wb := Wb' + 1); set (Cb := Cb' + 1).
  assert (Wa0 : 0 <= Wa) by (unfold Wa; lra); assert (Wb0 : 0 <= Wb) by (unfold Wb; lra); assert (Cb0 : 0 <= Cb) by (unfold Cb; lra).
  destruct (family_max 1 n (fun _ m => Rabs (low X m) + Rabs (high X m))) as (Yb & Yb0 & Yb1 & _).
  set (Tb := Rabs t0 + Rabs t1 + 1).
  assert (Tb0 : 0 <= Tb) by (unfold Tb; pose proof (Rabs_pos t0); pose proof (Rabs_pos t1); lra).
  assert (Pg : 0 <= M * Wa) by (apply Rmult_le_pos; lra).
  pose proof (growth_pos (M * Wa) s Pg) as Pg1.
  assert (Pse : 0 <= step_error s M Wb Yb).
  { unfold step_error.
    assert (0 <= M * (1 + 2 * Wb)) by (apply Rmult_le_pos; lra).
    pose proof (growth_pos (M * (1 + 2 * Wb)) s H0).
    assert (0 <= INR s * (M * (1 + 2 * Wb))) by (apply Rmult_le_pos; [apply pos_INR|assumption]).
    assert (0 <= INR s * (M * (1 + Wb))) by (apply Rmult_le_pos; [apply pos_INR|apply Rmult_le_pos; lra]). cbv zeta; lra. }
  assert (Pte : 4 <= time_error Tb Cb) by (unfold time_error; lra).
  set (E := step_error s M Wb Yb + growth (M * Wa) s + time_error Tb Cb + 1 + (4 + Tb) + INR s * M + M).
  assert (PsM : 0 <= INR s * M) by (apply Rmult_le_pos; [apply pos_INR|lra]).
  assert (E1 : step_error s M Wb Yb + INR s * M <= E /\ growth (M * Wa) s + INR s * M <= E /\ time_error Tb Cb + 1 <= E /\ 4 + Tb <= E /\ M <= E) by (unfold E; lra).
  clearbody E.
  exists C, H, E; split; [exact C0|]; split; [exact HH|]; split; [lra|].
  intros T N value regular u big Hr Hu HB bt o ni xi Hbt Hv Hn Hsz st h st' t e tol Hs D Hsh Ecs Hxi Rf Rt Rh Q0 Hh HhH Q1 He W Htol HD0 HD HDE Hsol.
  destruct Hv as [Hst HvA Hvb Hvc].
  destruct E1 as (E1 & E2 & E3 & E4 & E5).
  assert (BA : forall i j, (i < s)%nat -> (j < s)%nat -> Rabs (value (entry (t_A bt) i j)) <= Wa).
  { intros i j Hi Hj; pose proof (abs_near _ _ _ (proj2 (HvA i j Hi Hj))); pose proof (Wa1' i j Hi Hj); unfold Wa; lra. }
  assert (BB : forall i, (i < s)%nat -> Rabs (value (nth i (t_b bt) n0)) <= Wb).
  { intros i Hi; pose proof (abs_near _ _ _ (proj2 (Hvb i Hi))); pose proof (Wb1' 0%nat i ltac:(lia) Hi); unfold Wb; lra. }
  assert (BC : forall i, (i < s)%nat -> Rabs (value (nth i (t_c bt) n0)) <= Cb).
  { intros i Hi; pose proof (abs_near _ _ _ (proj2 (Hvc i Hi))); pose proof (Cb1' 0%nat i ltac:(lia) Hi); unfold Cb; lra. }
  assert (Sums : forall j (w w' : nat -> R) x, (j <= s)%nat -> (forall i, (i < j)%nat -> Rabs (w i - w' i) <= u) ->
    (forall i, (i < j)%nat -> Rabs (x i) <= M) ->
    Rabs (rsum j (fun i => w i * x i) - rsum j (fun i => w' i * x i)) <= u * (INR s * M)).
  { intros j w w' x Hj Hw Hx.
    apply Rle_trans with (u * (INR j * M)).
    - clear Hj; induction j as [|j IHj]; cbn [rsum]; [rewrite Rminus_eq_0, Rabs_R0; cbn; lra|].
      match goal with |- Rabs (?p + ?q - (?r + ?t)) <= _ => replace (p + q - (r + t)) with ((p - r) + (w j - w' j) * x j) by ring end.
      rewrite S_INR; replace (u * ((INR j + 1) * M)) with (u * (INR j * M) + u * M) by ring.
      eapply Rle_trans; [apply Rabs_triang|]; apply Rplus_le_compat; [apply IHj; intros; [apply Hw|apply Hx]; lia|].
      apply abs_mul_le; [apply Hw|apply Hx]; lia.
    - apply Rmult_le_compat_l; [lra|]; apply Rmult_le_compat_r; [lra|]; apply le_INR, Hj. }
  assert (uE : forall x, x <= E -> u * x <= u * E) by (intros; apply Rmult_le_compat_l; lra).
  assert (uE0 : 0 <= u * E) by (apply Rmult_le_pos; lra).
  pose proof (compute_step_facts bt o n ni _ _ Hn eq_refl eq_refl Hsz st h st' Hsh Ecs) as F.
  destruct F as [[Hshape Hy Hpp Htt Hh' Htimes Hstage] Ffin Ftime _ _].
  pose proof (sh_su _ _ _ _ _ _ Hshape) as Hsu; pose proof (sh_sur _ _ _ _ _ _ Hshape) as Hsur.
  pose proof (sh_final _ _ _ _ _ _ Hsh) as Hfs.
  assert (V : forall m l, vnth m (map value l) = value (nth m l n0)).
  { intros m l; unfold vnth; rewrite <- (proj2 (rd_zero _ _ _ _ _ Hr)); apply map_nth. }
  set (ups := stage_updates st') in *.
  set (k := fun i => map value (nth i ups [])).
  assert (Lu : forall i, (i < s)%nat -> length (nth i ups []) = n).
  { intros i Hi; apply (Forall_nth_lt (fun r => length r = n)); [exact Hsur|rewrite Hsu, Hst; exact Hi]. }
  assert (Bt : Rabs (value (final_time st)) <= Tb).
  { pose proof (abs_near _ _ _ HD) as A; assert (Rabs t <= Rabs t0 + Rabs t1).
    { unfold Rabs; destruct (Rcase_abs t), (Rcase_abs t0), (Rcase_abs t1); lra. }
    unfold Tb; lra. }
  assert (By : forall m, (m < n)%nat -> Rabs (value (nth m (final_state st) n0)) <= Yb).
  { intros m Hm; pose proof (W m Hm) as A; rewrite V in A.
    destruct (HT t ltac:(lra)) as [_ I2]; specialize (I2 m Hm).
    pose proof (Yb1 0%nat m ltac:(lia) Hm) as B1; cbv beta in B1.
    rewrite Rabs_pos_eq in B1 by (pose proof (Rabs_pos (low X m)); pose proof (Rabs_pos (high X m)); lra).
    apply Rabs_le_inv in A.
    assert (low X m <= value (nth m (final_state st) n0) <= high X m) by lra.
    revert B1 H0; unfold Rabs; destruct (Rcase_abs (low X m)), (Rcase_abs (high X m)), (Rcase_abs (value _)); lra. }
  assert (Lacc : forall i, (i < s)%nat -> length (accumulate_stages bt i ups) = n).
  { intros i Hi. unfold accumulate_stages.
    replace (length (nth 0 ups [])) with n by (symmetry; apply Lu; lia).
    destruct i; [apply glen_vzeros|apply glen_einsum, Forall_firstn, Hsur]. }
  destruct (HC t (value h) (map value (final_state st)) e tol (D + u * E) (u * E) k
    (fun i => map value (accumulate_stages bt i ups))
    (fun i => value (nadd (final_time st) (nmul h (nth i (t_c bt) n0))))
    (fun i => value (entry (t_A bt) i i))
    (fun i => Forall regular (nth i ups []))) as [Hall Hend]; auto; try lra.
  { rewrite map_length; exact Hfs. }
  { intros i Hi; apply Rle_trans with (u * M); [apply Rmult_le_compat_r; [lra|apply HvA; exact Hi]|apply uE; lra]. }
  { intros i Hi Hprev.
    destruct (Hvc i Hi) as [Rc Vc].
    destruct (time_near value regular u big Hr Hu (final_time st) h (nth i (t_c bt) n0) Tb Cb Tb0 Cb0 Rt Rh Rc) as [Tr Te]; auto; try lra.
    split; [|split].
    - replace (value (nadd (final_time st) (nmul h (nth i (t_c bt) n0))) - (t + c i * value h)) with
        ((value (nadd (final_time st) (nmul h (nth i (t_c bt) n0))) - (value (final_time st) + value (nth i (t_c bt) n0) * value h)) + ((value (final_time st) - t) + (value (nth i (t_c bt) n0) - c i) * value h))
        by ring.
      eapply Rle_trans; [apply Rabs_triang|].
      pose proof (Rabs_triang (value (final_time st) - t) ((value (nth i (t_c bt) n0) - c i) * value h)).
      assert (Rabs ((value (nth i (t_c bt) n0) - c i) * value h) <= u * 1) by (apply abs_mul_le; [exact Vc|rewrite Rabs_pos_eq; lra]).
      pose proof (uE _ E3); lra.
    - intros m Hm; rewrite V, vnth_vmake by exact Hm.
      destruct (stages_entry bt n i m ups Hbt ltac:(lia) Hm Hsu Hsur) as [_ ->].
      destruct (tsum_near value regular u big Hr Hu M Wa (fun j => nth m (nth j ups []) n0) (fun j => entry (t_A bt) i j) i) as (S1 & S2 & S3); auto; try lra.
      + intros j Hj; destruct (Hprev j Hj) as [G1 G2]; split.
        * apply (Forall_nth_lt regular); [exact G1|rewrite Lu by lia; exact Hm].
        * pose proof (G2 m Hm) as G3; unfold k in G3; rewrite V in G3; exact G3.
      + intros j Hj; destruct (HvA i j Hi ltac:(lia)) as [A1 A2]; split; [exact A1|]; apply BA; lia.
      + pose proof (growth_mono (M * Wa) i s Pg ltac:(lia)); lra.
      + cbv beta in S2.
        rewrite (L_Vec.rsum_ext i (fun j => a i j * vnth m (k j)) (fun j => a i j * value (nth m (nth j ups []) n0)))
          by (intros j Hj; unfold k; rewrite V; reflexivity).
        pose proof (Sums i (fun j => value (entry (t_A bt) i j)) (a i) (fun j => value (nth m (nth j ups []) n0)) ltac:(lia)
          (fun j Hj => proj2 (HvA i j Hi ltac:(lia)))
          (fun j Hj => ltac:(pose proof (proj2 (Hprev j Hj) m Hm) as G3; unfold k in G3; rewrite V in G3; exact G3))) as S4; cbv beta in S4.
        match goal with |- Rabs (?x - ?y) <= _ => match type of S4 with Rabs (?z - _) <= _ => replace (x - y) with ((x - z) + (z - y)) by ring end end.
        eapply Rle_trans; [apply Rabs_triang|].
        pose proof (uE _ E2) as U; pose proof (growth_mono (M * Wa) i s Pg ltac:(lia)) as U2.
        assert (u * growth (M * Wa) i <= u * growth (M * Wa) s) by (apply Rmult_le_compat_l; lra); lra.
    - intros Hin0 Hin.
      pose proof (Hstage i ltac:(lia)) as Es.
      assert (Racc : Forall regular (accumulate_stages bt i ups)).
      { apply (Forall_regular N regular n); [apply Lacc, Hi|]; intros m Hm.
        destruct (stages_entry bt n i m ups Hbt ltac:(lia) Hm Hsu Hsur) as [_ ->].
        destruct (tsum_near value regular u big Hr Hu M Wa (fun j => nth m (nth j ups []) n0) (fun j => entry (t_A bt) i j) i) as (S1 & _); auto; try lra.
        + intros j Hj; destruct (Hprev j Hj) as [G1 G2]; split.
          * apply (Forall_nth_lt regular); [exact G1|rewrite Lu by lia; exact Hm].
          * pose proof (G2 m Hm) as G3; unfold k in G3; rewrite V in G3; exact G3.
        + intros j Hj; destruct (HvA i j Hi ltac:(lia)) as [A1 A2]; split; [exact A1|]; apply BA; lia.
        + pose proof (growth_mono (M * Wa) i s Pg ltac:(lia)); lra. }
      epose proof (fun P1 P2 P3 P4 P5 P6 P7 P8 P9 P10 => Hsol i Hi _ _ _ _ P1 P2 P3 P4 P5 P6 P7 P8 P9 P10 Es) as G.
      cbv zeta in G; cbn [M_ODE.step_input M_ODE.stage_input M_ODE.independent_input M_ODE.time stage_update] in G.
      unfold known_part, stage_value, in_values in G; cbn [M_ODE.step_input M_ODE.stage_input M_ODE.independent_input M_ODE.time] in G.
      apply G; auto; try lra. }
  assert (Hk : forall m, (m < n)%nat -> forall i, (i < s)%nat -> regular (nth m (nth i ups []) n0) /\ Rabs (value (nth m (nth i ups []) n0)) <= M).
  { intros m Hm i Hi; destruct (Hall i Hi) as [G1 G2]; split.
    - apply (Forall_nth_lt regular); [exact G1|rewrite Lu by exact Hi; exact Hm].
    - pose proof (G2 m Hm) as G3; unfold k in G3; rewrite V in G3; exact G3. }
  assert (Hb : forall i, (i < s)%nat -> regular (nth i (t_b bt) n0) /\ Rabs (value (nth i (t_b bt) n0)) <= Wb).
  { intros i Hi; destruct (Hvb i Hi) as [A1 A2]; split; [exact A1|]; apply BB, Hi. }
  assert (Fe : forall m, (m < n)%nat -> regular (nth m (final_state st') n0) /\
    Rabs (value (nth m (final_state st') n0) - (value (nth m (final_state st) n0) + value h * rsum s (fun i => b i * vnth m (k i)))) <= u * E).
  { intros m Hm; rewrite Ffin, (step_entry bt n m) by auto; rewrite Hst.
    destruct (step_near value regular u big Hr Hu s M Wb Yb (nth m (final_state st) n0) h (fun i => nth m (nth i ups []) n0) (fun i => nth i (t_b bt) n0))
      as [S1 S2]; auto; try lra.
    - apply (Forall_nth_lt regular); [exact Rf|rewrite Hfs; exact Hm].
    - split; [exact S1|]; cbv beta in S2.
      rewrite (L_Vec.rsum_ext s (fun i => b i * vnth m (k i)) (fun i => b i * value (nth m (nth i ups []) n0)))
        by (intros i Hi; unfold k; rewrite V; reflexivity).
      pose proof (Sums s (fun i => value (nth i (t_b bt) n0)) b (fun i => value (nth m (nth i ups []) n0)) (le_n _)
        (fun i Hi => proj2 (Hvb i Hi)) (fun i Hi => proj2 (Hk m Hm i Hi))) as S4; cbv beta in S4.
      match goal with |- Rabs (?x - (?y + ?h' * ?r)) <= _ => match type of S4 with Rabs (?z - _) <= _ =>
        replace (x - (y + h' * r)) with ((x - (y + h' * z)) + h' * (z - r)) by ring end end.
      eapply Rle_trans; [apply Rabs_triang|].
      match goal with |- _ + Rabs (?x * ?y) <= _ => assert (Rabs (x * y) <= 1 * (u * (INR s * M))) by (apply abs_mul_le; [rewrite Rabs_pos_eq; lra|exact S4]) end.
      pose proof (uE _ E1); lra. }
  destruct (end_near value regular u big Hr Hu (final_time st) h Tb Tb0 Rt Rh ltac:(lra) Bt ltac:(lra)) as [Er Ee].
  split; [|split; [|split]].
  - apply (Forall_regular N regular n); [apply (sh_final _ _ _ _ _ _ Hshape)|]; intros m Hm; apply Fe, Hm.
  - rewrite Ftime; exact Er.
  - rewrite Ftime.
    replace (value (nadd (final_time st) h) - (t + value h)) with
      ((value (nadd (final_time st) h) - (value (final_time st) + value h)) + (value (final_time st) - t)) by ring.
    eapply Rle_trans; [apply Rabs_triang|]; pose proof (uE _ E4); lra.
  - apply Hend; intros m Hm; rewrite V, vnth_vmake by exact Hm; rewrite V; apply Fe, Hm.
Qed.
End RoundedStep.
