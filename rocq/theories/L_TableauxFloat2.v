(** The shipped tableaux in floating point: all of them, runs with them, and a
    power function as it is asked for. *)
From Coq Require Import String.
From Coq Require Import ZArith QArith Qreals Reals SpecFloat List Lia Lra Psatz Bool.
From Verif Require Import Base Ext M_Tableau M_Tableaux M_TableauxInit M_TableauxFloat M_State M_ODE M_Step M_Integrator SpecRK SpecShape SpecRun SpecRevolve SpecTree SpecOrder SpecNodes
  SpecConvergence SpecSmooth SpecLocal SpecFloating SpecTableauxFloat L_Vec L_Tableau L_Float L_OrderCheck L_Order L_Floating5
  L_TableauxFloatCheck L_TableauxFloat.
Import ListNotations.
Local Open Scope nat_scope.
Local Open Scope R_scope.

Lemma float_complete : map fst float_precision = all_tableaux.
Proof. reflexivity. Qed.

Lemma float_precision_sound x k e eh : In (x, (k, (e, eh))) float_precision -> exists t th, check_float x k e eh t th = true.
Proof.
  intros H. pose proof all_checked_float as G. rewrite forallb_forall in G.
  assert (L : length float_precision = length missed) by reflexivity.
  destruct (In_nth _ _ (x, (k, (e, eh))) H) as (i & Hi & E).
  destruct (nth i missed (Node [], Node [])) as [t th] eqn:Em. exists t, th.
  apply (G ((x, (k, (e, eh))), (t, th))).
  rewrite <- E, <- Em, <- combine_nth by exact L. apply nth_In. rewrite combine_length. lia.
Qed.

Lemma in_precision x q : In (x, q) float_precision -> exists e eh, In (x, (e, eh)) precision.
Proof.
  intros H. assert (I : In x (map fst precision)).
  { rewrite shipped_complete, <- float_complete. apply (in_map fst) in H. exact H. }
  apply in_map_iff in I. destruct I as ([y [e eh]] & <- & I). eauto.
Qed.

Lemma float_tableaux prec emax pow x k e eh : (53 <= prec < emax)%Z -> faithful_power prec emax pow ->
  In (x, (k, (e, eh))) float_precision ->
  let N := binary prec emax in let fin := float_finite prec emax in let dl := IZR (Zpos k) * powerRZ 2 (- prec) in
  exists bt bf, shipped_init x = Ok (bt, []) /\ shipped_init_float prec emax pow x = Ok (bf, []) /\
    tableau_wf bf /\
    holds_values float_value fin dl bf (t_stages bt) (entry (t_A bt)) (fun i => vnth i (t_b bt)) (fun i => vnth i (t_c bt)) /\
    t_p bf = t_p bt /\ t_name bf = t_name bt /\
    is_explicit bf = is_explicit bt /\ is_diagonally_implicit bf = is_diagonally_implicit bt /\ is_implicit bf = is_implicit bt /\
    computed_order bf (t_b bf) (s_p x) (Q2R (roundings e)) /\
    match t_hat bt, t_hat bf with
    | None, None => True
    | Some (h, p), Some (hf, pf) => pf = p /\
        (forall i, (i < t_stages bt)%nat -> fin (nth i hf n0) /\ Rabs (float_value (nth i hf n0) - vnth i h) <= dl) /\
        (forall q, p = Some q -> computed_order bf hf q (Q2R (roundings eh)))
    | _, _ => False
    end.
Proof.
  intros Hf HP HI N fin dl. destruct (in_precision _ _ HI) as (e' & eh' & HI').
  destruct (shipped_constructed _ _ _ HI') as (bt & E & W & Hs & _ & Ep & En & EA & Eb & Ec & Eh).
  destruct (float_precision_sound _ _ _ _ HI) as (t & th & HC).
  destruct (float_shipped prec emax ltac:(lia) ltac:(lia) pow x k e eh t th HP HC bt E W Hs Ep En EA Eb Ec Eh) as (bf & R).
  exists bt, bf. split; [exact E|]. exact R.
Qed.

(** Runs with a computed tableau. *)
Lemma float_runs x k e eh q qh nu (bt : tableau R) n f X L rho t0 t1 Y :
  In (x, (k, (q, qh))) float_precision -> In (x, (e, eh)) precision -> In (x, nu) node_precision -> shipped_init x = Ok (bt, []) ->
  0 <= L -> lipschitz_in n X L f -> 0 < rho <= 1 -> t0 <= t1 -> solution n f t0 t1 Y ->
  (forall t, t0 <= t <= t1 -> inside n X (3 * rho) t (Y t)) -> smooth_close rho n (s_p x) f t0 t1 Y ->
  exists K H, 1 <= K /\ 0 < H /\
  forall prec emax pow, (53 <= prec < emax)%Z -> K <= powerRZ 2 (emax - 1) -> faithful_power prec emax pow ->
  let N := binary prec emax in let value := float_value in let regular := float_finite prec emax in let u := powerRZ 2 (- prec) in
  forall A (op : options spec_float A) z w i w' out d M tol,
  shipped_init_float prec emax pow x = Ok (o_bt op, []) ->
  state_size (o_ode op) = n -> sized_ode (o_ode op) -> loops op -> reachable op z w ->
  o_adaptive op = false -> o_crit op = PredefinedNumberOfSteps M ->
  let h := value (o_step op) in
  regular (o_step op) -> 0 < h <= H -> t0 + INR M * h <= t1 ->
  inputs_sized (o_ode op) i -> Forall regular (initial i) -> regular (time_initial i) -> value (time_initial i) = t0 ->
  0 <= d -> within n d (map value (initial i)) (Y t0) -> 0 <= tol ->
  (forall j, (j < t_stages bt)%nat ->
     nearly_solves_rounded value regular (o_ode op) n f (independent i) X rho h tol (entry (t_A (o_bt op)) j j)) ->
  K * (d + h ^ s_p x + Q2R nu + Q2R e + tol + (1 + IZR (Zpos k)) * u / h) <= rho ->
  compute op i w = (w', Ok out) ->
  Forall regular (final out) /\ regular (time_final out) /\
  Rabs (value (time_final out) - (t0 + INR M * h)) <= K * ((1 + IZR (Zpos k)) * u / h) /\
  within n (K * (d + h ^ s_p x + Q2R nu + Q2R e + tol + (1 + IZR (Zpos k)) * u / h)) (map value (final out)) (Y (t0 + INR M * h)).
Proof.
  intros HI Hx Hn Hi HL0 HL Hrho Ht HY HT Hsm.
  destruct (rounded_shipped x e eh nu bt n f X L rho t0 t1 Y Hx Hn Hi HL0 HL Hrho Ht HY HT Hsm) as (K & H & K0 & H0 & HK).
  exists K, H. split; [exact K0|]. split; [exact H0|]. intros prec emax pow Hf HB HP N value regular u A op z w i w' out d M tol Hop Hn' Hsz Hl Hr Had Hcr h Hh Hh' HM Hin R1 R2 R3 Hd Hd' Htol Hsol HR Hc.
  destruct (float_tableaux prec emax pow x k q qh Hf HP HI) as (bt' & bf & E1 & E2 & W & HV & _).
  rewrite Hi in E1. injection E1 as <-. rewrite Hop in E2. injection E2 as <-.
  assert (U : u + IZR (Zpos k) * u = (1 + IZR (Zpos k)) * u) by ring.
  assert (U0 : 0 < u) by apply pw_pos. assert (K1 : 0 < IZR (Zpos k)) by (apply IZR_lt; lia).
  specialize (HK prec emax ltac:(lia) HB A op z w i w' out d (IZR (Zpos k) * u) M tol W HV). cbv zeta in HK. fold u in HK. rewrite U in HK.
  apply HK; auto; [nra|].
  assert (Kb : (Zpos k <= 2000000)%Z).
  { assert (G : Forall (fun y => (Zpos (fst (snd y)) <= 2000000)%Z) float_precision) by (repeat constructor; cbn; lia).
    rewrite Forall_forall in G. apply (G _ HI). }
  apply IZR_le in Kb. assert (u <= / 9007199254740992) by (apply (u_small prec); lia). nra.
Qed.

(** A correctly rounded power. *)
Definition rounded_power (prec emax : Z) (x : spec_float) (n : nat) : spec_float :=
  match x with
  | S754_finite s m e => binary_normalize prec emax ((if s then Zneg m else Zpos m) ^ Z.of_nat n) (e * Z.of_nat n) false
  | S754_zero _ => match n with O => binary_normalize prec emax 1 0 false | _ => S754_zero false end
  | _ => S754_nan
  end.
Lemma pw_pow e n : pw (e * Z.of_nat n) = pw e ^ n.
Proof.
  induction n as [|n IH]; [rewrite Z.mul_0_r; reflexivity|]. rewrite Nat2Z.inj_succ, Z.mul_succ_r, Z.add_comm, pw_add, IH. reflexivity.
Qed.
Lemma rounded_power_faithful prec emax : (2 <= prec < emax)%Z -> faithful_power prec emax (rounded_power prec emax).
Proof.
  intros Hf x n F B. assert (Pu : 0 < pw (- prec)) by apply pw_pos.
  assert (W : forall y z, Rabs y <= pw (- prec) * (1 + Rabs z) -> Rabs y <= 8 * (pw (- prec) * (1 + Rabs z))).
  { intros y z G. pose proof (Rabs_pos z). assert (0 <= pw (- prec) * (1 + Rabs z)) by (apply Rmult_le_pos; lra). lra. }
  destruct x as [s|s| |s m e]; try contradiction; cbn [rounded_power float_value] in *.
  - destruct n as [|n].
    + pose proof (normalize_spec prec emax ltac:(lia) ltac:(lia) 1 0) as S. cbv zeta in S.
      assert (E : IZR 1 * pw 0 = 0 ^ 0) by (cbn; ring). rewrite E in S. destruct (S B) as [G V]. split; [exact G|]. apply W, V.
    + split; [exact I|]. cbn [float_value pow]. rewrite Rmult_0_l, Rminus_0_r, Rabs_R0. lra.
  - set (z := if s then Zneg m else Zpos m) in *.
    pose proof (normalize_spec prec emax ltac:(lia) ltac:(lia) (z ^ Z.of_nat n) (e * Z.of_nat n)) as S. cbv zeta in S.
    assert (E : IZR (z ^ Z.of_nat n) * pw (e * Z.of_nat n) = (IZR z * pw e) ^ n) by (rewrite Rpow_mult_distr, pw_pow, pow_IZR; reflexivity).
    rewrite E in S. destruct (S B) as [G V]. split; [exact G|]. apply W, V.
Qed.

Lemma float_coefficients prec emax pow x k e eh : (53 <= prec < emax)%Z -> faithful_power prec emax pow -> In (x, (k, (e, eh))) float_precision ->
  let N := binary prec emax in let fin := float_finite prec emax in let dl := IZR (Zpos k) * powerRZ 2 (- prec) in
  exists bt bf, shipped_init x = Ok (bt, []) /\ shipped_init_float prec emax pow x = Ok (bf, []) /\
    tableau_wf bf /\
    holds_values float_value fin dl bf (t_stages bt) (entry (t_A bt)) (fun i => vnth i (t_b bt)) (fun i => vnth i (t_c bt)) /\
    t_p bf = t_p bt /\ t_name bf = t_name bt /\
    is_explicit bf = is_explicit bt /\ is_diagonally_implicit bf = is_diagonally_implicit bt /\ is_implicit bf = is_implicit bt /\
    match t_hat bt, t_hat bf with
    | None, None => True
    | Some (h, p), Some (hf, pf) => pf = p /\
        forall i, (i < t_stages bt)%nat -> fin (nth i hf n0) /\ Rabs (float_value (nth i hf n0) - vnth i h) <= dl
    | _, _ => False
    end.
Proof.
  intros Hf HP HI N fin dl. destruct (float_tableaux prec emax pow x k e eh Hf HP HI) as (bt & bf & E1 & E2 & W & HV & Q1 & Q2 & Q3 & Q4 & Q5 & _ & Hh).
  exists bt, bf. do 9 (split; [assumption|]).
  destruct (t_hat bt) as [[h p]|], (t_hat bf) as [[hf pf]|]; try exact Hh. destruct Hh as (H1 & H2 & _). split; assumption.
Qed.
Lemma float_order prec emax pow x k e eh : (53 <= prec < emax)%Z -> faithful_power prec emax pow ->
  In (x, (k, (e, eh))) float_precision -> let N := binary prec emax in
  exists bf, shipped_init_float prec emax pow x = Ok (bf, []) /\ t_p bf = Some (s_p x) /\
    computed_order bf (t_b bf) (s_p x) (Q2R (roundings e)) /\
    (forall bh ph, s_hat x = Some (bh, ph) ->
       exists hf, t_hat bf = Some (hf, Some ph) /\ computed_order bf hf ph (Q2R (roundings eh))).
Proof.
  intros Hf HP HI N. destruct (float_tableaux prec emax pow x k e eh Hf HP HI) as (bt & bf & E1 & E2 & W & HV & Q1 & Q2 & Q3 & Q4 & Q5 & O & Hh).
  destruct (in_precision _ _ HI) as (e' & eh' & HI').
  destruct (shipped_constructed _ _ _ HI') as (bt' & E & _ & _ & _ & Ep & _ & _ & _ & _ & Eh). rewrite E1 in E. injection E as <-.
  exists bf. split; [exact E2|]. split; [congruence|]. split; [exact O|]. intros bh ph Es. rewrite Es in Eh. rewrite Eh in Hh.
  destruct (t_hat bf) as [[hf pf]|]; [|contradiction]. destruct Hh as (-> & _ & H). exists hf. split; [reflexivity|]. apply H. reflexivity.
Qed.
