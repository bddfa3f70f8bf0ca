(** Proofs about the controller catalogue: dead-beat, monotonicity, fixed
    point, pseudo controller; error measures. *)
From Coq Require Import List Reals Lra Lia Bool QArith.
From Verif Require Import Base Ext M_State M_ODE M_Controller M_Measure SpecControl L_Control.
Import ListNotations.
Open Scope R_scope.

Lemma call_plain_cut cfg x q d st c' :
  xle (lower_bound cfg) (upper_bound cfg) -> delta_t q = Fin d ->
  remaining_time q <> NInf -> remaining_time q <> NaN ->
  ctl_call cfg (mk_plain x) q = (c', Ok st) ->
  error_measure q <> Fin 0 -> estimate_next_step cfg x q <> NaN ->
  is_cut (lower_bound cfg) (upper_bound cfg) (time_limit q (acceptance st))
         (estimate_next_step cfg x q) (step_size_suggestion st).
Proof.
  intros Hlh Hd Hr Hr' H He Hn.
  cbn [ctl_call mk_plain] in H.
  destruct (_ && _) in H; [discriminate|]; injection H as _ <-.
  rewrite acceptance_base_run. unfold base_run; cbn [step_size_suggestion].
  rewrite (run_limit q d _ Hd Hr).
  assert (neqb (error_measure q) n0 = false) as ->.
  { change (xeqb (error_measure q) (Fin 0) = false).
    destruct (xeqb (error_measure q) (Fin 0)) eqn:E; [|reflexivity].
    apply xeqb_iff in E as [E _]; contradiction. }
  cbn [negb]. apply cut_is_cut; auto.
  unfold time_limit; rewrite Hd; destruct (remaining_time q); congruence.
Qed.

Lemma ln_Rpower x y : ln (Rpower x y) = y * ln x.
Proof. unfold Rpower; apply ln_exp. Qed.

Lemma Rpower_pos x y : 0 < Rpower x y.
Proof. apply exp_pos. Qed.

Lemma ln_div x y : 0 < x -> 0 < y -> ln (x / y) = ln x - ln y.
Proof. intros; unfold Rdiv; rewrite ln_mult, ln_Rinv; try lra; auto using Rinv_0_lt_compat. Qed.

(** The formula under an error model [C * h^q]. *)
Lemma step_formula_deadbeat kappa eps al be ga a b C q h h1 h2 :
  0 < eps -> 0 < C -> 0 < h -> 0 < h1 -> 0 < h2 -> 0 < q ->
  q * al = 1 + a -> q * be = a - b -> q * ga = - b ->
  step_formula kappa eps al be ga a b (C * Rpower h q) (C * Rpower h1 q) (C * Rpower h2 q) h h1 h2
  = kappa * Rpower (eps / C) (1 / q).
Proof.
  intros He HC Hh H1 H2 Hq Ea Eb Eg.
  unfold step_formula.
  assert (Hp : forall x, 0 < C * Rpower x q) by (intros; apply Rmult_lt_0_compat; auto; apply Rpower_pos).
  unfold Rpower at 1 3 5 7 8 9.
  rewrite !ln_div by auto.
  rewrite !ln_mult by (auto; apply Rpower_pos).
  rewrite !ln_Rpower.
  replace (kappa * h) with (kappa * exp (ln h)) by (rewrite exp_ln; auto).
  rewrite !(Rmult_assoc kappa), <- !exp_plus.
  f_equal. f_equal.
  assert (al = (1 + a) / q) as -> by (rewrite <- Ea; field; lra).
  assert (be = (a - b) / q) as -> by (rewrite <- Eb; field; lra).
  assert (ga = - b / q) as -> by (rewrite <- Eg; field; lra).
  field; lra.
Qed.

Ltac ext_lits p :=
  rewrite ?lit_ext; rewrite ?Fin_mul, ?Fin_add, ?Fin_sub; rewrite ?Fin_div by lra.

Lemma deadbeat_coeffs ctl qf p : deadbeat ctl qf -> 0 < p ->
  exists al be ga a b,
    ctl p = {| x_alpha := Fin al; x_beta := Fin be; x_gamma := Fin ga; x_a := Fin a; x_b := Fin b |} /\
    0 < qf p /\ qf p * al = 1 + a /\ qf p * be = a - b /\ qf p * ga = - b.
Proof.
  intros D Hp; destruct D;
    unfold h0_110, h0_211, h0_220, pc, h0_312, h0_330, integral, zero_x; ext_lits p;
    repeat eexists; try lra; field; lra.
Qed.

Lemma c21 ctl qf p C h h1 h2 rem cfg eps kappa c' st :
  deadbeat ctl qf -> 0 < p -> 0 < C -> 0 < h -> 0 < h1 -> 0 < h2 ->
  rem <> NaN -> rem <> NInf -> sane cfg eps kappa ->
  ctl_call cfg (mk_plain (ctl p))
    (power_law_args C (qf p) h h1 h2 rem) = (c', Ok st) ->
  is_cut (lower_bound cfg) (upper_bound cfg)
    (time_limit (power_law_args C (qf p) h h1 h2 rem) (acceptance st))
    (Fin (kappa * Rpower (eps / C) (1 / qf p))) (step_size_suggestion st).
Proof.
  intros D Hp HC Hh H1 H2 Hr Hr' [E1 E2 E3 E4 E5] H.
  destruct (deadbeat_coeffs ctl qf p D Hp) as (al & be & ga & a & b & E & Hq & A1 & A2 & A3).
  assert (Hpos : forall x, 0 < C * Rpower x (qf p))
    by (intros; apply Rmult_lt_0_compat; auto; apply Rpower_pos).
  pose proof (Hpos h) as P0. pose proof (Hpos h1) as P1. pose proof (Hpos h2) as P2.
  destruct cfg as [tl lo hi sf mi]; cbn in E1, E3, E5; subst tl sf.
  pose proof (estimate_fin kappa eps lo hi mi al be ga a b _ h rem _ _ h1 h2 E2 P0 Hh P1 P2 H1 H2) as F.
  rewrite step_formula_deadbeat in F by auto.
  rewrite E in H. fold (power_law_args C (qf p) h h1 h2 rem) in F.
  eapply call_plain_cut in H; cbn [delta_t remaining_time error_measure lower_bound upper_bound];
    try reflexivity; auto.
  - rewrite F in H. cbn [lower_bound upper_bound] in H |- *. exact H.
  - intros X; injection X as X; lra.
  - rewrite F; discriminate.
Qed.

(** [h0_321] is not dead-beat. *)
Lemma c21_refuted : exists p C h h1 h2 cfg eps kappa rem c' st,
  0 < p /\ 0 < C /\ 0 < h /\ 0 < h1 /\ 0 < h2 /\ sane cfg eps kappa /\
  ctl_call cfg (mk_plain (h0_321 (Fin p)))
    (power_law_args C p h h1 h2 rem) = (c', Ok st) /\
  ~ is_cut (lower_bound cfg) (upper_bound cfg)
    (time_limit (power_law_args C p h h1 h2 rem) (acceptance st))
    (Fin (kappa * Rpower (eps / C) (1 / p))) (step_size_suggestion st).
Proof.
  (* p = 1, C = 1, tolerance 2, h = h1 = h2 = 1: suggestion 2^(1/3+1/2-3/4) = 2^(1/12), not 2 *)
  set (cfg := {| tol := Fin 2; lower_bound := Fin 0; upper_bound := PInf;
                 safety_factor := Fin 1; max_iter := 5 |}).
  set (q := power_law_args 1 1 1 1 1 PInf).
  assert (Hacc : run_success cfg q = true).
  { apply run_success_iff; left; cbn. rewrite Rpower_1 by lra. lra. }
  exists 1, 1, 1, 1, 1, cfg, 2, 1, PInf, (mk_plain (h0_321 (Fin 1))), (base_run cfg (h0_321 (Fin 1)) q).
  do 5 (split; [lra|]).
  split. { constructor; cbn; auto; lra. }
  split. { cbn [ctl_call mk_plain]. fold q. rewrite acceptance_base_run, Hacc; reflexivity. }
  rewrite acceptance_base_run, Hacc.
  assert (E : step_size_suggestion (base_run cfg (h0_321 (Fin 1)) q) = Fin (Rpower 2 (1 / 12))).
  { unfold base_run; rewrite Hacc; cbn [step_size_suggestion].
    change (neqb (error_measure q) n0) with (Reqb (1 * Rpower 1 1) 0).
    rewrite Rpower_1 by lra. rewrite Reqb_neq by lra. cbn [negb].
    assert (F : estimate_next_step cfg (h0_321 (Fin 1)) q = Fin (Rpower 2 (1 / 12))).
    { unfold h0_321; ext_lits p. unfold cfg, q, power_law_args.
      rewrite estimate_fin by (try lra; rewrite Rpower_1; lra).
      unfold step_formula; rewrite Rpower_1 by lra. f_equal.
      replace (2 / (1 * 1)) with 2 by lra. replace (1 * 1 / 2) with (/ 2) by lra.
      replace (1 / 1) with 1 by lra.
      unfold Rpower; rewrite ln_1, ln_Rinv by lra.
      rewrite !Rmult_0_r, exp_0, !Rmult_1_r, Rmult_1_l, <- !exp_plus. f_equal. field. }
    rewrite F.
    assert (G : 0 < Rpower 2 (1 / 12)) by apply Rpower_pos.
    cbn [cfg lower_bound upper_bound q remaining_time delta_t].
    change (pymin PInf (Fin (Rpower 2 (1 / 12)))) with (Fin (Rpower 2 (1 / 12))).
    unfold pymax; change (nltb (Fin 0) (Fin (Rpower 2 (1 / 12)))) with (Rltb 0 (Rpower 2 (1 / 12))).
    rewrite Rltb_true by exact G. reflexivity. }
  rewrite E. intros (_ & _ & _ & H & _).
  specialize (H).
  assert (X : Fin (Rpower 2 (1 / 12)) = Fin (1 * Rpower (2 / 1) (1 / 1))).
  { apply H; cbn; auto. pose proof (Rpower_pos (2 / 1) (1 / 1)); lra. }
  injection X as X. replace (2 / 1) with 2 in X by lra. replace (1 / 1) with 1 in X by lra.
  rewrite Rpower_1, Rmult_1_l in X by lra.
  assert (Rpower 2 (1 / 12) < Rpower 2 1) by (apply Rpower_lt; lra).
  rewrite Rpower_1 in H0 by lra. lra.
Qed.

(** How the estimate depends on the error. *)
Lemma estimate_shape cfg eps kappa x al be ga a b q e h e1 e2 h1 h2 :
  sane cfg eps kappa -> positive_args q e h e1 e2 h1 h2 ->
  x = {| x_alpha := Fin al; x_beta := Fin be; x_gamma := Fin ga; x_a := Fin a; x_b := Fin b |} ->
  exists K, 0 < K /\ forall e', 0 < e' ->
    estimate_next_step cfg x (with_error e' q) = Fin (K * Rpower (eps / e') al).
Proof.
  intros [S1 S2 S3 S4 S5] [Q1 Q2 Q3 Q4 Q5 Q6 Q7 Q8 Q9 Q10 Q11 Q12] ->.
  destruct cfg as [tl lo hi sf mi]; cbn in S1, S3; subst tl sf.
  destruct q as [em dt rm eh sh]; cbn in Q1, Q3, Q5, Q8; subst em dt eh sh.
  pose proof (Rmult_lt_0_compat _ _ S4 Q4) as P0.
  pose proof (Rpower_pos (e1 / eps) be) as P1. pose proof (Rpower_pos (eps / e2) ga) as P2.
  pose proof (Rpower_pos (h / h1) a) as P3. pose proof (Rpower_pos (h1 / h2) b) as P4.
  unfold with_error; cbn [delta_t remaining_time error_history step_size_history].
  destruct (Req_EM_T h1 0) as [-> |N1].
  - exists (kappa * h * Rpower (e1 / eps) be * Rpower (eps / e2) ga).
    split; [repeat apply Rmult_lt_0_compat; assumption|].
    intros e' He'. rewrite estimate_fin_first by assumption. f_equal; ring.
  - destruct (Req_EM_T h2 0) as [-> |N2].
    + exists (kappa * h * Rpower (e1 / eps) be * Rpower (eps / e2) ga * Rpower (h / h1) a).
      split; [repeat apply Rmult_lt_0_compat; assumption|].
      intros e' He'. unfold estimate_next_step.
      cbn [nth error_history step_size_history delta_t safety_factor tol error_measure
           x_alpha x_beta x_gamma x_a x_b].
      change (neqb (Fin h1) n0) with (Reqb h1 0). change (neqb (Fin 0) n0) with (Reqb 0 0).
      rewrite (Reqb_neq h1 0) by lra. rewrite Reqb_refl. cbn [negb].
      rewrite !Fin_div by lra.
      rewrite !Fin_pow by (apply Rdiv_lt_0_compat; lra).
      rewrite !Fin_mul; f_equal; ring.
    + exists (kappa * h * Rpower (e1 / eps) be * Rpower (eps / e2) ga * Rpower (h / h1) a * Rpower (h1 / h2) b).
      split; [repeat apply Rmult_lt_0_compat; assumption|].
      intros e' He'. rewrite estimate_fin by lra. unfold step_formula. f_equal; ring.
Qed.

Lemma catalogue_coeffs p x : 0 < p -> In x (catalogue (Fin p)) ->
  exists al be ga a b, 0 <= al /\
    x = {| x_alpha := Fin al; x_beta := Fin be; x_gamma := Fin ga; x_a := Fin a; x_b := Fin b |}.
Proof.
  intros Hp H; cbn [catalogue In] in H.
  repeat (destruct H as [<- |H]; [|]); try contradiction;
    unfold pseudo, integral, h0_110, h_211, h0_211, pc, h0_220, pc, pid, h_312, h0_312, ppid,
      h_321, h0_321, h0_330, integral, zero_x; ext_lits p;
    (do 5 eexists; split; [|reflexivity]);
    try lra; apply Rlt_le, Rdiv_lt_0_compat; lra.
Qed.

Lemma Rpower_anti eps al e e' : 0 < eps -> 0 <= al -> 0 < e -> e <= e' ->
  Rpower (eps / e') al <= Rpower (eps / e) al.
Proof.
  intros He Ha H1 H2; apply Rle_Rpower_l; [assumption|].
  assert (/ e' <= / e) by (apply Rinv_le_contravar; assumption).
  split; [apply Rdiv_lt_0_compat; lra|]. unfold Rdiv; apply Rmult_le_compat_l; lra.
Qed.

Lemma pymin_mono (l a b : ext R) : l <> NaN -> xle a b -> xle (pymin l a) (pymin l b).
Proof.
  intros Hl Hab. assert (Ha := xle_num_l _ _ Hab). assert (Hb := xle_num_r _ _ Hab).
  apply pymin_glb; [apply pymin_le_l, Hl|].
  eapply xle_trans; [apply pymin_le_r; assumption|exact Hab].
Qed.
Lemma pymax_mono (l a b : ext R) : l <> NaN -> xle a b -> xle (pymax l a) (pymax l b).
Proof.
  intros Hl Hab. assert (Ha := xle_num_l _ _ Hab). assert (Hb := xle_num_r _ _ Hab).
  apply pymax_lub; [apply pymax_ge_l, Hl|].
  eapply xle_trans; [exact Hab|apply pymax_ge_r; assumption].
Qed.

Lemma c22_monotone p x cfg eps kappa q e e' h e1 e2 h1 h2 c1 st c2 st' :
  0 < p -> In x (catalogue (Fin p)) -> sane cfg eps kappa ->
  positive_args q e h e1 e2 h1 h2 -> e <= e' ->
  ctl_call cfg (mk_plain x) q = (c1, Ok st) ->
  ctl_call cfg (mk_plain x) (with_error e' q) = (c2, Ok st') ->
  acceptance st = acceptance st' \/ remaining_time q = PInf ->
  xle (step_size_suggestion st') (step_size_suggestion st).
Proof.
  intros Hp Hx Hs Hq Hee H1 H2 Hacc.
  destruct (catalogue_coeffs p x Hp Hx) as (al & be & ga & a & b & Hal & Ex).
  destruct (estimate_shape cfg eps kappa x al be ga a b q e h e1 e2 h1 h2 Hs Hq Ex) as (K & HK & HF).
  assert (Eq : with_error e q = q).
  { destruct q; unfold with_error; cbn; rewrite <- (pa_err _ _ _ _ _ _ _ Hq); reflexivity. }
  pose proof (HF e (pa_e _ _ _ _ _ _ _ Hq)) as F1; rewrite Eq in F1.
  assert (He' : 0 < e') by (pose proof (pa_e _ _ _ _ _ _ _ Hq); lra).
  pose proof (HF e' He') as F2.
  cbn [ctl_call mk_plain] in H1, H2.
  destruct (_ && _) in H1; [discriminate|]; injection H1 as _ <-.
  destruct (_ && _) in H2; [discriminate|]; injection H2 as _ <-.
  rewrite !acceptance_base_run in Hacc.
  pose proof (pa_step _ _ _ _ _ _ _ Hq) as Hd.
  pose proof (pa_rem _ _ _ _ _ _ _ Hq) as Hr. pose proof (pa_rem' _ _ _ _ _ _ _ Hq) as Hr'.
  unfold base_run; cbn [step_size_suggestion].
  rewrite (run_limit (with_error e' q) h (run_success cfg (with_error e' q)) Hd Hr').
  rewrite (run_limit q h (run_success cfg q) Hd Hr').
  assert (L : time_limit (with_error e' q) (run_success cfg (with_error e' q)) =
              time_limit q (run_success cfg q)).
  { unfold time_limit; cbn [with_error remaining_time delta_t].
    destruct Hacc as [<- | ->]; reflexivity. }
  rewrite L.
  assert (neqb (error_measure q) n0 = false) as ->.
  { rewrite (pa_err _ _ _ _ _ _ _ Hq); apply (Reqb_neq e 0); pose proof (pa_e _ _ _ _ _ _ _ Hq); lra. }
  assert (neqb (error_measure (with_error e' q)) n0 = false) as ->.
  { apply (Reqb_neq e' 0); lra. }
  cbn [negb]. rewrite F1, F2.
  assert (Hlh := sane_bounds _ _ _ Hs).
  apply pymin_mono.
  { unfold time_limit; rewrite Hd; destruct (remaining_time q); congruence. }
  apply pymax_mono; [exact (xle_num_l _ _ Hlh)|].
  apply pymin_mono; [exact (xle_num_r _ _ Hlh)|].
  cbn. apply Rmult_le_compat_l; [lra|]. apply Rpower_anti; auto.
  - exact (sane_eps _ _ _ Hs).
  - exact (pa_e _ _ _ _ _ _ _ Hq).
Qed.

Lemma c22_fixed_point p x cfg eps kappa q h h1 h2 c1 st :
  0 < p -> In x (catalogue (Fin p)) -> sane cfg eps kappa ->
  positive_args q eps h eps eps h1 h2 ->
  (h1 = h \/ h1 = 0) -> (h2 = h1 \/ h2 = 0) ->
  ctl_call cfg (mk_plain x) q = (c1, Ok st) ->
  is_cut (lower_bound cfg) (upper_bound cfg) (time_limit q (acceptance st))
         (Fin (kappa * h)) (step_size_suggestion st).
Proof.
  intros Hp Hx Hs Hq Hh1 Hh2 H.
  destruct (catalogue_coeffs p x Hp Hx) as (al & be & ga & a & b & Hal & Ex).
  assert (F : estimate_next_step cfg x q = Fin (kappa * h)).
  { rewrite Ex. destruct Hs as [S1 S2 S3 S4 S5], Hq as [Q1 Q2 Q3 Q4 Q5 Q6 Q7 Q8 Q9 Q10 Q11 Q12].
    destruct cfg as [tl lo hi sf mi]; cbn in S1, S3; subst tl sf.
    destruct q as [em dt rm eh sh]; cbn in Q1, Q3, Q5, Q8; subst em dt eh sh.
    assert (D : forall x y, 0 < x -> Rpower (x / x) y = 1).
    { intros u v Hu; unfold Rdiv; rewrite Rinv_r by lra. unfold Rpower; rewrite ln_1, Rmult_0_r; apply exp_0. }
    destruct (Req_EM_T h1 0) as [E1|N1].
    - subst h1. rewrite estimate_fin_first by assumption. rewrite !D by lra. f_equal; ring.
    - assert (h1 = h) by (destruct Hh1; [assumption|contradiction]); subst h1.
      destruct (Req_EM_T h2 0) as [E2|N2].
      + subst h2. unfold estimate_next_step.
        cbn [nth error_history step_size_history delta_t safety_factor tol error_measure
             x_alpha x_beta x_gamma x_a x_b].
        change (neqb (Fin h) n0) with (Reqb h 0). change (neqb (Fin 0) n0) with (Reqb 0 0).
        rewrite (Reqb_neq h 0) by lra. rewrite Reqb_refl. cbn [negb].
        rewrite !Fin_div by lra.
        rewrite !Fin_pow by (apply Rdiv_lt_0_compat; lra).
        rewrite !Fin_mul, !D by lra; f_equal; ring.
      + assert (h2 = h) by (destruct Hh2; [assumption|contradiction]); subst h2.
        rewrite estimate_fin by lra. unfold step_formula; rewrite !D by lra. f_equal; ring. }
  rewrite <- F. eapply call_plain_cut; eauto.
  - exact (sane_bounds _ _ _ Hs).
  - exact (pa_step _ _ _ _ _ _ _ Hq).
  - exact (pa_rem' _ _ _ _ _ _ _ Hq).
  - exact (pa_rem _ _ _ _ _ _ _ Hq).
  - rewrite (pa_err _ _ _ _ _ _ _ Hq). intros E; injection E as E.
    pose proof (sane_eps _ _ _ Hs); lra.
  - rewrite F; discriminate.
Qed.

(** Pseudo controller. *)
Lemma pow_zero_exp (x : ext R) : npow x (Fin 0) = Fin 1.
Proof. cbn; rewrite Reqb_refl; reflexivity. Qed.

Lemma pseudo_estimate cfg q p h : safety_factor cfg = Fin 1 -> delta_t q = Fin h ->
  estimate_next_step cfg (pseudo p) q = Fin h.
Proof.
  intros Hs Hd; unfold estimate_next_step, pseudo, zero_x; rewrite !lit_ext.
  cbn [x_alpha x_beta x_gamma x_a x_b]. rewrite !pow_zero_exp, Hs, Hd, !Fin_mul.
  destruct (negb _); [destruct (negb _)|]; rewrite ?Fin_mul; f_equal; ring.
Qed.

Lemma c23 p q h :
  delta_t q = Fin h -> error_measure q <> NaN ->
  remaining_time q <> NaN -> remaining_time q <> NInf ->
  exists st, ctl_call pseudo_config (mk_plain (pseudo p)) q = (mk_plain (pseudo p), Ok st) /\
    acceptance st = true /\
    is_cut (Fin 0) PInf (remaining_time q) (delta_t q) (step_size_suggestion st).
Proof.
  intros Hd He Hr Hr'.
  assert (Hacc : run_success pseudo_config q = true).
  { apply run_success_iff; left; cbn. destruct (error_measure q); cbn; auto. }
  exists (base_run pseudo_config (pseudo p) q).
  split. { cbn [ctl_call mk_plain]; rewrite acceptance_base_run, Hacc; reflexivity. }
  split; [rewrite acceptance_base_run; exact Hacc|].
  unfold base_run; rewrite Hacc; cbn [step_size_suggestion].
  rewrite (run_limit q h true Hd Hr').
  assert (time_limit q true = remaining_time q) as ->.
  { unfold time_limit; rewrite Hd; destruct (remaining_time q); reflexivity. }
  assert ((if negb (neqb (error_measure q) n0) then estimate_next_step pseudo_config (pseudo p) q
           else delta_t q) = delta_t q) as ->.
  { destruct (negb _); [|reflexivity]. rewrite (pseudo_estimate _ q p h); auto.
    cbn; f_equal; unfold Q2R; cbn; lra. }
  assert (lower_bound (pseudo_config (T := ext R)) = Fin 0) as ->
    by (cbn; f_equal; unfold Q2R; cbn; lra).
  apply cut_is_cut; cbn; auto. rewrite Hd; discriminate.
Qed.

(** Error measures. *)
Lemma c38_simple {T} {N : Num T} (o : ode T) s emb err : embedded s = Some (emb, err) ->
  state_measure SimpleErrorMeasurer o s =
  Ok (compute_state_norm o {| stage_update := []; stage_state := err; independent_output := [] |}).
Proof. intros H; unfold state_measure; rewrite H; reflexivity. Qed.

Lemma c38_improved (o : ode R) err st eta eps :
  let ne := compute_state_norm o err in
  let ns := compute_state_norm o st in
  0 <= ne -> 0 <= ns -> 0 < eta -> 0 < eps ->
  let m := get_measure (ImprovedErrorMeasurer eta eps) err st o in
  0 <= m /\ m <= ne * eps / eta /\ (0 < ns -> m <= ne / ns) /\ (0 < ns -> 0 < ne -> m < ne / ns) /\
  m * (ns + eta / eps) = ne.
Proof.
  intros ne ns Hne Hns Heta Heps m. unfold m, get_measure. fold ne ns. cbn [ndiv nadd RNum].
  assert (Q : 0 < eta / eps) by (apply Rdiv_lt_0_compat; assumption).
  assert (D : 0 < ns + eta / eps) by lra.
  split; [apply Rmult_le_pos; [assumption|left; apply Rinv_0_lt_compat; assumption]|].
  split.
  { replace (ne * eps / eta) with (ne / (eta / eps)) by (field; lra).
    unfold Rdiv at 1 3; apply Rmult_le_compat_l; [assumption|].
    apply Rinv_le_contravar; lra. }
  split.
  { intros; unfold Rdiv at 1 3; apply Rmult_le_compat_l; [assumption|].
    apply Rinv_le_contravar; lra. }
  split.
  { intros; unfold Rdiv at 1 3; apply Rmult_lt_compat_l; [assumption|].
    apply Rinv_lt_contravar; [apply Rmult_lt_0_compat; lra|lra]. }
  unfold Rdiv at 1; rewrite Rmult_assoc, Rinv_l; lra.
Qed.

Lemma c38_monotone (o o' : ode R) err err' st st' eta eps :
  0 <= compute_state_norm o st -> compute_state_norm o' st' = compute_state_norm o st ->
  0 < eta -> 0 < eps ->
  compute_state_norm o err < compute_state_norm o' err' ->
  get_measure (ImprovedErrorMeasurer eta eps) err st o <
  get_measure (ImprovedErrorMeasurer eta eps) err' st' o'.
Proof.
  intros H1 H2 H3 H4 H5; cbn. rewrite H2.
  assert (Q : 0 < eta / eps) by (apply Rdiv_lt_0_compat; assumption).
  unfold Rdiv at 1 3; apply Rmult_lt_compat_r; [apply Rinv_0_lt_compat; lra|assumption].
Qed.
