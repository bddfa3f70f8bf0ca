(** Filtering and trend following of the catalogue controllers; the modes of
    nested controllers. *)
From Coq Require Import List Reals Lra Lia Bool QArith.
From Verif Require Import Base Ext M_State M_ODE M_Controller M_Measure SpecControl SpecFilter L_Control L_Catalogue.
Import ListNotations.
Local Open Scope nat_scope.
Local Open Scope R_scope.

(** ** Catalogue *)
Lemma call_history cfg eps kappa al be ga a b e e1 e2 h h1 h2 rem c' st :
  sane cfg eps kappa -> 0 < e -> 0 < e1 -> 0 < e2 -> 0 < h -> 0 < h1 -> 0 < h2 ->
  rem <> NaN -> rem <> NInf ->
  ctl_call cfg (mk_plain {| x_alpha := Fin al; x_beta := Fin be; x_gamma := Fin ga; x_a := Fin a; x_b := Fin b |})
    (history_args e e1 e2 h h1 h2 rem) = (c', Ok st) ->
  is_cut (lower_bound cfg) (upper_bound cfg) (time_limit (history_args e e1 e2 h h1 h2 rem) (acceptance st))
    (Fin (step_formula kappa eps al be ga a b e e1 e2 h h1 h2)) (step_size_suggestion st).
Proof.
  intros [E1 E2 E3 E4 E5] P0 P1 P2 Hh H1 H2 Hr Hr' H.
  destruct cfg as [tl lo hi sf mi]; cbn in E1, E3, E5; subst tl sf.
  pose proof (estimate_fin kappa eps lo hi mi al be ga a b e h rem e1 e2 h1 h2 E2 P0 Hh P1 P2 H1 H2) as F.
  fold (history_args e e1 e2 h h1 h2 rem) in F.
  eapply call_plain_cut in H; cbn [delta_t remaining_time error_measure lower_bound upper_bound history_args];
    try reflexivity; auto.
  - rewrite F in H. cbn [lower_bound upper_bound] in H |- *. exact H.
  - intros X; injection X as X; lra.
  - rewrite F; discriminate.
Qed.

(** The formula in logarithms. *)
Lemma step_formula_ln kappa eps al be ga a b e e1 e2 h h1 h2 :
  0 < eps -> 0 < e -> 0 < e1 -> 0 < e2 -> 0 < h -> 0 < h1 -> 0 < h2 ->
  step_formula kappa eps al be ga a b e e1 e2 h h1 h2
  = kappa * h * exp (al * (ln eps - ln e) + be * (ln e1 - ln eps) + ga * (ln eps - ln e2)
                     + a * (ln h - ln h1) + b * (ln h1 - ln h2)).
Proof.
  intros; unfold step_formula, Rpower; rewrite !ln_div by assumption.
  rewrite !(Rmult_assoc (kappa * h)), <- !exp_plus; f_equal; f_equal; ring.
Qed.

Definition coeffs (x : exponents (ext R)) (al be ga a b : R) : Prop :=
  x = {| x_alpha := Fin al; x_beta := Fin be; x_gamma := Fin ga; x_a := Fin a; x_b := Fin b |}.

Ltac coeff_solve :=
  unfold h_211, h0_211, pid, h_312, h0_312, h_312_general, ppid, h_321, h_321_general, h0_321, h0_330, h_330_general,
    h0_220, pc, coeffs, integral, zero_x; rewrite ?lit_ext; rewrite ?Fin_mul, ?Fin_add, ?Fin_sub;
  change (@nopp (ext R) _) with (@xopp R _); cbn [xopp];
  rewrite ?Fin_mul, ?Fin_add, ?Fin_sub; rewrite ?Fin_div by lra; do 5 eexists; split; [reflexivity|];
  cbn; repeat split; field; lra.

Lemma filtering_coeffs ctl p : filtering ctl -> 0 < p ->
  exists al be ga a b, coeffs (ctl p) al be ga a b /\ al + be + ga = 0.
Proof. intros D Hp; destruct D; coeff_solve. Qed.
Lemma filtering2_coeffs ctl p : filtering2 ctl -> 0 < p ->
  exists al be ga a b, coeffs (ctl p) al be ga a b /\ al + be + ga = 0 /\ 2 * al + be = 0.
Proof. intros D Hp; destruct D; coeff_solve. Qed.
Lemma predicting_coeffs ctl p : predicting ctl -> 0 < p ->
  exists al be ga a b, coeffs (ctl p) al be ga a b /\ a + b = 1.
Proof. intros D Hp; destruct D; coeff_solve. Qed.
Lemma predicting3_coeffs ctl p : predicting3 ctl -> 0 < p ->
  exists al be ga a b, coeffs (ctl p) al be ga a b /\ a + b = 1 /\ a = 2.
Proof. intros D Hp; destruct D; coeff_solve. Qed.

Ltac pos := repeat first [assumption | apply Rdiv_lt_0_compat | apply Rmult_lt_0_compat].

Lemma c51_filter ctl p cfg eps kappa r h rem c' st :
  filtering ctl -> 0 < p -> sane cfg eps kappa -> 0 < r -> 0 < h -> rem <> NaN -> rem <> NInf ->
  ctl_call cfg (mk_plain (ctl p)) (alternating eps r h rem) = (c', Ok st) ->
  is_cut (lower_bound cfg) (upper_bound cfg) (time_limit (alternating eps r h rem) (acceptance st))
    (Fin (kappa * h)) (step_size_suggestion st).
Proof.
  intros D Hp Hs Hr Hh Hm Hm' H; pose proof (sane_eps _ _ _ Hs) as He.
  destruct (filtering_coeffs _ _ D Hp) as (al & be & ga & a & b & E & C); rewrite E in H.
  apply (call_history cfg eps kappa) in H; auto; [|pos|pos|pos].
  rewrite step_formula_ln in H by pos; rewrite !ln_mult, !ln_div in H by pos.
  replace (kappa * h) with (kappa * h * exp 0) by (rewrite exp_0; ring).
  replace 0 with (al * (ln eps - (ln eps + ln r)) + be * (ln eps - ln r - ln eps) + ga * (ln eps - (ln eps + ln r))
                  + a * (ln h - ln h) + b * (ln h - ln h)) at 1; [exact H|].
  replace ga with (- al - be) by lra; ring.
Qed.

Lemma c51_filter2 ctl p cfg eps kappa r s h rem c' st :
  filtering2 ctl -> 0 < p -> sane cfg eps kappa -> 0 < r -> 0 < s -> 0 < h -> rem <> NaN -> rem <> NInf ->
  ctl_call cfg (mk_plain (ctl p)) (growing_alternation eps r s h rem) = (c', Ok st) ->
  is_cut (lower_bound cfg) (upper_bound cfg) (time_limit (growing_alternation eps r s h rem) (acceptance st))
    (Fin (kappa * h)) (step_size_suggestion st).
Proof.
  intros D Hp Hs Hr Hss Hh Hm Hm' H; pose proof (sane_eps _ _ _ Hs) as He.
  destruct (filtering2_coeffs _ _ D Hp) as (al & be & ga & a & b & E & C & C2); rewrite E in H.
  apply (call_history cfg eps kappa) in H; auto; [|pos|pos|pos].
  rewrite step_formula_ln in H by pos; rewrite !ln_div, !ln_mult in H by pos.
  match type of H with is_cut _ _ _ (Fin (_ * exp ?x)) _ => replace x with 0 in H end.
  - rewrite exp_0, Rmult_1_r in H; exact H.
  - replace ga with al by lra; replace be with (- 2 * al) by lra; ring.
Qed.

Lemma c51_trend ctl p cfg eps kappa rho h rem c' st :
  predicting ctl -> 0 < p -> sane cfg eps kappa -> 0 < rho -> 0 < h -> rem <> NaN -> rem <> NInf ->
  ctl_call cfg (mk_plain (ctl p)) (trend eps rho h rem) = (c', Ok st) ->
  is_cut (lower_bound cfg) (upper_bound cfg) (time_limit (trend eps rho h rem) (acceptance st))
    (Fin (kappa * (rho * h))) (step_size_suggestion st).
Proof.
  intros D Hp Hs Hr Hh Hm Hm' H; pose proof (sane_eps _ _ _ Hs) as He.
  destruct (predicting_coeffs _ _ D Hp) as (al & be & ga & a & b & E & C); rewrite E in H.
  apply (call_history cfg eps kappa) in H; auto; [|pos|pos].
  rewrite step_formula_ln in H by pos; rewrite !ln_div in H by pos.
  match type of H with is_cut _ _ _ (Fin (_ * exp ?x)) _ => replace x with (ln rho) in H end.
  - rewrite exp_ln in H by assumption; replace (kappa * (rho * h)) with (kappa * h * rho) by ring; exact H.
  - replace b with (1 - a) by lra; ring.
Qed.

Lemma c51_curved ctl p cfg eps kappa rho sigma h rem c' st :
  predicting3 ctl -> 0 < p -> sane cfg eps kappa -> 0 < rho -> 0 < sigma -> 0 < h -> rem <> NaN -> rem <> NInf ->
  ctl_call cfg (mk_plain (ctl p)) (curved_trend eps rho sigma h rem) = (c', Ok st) ->
  is_cut (lower_bound cfg) (upper_bound cfg) (time_limit (curved_trend eps rho sigma h rem) (acceptance st))
    (Fin (kappa * (rho * sigma * sigma * h))) (step_size_suggestion st).
Proof.
  intros D Hp Hs Hr Hss Hh Hm Hm' H; pose proof (sane_eps _ _ _ Hs) as He.
  destruct (predicting3_coeffs _ _ D Hp) as (al & be & ga & a & b & E & C & C2); rewrite E in H.
  apply (call_history cfg eps kappa) in H; auto; [|pos|pos].
  rewrite step_formula_ln in H by pos; rewrite !ln_div, !ln_mult in H by pos.
  match type of H with is_cut _ _ _ (Fin (_ * exp ?x)) _ => replace x with (ln rho + ln sigma + ln sigma) in H end.
  - rewrite !exp_plus, !exp_ln in H by assumption.
    replace (kappa * (rho * sigma * sigma * h)) with (kappa * h * (rho * sigma * sigma)) by ring; exact H.
  - replace b with (-1) by lra; replace a with 2 by lra; ring.
Qed.

(** ** Concrete calls: tolerance 1, no bounds, safety factor 1, no time limit *)
Definition cfg52 (m : nat) : config (ext R) :=
  {| tol := Fin 1; lower_bound := Fin 0; upper_bound := PInf; safety_factor := Fin 1; max_iter := m |}.
Lemma cfg52_sane m : sane (cfg52 m) 1 1.
Proof. constructor; cbn; auto; lra. Qed.

Lemma base_run_52 m al be ga a b e e1 e2 h h1 h2 :
  0 < e -> 0 < e1 -> 0 < e2 -> 1 <= h -> 0 < h1 -> 0 < h2 ->
  base_run (cfg52 m) {| x_alpha := Fin al; x_beta := Fin be; x_gamma := Fin ga; x_a := Fin a; x_b := Fin b |}
    (history_args e e1 e2 h h1 h2 PInf)
  = {| step_size_suggestion := Fin (step_formula 1 1 al be ga a b e e1 e2 h h1 h2); acceptance := Rleb e 1 |}.
Proof.
  intros P0 P1 P2 Hh H1 H2.
  assert (A : run_success (cfg52 m) (history_args e e1 e2 h h1 h2 PInf) = Rleb e 1).
  { destruct (Rleb e 1) eqn:E.
    - apply run_success_iff; left; cbn; apply Rleb_iff, E.
    - destruct (run_success _ _) eqn:F; [|reflexivity]; apply run_success_iff in F.
      destruct F as [F|[F|F]]; cbn in F; try contradiction.
      + apply Rleb_iff in F; congruence.
      + rewrite Rabs_pos_eq in F by lra; lra. }
  pose proof (estimate_fin 1 1 (Fin 0) PInf m al be ga a b e h PInf e1 e2 h1 h2 Rlt_0_1 P0
                ltac:(lra) P1 P2 H1 H2) as F.
  fold (cfg52 m) in F; fold (history_args e e1 e2 h h1 h2 PInf) in F.
  assert (G : 0 < step_formula 1 1 al be ga a b e e1 e2 h h1 h2).
  { rewrite step_formula_ln by lra; apply Rmult_lt_0_compat; [lra|apply exp_pos]. }
  unfold base_run; rewrite A, F.
  change (neqb (error_measure (history_args e e1 e2 h h1 h2 PInf)) n0) with (Reqb e 0).
  rewrite Reqb_neq by lra; cbn [negb]; f_equal.
  cbn [cfg52 lower_bound upper_bound history_args remaining_time delta_t].
  set (x := step_formula _ _ _ _ _ _ _ _ _ _ _ _ _) in *.
  change (pymin PInf (Fin x)) with (Fin x).
  unfold pymax; change (nltb (Fin 0) (Fin x)) with (Rltb 0 x); rewrite Rltb_true by exact G.
  unfold pymin.
  replace (nadd PInf (nmul (nsub n1 (if Rleb e 1 then n1 else n0)) (Fin h))) with (@PInf R); [reflexivity|].
  destruct (Rleb e 1); reflexivity.
Qed.

(** Powers of two. *)
Lemma ln_pow2 n : ln (2 ^ n) = INR n * ln 2.
Proof. rewrite <- Rpower_pow by lra; apply ln_Rpower. Qed.
Lemma exp_ln2 n : exp (INR n * ln 2) = 2 ^ n.
Proof. rewrite <- ln_pow2, exp_ln; [reflexivity|apply pow_lt; lra]. Qed.
Lemma exp_ln2_neg n : exp (- (INR n * ln 2)) = / 2 ^ n.
Proof. rewrite exp_Ropp, exp_ln2; reflexivity. Qed.

Lemma c51_refuted : exists p cfg eps kappa r h rem c' st,
  0 < p /\ sane cfg eps kappa /\ 0 < r /\ 0 < h /\ rem <> NaN /\ rem <> NInf /\
  ctl_call cfg (mk_plain (h0_321 (Fin p))) (alternating eps r h rem) = (c', Ok st) /\
  ~ is_cut (lower_bound cfg) (upper_bound cfg) (time_limit (alternating eps r h rem) (acceptance st))
      (Fin (kappa * h)) (step_size_suggestion st).
Proof.
  (* p = 1, tolerance 1, r = 1/2, h = 1: suggestion 2^(1/3-1/2-3/4) = 2^(-11/12), not 1 *)
  assert (E : h0_321 (Fin 1) = {| x_alpha := Fin (1 / 3); x_beta := Fin (-1 / 2); x_gamma := Fin (-3 / 4);
                                  x_a := Fin (1 / 4); x_b := Fin (3 / 4) |}).
  { unfold h0_321; rewrite !lit_ext, !Fin_mul, !Fin_div by lra; f_equal; f_equal; field. }
  exists 1, (cfg52 5), 1, 1, (/ 2), 1, PInf.
  eexists; eexists.
  split; [lra|]; split; [apply cfg52_sane|]; split; [lra|]; split; [lra|]; split; [discriminate|]; split; [discriminate|].
  split.
  - cbn [ctl_call mk_plain]; rewrite E; unfold alternating; rewrite base_run_52 by lra.
    rewrite Rleb_true by lra; reflexivity.
  - cbn [acceptance step_size_suggestion].
    intros (_ & _ & _ & H & _).
    assert (X : Fin (step_formula 1 1 (1 / 3) (-1 / 2) (-3 / 4) (1 / 4) (3 / 4) (1 * / 2) (1 / / 2) (1 * / 2) 1 1 1) = Fin (1 * 1)).
    { apply H; cbn; auto; lra. }
    injection X as X; rewrite step_formula_ln in X by lra.
    rewrite !ln_div, !ln_mult, !ln_1, !ln_Rinv in X by lra.
    assert (G : 0 < ln 2) by (rewrite <- ln_1; apply ln_increasing; lra).
    match type of X with context [exp ?x] => assert (Y : x < 0) by lra; set (z := x) in * end.
    apply exp_increasing in Y; rewrite exp_0 in Y; lra.
Qed.

(** ** Nested controllers *)
Section Modes.
Context {T : Type} {N : Num T}.

(** Every controller of the chain is in its outer mode. *)
Fixpoint all_outer (c : controller T) : Prop :=
  match c with Plain _ _ => True | Decorated _ _ f _ c1 => f = true /\ all_outer c1 end.
(** The controller at the end of the delegation. *)
Fixpoint first_exponents (c : controller T) : exponents T :=
  match c with Plain x _ => x | Decorated _ _ _ _ c1 => first_exponents c1 end.

Lemma first_clear c : first_exponents (clear_inner_most c) = first_exponents c.
Proof. destruct c; reflexivity. Qed.
Lemma outer_clear c : all_outer c -> all_outer (clear_inner_most c).
Proof. destruct c; cbn; auto. Qed.

Lemma call_first cfg c (q : call_args T) : first_exponents (fst (ctl_call cfg c q)) = first_exponents c.
Proof.
  induction c as [x im|x im f n c IH]; cbn [ctl_call].
  - destruct (_ && _); reflexivity.
  - destruct f.
    + destruct (ctl_call cfg c q) as [c1 [st|er]]; cbn [fst] in *.
      * destruct (acceptance st); [exact IH|].
        destruct (_ && _); [exact IH|]; destruct (decorator_run _ _ _ _); exact IH.
      * destruct er; try (destruct (decorator_run _ _ _ _)); exact IH.
    + destruct (decorator_run _ _ _ _); reflexivity.
Qed.

Lemma build_fold (xs : list (exponents T)) : forall c, all_outer c ->
  exists c', fold_left (fun base x => match base with None => Some (mk_plain x) | Some c => Some (mk_decorated x c) end)
    xs (Some c) = Some c' /\ all_outer c' /\ first_exponents c' = first_exponents c.
Proof.
  induction xs as [|x xs IH]; intros c H; cbn [fold_left]; [eauto|].
  destruct (IH (mk_decorated x c)) as (c' & E1 & E2 & E3); [split; [reflexivity|apply outer_clear, H]|].
  exists c'; split; [exact E1|]; split; [exact E2|]; rewrite E3; apply first_clear.
Qed.
Lemma build_outer x xs : exists c, build_chain (x :: xs) = Some c /\ all_outer c /\ first_exponents c = x.
Proof. exact (build_fold xs (mk_plain x) I). Qed.

(** Acceptance does not depend on the exponents. *)
Lemma accept_same cfg x y (q : call_args T) : acceptance (base_run cfg x q) = acceptance (base_run cfg y q).
Proof. reflexivity. Qed.

(** The first controller does not accept: no controller does. *)
Lemma call_accepts cfg c (q : call_args T) c' st : ctl_call cfg c q = (c', Ok st) -> acceptance st = run_success cfg q.
Proof. intros H; apply ctl_call_base_run in H as [x ->]; apply acceptance_base_run. Qed.

Lemma outer_accepted cfg c (q : call_args T) : all_outer c -> run_success cfg q = true ->
  ctl_call cfg c q = (fst (ctl_call cfg c q), Ok (base_run cfg (first_exponents c) q)) /\ all_outer (fst (ctl_call cfg c q)).
Proof.
  intros H A; induction c as [x im|x im f n c IH]; cbn [ctl_call first_exponents].
  - rewrite acceptance_base_run, A; split; [reflexivity|exact I].
  - destruct H as [-> H]; destruct (IH H) as [E O]; rewrite E; cbn [fst].
    rewrite acceptance_base_run, A; cbn [fst all_outer]; auto.
Qed.

Lemma reply_accepted cfg c (q : call_args T) : accepted (snd (ctl_call cfg c q)) -> run_success cfg q = true.
Proof.
  intros (st & E & A); destruct (ctl_call cfg c q) as [c' r] eqn:F; cbn in E; subst r.
  rewrite <- (call_accepts _ _ _ _ _ F); exact A.
Qed.
Lemma alone_accepted cfg x (q : call_args T) : run_success cfg q = true -> alone cfg x q = Ok (base_run cfg x q).
Proof. intros A; unfold alone; cbn [ctl_call mk_plain]; rewrite acceptance_base_run, A; reflexivity. Qed.

Lemma c52_all_accepted cfg x xs c qs : build_chain (x :: xs) = Some c ->
  Forall accepted (replies cfg c qs) -> replies cfg c qs = map (alone cfg x) qs.
Proof.
  intros H; destruct (build_outer x xs) as (c' & E & O & Fx); rewrite E in H; injection H as <-.
  clear E; subst x; revert c' O; induction qs as [|q qs IH]; intros c O F; cbn [replies map] in *; [reflexivity|].
  inversion F as [|? ? A F']; subst.
  apply reply_accepted in A; destruct (outer_accepted cfg c q O A) as [E O'].
  f_equal; [rewrite E; cbn [snd]; symmetry; apply alone_accepted, A|].
  rewrite <- (call_first cfg c q); apply IH; assumption.
Qed.

(** A chain of two. *)
Lemma chain2_shape cfg x1 x2 c (qs : list (call_args T)) : build_chain [x1; x2] = Some c ->
  exists f n, after cfg c qs = Decorated x2 true f n (Plain x1 false).
Proof.
  intros E; injection E as <-.
  change (exists f n, after cfg (Decorated x2 true true 0 (Plain x1 false)) qs = Decorated x2 true f n (Plain x1 false)).
  generalize true at 2 as f; generalize 0%nat as n; induction qs as [|q qs IH]; intros n f; cbn [after fold_left]; [eauto|].
  assert (exists f' n', fst (ctl_call cfg (Decorated x2 true f n (Plain x1 false)) q) = Decorated x2 true f' n' (Plain x1 false))
    as (f' & n' & ->); [|apply IH].
  cbn [ctl_call]; destruct f.
  - rewrite !andb_false_r; destruct (acceptance _); [cbn; eauto|]; destruct (_ && _); [cbn; eauto|].
    destruct (decorator_run _ _ _ _); cbn; eauto.
  - destruct (decorator_run _ _ _ _); cbn; eauto.
Qed.

Lemma chain2_accepts cfg x1 x2 f n (q : call_args T) : run_success cfg q = true ->
  ctl_call cfg (Decorated x2 true f n (Plain x1 false)) q
  = (Decorated x2 true true (if f then 0%nat else n) (Plain x1 false), Ok (base_run cfg (if f then x1 else x2) q)).
Proof.
  intros A; cbn [ctl_call]; destruct f; rewrite ?andb_false_r.
  - rewrite acceptance_base_run, A; reflexivity.
  - unfold decorator_run; rewrite acceptance_base_run, A; reflexivity.
Qed.

Lemma after_app cfg c (qs qs' : list (call_args T)) : after cfg c (qs ++ qs') = after cfg (after cfg c qs) qs'.
Proof. apply fold_left_app. Qed.

Lemma c52_two_accepted cfg x1 x2 c (qs : list (call_args T)) q q' : build_chain [x1; x2] = Some c ->
  accepted (snd (ctl_call cfg (after cfg c qs) q)) ->
  accepted (snd (ctl_call cfg (after cfg c (qs ++ [q])) q')) ->
  snd (ctl_call cfg (after cfg c (qs ++ [q])) q') = alone cfg x1 q'.
Proof.
  intros B A A'; destruct (chain2_shape cfg x1 x2 c qs B) as (f & n & E).
  apply reply_accepted in A; apply reply_accepted in A'; rewrite after_app, E; cbn [after fold_left].
  rewrite (chain2_accepts _ _ _ _ _ _ A); cbn [fst]; rewrite (chain2_accepts _ _ _ _ _ _ A'); cbn [snd].
  symmetry; apply alone_accepted, A'.
Qed.

Lemma c52_two_rejected cfg x1 x2 c (qs : list (call_args T)) q q' q'' : build_chain [x1; x2] = Some c ->
  (1 <= max_iter cfg)%nat ->
  accepted (snd (ctl_call cfg (after cfg c qs) q)) ->
  accepted (snd (ctl_call cfg (after cfg c (qs ++ [q])) q')) ->
  shrinking q'' (alone cfg x1 q'') ->
  snd (ctl_call cfg (after cfg c (qs ++ [q; q'])) q'') = alone cfg x1 q''.
Proof.
  intros B M A A' (st & E' & S1 & S2); destruct (chain2_shape cfg x1 x2 c qs B) as (f & n & E).
  apply reply_accepted in A; apply reply_accepted in A'; rewrite after_app, E; cbn [after fold_left].
  rewrite (chain2_accepts _ _ _ _ _ _ A); cbn [fst]; rewrite (chain2_accepts _ _ _ _ _ _ A'); cbn [fst].
  rewrite E'; unfold alone in E'; cbn [ctl_call mk_plain] in E'.
  destruct (_ && _) in E'; [discriminate|]; injection E' as E'.
  cbn [ctl_call]; rewrite !andb_false_r, E', S1, S2; cbn [andb].
  rewrite (proj2 (Nat.leb_le _ _)) by lia; reflexivity.
Qed.
End Modes.

(** ** The counter survives acceptance; in longer chains the modes do. *)
Lemma pc1 : pc (Fin 1) = {| x_alpha := Fin 2; x_beta := Fin 1; x_gamma := Fin 0; x_a := Fin 1; x_b := Fin 0 |}.
Proof. unfold pc; rewrite !lit_ext, !Fin_div by lra; f_equal; f_equal; field. Qed.
Lemma integral1 : integral (Fin 1) = {| x_alpha := Fin (1 / 2); x_beta := Fin 0; x_gamma := Fin 0; x_a := Fin 0; x_b := Fin 0 |}.
Proof. unfold integral, zero_x; rewrite !lit_ext, !Fin_add, !Fin_div by lra; f_equal; f_equal; field. Qed.
Lemma h0_330_1 : h0_330 (Fin 1) = {| x_alpha := Fin 3; x_beta := Fin 3; x_gamma := Fin 1; x_a := Fin 2; x_b := Fin (-1) |}.
Proof. unfold h0_330; rewrite !lit_ext, !Fin_div by lra; f_equal; f_equal; field. Qed.

(** Values of the formula when everything is a power of two. *)
Lemma formula_pow2 al be ga a b e e1 e2 h h1 h2 v n :
  al * - e + be * e1 - ga * e2 + a * (h - h1) + b * (h1 - h2) + h = v -> v = IZR n ->
  step_formula 1 1 al be ga a b (Rpower 2 e) (Rpower 2 e1) (Rpower 2 e2) (Rpower 2 h) (Rpower 2 h1) (Rpower 2 h2)
  = powerRZ 2 n.
Proof.
  intros E En; rewrite step_formula_ln by (try lra; apply Rpower_pos).
  rewrite !ln_Rpower, ln_1, Rmult_1_l.
  rewrite powerRZ_Rpower by lra; rewrite <- En, <- E; unfold Rpower at 1 2.
  rewrite <- exp_plus; f_equal; ring.
Qed.

Definition pow_args (e e1 e2 h h1 h2 : R) : call_args (ext R) :=
  history_args (Rpower 2 e) (Rpower 2 e1) (Rpower 2 e2) (Rpower 2 h) (Rpower 2 h1) (Rpower 2 h2) PInf.

Lemma Rpower2_le x y : x <= y -> Rpower 2 x <= Rpower 2 y.
Proof. intros; apply Rle_Rpower; lra. Qed.
Lemma run_pow m al be ga a b e e1 e2 h h1 h2 n (acc : bool) :
  al * - e + be * e1 - ga * e2 + a * (h - h1) + b * (h1 - h2) + h = n -> 0 <= h ->
  (if acc then e <= 0 else 0 < e) ->
  base_run (cfg52 m) {| x_alpha := Fin al; x_beta := Fin be; x_gamma := Fin ga; x_a := Fin a; x_b := Fin b |}
    (pow_args e e1 e2 h h1 h2)
  = {| step_size_suggestion := Fin (Rpower 2 n); acceptance := acc |}.
Proof.
  intros E Hh Ha; unfold pow_args; rewrite base_run_52 by (try apply Rpower_pos; rewrite <- (Rpower_O 2) by lra; apply Rpower2_le, Hh).
  f_equal.
  - f_equal; rewrite step_formula_ln by (try lra; apply Rpower_pos).
    rewrite !ln_Rpower, ln_1, Rmult_1_l; rewrite <- E; unfold Rpower at 1 2; rewrite <- exp_plus; f_equal; ring.
  - destruct acc.
    + apply Rleb_true; rewrite <- (Rpower_O 2) by lra; apply Rpower2_le, Ha.
    + apply Rleb_false; rewrite <- (Rpower_O 2) at 1 by lra; apply Rpower_lt; lra.
Qed.

Lemma lt_pow x y : x < y -> nltb (T := ext R) (Fin (Rpower 2 x)) (Fin (Rpower 2 y)) = true.
Proof. intros; apply Rltb_true, Rpower_lt; lra. Qed.
Lemma nlt_pow x y : y <= x -> nltb (T := ext R) (Fin (Rpower 2 x)) (Fin (Rpower 2 y)) = false.
Proof. intros; apply Rltb_false, Rpower2_le; assumption. Qed.

Lemma c52_counter_refuted : exists cfg c q1 q2 q3,
  (1 <= max_iter cfg)%nat /\ build_chain [pc (Fin 1); integral (Fin 1)] = Some c /\
  accepted (snd (ctl_call cfg (after cfg c [q1]) q2)) /\
  shrinking q3 (alone cfg (pc (Fin 1)) q3) /\
  snd (ctl_call cfg (after cfg c [q1; q2]) q3) <> alone cfg (pc (Fin 1)) q3.
Proof.
  exists (cfg52 1); eexists.
  exists (pow_args 2 2 0 3 (-2) (-2)), (pow_args 0 2 0 2 (-2) (-2)), (pow_args 2 0 0 2 2 (-2)).
  split; [cbn; lia|]; split; [reflexivity|].
  cbn [build_chain fold_left mk_plain mk_decorated clear_inner_most].
  change (mk_decorated _ (mk_plain _)) with (Decorated (integral (Fin 1)) true true 0 (Plain (pc (Fin 1)) false)).
  assert (S1 : ctl_call (cfg52 1) (Decorated (integral (Fin 1)) true true 0 (Plain (pc (Fin 1)) false)) (pow_args 2 2 0 3 (-2) (-2))
    = (Decorated (integral (Fin 1)) true false 1 (Plain (pc (Fin 1)) false),
       Ok {| step_size_suggestion := Fin (Rpower 2 2); acceptance := false |})).
  { cbn [ctl_call]; unfold decorator_run; rewrite pc1, integral1.
    rewrite (run_pow 1 2 1 0 1 0 _ _ _ _ _ _ 6 false) by lra; rewrite (run_pow 1 (1 / 2) 0 0 0 0 _ _ _ _ _ _ 2 false) by lra.
    rewrite !andb_false_r; cbn [acceptance step_size_suggestion pow_args history_args delta_t].
    rewrite nlt_pow by lra; cbn [andb].
    change (Rpower 2 2) with (Rpower 2 2); rewrite nlt_pow by lra; reflexivity. }
  assert (S2 : ctl_call (cfg52 1) (Decorated (integral (Fin 1)) true false 1 (Plain (pc (Fin 1)) false)) (pow_args 0 2 0 2 (-2) (-2))
    = (Decorated (integral (Fin 1)) true true 1 (Plain (pc (Fin 1)) false),
       Ok {| step_size_suggestion := Fin (Rpower 2 2); acceptance := true |})).
  { cbn [ctl_call]; unfold decorator_run; rewrite integral1.
    rewrite (run_pow 1 (1 / 2) 0 0 0 0 _ _ _ _ _ _ 2 true) by lra; reflexivity. }
  assert (S3 : ctl_call (cfg52 1) (Decorated (integral (Fin 1)) true true 1 (Plain (pc (Fin 1)) false)) (pow_args 2 0 0 2 2 (-2))
    = (Decorated (integral (Fin 1)) true false 2 (Plain (pc (Fin 1)) false),
       Ok {| step_size_suggestion := Fin (Rpower 2 1); acceptance := false |})).
  { cbn [ctl_call]; unfold decorator_run; rewrite pc1, integral1.
    rewrite (run_pow 1 2 1 0 1 0 _ _ _ _ _ _ (-2) false) by lra; rewrite (run_pow 1 (1 / 2) 0 0 0 0 _ _ _ _ _ _ 1 false) by lra.
    rewrite !andb_false_r; cbn [acceptance step_size_suggestion pow_args history_args delta_t cfg52 max_iter Nat.leb].
    rewrite nlt_pow by lra; reflexivity. }
  assert (S4 : alone (cfg52 1) (pc (Fin 1)) (pow_args 2 0 0 2 2 (-2)) = Ok {| step_size_suggestion := Fin (Rpower 2 (-2)); acceptance := false |}).
  { unfold alone; cbn [ctl_call mk_plain]; rewrite pc1, (run_pow 1 2 1 0 1 0 _ _ _ _ _ _ (-2) false) by lra.
    cbn [acceptance step_size_suggestion pow_args history_args delta_t negb andb].
    rewrite nlt_pow by lra; reflexivity. }
  cbn [after fold_left]; rewrite S1; cbn [fst]; rewrite S2; cbn [fst snd]; rewrite S3, S4; cbn [snd].
  split; [eexists; split; reflexivity|].
  split; [eexists; split; [reflexivity|]; split; [reflexivity|apply lt_pow; lra]|].
  intros X; injection X as X; assert (Rpower 2 (-2) < Rpower 2 1) by (apply Rpower_lt; lra); lra.
Qed.

Lemma c52_three_refuted : exists cfg c q1 q2 q3,
  build_chain [pc (Fin 1); h0_330 (Fin 1); integral (Fin 1)] = Some c /\
  accepted (snd (ctl_call cfg (after cfg c [q1]) q2)) /\
  accepted (snd (ctl_call cfg (after cfg c [q1; q2]) q3)) /\
  snd (ctl_call cfg (after cfg c [q1; q2]) q3) = alone cfg (h0_330 (Fin 1)) q3 /\
  snd (ctl_call cfg (after cfg c [q1; q2]) q3) <> alone cfg (pc (Fin 1)) q3.
Proof.
  exists (cfg52 5); eexists.
  exists (pow_args 2 0 0 3 (-2) (-2)), (pow_args 0 0 0 2 (-2) (-2)), (pow_args (-2) 0 0 2 2 2).
  split; [reflexivity|].
  cbn [build_chain fold_left mk_plain mk_decorated clear_inner_most].
  change (mk_decorated _ _) with
    (Decorated (integral (Fin 1)) true true 0 (Decorated (h0_330 (Fin 1)) false true 0 (Plain (pc (Fin 1)) false))).
  assert (S1 : ctl_call (cfg52 5) (Decorated (integral (Fin 1)) true true 0 (Decorated (h0_330 (Fin 1)) false true 0 (Plain (pc (Fin 1)) false)))
                 (pow_args 2 0 0 3 (-2) (-2))
    = (Decorated (integral (Fin 1)) true false 1 (Decorated (h0_330 (Fin 1)) false false 1 (Plain (pc (Fin 1)) false)),
       Ok {| step_size_suggestion := Fin (Rpower 2 2); acceptance := false |})).
  { cbn [ctl_call]; unfold decorator_run; rewrite pc1, integral1, h0_330_1.
    rewrite (run_pow 5 2 1 0 1 0 _ _ _ _ _ _ 4 false) by lra; rewrite (run_pow 5 (1 / 2) 0 0 0 0 _ _ _ _ _ _ 2 false) by lra.
    rewrite (run_pow 5 3 3 1 2 (-1) _ _ _ _ _ _ 7 false) by lra.
    rewrite !andb_false_r; cbn [acceptance step_size_suggestion pow_args history_args delta_t].
    rewrite !(nlt_pow 4) by lra; cbn [andb acceptance step_size_suggestion].
    rewrite ?(nlt_pow 7) by lra; cbn [andb]; rewrite nlt_pow by lra; reflexivity. }
  assert (S2 : ctl_call (cfg52 5) (Decorated (integral (Fin 1)) true false 1 (Decorated (h0_330 (Fin 1)) false false 1 (Plain (pc (Fin 1)) false)))
                 (pow_args 0 0 0 2 (-2) (-2))
    = (Decorated (integral (Fin 1)) true true 1 (Decorated (h0_330 (Fin 1)) false false 1 (Plain (pc (Fin 1)) false)),
       Ok {| step_size_suggestion := Fin (Rpower 2 2); acceptance := true |})).
  { cbn [ctl_call]; unfold decorator_run; rewrite integral1.
    rewrite (run_pow 5 (1 / 2) 0 0 0 0 _ _ _ _ _ _ 2 true) by lra; reflexivity. }
  assert (S3 : snd (ctl_call (cfg52 5) (Decorated (integral (Fin 1)) true true 1 (Decorated (h0_330 (Fin 1)) false false 1 (Plain (pc (Fin 1)) false)))
                 (pow_args (-2) 0 0 2 2 2)) = Ok {| step_size_suggestion := Fin (Rpower 2 8); acceptance := true |}).
  { cbn [ctl_call]; unfold decorator_run; rewrite h0_330_1.
    rewrite (run_pow 5 3 3 1 2 (-1) _ _ _ _ _ _ 8 true) by lra; reflexivity. }
  assert (S4 : forall x al be ga a b n, coeffs x al be ga a b ->
     al * - - 2 + be * 0 - ga * 0 + a * (2 - 2) + b * (2 - 2) + 2 = n ->
     alone (cfg52 5) x (pow_args (-2) 0 0 2 2 2) = Ok {| step_size_suggestion := Fin (Rpower 2 n); acceptance := true |}).
  { intros x al be ga a b n E En; unfold alone; cbn [ctl_call mk_plain]; rewrite E.
    rewrite (run_pow 5 al be ga a b _ _ _ _ _ _ n true) by lra; reflexivity. }
  rewrite (S4 _ _ _ _ _ _ 6 pc1) by lra; rewrite (S4 _ _ _ _ _ _ 8 h0_330_1) by lra.
  cbn [after fold_left]; rewrite S1; cbn [fst]; rewrite S2; cbn [fst snd]; rewrite S3.
  split; [eexists; split; reflexivity|]; split; [eexists; split; reflexivity|]; split; [reflexivity|].
  intros X; injection X as X; assert (Rpower 2 6 < Rpower 2 8) by (apply Rpower_lt; lra); lra.
Qed.

Lemma c38_state (o : ode R) s emb err eta eps m :
  embedded s = Some (emb, err) ->
  0 <= compute_state_norm o {| stage_update := []; stage_state := final_state s; independent_output := [] |} ->
  0 < eta -> 0 < eps -> state_measure (ImprovedErrorMeasurer eta eps) o s = Ok m ->
  m * (compute_state_norm o {| stage_update := []; stage_state := final_state s; independent_output := [] |} + eta / eps)
  = compute_state_norm o {| stage_update := []; stage_state := err; independent_output := [] |}.
Proof.
  intros E P H1 H2 H; unfold state_measure in H; rewrite E in H; injection H as <-.
  unfold get_measure; cbn [ndiv nadd RNum].
  assert (Q : 0 < eta / eps) by (apply Rdiv_lt_0_compat; assumption).
  unfold Rdiv at 1; rewrite Rmult_assoc, Rinv_l; lra.
Qed.
