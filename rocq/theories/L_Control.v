(** Proofs about error controllers. *)
From Coq Require Import List Reals Lra Lia Bool QArith Qreals.
From Verif Require Import Base Ext M_Controller SpecControl.
Import ListNotations.
Open Scope R_scope.

(** Reflection of the model's comparisons. *)
Lemma Rleb_iff x y : Rleb x y = true <-> x <= y.
Proof. unfold Rleb; destruct (Rle_dec x y); split; intros; auto; discriminate. Qed.
Lemma Rltb_iff x y : Rltb x y = true <-> x < y.
Proof. unfold Rltb; destruct (Rlt_dec x y); split; intros; auto; discriminate. Qed.
Lemma Reqb_iff x y : Reqb x y = true <-> x = y.
Proof. unfold Reqb; destruct (Req_EM_T x y); split; intros; auto; discriminate. Qed.

Lemma xleb_iff (x y : ext R) : xleb x y = true <-> xle x y.
Proof.
  destruct x, y; cbn; try rewrite Rleb_iff; split; intros; auto; try discriminate; contradiction.
Qed.
Lemma xltb_iff (x y : ext R) : xltb x y = true <-> xlt x y.
Proof.
  unfold xlt; destruct x, y; cbn; try rewrite Rltb_iff;
    split; intros H; try discriminate; try tauto; try (split; lra); destruct H; lra.
Qed.
Lemma xltb_false (x y : ext R) : xltb x y = false <-> ~ xlt x y.
Proof. rewrite <- xltb_iff; destruct (xltb x y); intuition congruence. Qed.
Lemma xeqb_iff (x y : ext R) : xeqb x y = true <-> x = y /\ x <> NaN.
Proof.
  destruct x, y; cbn; try rewrite Reqb_iff; split; intros H; try discriminate; try (split; congruence);
    try (destruct H; congruence).
Qed.

Lemma xlt_le (x y : ext R) : xlt x y -> xle x y.
Proof. intros [H _]; exact H. Qed.
Lemma xle_trans (x y z : ext R) : xle x y -> xle y z -> xle x z.
Proof. destruct x, y, z; cbn; try tauto; lra. Qed.
Lemma xle_refl (x : ext R) : x <> NaN -> xle x x.
Proof. destruct x; cbn; try tauto; intros; lra. Qed.
Lemma xle_antisym (x y : ext R) : xle x y -> xle y x -> x = y.
Proof. destruct x, y; cbn; try tauto; intros; f_equal; lra. Qed.
Lemma xle_num_l (x y : ext R) : xle x y -> x <> NaN.
Proof. destruct x; cbn; congruence || tauto. Qed.
Lemma xle_num_r (x y : ext R) : xle x y -> y <> NaN.
Proof. destruct x, y; cbn; congruence || tauto. Qed.
Lemma xnlt_le (x y : ext R) : x <> NaN -> y <> NaN -> ~ xlt x y -> xle y x.
Proof. unfold xlt; destruct x, y; cbn; try tauto; intros; lra. Qed.

Lemma nlit_ext_tol : nlit (T := ext R) (1 # 10000000000) = Fin (/ 10 ^ 10).
Proof. cbn; f_equal; unfold Q2R; cbn; lra. Qed.

Lemma nabs_near (x y : ext R) :
  nltb (nabs (nsub x y)) (nlit (1 # 10000000000)) = true <-> near x y.
Proof.
  rewrite nlit_ext_tol.
  destruct x as [a| | |], y as [b| | |]; cbn;
    try (split; intros H; [discriminate|contradiction]).
  unfold nabs; cbn; unfold Rltb at 1; destruct (Rlt_dec (a - b) 0) as [L|L]; cbn;
    rewrite Rltb_iff; unfold Rabs; destruct (Rcase_abs (a - b)); try lra; reflexivity.
Qed.

Lemma run_success_iff cfg q : run_success cfg q = true <-> accept_rule cfg q.
Proof.
  unfold run_success, accept_rule.
  rewrite !orb_true_iff, !nabs_near.
  change (nleb (error_measure q) (tol cfg)) with (xleb (error_measure q) (tol cfg)).
  rewrite xleb_iff; tauto.
Qed.

(** Every answer of a chain comes from [base_run] of one of its members, and
    the outermost controller never returns a rejected larger step. *)
Lemma decorator_run_ok {T} {N : Num T} cfg x im (q : call_args T) f st :
  decorator_run cfg x im q = (f, Ok st) ->
  st = base_run cfg x q /\ (acceptance st = false -> im = true ->
     nltb (delta_t q) (step_size_suggestion st) = false).
Proof.
  unfold decorator_run; destruct (acceptance (base_run cfg x q)) eqn:E.
  - intros H; injection H as _ <-; split; [reflexivity|congruence].
  - destruct (nltb _ _) eqn:L, im; cbn; intros H; injection H as _ <- || discriminate H;
      split; auto; congruence.
Qed.

Lemma ctl_call_base_run {T} {N : Num T} cfg (c : controller T) q c' st :
  ctl_call cfg c q = (c', Ok st) -> exists x, st = base_run cfg x q.
Proof.
  revert c' st; induction c as [x im|x im nin cnt c IH]; intros c' st; cbn.
  - destruct (_ && _); intros H; [discriminate|injection H as _ <-; eauto].
  - destruct nin.
    + destruct (ctl_call cfg c q) as [c1' r]; destruct r as [s0|e].
      * destruct (acceptance s0).
        { intros H; injection H as _ <-; eapply IH; reflexivity. }
        destruct (_ && _).
        { intros H; injection H as _ <-; eapply IH; reflexivity. }
        destruct (decorator_run cfg x im q) as [f r'] eqn:E; intros H; injection H as _ ->.
        apply decorator_run_ok in E as [-> _]; eauto.
      * destruct e; try discriminate.
        destruct (decorator_run cfg x im q) as [f r'] eqn:E; intros H; injection H as _ ->.
        apply decorator_run_ok in E as [-> _]; eauto.
    + destruct (decorator_run cfg x im q) as [f r'] eqn:E; intros H; injection H as _ ->.
      apply decorator_run_ok in E as [-> _]; eauto.
Qed.

Lemma acceptance_base_run {T} {N : Num T} cfg x (q : call_args T) :
  acceptance (base_run cfg x q) = run_success cfg q.
Proof. reflexivity. Qed.

Lemma c13 cfg (c : controller (ext R)) q c' st :
  ctl_call cfg c q = (c', Ok st) ->
  (acceptance st = true <-> accept_rule cfg q).
Proof.
  intros H; destruct (ctl_call_base_run cfg c q c' st H) as [x ->].
  apply run_success_iff.
Qed.

(** Clamping. *)
Lemma pymin_cases (a b : ext R) : (xlt b a /\ pymin a b = b) \/ (~ xlt b a /\ pymin a b = a).
Proof.
  unfold pymin; destruct (nltb b a) eqn:E.
  - left; split; [apply xltb_iff; exact E|reflexivity].
  - right; split; [apply xltb_false; exact E|reflexivity].
Qed.
Lemma pymax_cases (a b : ext R) : (xlt a b /\ pymax a b = b) \/ (~ xlt a b /\ pymax a b = a).
Proof.
  unfold pymax; destruct (nltb a b) eqn:E.
  - left; split; [apply xltb_iff; exact E|reflexivity].
  - right; split; [apply xltb_false; exact E|reflexivity].
Qed.
Lemma pymin_le_l (a b : ext R) : a <> NaN -> xle (pymin a b) a.
Proof. intros Ha; destruct (pymin_cases a b) as [[H ->]|[_ ->]]; [apply H|apply xle_refl, Ha]. Qed.
Lemma pymin_le_r (a b : ext R) : a <> NaN -> b <> NaN -> xle (pymin a b) b.
Proof.
  intros Ha Hb; destruct (pymin_cases a b) as [[H ->]|[H ->]]; [apply xle_refl, Hb|].
  apply xnlt_le; auto.
Qed.
Lemma pymin_num (a b : ext R) : a <> NaN -> pymin a b <> NaN.
Proof. intros Ha; exact (xle_num_l _ _ (pymin_le_l a b Ha)). Qed.
Lemma pymax_ge_l (a b : ext R) : a <> NaN -> xle a (pymax a b).
Proof. intros Ha; destruct (pymax_cases a b) as [[H ->]|[_ ->]]; [apply H|apply xle_refl, Ha]. Qed.
Lemma pymax_ge_r (a b : ext R) : a <> NaN -> b <> NaN -> xle b (pymax a b).
Proof.
  intros Ha Hb; destruct (pymax_cases a b) as [[H ->]|[H ->]]; [apply xle_refl, Hb|].
  apply xnlt_le; auto.
Qed.
Lemma pymax_num (a b : ext R) : a <> NaN -> pymax a b <> NaN.
Proof. intros Ha; exact (xle_num_r _ _ (pymax_ge_l a b Ha)). Qed.
Lemma pymax_lub (a b c : ext R) : xle a c -> xle b c -> xle (pymax a b) c.
Proof. intros; destruct (pymax_cases a b) as [[_ ->]|[_ ->]]; auto. Qed.
Lemma pymin_glb (a b c : ext R) : xle c a -> xle c b -> xle c (pymin a b).
Proof. intros; destruct (pymin_cases a b) as [[_ ->]|[_ ->]]; auto. Qed.
Lemma pymin_either (a b : ext R) : pymin a b = a \/ pymin a b = b.
Proof. destruct (pymin_cases a b) as [[_ ->]|[_ ->]]; auto. Qed.

Lemma run_limit (q : call_args (ext R)) d (s : bool) :
  delta_t q = Fin d -> remaining_time q <> NInf ->
  nadd (remaining_time q) (nmul (nsub n1 (if s then n1 else n0)) (delta_t q)) = time_limit q s.
Proof.
  intros Hd Hr; unfold time_limit; rewrite Hd; destruct (remaining_time q) as [r| | |]; try congruence.
  - destruct s; cbn; f_equal; lra.
  - destruct s; reflexivity.
  - destruct s; reflexivity.
Qed.

Lemma cut_is_cut (lo hi lim x : ext R) : xle lo hi -> lim <> NaN -> x <> NaN ->
  is_cut lo hi lim x (pymin lim (pymax lo (pymin hi x))).
Proof.
  intros Hlh Hlim Hx.
  assert (Hlo := xle_num_l _ _ Hlh). assert (Hhi := xle_num_r _ _ Hlh).
  unfold is_cut.
  pose proof (pymin_le_l hi x Hhi) as A1. pose proof (pymin_le_r hi x Hhi Hx) as A2.
  pose proof (pymin_num hi x Hhi) as A3.
  pose proof (pymax_ge_l lo (pymin hi x) Hlo) as B1.
  pose proof (pymax_ge_r lo (pymin hi x) Hlo A3) as B2.
  pose proof (pymax_num lo (pymin hi x) Hlo) as B3.
  pose proof (pymax_lub lo (pymin hi x) hi Hlh A1) as B4.
  set (m := pymax lo (pymin hi x)) in *.
  pose proof (pymin_le_l lim m Hlim) as C1. pose proof (pymin_le_r lim m Hlim B3) as C2.
  split; [eapply xle_trans; eassumption|]. split; [exact C1|].
  split. { destruct (pymin_either lim m) as [-> | ->]; auto. }
  repeat split.
  - intros H1 H2 H3.
    assert (m = x) as ->.
    { apply xle_antisym; [apply pymax_lub; auto|].
      eapply xle_trans; [|exact B2]; apply pymin_glb; [auto|apply xle_refl, Hx]. }
    apply xle_antisym; [exact C2|apply pymin_glb; auto; apply xle_refl, Hx].
  - intros H1 H2.
    assert (m = lo) as ->.
    { apply xle_antisym; [|exact B1]; apply pymax_lub; [apply xle_refl, Hlo|].
      exact (xle_trans _ _ _ A2 H1). }
    apply xle_antisym; [exact C2|apply pymin_glb; auto; apply xle_refl, Hlo].
  - intros H1 H2.
    assert (m = hi) as ->.
    { apply xle_antisym; [exact B4|]. eapply xle_trans; [|exact B2].
      apply pymin_glb; [apply xle_refl, Hhi|exact H1]. }
    apply xle_antisym; [exact C2|apply pymin_glb; auto; apply xle_refl, Hhi].
  - intros H1 H2.
    assert (xle lim m) as H3.
    { eapply xle_trans; [|exact B2]; apply pymin_glb; auto. }
    apply xle_antisym; [exact C1|apply pymin_glb; auto; apply xle_refl, Hlim].
Qed.

Lemma c14 cfg (c : controller (ext R)) q d c' st :
  xle (lower_bound cfg) (upper_bound cfg) ->
  delta_t q = Fin d -> remaining_time q <> NInf -> remaining_time q <> NaN ->
  ctl_call cfg c q = (c', Ok st) ->
  xle (step_size_suggestion st) (upper_bound cfg) /\
  xle (step_size_suggestion st) (time_limit q (acceptance st)) /\
  (xle (lower_bound cfg) (step_size_suggestion st) \/
   step_size_suggestion st = time_limit q (acceptance st)) /\
  (error_measure q = Fin 0 ->
   is_cut (lower_bound cfg) (upper_bound cfg) (time_limit q (acceptance st))
          (delta_t q) (step_size_suggestion st)).
Proof.
  intros Hlh Hd Hr Hr' H; destruct (ctl_call_base_run cfg c q c' st H) as [x ->]; clear H.
  rewrite acceptance_base_run.
  set (s := run_success cfg q).
  assert (Hlim : time_limit q s <> NaN).
  { unfold time_limit; rewrite Hd; destruct (remaining_time q); try congruence. }
  set (e := if negb (neqb (error_measure q) n0) then estimate_next_step cfg x q else delta_t q).
  assert (E : step_size_suggestion (base_run cfg x q) =
              pymin (time_limit q s) (pymax (lower_bound cfg) (pymin (upper_bound cfg) e))).
  { unfold base_run; cbn [step_size_suggestion]. f_equal. apply (run_limit q d s Hd Hr). }
  rewrite E; clear E.
  assert (Hlo := xle_num_l _ _ Hlh). assert (Hhi := xle_num_r _ _ Hlh).
  set (m := pymax (lower_bound cfg) (pymin (upper_bound cfg) e)).
  assert (Hm : m <> NaN) by (apply pymax_num, Hlo).
  split.
  { eapply xle_trans; [apply pymin_le_r; auto|]. apply pymax_lub; [exact Hlh|apply pymin_le_l, Hhi]. }
  split; [apply pymin_le_l, Hlim|].
  split.
  { destruct (pymin_either (time_limit q s) m) as [-> | ->]; [right; reflexivity|].
    left; apply pymax_ge_l, Hlo. }
  intros He; subst m.
  assert (e = delta_t q) as ->.
  { subst e; rewrite He; cbn; unfold Reqb; destruct (Req_EM_T 0 0); [reflexivity|lra]. }
  apply cut_is_cut; auto; rewrite Hd; discriminate.
Qed.

Lemma c17 cfg (c : controller (ext R)) q c' st :
  outermost c -> ctl_call cfg c q = (c', Ok st) -> acceptance st = false ->
  ~ xlt (delta_t q) (step_size_suggestion st).
Proof.
  intros Ho H Ha.
  assert (D : forall f x, decorator_run cfg x true q = (f, Ok st) ->
     ~ xlt (delta_t q) (step_size_suggestion st)).
  { intros f x E; apply decorator_run_ok in E as [_ E].
    apply xltb_false; apply E; auto. }
  destruct c as [x im|x im nin cnt c]; cbn in Ho; subst im; cbn [ctl_call] in H.
  - destruct (negb (acceptance (base_run cfg x q))) eqn:E1; cbn [negb andb] in H.
    + destruct (nltb (delta_t q) (step_size_suggestion (base_run cfg x q))) eqn:E2; cbn [andb] in H;
        [discriminate H|].
      injection H as _ <-. apply xltb_false; exact E2.
    + injection H as _ <-. rewrite Ha in E1; discriminate.
  - destruct nin.
    + destruct (ctl_call cfg c q) as [c1' r]; destruct r as [s0|e].
      * destruct (acceptance s0) eqn:E0.
        { injection H as _ <-; congruence. }
        destruct (_ && _) eqn:E1.
        { injection H as _ <-. apply andb_true_iff in E1 as [E1 _].
          apply xltb_iff in E1. intros [L _]; destruct E1 as [_ E1]; auto. }
        destruct (decorator_run cfg x true q) as [f r'] eqn:E; injection H as _ ->.
        eapply D; eassumption.
      * destruct e; try discriminate H.
        destruct (decorator_run cfg x true q) as [f r'] eqn:E; injection H as _ ->.
        eapply D; eassumption.
    + destruct (decorator_run cfg x true q) as [f r'] eqn:E; injection H as _ ->.
      eapply D; eassumption.
Qed.

(** C18: the retry counter never accumulates over delegated rejections. *)
Lemma delegate_resets {T} {N : Num T} cfg x im c (q : call_args T) c1 st :
  (1 <= max_iter cfg)%nat ->
  ctl_call cfg c q = (c1, Ok st) -> acceptance st = false ->
  nltb (step_size_suggestion st) (delta_t q) = true ->
  ctl_call cfg (Decorated x im true 0 c) q = (Decorated x im true 0 c1, Ok st).
Proof.
  intros Hm H Ha Hl; cbn [ctl_call]; rewrite H, Ha, Hl; cbn [andb].
  destruct (Nat.leb_spec 1 (max_iter cfg)); [reflexivity|lia].
Qed.

Definition cfg18 (m : nat) : config (ext R) :=
  {| tol := Fin 1; lower_bound := Fin 0; upper_bound := PInf; safety_factor := Fin 1;
     max_iter := m |}.
Definition q18 (k : nat) : call_args (ext R) :=
  {| error_measure := Fin 4; delta_t := Fin (2 ^ k); remaining_time := PInf;
     error_history := [Fin 1; Fin 1]; step_size_history := [Fin 0; Fin 0] |}.

Lemma Rltb_true x y : x < y -> Rltb x y = true.
Proof. intros; apply Rltb_iff; assumption. Qed.
Lemma Rltb_false x y : y <= x -> Rltb x y = false.
Proof. intros; unfold Rltb; destruct (Rlt_dec x y); [lra|reflexivity]. Qed.
Lemma Rleb_true x y : x <= y -> Rleb x y = true.
Proof. intros; apply Rleb_iff; assumption. Qed.
Lemma Rleb_false x y : y < x -> Rleb x y = false.
Proof. intros; unfold Rleb; destruct (Rle_dec x y); [lra|reflexivity]. Qed.
Lemma Reqb_neq x y : x <> y -> Reqb x y = false.
Proof. intros; unfold Reqb; destruct (Req_EM_T x y); [contradiction|reflexivity]. Qed.
Lemma Reqb_refl x : Reqb x x = true.
Proof. unfold Reqb; destruct (Req_EM_T x x); [reflexivity|contradiction]. Qed.
Lemma Reqb_eq x y : x = y -> Reqb x y = true.
Proof. intros ->; apply Reqb_refl. Qed.

Lemma Q2R_inject z : Q2R (inject_Z z) = IZR z.
Proof. unfold Q2R; cbn; lra. Qed.

Lemma lit_ext z : lit (T := ext R) z = Fin (IZR z).
Proof. unfold lit; cbn; f_equal; apply Q2R_inject. Qed.

Lemma lit_R z : lit (T := R) z = IZR z.
Proof. apply Q2R_inject. Qed.

Lemma Fin_div a b : b <> 0 -> ndiv (Fin a) (Fin b) = Fin (a / b).
Proof. intros; cbn; rewrite Reqb_neq by assumption; reflexivity. Qed.
Lemma Fin_mul a b : nmul (Fin a) (Fin b) = Fin (a * b).
Proof. reflexivity. Qed.
Lemma Fin_add a b : nadd (Fin a) (Fin b) = Fin (a + b).
Proof. reflexivity. Qed.
Lemma Fin_sub a b : nsub (Fin a) (Fin b) = Fin (a - b).
Proof. reflexivity. Qed.
(** Powers with a positive base, any exponent. *)
Lemma Fin_pow a e : 0 < a -> npow (Fin a) (Fin e) = Fin (Rpower a e).
Proof.
  intros Ha; cbn. destruct (Req_EM_T e 0) as [-> |He].
  - rewrite Reqb_refl, Rpower_O by assumption; reflexivity.
  - rewrite (Reqb_neq e 0 He), Rltb_true by assumption; reflexivity.
Qed.

(** The estimate with finite positive arguments. *)
Lemma estimate_fin kappa eps lo hi m al be ga a b e h rem e1 e2 h1 h2 :
  0 < eps -> 0 < e -> 0 < h -> 0 < e1 -> 0 < e2 -> 0 < h1 -> 0 < h2 ->
  estimate_next_step
    {| tol := Fin eps; lower_bound := lo; upper_bound := hi; safety_factor := Fin kappa;
       max_iter := m |}
    {| x_alpha := Fin al; x_beta := Fin be; x_gamma := Fin ga; x_a := Fin a; x_b := Fin b |}
    {| error_measure := Fin e; delta_t := Fin h; remaining_time := rem;
       error_history := [Fin e1; Fin e2]; step_size_history := [Fin h1; Fin h2] |}
  = Fin (step_formula kappa eps al be ga a b e e1 e2 h h1 h2).
Proof.
  intros; unfold estimate_next_step, step_formula.
  cbn [nth error_history step_size_history delta_t safety_factor tol error_measure
       x_alpha x_beta x_gamma x_a x_b].
  change (neqb (Fin h1) n0) with (Reqb h1 0). change (neqb (Fin h2) n0) with (Reqb h2 0).
  rewrite !Reqb_neq by lra. cbn [negb].
  rewrite !Fin_div by lra.
  rewrite !Fin_pow by (apply Rdiv_lt_0_compat; assumption).
  rewrite !Fin_mul; reflexivity.
Qed.

(** The estimate before any step has been accepted (step history zero). *)
Lemma estimate_fin_first kappa eps lo hi m al be ga a b e h rem e1 e2 h2 :
  0 < eps -> 0 < e -> 0 < h -> 0 < e1 -> 0 < e2 ->
  estimate_next_step
    {| tol := Fin eps; lower_bound := lo; upper_bound := hi; safety_factor := Fin kappa;
       max_iter := m |}
    {| x_alpha := Fin al; x_beta := Fin be; x_gamma := Fin ga; x_a := a; x_b := b |}
    {| error_measure := Fin e; delta_t := Fin h; remaining_time := rem;
       error_history := [Fin e1; Fin e2]; step_size_history := [Fin 0; h2] |}
  = Fin (kappa * h * Rpower (eps / e) al * Rpower (e1 / eps) be * Rpower (eps / e2) ga).
Proof.
  intros; unfold estimate_next_step.
  cbn [nth error_history step_size_history delta_t safety_factor tol error_measure
       x_alpha x_beta x_gamma x_a x_b].
  change (neqb (Fin 0) n0) with (Reqb 0 0). rewrite Reqb_refl. cbn [negb].
  rewrite !Fin_div by lra.
  rewrite !Fin_pow by (apply Rdiv_lt_0_compat; assumption).
  rewrite !Fin_mul; reflexivity.
Qed.

Lemma integral_ext p : 0 < p ->
  integral (Fin p) = {| x_alpha := Fin (1 / (1 + p)); x_beta := Fin 0; x_gamma := Fin 0;
                        x_a := Fin 0; x_b := Fin 0 |}.
Proof.
  intros; unfold integral, zero_x; rewrite !lit_ext.
  rewrite Fin_add, Fin_div by lra; reflexivity.
Qed.

Lemma Rpower_quarter_half : Rpower (1 / 4) (1 / (1 + 1)) = / 2.
Proof.
  replace (1 / (1 + 1)) with (/ 2) by lra. rewrite Rpower_sqrt by lra.
  replace (1 / 4) with (/ 2 * / 2) by lra. apply sqrt_square; lra.
Qed.

Lemma base_run_18 m k : (1 <= k)%nat ->
  base_run (cfg18 m) (integral (Fin 1)) (q18 k) =
  {| step_size_suggestion := Fin (2 ^ (k - 1)); acceptance := false |}.
Proof.
  intros Hk.
  assert (Hp : 1 <= 2 ^ k) by (apply pow_R1_Rle; lra).
  assert (Hs : run_success (cfg18 m) (q18 k) = false).
  { destruct (run_success (cfg18 m) (q18 k)) eqn:E; [|reflexivity].
    apply run_success_iff in E; unfold accept_rule in E; cbn -[pow] in E.
    destruct E as [E|[E|E]]; try contradiction; [lra|].
    rewrite Rminus_0_r, Rabs_right in E by lra. lra. }
  unfold base_run; rewrite Hs.
  change (neqb (error_measure (q18 k)) n0) with (Reqb 4 0).
  rewrite Reqb_neq by lra; cbn [negb].
  assert (E : estimate_next_step (cfg18 m) (integral (Fin 1)) (q18 k) = Fin (2 ^ (k - 1))).
  { unfold q18, cfg18; rewrite integral_ext by lra.
    rewrite estimate_fin_first by (try lra; apply pow_lt; lra).
    rewrite Rpower_quarter_half, !Rpower_O by lra. f_equal. destruct k as [|k]; [lia|].
    replace (S k - 1)%nat with k by lia. cbn [pow]. field. }
  rewrite E.
  assert (Hq : 1 <= 2 ^ (k - 1)) by (apply pow_R1_Rle; lra).
  cbn [cfg18 lower_bound upper_bound q18 remaining_time delta_t].
  f_equal.
  change (pymin PInf (Fin (2 ^ (k - 1)))) with (Fin (2 ^ (k - 1))).
  unfold pymax; cbn -[pow]; rewrite Rltb_true by lra. reflexivity.
Qed.

Lemma base_run_18_inner m k : 
  base_run (cfg18 m) (pseudo (Fin 1)) (q18 k) =
  {| step_size_suggestion := Fin (2 ^ k); acceptance := false |}.
Proof.
  assert (Hp : 1 <= 2 ^ k) by (apply pow_R1_Rle; lra).
  assert (Hs : run_success (cfg18 m) (q18 k) = false).
  { destruct (run_success (cfg18 m) (q18 k)) eqn:E; [|reflexivity].
    apply run_success_iff in E; unfold accept_rule in E; cbn -[pow] in E.
    destruct E as [E|[E|E]]; try contradiction; [lra|].
    rewrite Rminus_0_r, Rabs_right in E by lra. lra. }
  unfold base_run; rewrite Hs.
  change (neqb (error_measure (q18 k)) n0) with (Reqb 4 0).
  rewrite Reqb_neq by lra; cbn [negb].
  assert (E : estimate_next_step (cfg18 m) (pseudo (Fin 1)) (q18 k) = Fin (2 ^ k)).
  { unfold pseudo, zero_x; rewrite !lit_ext; unfold q18, cfg18.
    rewrite estimate_fin_first by (try lra; apply pow_lt; lra).
    rewrite !Rpower_O by lra. f_equal; ring. }
  rewrite E.
  cbn [cfg18 lower_bound upper_bound q18 remaining_time delta_t].
  f_equal.
  change (pymin PInf (Fin (2 ^ k))) with (Fin (2 ^ k)).
  unfold pymax; cbn -[pow]; rewrite Rltb_true by lra. reflexivity.
Qed.

Lemma answers_18 m n : (1 <= m)%nat ->
  let c := Decorated (pseudo (Fin 1)) true true 0 (Plain (integral (Fin 1)) false) in
  let qs := map (fun i => q18 (S i)) (rev (seq 0 n)) in
  answers (cfg18 m) c qs =
    map (fun i => Ok {| step_size_suggestion := Fin (2 ^ i); acceptance := false |}) (rev (seq 0 n)).
Proof.
  intros Hm c qs; subst qs.
  induction (rev (seq 0 n)) as [|i l IH]; [reflexivity|].
  cbn [map answers]. unfold c at 1.
  erewrite delegate_resets with (c1 := Plain (integral (Fin 1)) false);
    [fold c; f_equal; exact IH|exact Hm| |reflexivity|].
  - cbn [ctl_call]; rewrite base_run_18 by lia.
    cbn [acceptance negb andb]; rewrite andb_false_r.
    replace (S i - 1)%nat with i by lia; reflexivity.
  - cbn [step_size_suggestion delta_t q18]. apply xltb_iff; unfold xlt; cbn -[pow].
    cbn [pow]; pose proof (pow_lt 2 i); split; lra.
Qed.

Lemma c18_refuted : forall m n, (1 <= m)%nat -> exists cfg x1 x2 c qs,
  max_iter cfg = m /\ build_chain [x1; x2] = Some c /\ length qs = n /\
  rejected_trials qs (answers cfg c qs) /\
  Forall2 (fun q r => exists st, r = Ok st /\
     step_size_suggestion st = step_size_suggestion (base_run cfg x1 q) /\
     step_size_suggestion st <> step_size_suggestion (base_run cfg x2 q))
    qs (answers cfg c qs).
Proof.
  intros m n Hm.
  exists (cfg18 m), (integral (Fin 1)), (pseudo (Fin 1)),
    (Decorated (pseudo (Fin 1)) true true 0 (Plain (integral (Fin 1)) false)),
    (map (fun i => q18 (S i)) (rev (seq 0 n))).
  split; [reflexivity|]; split; [reflexivity|].
  split; [rewrite map_length, rev_length, seq_length; reflexivity|].
  rewrite (answers_18 m n Hm).
  split.
  - induction n as [|n IH]; [exact I|].
    rewrite seq_S, rev_app_distr; cbn [rev app plus map rejected_trials].
    split; [reflexivity|]. split; [|exact IH].
    destruct n as [|n]; [exact I|].
    rewrite seq_S, rev_app_distr; reflexivity.
  - induction (rev (seq 0 n)) as [|i l IH]; cbn [map]; constructor; [|exact IH].
    eexists; split; [reflexivity|].
    rewrite base_run_18 by lia; rewrite base_run_18_inner; cbn [step_size_suggestion].
    replace (S i - 1)%nat with i by lia. split; [reflexivity|].
    intros E; injection E as E. cbn [pow] in E. pose proof (pow_lt 2 i); lra.
Qed.

Lemma build_chain_outermost xs (c : controller (ext R)) : build_chain xs = Some c -> outermost c.
Proof.
  unfold build_chain.
  assert (G : forall base, (forall b, base = Some b -> outermost b) ->
    forall c, fold_left (fun base x => match base with
        | None => Some (mk_plain x) | Some c => Some (mk_decorated x c) end) xs base = Some c ->
    outermost c).
  { induction xs as [|x xs IH]; intros base Hb c0; cbn [fold_left]; [apply Hb|].
    apply IH; intros b; destruct base; intros H; injection H as <-; reflexivity. }
  apply G; discriminate.
Qed.
