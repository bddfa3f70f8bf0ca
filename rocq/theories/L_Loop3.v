(** Step sizes of the integrator under power-law errors; controllers that do not
    settle. *)
From Coq Require Import List Reals Lra Lia Bool QArith Qreals Qabs.
From Verif Require Import Base Ext M_State M_ODE M_Step M_Controller M_Measure M_Integrator SpecControl SpecFilter SpecAdaptive SpecLoop
  L_Control L_Catalogue L_Filter L_Loop L_Loop2.
Import ListNotations.
Local Open Scope R_scope.

(** ** The integrator asks the questions of the closed loop *)
Lemma one_trial (op : options (ext R) (controller (ext R))) (c : controller (ext R)) st c' st' : o_adaptive op = true -> iterate_on_step op 1 c st = (c', st', Ok tt) ->
  exists tmp em stat, trial op st tmp em /\ o_ctl op c (question op st tmp em) = (c', Ok stat) /\ acceptance stat = true /\
  suggestion st' = step_size_suggestion stat /\ step_hist st' = upd 0 (suggestion st) (roll1 (step_hist st)) /\
  err_hist st' = upd 0 em (roll1 (err_hist st)) /\ disc st' = rk_set (disc st) tmp.
Proof.
  intros A H. cbn [iterate_on_step] in H. rewrite A in H.
  destruct (compute_step (o_bt op) (o_ode op) (disc st) (suggestion st)) as [tmp|e] eqn:E1; [|discriminate].
  destruct (state_measure (o_meas op) (o_ode op) tmp) as [em|e] eqn:E2; [|discriminate].
  destruct (o_ctl op c _) as (c1 & [stat|e]) eqn:E3; [|discriminate].
  destruct (acceptance stat) eqn:E4; [|discriminate]. injection H as <- <-.
  exists tmp, em, stat. cbn [suggestion step_hist err_hist disc]. unfold trial, question. auto 10.
Qed.
Lemma power_law_question op cfg (st : tistate (ext R)) tmp C q h h1 h2 : open_ended op cfg -> remembers st C q h h1 h2 ->
  question op st tmp (Fin (C * Rpower h q)) = power_law_args C q h h1 h2 PInf.
Proof.
  intros [_ _ (n & E) F] (A & B & D). unfold question, power_law_args. rewrite A, B, D, E, F. reflexivity.
Qed.

Lemma at_once_inv op C q c st st1 l : at_once op C q c st (st1 :: l) -> exists c',
  (forall tmp em, trial op st tmp em -> exists h, suggestion st = Fin h /\ em = Fin (C * Rpower h q)) /\
  iterate_on_step op 1 c st = (c', st1, Ok tt) /\ at_once op C q c' st1 l.
Proof. intros H. inversion H; subst. eauto. Qed.

Section Run.
Variables (op : options (ext R) (controller (ext R))) (cfg : config (ext R)) (eps kappa C q s : R) (x : exponents (ext R)) (al be ga a b c1 c2 c3 : R).
Hypothesis Ho : open_ended op cfg.
Hypothesis Hs : sane cfg eps kappa.
Hypothesis Hu : unlimited cfg.
Hypothesis HC : 0 < C.
Hypothesis Hq : 0 < q.
Hypothesis Hx : coeffs x al be ga a b.
Hypothesis Es : s = al - be + ga.
Hypothesis Ps : 0 < s.
Hypothesis E1 : c1 = 1 - al * q + a.
Hypothesis E2 : c2 = be * q - a + b.
Hypothesis E3 : c3 = - ga * q - b.
Lemma at_once_loop l : forall st h h1 h2, 0 < h -> 0 < h1 -> 0 < h2 -> remembers st C q h h1 h2 -> at_once op C q (mk_plain x) st l ->
  exists hs, map suggestion l = map Fin hs /\ closed_loop cfg C q (mk_plain x) h h1 h2 hs.
Proof.
  induction l as [|st1 l IH]; intros st h h1 h2 Hh Hh1 Hh2 M A.
  - exists []. split; [reflexivity|constructor].
  - apply at_once_inv in A as (c' & A1 & A2 & A3).
    destruct (one_trial _ _ _ _ _ (oe_adaptive _ _ Ho) A2) as (tmp & em & stat & B1 & B2 & B3 & B4 & B5 & B6 & _).
    destruct (A1 tmp em B1) as (h' & X & X'). pose proof M as M'. destruct M as (M1 & M2 & M3).
    rewrite M1 in X. injection X as <-. rewrite X' in *. rewrite (oe_ctl _ _ Ho), (power_law_question op cfg st tmp C q h h1 h2 Ho M') in B2.
    pose proof (plain_same cfg _ _ _ _ _ B2) as K. fold (mk_plain x) in K. rewrite K in *.
    pose proof (loop_answer cfg eps kappa C q s x al be ga a b c1 c2 c3 Hs Hu HC Hq Hx Es Ps E1 E2 E3 h h1 h2 _ stat Hh Hh1 Hh2 B2) as D.
    set (h0 := balance C q eps kappa s * _) in D.
    assert (P : 0 < h0) by (apply Rmult_lt_0_compat; [apply balance_pos|apply exp_pos]).
    destruct (IH st1 h0 h h1 P Hh Hh1) as (hs & F1 & F2); [|exact A3|].
    + split; [congruence|]. rewrite B5, B6, M1, M2, M3. split; reflexivity.
    + exists (h0 :: hs). split; [cbn [map]; congruence|]. econstructor; eauto.
Qed.
End Run.

Lemma c89_run ctl p q s k op cfg eps kappa C st h h1 h2 l D n st' :
  settles ctl p q s k -> open_ended op cfg -> sane cfg eps kappa -> unlimited cfg -> 0 < C -> 0 < h -> 0 < h1 -> 0 < h2 ->
  remembers st C q h h1 h2 -> at_once op C q (mk_plain (ctl p)) st l -> nth_error l n = Some st' ->
  let hb := balance C q eps kappa s in
  away hb h <= D -> away hb h1 <= D -> away hb h2 <= D ->
  exists h', suggestion st' = Fin h' /\ 0 < h' /\ away hb h' <= 4 * ((/ 2) ^ (S n / k) * D).
Proof.
  intros S0 Ho Hs Hu HC Hh Hh1 Hh2 M A E hb D0 D1 D2.
  destruct (settles_coeffs _ _ _ _ _ S0) as (al & be & ga & a & b & E0 & E1 & E2 & E3 & c1 & c2 & c3 & F0 & F1 & F2 & F3).
  destruct (at_once_loop op cfg eps kappa C q s (ctl p) al be ga a b _ _ _ Ho Hs Hu HC E3 E0 E1 E2 F1 F2 F3 l st h h1 h2 Hh Hh1 Hh2 M A) as (hs & G1 & G2).
  apply (map_nth_error suggestion) in E. rewrite G1, nth_error_map in E.
  destruct (nth_error hs n) as [h'|] eqn:N; [|discriminate]. cbn in E. injection E as E. exists h'. split; [auto|].
  exact (c89_settles ctl p q s k cfg eps kappa C h h1 h2 hs D n h' S0 Hs Hu HC Hh Hh1 Hh2 G2 N D0 D1 D2).
Qed.

(** ** Swinging controllers *)
Section Swing.
Variables c1 c2 c3 lo hi : R.
Hypothesis H1 : c1 <= 0.
Hypothesis H2 : 0 <= c2.
Hypothesis H3 : c3 <= 0.
Hypothesis Hlo : 1 < lo.
Hypothesis Hhi : lo <= hi.
Hypothesis Low : lo <= - c1 + c2 / hi - c3 / (hi * hi).
Hypothesis High : - c1 + c2 / lo - c3 / (lo * lo) <= hi.
(** Alternating signs and ratios between [lo] and [hi] are kept. *)
Lemma swing_step X Y Z : 0 < Z -> lo * Z <= Y <= hi * Z -> lo * Y <= X <= hi * Y ->
  let X' := - c1 * X + c2 * Y - c3 * Z in lo * X <= X' <= hi * X.
Proof.
  intros HZ HY HX X'. assert (0 < Y) by nra. assert (0 < X) by nra.
  assert (A1 : Y <= X / lo) by (apply Rmult_le_reg_r with lo; [lra|]; unfold Rdiv; rewrite Rmult_assoc, Rinv_l by lra; lra).
  assert (A2 : X / hi <= Y) by (apply Rmult_le_reg_r with hi; [lra|]; unfold Rdiv; rewrite Rmult_assoc, Rinv_l by lra; lra).
  assert (A3 : Z <= X / (lo * lo)) by (apply Rmult_le_reg_r with (lo * lo); [nra|]; unfold Rdiv; rewrite Rmult_assoc, Rinv_l by nra; nra).
  assert (A4 : X / (hi * hi) <= Z) by (apply Rmult_le_reg_r with (hi * hi); [nra|]; unfold Rdiv; rewrite Rmult_assoc, Rinv_l by nra; nra).
  assert (B1 : lo * X <= (- c1 + c2 / hi - c3 / (hi * hi)) * X) by (apply Rmult_le_compat_r; lra).
  assert (B2 : (- c1 + c2 / lo - c3 / (lo * lo)) * X <= hi * X) by (apply Rmult_le_compat_r; lra).
  assert (C1 : c2 * (X / hi) <= c2 * Y <= c2 * (X / lo)) by (split; apply Rmult_le_compat_l; assumption).
  assert (C2 : - c3 * (X / (hi * hi)) <= - c3 * Z <= - c3 * (X / (lo * lo))) by (split; apply Rmult_le_compat_l; lra).
  unfold X', Rdiv in *. lra.
Qed.
Lemma swing n : forall X Y Z, 0 < Z -> lo * Z <= Y <= hi * Z -> lo * Y <= X <= hi * Y ->
  lo ^ n * X <= Rabs (orbit c1 c2 c3 n X (- Y) Z) /\ orbit c1 c2 c3 n (- X) Y (- Z) = - orbit c1 c2 c3 n X (- Y) Z.
Proof.
  induction n as [|n IH]; intros X Y Z HZ HY HX.
  - cbn. rewrite Rabs_right by nra. lra.
  - pose proof (swing_step X Y Z HZ HY HX) as S0. cbv zeta in S0. set (X' := - c1 * X + c2 * Y - c3 * Z) in *.
    assert (0 < Y) by nra. destruct (IH X' X Y H HX S0) as (I1 & I2). cbn [orbit].
    replace (c1 * X + c2 * - Y + c3 * Z) with (- X') by (unfold X'; ring).
    replace (c1 * - X + c2 * Y + c3 * - Z) with X' by (unfold X'; ring).
    rewrite I2. split; [|ring]. rewrite Rabs_Ropp. eapply Rle_trans; [|exact I1].
    cbn [pow]. replace (lo * lo ^ n * X) with (lo ^ n * (lo * X)) by ring. apply Rmult_le_compat_l; [apply pow_le; lra|apply S0].
Qed.
End Swing.

Lemma first_beyond (f : nat -> R) G : forall N, G < f N -> exists n, (n <= N)%nat /\ G < f n /\ forall m, (m < n)%nat -> f m <= G.
Proof.
  induction N as [N IH] using lt_wf_ind. intros H.
  destruct (Compare_dec.le_lt_dec N 0) as [L|L].
  - exists N. split; [lia|]. split; [exact H|]. intros; lia.
  - assert (D : (exists m, (m < N)%nat /\ G < f m) \/ forall m, (m < N)%nat -> f m <= G).
    { clear. induction N as [|N [ (m & H1 & H2) | H ]]; [right; lia|left; exists m; split; [lia|exact H2]|].
      destruct (Rle_dec (f N) G) as [L|L]; [right|left; exists N; split; [lia|lra]].
      intros m Hm. destruct (Nat.eq_dec m N) as [->|]; [exact L|apply H; lia]. }
    destruct D as [(m & D1 & D2)|D].
    + destruct (IH m D1 D2) as (n & A & B). exists n. split; [lia|exact B].
    + exists N. split; [lia|]. auto.
Qed.

Lemma swinging_coeffs ctl ps p : In (ctl, ps) swinging -> In p ps ->
  0 < p /\ exists al be ga a b lo hi, coeffs (ctl p) al be ga a b /\ / p = al - be + ga /\
  let c1 := 1 - al * (p + 1) + a in let c2 := be * (p + 1) - a + b in let c3 := - ga * (p + 1) - b in
  c1 <= 0 /\ 0 <= c2 /\ c3 <= 0 /\ 1 < lo /\ lo <= hi /\ lo <= - c1 + c2 / hi - c3 / (hi * hi) /\ - c1 + c2 / lo - c3 / (lo * lo) <= hi.
Proof.
  assert (PC : forall p, 0 < p -> coeffs (pc (Fin p)) (2 / p) (1 / p) 0 1 0).
  { intros p0 Hp. unfold pc, coeffs; rewrite ?lit_ext, ?Fin_div by lra. reflexivity. }
  assert (PD : forall p, 0 < p -> coeffs (h0_330 (Fin p)) (3 / p) (3 / p) (1 / p) 2 (- (1))).
  { intros p0 Hp. unfold h0_330, coeffs; rewrite ?lit_ext, ?Fin_div by lra. f_equal. }
  unfold swinging. cbn [In]. intros [E|[E|[E|[]]]]; injection E as <- <-; cbn [In]; intros H.
  1, 2 : destruct H as [<-|[<-|[]]]; (split; [lra|]); do 5 eexists; [exists 2, 3|exists (5 / 4), 2]; (split; [apply PC; lra|]); cbv zeta; repeat split; lra.
  destruct H as [<-|[<-|[<-|[<-|[]]]]]; (split; [lra|]); do 5 eexists; [exists 3, 5|exists (3 / 2), 3|exists (6 / 5), (21 / 10)|exists (11 / 10), (17 / 10)];
    (split; [apply PD; lra|]); cbv zeta; repeat split; lra.
Qed.

Lemma c89_swing ctl ps p cfg eps kappa C D :
  In (ctl, ps) swinging -> In p ps -> sane cfg eps kappa -> unlimited cfg -> kappa < 1 -> 0 < C -> 0 < D ->
  let hb := balance C (p + 1) eps kappa (/ p) in
  exists h h1 h2 hs h', 0 < h /\ 0 < h1 /\ 0 < h2 /\ away hb h <= D /\ away hb h1 <= D /\ away hb h2 <= D /\
  closed_loop cfg C (p + 1) (mk_plain (ctl p)) h h1 h2 hs /\ Forall (fun h => 0 < h) hs /\ In h' hs /\ p * - ln kappa / (p + 1) < away hb h'.
Proof.
  intros Hc Hp Hs Hu Hk HC HD hb.
  destruct (swinging_coeffs ctl ps p Hc Hp) as (Pp & al & be & ga & a & b & lo & hi & E & Es & R1 & R2 & R3 & R4 & R5 & R6 & R7).
  set (c1 := 1 - al * (p + 1) + a) in *. set (c2 := be * (p + 1) - a + b) in *. set (c3 := - ga * (p + 1) - b) in *.
  pose proof (sane_kappa _ _ _ Hs) as Hk0.
  assert (Lk : ln kappa < 0) by (rewrite <- ln_1; apply ln_increasing; lra).
  set (G := p * - ln kappa / (p + 1)). assert (PG : 0 < G) by (unfold G; apply Rdiv_lt_0_compat; [apply Rmult_lt_0_compat|]; lra).
  set (X := Rmin D G). assert (PX : 0 < X) by (unfold X; apply Rmin_glb_lt; lra).
  pose proof (Rmin_l D G) as XD. pose proof (Rmin_r D G) as XG. fold X in XD, XG.
  assert (Pl : 0 < / lo) by (apply Rinv_0_lt_compat; lra).
  assert (Il : / lo < 1) by (rewrite <- Rinv_1; apply Rinv_lt_contravar; lra).
  set (Y := X * / lo). set (Z := Y * / lo).
  assert (LY : lo * Y = X) by (unfold Y; field; lra). assert (LZ : lo * Z = Y) by (unfold Z; field; lra).
  assert (PY : 0 < Y) by (unfold Y; apply Rmult_lt_0_compat; lra). assert (PZ : 0 < Z) by (unfold Z; apply Rmult_lt_0_compat; lra).
  assert (YX : Y <= X) by nra. assert (ZY : Z <= Y) by nra.
  assert (HZ : lo * Z <= Y <= hi * Z) by (split; nra). assert (HY : lo * Y <= X <= hi * Y) by (split; nra).
  assert (Gr : forall n, lo ^ n * X <= Rabs (orbit c1 c2 c3 n X (- Y) Z)) by (intros n; apply (swing c1 c2 c3 lo hi R2 R3 R4 R5 R6 R7 n X Y Z PZ HZ HY)).
  destruct (Pow_x_infinity lo ltac:(rewrite Rabs_right; lra) (G / X + 1)) as (N & HN).
  assert (Big : G < Rabs (orbit c1 c2 c3 N X (- Y) Z)).
  { eapply Rlt_le_trans; [|apply Gr]. specialize (HN N (le_n N)). rewrite Rabs_right in HN by (apply Rle_ge, pow_le; lra).
    apply Rlt_le_trans with ((G / X + 1) * X); [|apply Rmult_le_compat_r; lra]. replace ((G / X + 1) * X) with (G + X) by (field; lra). lra. }
  destruct (first_beyond (fun n => Rabs (orbit c1 c2 c3 n X (- Y) Z)) G N Big) as (n & _ & Hn & Before). cbv beta in Hn, Before.
  assert (B := balance_pos C (p + 1) eps kappa (/ p)). fold hb in B.
  assert (Dev : forall v, ln (hb * exp v / hb) = v) by (intros v; replace (hb * exp v / hb) with (exp v) by (field; lra); apply ln_exp).
  assert (Pe : forall v, 0 < hb * exp v) by (intros; apply Rmult_lt_0_compat; [lra|apply exp_pos]).
  assert (Ps : 0 < / p) by (apply Rinv_0_lt_compat; lra). assert (Pq : 0 < p + 1) by lra.
  assert (EG : - ln kappa / (/ p * (p + 1)) = G) by (unfold G; field; lra).
  destruct (loop_extends cfg eps kappa C (p + 1) (/ p) (ctl p) al be ga a b c1 c2 c3 Hs Hu HC Pq E Es Ps eq_refl eq_refl eq_refl
    (hb * exp X) (hb * exp (- Y)) (hb * exp Z) (Pe _) (Pe _) (Pe _) n) as (hs & L & CL).
  { intros m Hm. fold hb. rewrite !Dev, EG. eapply Rle_trans; [apply Rle_abs|]. apply Before, Hm. }
  destruct n as [|n]; [exfalso; cbn [orbit] in Hn; rewrite Rabs_right in Hn by lra; lra|].
  destruct (nth_error hs n) as [h'|] eqn:Nh; [|apply nth_error_None in Nh; lia].
  destruct (loop_orbit cfg eps kappa C (p + 1) (/ p) (ctl p) al be ga a b c1 c2 c3 Hs Hu HC Pq E Es Ps eq_refl eq_refl eq_refl hs
    (hb * exp X) (hb * exp (- Y)) (hb * exp Z) (Pe _) (Pe _) (Pe _) CL n h' Nh) as (_ & O).
  fold hb in O. rewrite !Dev in O.
  exists (hb * exp X), (hb * exp (- Y)), (hb * exp Z), hs, h'. do 3 (split; [apply Pe|]). unfold away. rewrite !Dev.
  split; [rewrite Rabs_right; lra|]. split; [rewrite Rabs_Ropp, Rabs_right; lra|]. split; [rewrite Rabs_right; lra|].
  split; [exact CL|]. split.
  { apply Forall_forall. intros g Hg. apply In_nth_error in Hg as (m & Hm).
    apply (loop_orbit cfg eps kappa C (p + 1) (/ p) (ctl p) al be ga a b c1 c2 c3 Hs Hu HC Pq E Es Ps eq_refl eq_refl eq_refl hs
      (hb * exp X) (hb * exp (- Y)) (hb * exp Z) (Pe _) (Pe _) (Pe _) CL m g Hm). }
  split; [eapply nth_error_In, Nh|]. fold G. rewrite O. exact Hn.
Qed.
