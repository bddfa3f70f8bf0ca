(** The order of runs with SimpleLinearODE and ProtheroRobinson. *)
From Coq Require Import String.
From Coq Require Import List Bool Arith Reals Lia Lra QArith Qreals.
From Verif Require Import Base Ext M_Tableau M_Tableaux M_TableauxInit M_State M_ODE M_Step M_Integrator M_Metadata M_Components SpecMetadata SpecRK SpecDeriv
  SpecRun SpecShape SpecTree SpecOrder SpecNodes SpecSmooth SpecComponents SpecConvergence M_Packing SpecPacking M_Component SpecComponent SpecTotal M_Stage SpecStage
  L_Vec L_Step L_Deriv L_Run L_Iter L_Whole L_WholeR L_RunProps L_RunConvergence L_Packing L_Packing2 L_Packing3 L_Packing4 L_Packing5 L_Packing6
  L_Tableau L_Order L_Fields L_OrderCheck L_Series L_RunOrder L_Component L_Component2 L_Component3 L_Total L_Stage L_Stage2 L_Stage3 L_Stage4 L_Stage5 L_Stage6 WitnessRun WitnessOrder.
Import ListNotations.
From Coq Require Import ZArith.
Local Open Scope string_scope.
Open Scope nat_scope.
Open Scope R_scope.
Local Open Scope list_scope.

(** ** Smoothness of y' = mu y + psi(t) *)
Section Affine.
Variables (mu : R) (psi : nat -> R -> R) (B : R).
Hypothesis Hpsi : forall k x, derivable_pt_lim (psi k) x (psi (S k) x).
Hypothesis HB : forall k x, Rabs (psi k x) <= B.
Variable f : R -> list R -> list R.
Hypothesis Hf : forall t u, f t [u] = [mu * u + psi 0%nat t].

Definition affine_derivatives (y t : R) (vs : list (list R)) : list R :=
  match vs with
  | [] => [mu * y + psi 0%nat t]
  | [v] => [mu * vnth 1 v + psi 1%nat t * vnth 0 v]
  | _ => [psi (length vs) t * lprod (vnth 0) vs]
  end.
Lemma affine_many y t vs : (2 <= length vs)%nat -> affine_derivatives y t vs = [psi (length vs) t * lprod (vnth 0) vs].
Proof. destruct vs as [|v1 [|v2 vs]]; cbn [length]; try lia. reflexivity. Qed.
Lemma lprod_mid (us ws : list (list R)) x : lprod (vnth 0) (us ++ x :: ws) = vnth 0 x * (lprod (vnth 0) us * lprod (vnth 0) ws).
Proof. induction us as [|y us IH]; cbn [app]; [rewrite lprod_cons, lprod_nil; ring|rewrite !lprod_cons, IH; ring]. Qed.
Lemma lprod_repeat v i : lprod (vnth 0) (repeat v i) = vnth 0 v ^ i.
Proof. induction i as [|i IH]; [reflexivity|cbn [repeat pow]; rewrite lprod_cons, IH; reflexivity]. Qed.
Lemma lprod_bound vs rs : Forall2 (fun v r => 0 <= r /\ forall j, (j <= 1)%nat -> Rabs (vnth j v) <= r) vs rs ->
  Rabs (lprod (vnth 0) vs) <= fold_right Rmult 1 rs.
Proof.
  induction 1 as [|v r vs rs [H1 H2] F IH]; [rewrite lprod_nil, Rabs_R1; cbn; lra|].
  rewrite lprod_cons, Rabs_mult; cbn [fold_right]; apply Rmult_le_compat; [apply Rabs_pos|apply Rabs_pos|apply H2; lia|exact IH].
Qed.
Lemma affine_smooth p t0 t1 Y M : (forall t, length (Y t) = 1%nat) ->
  (forall t, t0 <= t <= t1 -> Rabs (vnth 0 (Y t)) <= M) -> 0 <= M -> smooth_along 1 p f t0 t1 Y.
Proof.
  intros LY HM M0.
  assert (B0 : 0 <= B) by (eapply Rle_trans; [apply Rabs_pos|apply (HB 0 0)]).
  pose proof (Rabs_pos mu) as A0.
  assert (V0 : forall x : R, vnth 0 [x] = x) by reflexivity.
  set (K := Rabs mu * M + Rabs mu + B).
  assert (KM : 0 <= Rabs mu * M) by (apply Rmult_le_pos; assumption).
  exists (fun t vs => affine_derivatives (vnth 0 (Y t)) t vs), K. split; [unfold K; lra|].
  intros t Ht. specialize (HM t Ht). destruct (L_Stage2.len1 (Y t) (LY t)) as (y & Ey). rewrite Ey in *. rewrite V0 in HM.
  cbv beta. replace (vnth 0 [y]) with y by reflexivity. constructor.
  - intros us ws u v al be m Hm; destruct m as [|m]; [|lia].
    destruct us as [|u1 us].
    + destruct ws as [|w1 ws].
      * cbn [app affine_derivatives]. rewrite !V0, !vnth_vmake by lia. ring.
      * cbn [app]. rewrite !affine_many by (cbn; lia). rewrite !V0, !lprod_cons, vnth_vmake by lia. cbn [length]. ring.
    + rewrite !affine_many by (rewrite app_length; cbn; lia). rewrite !V0, !app_length. cbn [length].
      rewrite !lprod_mid, vnth_vmake by lia. ring.
  - intros vs rs m Hm _ F; destruct m as [|m]; [|lia].
    pose proof (lprod_bound vs rs F) as LB.
    destruct vs as [|v1 [|v2 vs]].
    + inversion F; subst. cbn [affine_derivatives fold_right]. rewrite V0, Rmult_1_r.
      eapply Rle_trans; [apply Rabs_triang|]. rewrite Rabs_mult. unfold K. pose proof (HB 0 t).
      assert (Rabs mu * Rabs y <= Rabs mu * M) by (apply Rmult_le_compat_l; assumption). lra.
    + inversion F as [|? r ? ? [R0 Rj] F']; subst. inversion F'; subst. cbn [affine_derivatives fold_right]. rewrite V0.
      eapply Rle_trans; [apply Rabs_triang|]. rewrite !Rabs_mult. unfold K. pose proof (HB 1 t).
      pose proof (Rj 1%nat ltac:(lia)). pose proof (Rj 0%nat ltac:(lia)).
      assert (Rabs mu * Rabs (vnth 1 v1) <= Rabs mu * r) by (apply Rmult_le_compat_l; assumption).
      assert (Rabs (psi 1 t) * Rabs (vnth 0 v1) <= B * r) by (apply Rmult_le_compat; auto using Rabs_pos).
      assert (0 <= Rabs mu * M * r) by (apply Rmult_le_pos; assumption). lra.
    + rewrite affine_many by (cbn; lia). rewrite V0, Rabs_mult.
      apply Rmult_le_compat; auto using Rabs_pos. pose proof (HB (length (v1 :: v2 :: vs)) t). unfold K. lra.
  - intros k v r m Hm Hk Hv Hr Hb; destruct m as [|m]; [|lia].
    replace (vmake 1 (fun j => vnth j [y] + vnth (S j) v)) with [y + vnth 1 v] by reflexivity.
    rewrite Hf, V0. pose proof (Hb 0%nat ltac:(lia)) as H0. pose proof (Hb 1%nat ltac:(lia)) as H1.
    destruct k as [|k].
    + cbn [rsum repeat affine_derivatives fact INR pow]. rewrite V0.
      pose proof (scalar_taylor psi B Hpsi HB 0 0 t (vnth 0 v)) as T. cbn [rsum fact INR pow Nat.add] in T.
      replace (mu * (y + vnth 1 v) + psi 0%nat (t + vnth 0 v) - (0 + / 1 * (mu * y + psi 0%nat t)))
        with (mu * vnth 1 v + (psi 0%nat (t + vnth 0 v) - (0 + / 1 * (psi 0%nat t * 1)))) by field.
      eapply Rle_trans; [apply Rabs_triang|]. rewrite Rabs_mult.
      assert (Rabs mu * Rabs (vnth 1 v) <= Rabs mu * r) by (apply Rmult_le_compat_l; assumption).
      assert (B * (Rabs (vnth 0 v) * 1) <= B * r) by (apply Rmult_le_compat_l; lra).
      assert (0 <= Rabs mu * M * r) by (apply Rmult_le_pos; lra). unfold K. lra.
    + pose proof (scalar_taylor psi B Hpsi HB (S k) 0 t (vnth 0 v)) as T.
      assert (E : forall j, rsum (S (S j)) (fun i => / INR (fact i) * vnth 0 (affine_derivatives y t (repeat v i)))
                = mu * y + mu * vnth 1 v + rsum (S (S j)) (fun i => / INR (fact i) * (psi (0 + i)%nat t * vnth 0 v ^ i))).
      { induction j as [|j IH].
        - cbn [rsum repeat affine_derivatives fact INR pow Nat.add Nat.mul]. rewrite !V0. field.
        - change (rsum (S (S j)) (fun i => / INR (fact i) * vnth 0 (affine_derivatives y t (repeat v i)))
            + / INR (fact (S (S j))) * vnth 0 (affine_derivatives y t (repeat v (S (S j))))
            = mu * y + mu * vnth 1 v + (rsum (S (S j)) (fun i => / INR (fact i) * (psi (0 + i)%nat t * vnth 0 v ^ i))
              + / INR (fact (S (S j))) * (psi (0 + S (S j))%nat t * vnth 0 v ^ S (S j)))).
          rewrite IH, affine_many by (rewrite repeat_length; lia). rewrite V0, repeat_length, lprod_repeat. cbn [Nat.add]. ring. }
      rewrite E.
      match goal with |- Rabs ?a <= _ => replace a with (psi 0%nat (t + vnth 0 v)
        - rsum (S (S k)) (fun i => / INR (fact i) * (psi (0 + i)%nat t * vnth 0 v ^ i))) by ring end.
      eapply Rle_trans; [exact T|]. apply Rmult_le_compat; auto.
      * apply pow_le, Rabs_pos.
      * unfold K; lra.
      * apply pow_incr. split; [apply Rabs_pos|exact H0].
Qed.
Lemma affine_lipschitz : (forall t y, length y = 1%nat -> f t y = [mu * vnth 0 y + psi 0%nat t]) -> lipschitz 1 (Rabs mu + B) f.
Proof.
  intros Hf' t t' y z r Ly Lz W m Hm; destruct m as [|m]; [|lia].
  specialize (W 0%nat ltac:(lia)). rewrite !Hf' by assumption. unfold vnth at 1 3; cbn [nth].
  pose proof (scalar_taylor psi B Hpsi HB 0 0 t' (t - t')) as T. cbn [rsum fact INR pow Nat.add] in T.
  replace (t' + (t - t')) with t in T by ring.
  match goal with |- Rabs ?a <= _ => replace a with (mu * (vnth 0 y - vnth 0 z) + (psi 0%nat t - (0 + / 1 * (psi 0%nat t' * 1)))) by field end.
  eapply Rle_trans; [apply Rabs_triang|]. rewrite Rabs_mult.
  assert (B0 : 0 <= B) by (eapply Rle_trans; [apply Rabs_pos|apply (HB 0 0)]).
  assert (Rabs mu * Rabs (vnth 0 y - vnth 0 z) <= Rabs mu * r) by (apply Rmult_le_compat_l; [apply Rabs_pos|exact W]).
  assert (0 <= Rabs mu * Rabs (t - t')) by (apply Rmult_le_pos; apply Rabs_pos).
  assert (0 <= r) by (eapply Rle_trans; [apply Rabs_pos|exact W]).
  assert (0 <= B * r) by (apply Rmult_le_pos; assumption). lra.
Qed.
End Affine.

(** ** Small steps have solvable stages *)
Lemma large_nat (x : R) : exists N, (0 < N)%nat /\ x < INR N.
Proof.
  exists (S (Z.to_nat (up x))). split; [lia|]. rewrite S_INR. destruct (archimed x) as (H & _).
  destruct (Z_le_gt_dec 0 (up x)) as [P|P].
  - rewrite INR_IZR_INZ, Z2Nat.id by exact P. lra.
  - pose proof (pos_INR (Z.to_nat (up x))). assert (IZR (up x) < 0) by (apply IZR_lt; lia). lra.
Qed.
Lemma term_bound s (a : nat -> R) i : (i < s)%nat -> Rabs (a i) <= rsum s (fun j => Rabs (a j)).
Proof.
  induction s as [|s IH]; intros Hi; [lia|]. cbn [rsum].
  assert (P : forall m, 0 <= rsum m (fun j => Rabs (a j))).
  { induction m as [|m IHm]; cbn [rsum]; [lra|pose proof (Rabs_pos (a m)); lra]. }
  destruct (Nat.eq_dec i s) as [->|]; [pose proof (P s); lra|].
  pose proof (IH ltac:(lia)). pose proof (Rabs_pos (a s)). lra.
Qed.
Lemma small_steps s (a : nat -> R) lam T : exists N, (0 < N)%nat /\
  forall n, (N <= n)%nat -> forall i, (i < s)%nat -> 1 - lam * (T / INR n) * a i <> 0.
Proof.
  destruct (large_nat (Rabs (lam * T) * rsum s (fun j => Rabs (a j)))) as (N & N0 & HN). exists N. split; [exact N0|].
  intros n Hn i Hi E. pose proof (term_bound s a i Hi) as B.
  assert (P : 0 < INR n) by (apply lt_0_INR; lia). pose proof (le_INR _ _ Hn) as Q.
  assert (X : lam * T * a i = INR n).
  { replace (lam * T * a i) with (lam * (T / INR n) * a i * INR n) by (field; lra). replace (lam * (T / INR n) * a i) with 1 by lra. ring. }
  assert (Y : Rabs (lam * T * a i) <= Rabs (lam * T) * rsum s (fun j => Rabs (a j))).
  { rewrite (Rabs_mult (lam * T)). apply Rmult_le_compat_l; [apply Rabs_pos|exact B]. }
  rewrite X, Rabs_right in Y by lra. lra.
Qed.

(** ** The order *)
Section Shipped.
Variables (x : shipped) (e eh nu : Q) (bt : tableau R).
Hypothesis Hx : In (x, (e, eh)) precision.
Hypothesis Hnu : In (x, nu) node_precision.
Hypothesis Hbt : shipped_init x = Ok (bt, []).
Variables (t0 t1 v : R) (norm : ode_out R -> R).
Hypothesis Ht : t0 < t1.
Notation h n := ((t1 - t0) / INR n).

Lemma shipped_facts : tableau_wf bt /\ (0 < t_stages bt)%nat /\ is_implicit bt = false.
Proof. destruct (shipped_constructed x e eh Hx) as (bt' & E & W & Hst & Himp & _). rewrite Hbt in E. injection E as <-. auto. Qed.

Lemma end_time n : (0 < n)%nat -> t0 + INR n * h n = t1.
Proof. intros Hn. assert (0 < INR n) by (apply lt_0_INR; lia). field. lra. Qed.

Section General.
Variables (q : string) (vs : list variable) (qs is : list string) (md : metadata).
Hypothesis Hmd : metadata_of 1 vs qs is = Ok [md].
Hypothesis Hio : declare_all (fun _ => 1%nat) md = Ok (scalar_io q).
Hypothesis Hn : time_integration_array_size md = 1%nat.
Hypothesis Hi0 : time_independent_input_size md = 0%nat.
Hypothesis Hin : forall t y, holds_inputs md (vec_in q t y) {| time_initial := t; initial := [y]; independent := [] |}.
Hypothesis Hout : forall t y, holds_outputs md (vec_out q t y) {| time_final := t; final := [y] |}.
Variables (pb : problem R) (st : om_state R) (mu : R) (psi : nat -> R -> R) (B : R) (f : R -> list R -> list R -> list R).
Hypothesis Hk : keeps_layout pb.
Hypothesis Him : implements pb md f.
Hypothesis Hds : distinct_sources pb md.
Hypothesis Hsc : scalar_time pb md st.
Hypothesis Hans : forall h a, 1 - mu * h * a <> 0 -> answers (openmdao_ode pb md st norm) h a.
Hypothesis Hpsi : forall k x, derivable_pt_lim (psi k) x (psi (S k) x).
Hypothesis HB : forall k x, Rabs (psi k x) <= B.
Hypothesis Hf : forall t u, f t [] [u] = [mu * u + psi 0%nat t].
Variables (Y : R -> R) (M : R).
Hypothesis HY : forall t, t0 <= t <= t1 -> derivable_pt_lim Y t (mu * Y t + psi 0%nat t).
Hypothesis HM : forall t, t0 <= t <= t1 -> Rabs (Y t) <= M.

Lemma scalar_order y0 : Y t0 = y0 -> exists K N, 0 <= K /\ forall n, (N <= n)%nat ->
  forall C (op : options R C) c w outp,
  fixed_steps op bt (openmdao_ode pb md st norm) (h n) n ->
  in_use op md (scalar_io q) c w -> layout outp = snd (scalar_io q) ->
  exists w' y1, component_compute op md (vec_in q t0 y0) outp w = (w', Ok (vec_out q t1 y1)) /\
    Rabs (y1 - Y t1) <= K * (h n ^ s_p x + Q2R nu + Q2R e).
Proof.
  intros <-. destruct shipped_facts as (W & Hst & Himp).
  set (o := openmdao_ode pb md st norm).
  assert (Ss : state_size o = 1%nat) by exact Hn.
  set (op0 := gop bt o AllCheckpointer false 1 (PredefinedNumberOfSteps 1)).
  pose proof (om_sized 1 0 vs qs is [md] md Hmd eq_refl pb st norm Hk op0 eq_refl : sized_ode o) as Hs.
  pose proof (implements_solves 1 0 vs qs is [md] md Hmd eq_refl pb st norm op0 eq_refl f Him Hds Hsc
    : solves_stage_equation o (state_size o) f) as Hsol.
  assert (Hf' : forall t y, length y = 1%nat -> f t [] y = [mu * vnth 0 y + psi 0%nat t]).
  { intros t y L. destruct (L_Stage2.len1 y L) as (u & ->). apply Hf. }
  assert (B0 : 0 <= B) by (eapply Rle_trans; [apply Rabs_pos|apply (HB 0 0)]).
  destruct (shipped_fixed_order x e eh nu bt o f (Rabs mu + B) t0 t1 [] (fun t => [Y t]) Hx Hnu Hbt Hs Hsol)
    as (K & N & K0 & G); auto.
  - pose proof (Rabs_pos mu). lra.
  - rewrite Ss. apply (affine_lipschitz mu psi B Hpsi HB). exact Hf'.
  - rewrite Ss. split; [reflexivity|]. intros t m Hti Hm. destruct m as [|m]; [|lia]. rewrite Hf. apply HY, Hti.
  - rewrite Ss. apply (affine_smooth mu psi B Hpsi HB _ (fun t u => Hf t u) _ _ _ _ M); [reflexivity|exact HM|].
    eapply Rle_trans; [apply Rabs_pos|]. apply (HM t0). lra.
  - destruct (small_steps (t_stages bt) (fun i => entry (t_A bt) i i) mu (t1 - t0)) as (N' & N0 & Sm).
    exists K, (N + N')%nat. split; [exact K0|]. intros n HN C op c w outp Hop U Lo.
    destruct (sc_compute q vs qs is md Hmd Hio Hn Hi0 Hin Hout pb st norm Hk op bt (h n) n Hop Hst W
      (fun i Hi => Hans _ _ (Sm n ltac:(lia) i Hi)) f c w t0 (Y t0) outp Him Hds Hsc Himp U Lo) as (w' & y1 & E1 & _ & E2).
    pose proof Hop as (O1 & O2 & O3 & O4 & O5 & O6 & _).
    rewrite end_time in E1, E2 by lia. exists w', y1. split; [exact E1|].
    destruct (G n ltac:(lia) C op c w {| time_initial := t0; initial := [Y t0]; independent := [] |} w' _ O1 O2 O3 O6 O5 O4
      (sc_reach q vs qs is md Hmd Hio pb st norm Hk op bt (h n) n Hop c w U)
      (conj (eq_sym Ss) (eq_sym Hi0)) eq_refl eq_refl eq_refl E2) as (_ & Wi).
    rewrite Ss in Wi. exact (Wi 0%nat ltac:(lia)).
Qed.
End General.

(** SimpleLinearODE. *)
Lemma simple_order y0 : exists K N, 0 <= K /\ forall n, (N <= n)%nat ->
  forall C (op : options R C) c w outp,
  fixed_steps op bt (openmdao_ode simple simple_md (stage_vectors simple_component v) norm) (h n) n ->
  in_use op simple_md (scalar_io "y") c w -> layout outp = snd (scalar_io "y") ->
  exists w' y1, component_compute op simple_md (vec_in "y" t0 y0) outp w = (w', Ok (vec_out "y" t1 y1)) /\
    Rabs (y1 - decay_exact t0 y0 t1) <= K * (h n ^ s_p x + Q2R nu + Q2R e).
Proof.
  assert (E0 : forall t, 0 < exp t) by apply exp_pos.
  assert (Y0 : decay_exact t0 y0 t0 = y0) by (unfold decay_exact; replace (- (t0 - t0)) with 0 by ring; rewrite exp_0; ring).
  apply (scalar_order "y" _ _ _ _ simple_metadata simple_io eq_refl eq_refl simple_in simple_out simple _ (- (1)) (fun _ _ => 0) 0 decay
    simple_keeps simple_implements simple_sources (simple_time v)) with (Y := decay_exact t0 y0) (M := Rabs y0).
  - intros a b Hab. apply simple_answers. intros E. apply Hab. rewrite <- E. ring.
  - intros _ z. apply (derivable_pt_lim_const 0).
  - intros _ _. rewrite Rabs_R0. lra.
  - intros t u. cbn. f_equal. ring.
  - intros t _. unfold decay_exact. rewrite Rplus_0_r.
    apply (derivable_pt_lim_value _ _ (y0 * (exp (- (t - t0)) * - (1 - 0)))); [|ring].
    apply (derivable_pt_lim_scal (fun u => exp (- (u - t0)))).
    apply (derivable_pt_lim_comp (fun u => - (u - t0)) exp); [|apply derivable_pt_lim_exp].
    apply (derivable_pt_lim_opp (fun u => u - t0)).
    apply (derivable_pt_lim_minus (fun u => u) (fun _ => t0)); [apply derivable_pt_lim_id|apply derivable_pt_lim_const].
  - intros t Hti. unfold decay_exact. rewrite Rabs_mult.
    rewrite <- (Rmult_1_r (Rabs y0)) at 2. apply Rmult_le_compat_l; [apply Rabs_pos|].
    rewrite Rabs_right by (left; apply exp_pos).
    rewrite <- exp_0. destruct (Req_dec t t0) as [->|Ne]; [right; f_equal; ring|]. left. apply exp_increasing. lra.
  - exact Y0.
Qed.

(** ProtheroRobinson. *)
Definition forced (lam : R) (k : nat) (t : R) : R := sine_phi (S k) (t + PI / 4) - lam * sine_phi k (t + PI / 4).
Lemma shift_derive g g' a z : (forall u, derivable_pt_lim g u (g' u)) -> derivable_pt_lim (fun t => g (t + a)) z (g' (z + a)).
Proof.
  intros H. apply (derivable_pt_lim_value _ _ (g' (z + a) * 1)); [|ring].
  apply (derivable_pt_lim_comp (fun t => t + a) g); [|apply H].
  apply (derivable_pt_lim_value _ _ (1 + 0)); [|ring].
  apply (derivable_pt_lim_plus (fun t => t) (fun _ => a)); [apply derivable_pt_lim_id|apply derivable_pt_lim_const].
Qed.
Lemma forced_derive lam k z : derivable_pt_lim (forced lam k) z (forced lam (S k) z).
Proof.
  unfold forced. apply (derivable_pt_lim_minus (fun t => sine_phi (S k) (t + PI / 4)) (fun t => lam * sine_phi k (t + PI / 4))).
  - apply (shift_derive (sine_phi (S k)) (sine_phi (S (S k)))), sine_phi_derive.
  - apply (derivable_pt_lim_scal (fun t => sine_phi k (t + PI / 4))).
    apply (shift_derive (sine_phi k) (sine_phi (S k))), sine_phi_derive.
Qed.
Lemma forced_bound lam k z : Rabs (forced lam k z) <= 1 + Rabs lam.
Proof.
  unfold forced. eapply Rle_trans; [apply Rabs_triang|]. rewrite Rabs_Ropp, Rabs_mult.
  pose proof (sine_phi_bound (S k) (z + PI / 4)). pose proof (sine_phi_bound k (z + PI / 4)).
  assert (Rabs lam * Rabs (sine_phi k (z + PI / 4)) <= Rabs lam * 1) by (apply Rmult_le_compat_l; [apply Rabs_pos|assumption]). lra.
Qed.
Lemma forced_0 lam t : forced lam 0 t = d_phi t - lam * phi t.
Proof.
  unfold forced, sine_phi, phi, d_phi. cbn [INR]. rewrite Rmult_0_l, Rplus_0_r, Rmult_1_l. f_equal. rewrite cos_sin. f_equal. ring.
Qed.
Lemma phi_derive t : derivable_pt_lim phi t (d_phi t).
Proof. unfold phi, d_phi. apply (shift_derive sin cos), derivable_pt_lim_sin. Qed.

Lemma exp_line lam ts t : derivable_pt_lim (fun u => exp (lam * (u - ts))) t (exp (lam * (t - ts)) * lam).
Proof.
  apply (derivable_pt_lim_comp (fun u => lam * (u - ts)) exp); [|apply derivable_pt_lim_exp].
  apply (derivable_pt_lim_value _ _ (lam * (1 - 0))); [|ring].
  apply (derivable_pt_lim_scal (fun u => u - ts)).
  apply (derivable_pt_lim_minus (fun u => u) (fun _ => ts)); [apply derivable_pt_lim_id|apply derivable_pt_lim_const].
Qed.
Lemma prothero_order lam x0 : exists K N, 0 <= K /\ forall n, (N <= n)%nat ->
  forall C (op : options R C) c w outp,
  fixed_steps op bt (openmdao_ode (prothero lam) prothero_md (stage_vectors (prothero_component lam) v) norm) (h n) n ->
  in_use op prothero_md (scalar_io "x") c w -> layout outp = snd (scalar_io "x") ->
  exists w' x1, component_compute op prothero_md (vec_in "x" t0 x0) outp w = (w', Ok (vec_out "x" t1 x1)) /\
    Rabs (x1 - prothero_exact lam t0 x0 t1) <= K * (h n ^ s_p x + Q2R nu + Q2R e).
Proof.
  assert (Y0 : prothero_exact lam t0 x0 t0 = x0).
  { unfold prothero_exact. replace (lam * (t0 - t0)) with 0 by ring. rewrite exp_0. ring. }
  apply (scalar_order "x" _ _ _ _ prothero_metadata prothero_io eq_refl eq_refl prothero_in prothero_out (prothero lam) _ lam (forced lam) (1 + Rabs lam)
    (prothero_rhs lam) (prothero_keeps lam) (prothero_implements lam) (prothero_sources lam) (prothero_time lam v))
    with (Y := prothero_exact lam t0 x0) (M := 1 + Rabs (x0 - phi t0) * exp (Rabs lam * (t1 - t0))).
  - intros a b. apply prothero_answers.
  - apply forced_derive.
  - apply forced_bound.
  - intros t u. rewrite forced_0. cbn. f_equal. ring.
  - intros t _. rewrite forced_0. unfold prothero_exact. fold (phi t) (phi t0).
    apply (derivable_pt_lim_value _ _ (d_phi t + (x0 - phi t0) * (exp (lam * (t - t0)) * lam))); [|ring].
    apply (derivable_pt_lim_plus phi (fun u => (x0 - phi t0) * exp (lam * (u - t0)))); [apply phi_derive|].
    apply (derivable_pt_lim_scal (fun u => exp (lam * (u - t0)))), exp_line.
  - intros t Hti. unfold prothero_exact. fold (phi t) (phi t0). eapply Rle_trans; [apply Rabs_triang|]. apply Rplus_le_compat.
    + unfold phi. apply Rabs_le, SIN_bound.
    + rewrite Rabs_mult. apply Rmult_le_compat_l; [apply Rabs_pos|]. rewrite Rabs_right by (left; apply exp_pos).
      assert (Q : lam * (t - t0) <= Rabs lam * (t1 - t0)).
      { apply Rle_trans with (Rabs lam * (t - t0)); [apply Rmult_le_compat_r; [lra|apply Rle_abs]|].
        apply Rmult_le_compat_l; [apply Rabs_pos|lra]. }
      destruct Q as [Q|Q]; [left; now apply exp_increasing|right; now rewrite Q].
  - exact Y0.
Qed.
End Shipped.
