(** The expansions of exact solutions and of Runge-Kutta stages, and the local
    error of a step. *)
From Coq Require Import List Reals Lia Lra Bool Arith.
From Verif Require Import SpecRK SpecTree SpecOrder SpecConvergence L_Convergence L_Order L_Series.
Import ListNotations.
Open Scope R_scope.

Lemma lsum_member {A} (f : A -> R) l x : (forall y, In y l -> 0 <= f y) -> In x l -> f x <= lsum f l.
Proof.
  induction l as [|y l IH]; intros H Hx; [destruct Hx|]; rewrite lsum_cons.
  assert (P : 0 <= lsum f l) by (apply lsum_nonneg; intros; apply H; right; auto).
  destruct Hx as [->|Hx]; [lra|]; pose proof (H y (or_introl eq_refl)).
  assert (f x <= lsum f l) by (apply IH; [intros; apply H; right; auto|exact Hx]); lra.
Qed.
Lemma abs_member {A} (f : A -> R) l x : In x l -> Rabs (f x) <= lsum (fun y => Rabs (f y)) l.
Proof. apply (lsum_member (fun y => Rabs (f y))); intros; apply Rabs_pos. Qed.

Lemma derivable_lsum {A} (f f' : A -> R -> R) l x : (forall y, In y l -> derivable_pt_lim (f y) x (f' y x)) ->
  derivable_pt_lim (fun u => lsum (fun y => f y u) l) x (lsum (fun y => f' y x) l).
Proof.
  induction l as [|y l IH]; intros H.
  - apply (derivable_pt_lim_const 0).
  - rewrite lsum_cons; apply (derivable_pt_lim_plus (f y) (fun u => lsum (fun y => f y u) l)).
    + apply H; left; reflexivity.
    + apply IH; intros; apply H; right; assumption.
Qed.

Definition rate (t : tree) : R := / density t.
Lemma rate_child t : INR (order t) * rate t = child rate t.
Proof.
  destruct t as [ts]; unfold rate at 1; rewrite density_node; change (order (Node ts)) with (S (forest_order ts)); cbn [child].
  assert (P : forall l, 0 < fold_right (fun u x => density u * x) 1 l).
  { intros l; apply forest_density_pos, Forall_forall; intros; apply density_pos. }
  assert (E : lprod rate ts = / fold_right (fun u x => density u * x) 1 ts).
  { induction ts as [|u ts IH]; [unfold lprod; cbn; symmetry; apply Rinv_1|].
    rewrite lprod_cons, IH; cbn [fold_right]; unfold rate; pose proof (P ts); pose proof (density_pos u); field; split; lra. }
  rewrite E; pose proof (P ts); pose proof (lt_0_INR (S (forest_order ts)) ltac:(lia)); field; split; lra.
Qed.

Section Solution.
Variables (N p : nat) (g : list R -> list R) (L B : R).
Hypothesis Hp : (0 < p)%nat.
Hypothesis HL0 : 0 <= L.
Hypothesis HB : 0 <= B.
Hypothesis HL : forall y z r, length y = N -> length z = N -> within N r y z -> within N (L * r) (g y) (g z).
Variables (t0 t1 : R) (Z : R -> list R) (D : R -> list (list R) -> list R).
Notation T := (fun t => t0 <= t <= t1).
Hypothesis HZ : forall t, length (Z t) = N.
Hypothesis HD : forall t, T t -> expands N p g (Z t) (D t) B.
Hypothesis HS : forall t m, t0 <= t <= t1 -> (m < N)%nat ->
  derivable_pt_lim (fun u => vnth m (Z u)) t (vnth m (g (Z t))).
Notation series := (series D).
Notation slope := (slope D).

Lemma series_derivable q a t m x : derivable_pt_lim (fun u => series q a u t m) x
  (lsum (fun tr => weight tr * (INR (order tr) * a tr) * x ^ pred (order tr) * vnth m (differential (D t) tr)) (tset q)).
Proof.
  apply (derivable_lsum (fun tr u => weight tr * a tr * u ^ order tr * vnth m (differential (D t) tr))
    (fun tr u => weight tr * (INR (order tr) * a tr) * u ^ pred (order tr) * vnth m (differential (D t) tr))).
  intros tr _; set (w := weight tr * a tr); set (e := vnth m (differential (D t) tr)).
  replace (weight tr * (INR (order tr) * a tr) * x ^ pred (order tr) * e)
    with ((w * e) * (INR (order tr) * x ^ pred (order tr))) by (unfold w; ring).
  apply derivable_pt_lim_ext with (fun u => (w * e) * u ^ order tr); [intros u; ring|].
  apply (derivable_pt_lim_scal (fun u => u ^ order tr)), derivable_pt_lim_pow.
Qed.

Lemma exact_series q : (q <= p)%nat -> exists C, 0 <= C /\
  forall t h m, t0 <= t -> 0 <= h <= 1 -> t + h <= t1 -> (m < N)%nat ->
  Rabs (vnth m (Z (t + h)) - vnth m (Z t) - series q rate h t m) <= C * h ^ S q.
Proof.
  induction q as [|q IH]; intros Hq.
  - exists B; split; [exact HB|]; intros t h m H0 Hh H1 Hm.
    unfold series; cbn [tset]; rewrite lsum_nil, Rminus_0_r, pow_1.
    destruct (Req_dec h 0) as [->|Hne]; [rewrite Rplus_0_r, Rminus_eq_0, Rabs_R0; lra|].
    destruct (MVT_cor2 (fun x => vnth m (Z x)) (fun x => vnth m (g (Z x))) t (t + h)) as (x & E & Hx); [lra| |].
    { intros x Hx; apply HS; [lra|exact Hm]. }
    rewrite E, Rabs_mult; replace (t + h - t) with h by ring; rewrite (Rabs_right h) by lra.
    apply Rmult_le_compat_r; [lra|]; apply (rhs_bounded N p g B T Z D HZ HD); [exact Hp|lra|exact Hm].
  - destruct (IH ltac:(lia)) as (C & C0 & HC).
    destruct (compose N p g L B HL0 HB HL T Z D HZ HD q (lsum (fun tr => Rabs (rate tr)) (tset q)) ltac:(lia)
      ltac:(apply lsum_nonneg; intros; apply Rabs_pos)) as (C' & C0' & HC').
    exists (L * C + C'); split; [apply Rplus_le_le_0_compat; [apply Rmult_le_pos; assumption|assumption]|].
    intros t h m H0 Hh H1 Hm.
    destruct (Req_dec h 0) as [->|Hne].
    { assert (E : series (S q) rate 0 t m = 0).
      { unfold series; transitivity (lsum (fun _ : tree => 0) (tset (S q))).
        - apply lsum_ext; intros tr Ht; apply tset_order in Ht; rewrite pow_i by lia; ring.
        - generalize (tset (S q)) as l; induction l as [|x l IHl]; [reflexivity|rewrite lsum_cons, IHl; ring]. }
      rewrite Rplus_0_r, E, Rminus_0_r, Rminus_eq_0, Rabs_R0, pow_i by lia; lra. }
    set (F := fun u => vnth m (Z (t + u)) - vnth m (Z t) - series (S q) rate u t m).
    set (F' := fun u => vnth m (g (Z (t + u))) - slope (S q) rate u t m).
    destruct (MVT_cor2 F F' 0 h) as (x & E & Hx); [lra| |].
    { intros x Hx; unfold F, F'; apply (derivable_pt_lim_minus (fun u => vnth m (Z (t + u)) - vnth m (Z t)) (fun u => series (S q) rate u t m)).
      - rewrite <- (Rminus_0_r (vnth m (g (Z (t + x))))).
        apply (derivable_pt_lim_minus (fun u => vnth m (Z (t + u))) (fun _ => vnth m (Z t))); [|apply derivable_pt_lim_const].
        rewrite <- (Rmult_1_r (vnth m (g (Z (t + x))))).
        apply (derivable_pt_lim_comp (fun u => t + u) (fun u => vnth m (Z u))); [|apply HS; [lra|exact Hm]].
        rewrite <- (Rplus_0_l 1); apply (derivable_pt_lim_plus (fun _ => t) (fun u => u)); [apply derivable_pt_lim_const|apply derivable_pt_lim_id].
      - replace (slope (S q) rate x t m) with
          (lsum (fun tr => weight tr * (INR (order tr) * rate tr) * x ^ pred (order tr) * vnth m (differential (D t) tr)) (tset (S q))).
        + apply series_derivable.
        + apply lsum_ext; intros tr _; rewrite rate_child; reflexivity. }
    assert (E0 : F 0 = 0).
    { unfold F; assert (E1 : series (S q) rate 0 t m = 0).
      { unfold series; transitivity (lsum (fun _ : tree => 0) (tset (S q))).
        - apply lsum_ext; intros tr Ht; apply tset_order in Ht; rewrite pow_i by lia; ring.
        - generalize (tset (S q)) as l; induction l as [|y l IHl]; [reflexivity|rewrite lsum_cons, IHl; ring]. }
      rewrite E1, Rplus_0_r; ring. }
    rewrite E0, !Rminus_0_r in E; change (vnth m (Z (t + h)) - vnth m (Z t) - series (S q) rate h t m) with (F h).
    rewrite E, Rabs_mult, (Rabs_right h) by lra.
    replace ((L * C + C') * h ^ S (S q)) with ((L * C + C') * h ^ S q * h) by (cbn [pow]; ring).
    apply Rmult_le_compat_r; [lra|].
    assert (Q : Rabs (F' x) <= L * (C * x ^ S q) + C' * x ^ S q).
    { set (v := vmake N (fun j => vnth j (Z (t + x)) - vnth j (Z t))).
      assert (Ev : Z (t + x) = vadd N (Z t) v).
      { apply (vnth_ext N); [apply HZ|apply vadd_length|]; intros j Hj; unfold v; rewrite vnth_vadd, vnth_vmake by exact Hj; ring. }
      unfold F'; rewrite Ev; apply HC'; [lra|lra|intros tr Htr; apply (abs_member rate), Htr|apply vmake_length| | |exact Hm].
      - apply Rmult_le_pos; [exact C0|apply pow_le; lra].
      - intros i Hi; unfold v; rewrite vnth_vmake by exact Hi; apply HC; [lra|lra|lra|exact Hi]. }
    eapply Rle_trans; [exact Q|].
    replace (L * (C * x ^ S q) + C' * x ^ S q) with ((L * C + C') * x ^ S q) by ring.
    apply Rmult_le_compat_l; [apply Rplus_le_le_0_compat; [apply Rmult_le_pos; assumption|assumption]|].
    apply pow_incr; lra.
Qed.

(** *** Stages *)
Variables (s : nat) (a : nat -> nat -> R) (al : R).
Hypothesis Hal : 0 <= al.
Hypothesis Hrows : forall i, (i < s)%nat -> rsum s (fun j => Rabs (a i j)) <= al.
Definition inner (i : nat) (tr : tree) : R := rsum s (fun j => a i j * stage_weight s a tr j).
Lemma inner_child i tr : child (inner i) tr = stage_weight s a tr i.
Proof. destruct tr as [ts]; reflexivity. Qed.

(** Stage equations, up to an error [nu * h] of the stage values. *)
Record stages (t h : R) (z : list R) (k x : nat -> list R) (e nu : R) : Prop := {
  st_time : t0 <= t <= t1;
  st_h : 0 <= h <= 1;
  st_small : 2 * (h * L * al) <= 1;
  st_close : within N e z (Z t);
  st_e : 0 <= e;
  st_nu : 0 <= nu;
  st_length : forall i, (i < s)%nat -> length (x i) = N;
  st_value : forall i m, (i < s)%nat -> (m < N)%nat ->
    Rabs (vnth m (x i) - (vnth m z + h * rsum s (fun j => a i j * vnth m (k j)))) <= nu * h;
  st_k : forall i, (i < s)%nat -> k i = g (x i)
}.

Lemma stages_bound t h z k x e nu : stages t h z k x e nu ->
  forall i m, (i < s)%nat -> (m < N)%nat -> Rabs (vnth m (k i)) <= 2 * (B + L * (e + nu)).
Proof.
  intros X; destruct (family_max s N (fun i m => vnth m (k i))) as (K & K0 & K1 & K2).
  pose proof (st_h _ _ _ _ _ _ _ X) as Hh; pose proof (st_e _ _ _ _ _ _ _ X); pose proof (st_nu _ _ _ _ _ _ _ X).
  assert (P : 0 <= L * (e + nu)) by (apply Rmult_le_pos; lra).
  assert (HK : K <= 2 * (B + L * (e + nu))).
  { destruct K2 as [->|(i & m & Hi & Hm & E)]; [lra|].
    assert (W : within N (e + nu * h + h * (al * K)) (x i) (Z t)).
    { intros j Hj.
      pose proof (st_value _ _ _ _ _ _ _ X i j Hi Hj) as V1; pose proof (st_close _ _ _ _ _ _ _ X j Hj) as V2.
      assert (V3 : Rabs (h * rsum s (fun l => a i l * vnth j (k l))) <= h * (al * K)).
      { rewrite Rabs_mult, (Rabs_right h) by lra; apply Rmult_le_compat_l; [lra|].
        apply rsum_weighted; [intros l Hl; apply K1; assumption|apply Hrows, Hi|exact K0]. }
      revert V1 V2 V3; generalize (h * rsum s (fun l => a i l * vnth j (k l))) as w.
      generalize (vnth j (x i)), (vnth j z), (vnth j (Z t)); intros u v u' w V1 V2 V3.
      replace (u - u') with ((u - (v + w)) + ((v - u') + w)) by ring.
      pose proof (Rabs_triang (u - (v + w)) ((v - u') + w)); pose proof (Rabs_triang (v - u') w); lra. }
    pose proof (HL _ _ _ (st_length _ _ _ _ _ _ _ X i Hi) (HZ t) W m Hm) as V.
    rewrite <- (st_k _ _ _ _ _ _ _ X i Hi) in V.
    pose proof (rhs_bounded N p g B T Z D HZ HD t m Hp (st_time _ _ _ _ _ _ _ X) Hm) as V'.
    assert (TT : Rabs (vnth m (k i)) <= Rabs (vnth m (k i) - vnth m (g (Z t))) + Rabs (vnth m (g (Z t)))).
    { eapply Rle_trans; [|apply Rabs_triang]; right; f_equal; ring. }
    cbv beta in E; rewrite <- E in TT.
    assert (Q : L * (h * (al * K)) <= K / 2).
    { pose proof (st_small _ _ _ _ _ _ _ X) as Sm.
      replace (L * (h * (al * K))) with ((h * L * al) * K) by ring.
      replace (K / 2) with (/ 2 * K) by field; apply Rmult_le_compat_r; lra. }
    assert (Q2 : L * (nu * h) <= L * nu).
    { apply Rmult_le_compat_l; [exact HL0|]; rewrite <- (Rmult_1_r nu) at 2; apply Rmult_le_compat_l; lra. }
    rewrite !Rmult_plus_distr_l in V; rewrite Rmult_plus_distr_l; lra. }
  intros i m Hi Hm; eapply Rle_trans; [apply K1; assumption|exact HK].
Qed.

Lemma inner_series q i h t m :
  series q (inner i) h t m = h * rsum s (fun j => a i j * slope q (inner j) h t m).
Proof.
  transitivity (h * rsum s (fun j => lsum (fun tr => a i j * (weight tr * stage_weight s a tr j * h ^ pred (order tr)
    * vnth m (differential (D t) tr))) (tset q))).
  - rewrite rsum_lsum_swap, <- lsum_scal; apply lsum_ext; intros tr Htr; apply tset_order in Htr.
    unfold inner; replace (order tr) with (S (pred (order tr))) at 1 by lia; cbn [pow].
    set (w := weight tr); set (d := vnth m (differential (D t) tr)); set (hp := h ^ pred (order tr)).
    rewrite (rsum_ext s (fun j => a i j * (w * stage_weight s a tr j * hp * d))
      (fun j => (a i j * stage_weight s a tr j) * (w * hp * d))) by (intros; ring).
    rewrite rsum_scale; ring.
  - f_equal; apply rsum_ext; intros j _; rewrite lsum_scal; f_equal.
    apply lsum_ext; intros tr _; rewrite inner_child; reflexivity.
Qed.

Lemma stage_series q : (q <= p)%nat -> exists C, 0 <= C /\
  forall t h z k x e nu, stages t h z k x e nu ->
  forall i m, (i < s)%nat -> (m < N)%nat ->
  Rabs (vnth m (k i) - slope q (inner i) h t m) <= C * (h ^ q + e + nu).
Proof.
  induction q as [|q IH]; intros Hq.
  - exists (2 * B + 2 * L); split; [lra|]; intros t h z k x e nu X i m Hi Hm.
    unfold slope; cbn [tset]; rewrite lsum_nil, Rminus_0_r; cbn [pow].
    eapply Rle_trans; [apply (stages_bound _ _ _ _ _ _ _ X); assumption|].
    pose proof (st_e _ _ _ _ _ _ _ X); pose proof (st_nu _ _ _ _ _ _ _ X).
    assert (0 <= B * (e + nu)) by (apply Rmult_le_pos; lra); assert (0 <= L * (e + nu)) by (apply Rmult_le_pos; lra); lra.
  - destruct (IH ltac:(lia)) as (C & C0 & HC).
    set (A := rsum s (fun i => lsum (fun tr => Rabs (inner i tr)) (tset q))).
    assert (HA : forall i tr, (i < s)%nat -> In tr (tset q) -> Rabs (inner i tr) <= A).
    { intros i tr Hi Htr; eapply Rle_trans; [apply (abs_member (inner i)), Htr|].
      unfold A; rewrite rsum_lsum.
      apply (lsum_member (fun i => lsum (fun tr => Rabs (inner i tr)) (tset q))); [|apply in_seq; lia].
      intros j _; apply lsum_nonneg; intros; apply Rabs_pos. }
    assert (A0 : 0 <= A) by (apply rsum_nonneg; intros; apply lsum_nonneg; intros; apply Rabs_pos).
    destruct (compose N p g L B HL0 HB HL T Z D HZ HD q A ltac:(lia) A0) as (C' & C0' & HC').
    assert (P1 : 0 <= al * C) by (apply Rmult_le_pos; assumption).
    assert (P2 : 0 <= L * (1 + al * C)) by (apply Rmult_le_pos; lra).
    exists (L * (1 + al * C) + C'); split; [lra|].
    intros t h z k x e nu X i m Hi Hm.
    pose proof (st_h _ _ _ _ _ _ _ X) as Hh; pose proof (st_e _ _ _ _ _ _ _ X) as He; pose proof (st_nu _ _ _ _ _ _ _ X) as Hnu.
    pose proof (pow_le h q (proj1 Hh)) as Ph.
    set (v := vmake N (fun j => vnth j (x i) - vnth j (Z t))).
    assert (Ev : x i = vadd N (Z t) v).
    { apply (vnth_ext N); [apply (st_length _ _ _ _ _ _ _ X), Hi|apply vadd_length|].
      intros j Hj; unfold v; rewrite vnth_vadd, vnth_vmake by exact Hj; ring. }
    set (r := C * (h ^ q + e + nu)).
    assert (Pr : 0 <= r) by (apply Rmult_le_pos; lra).
    assert (Pd : 0 <= e + nu * h + h * (al * r)).
    { assert (0 <= nu * h) by (apply Rmult_le_pos; lra).
      assert (0 <= h * (al * r)) by (apply Rmult_le_pos; [lra|apply Rmult_le_pos; assumption]); lra. }
    rewrite (st_k _ _ _ _ _ _ _ X i Hi), Ev.
    eapply Rle_trans; [apply (HC' t h (inner i) v (e + nu * h + h * (al * r)) m)|].
    + apply (st_time _ _ _ _ _ _ _ X).
    + exact Hh.
    + intros tr Htr; apply HA; assumption.
    + apply vmake_length.
    + exact Pd.
    + intros j Hj; unfold v; rewrite vnth_vmake by exact Hj; rewrite inner_series.
      pose proof (st_value _ _ _ _ _ _ _ X i j Hi Hj) as V1; pose proof (st_close _ _ _ _ _ _ _ X j Hj) as V2.
      assert (V3 : Rabs (h * rsum s (fun l => a i l * (vnth j (k l) - slope q (inner l) h t j))) <= h * (al * r)).
      { rewrite Rabs_mult, (Rabs_right h) by lra; apply Rmult_le_compat_l; [lra|].
        apply rsum_weighted; [|apply Hrows, Hi|exact Pr].
        intros l Hl; apply (HC _ _ _ _ _ _ _ X); assumption. }
      rewrite (rsum_ext s (fun l => a i l * (vnth j (k l) - slope q (inner l) h t j))
        (fun l => a i l * vnth j (k l) - a i l * slope q (inner l) h t j)) in V3 by (intros; ring).
      rewrite rsum_sub in V3.
      revert V1 V2 V3; generalize (rsum s (fun l => a i l * vnth j (k l))) as w, (rsum s (fun l => a i l * slope q (inner l) h t j)) as w'.
      generalize (vnth j (x i)), (vnth j z), (vnth j (Z t)); intros u y u' w w' V1 V2 V3.
      replace (u - u' - h * w') with ((u - (y + h * w)) + ((y - u') + h * (w - w'))) by ring.
      pose proof (Rabs_triang (u - (y + h * w)) ((y - u') + h * (w - w'))); pose proof (Rabs_triang (y - u') (h * (w - w'))); lra.
    + exact Hm.
    + unfold r; replace ((L * (1 + al * C) + C') * (h ^ S q + e + nu))
        with (L * (e + nu) + L * (al * C) * (h ^ S q + (e + nu)) + C' * h ^ S q + (L * h ^ S q + C' * (e + nu))) by ring.
      assert (Q1 : L * (e + nu * h) <= L * (e + nu)).
      { apply Rmult_le_compat_l; [exact HL0|]; apply Rplus_le_compat_l; rewrite <- (Rmult_1_r nu) at 2; apply Rmult_le_compat_l; lra. }
      assert (Q2 : L * (h * (al * (C * (h ^ q + e + nu)))) <= L * (al * C) * (h ^ S q + (e + nu))).
      { replace (L * (h * (al * (C * (h ^ q + e + nu))))) with (L * (al * C) * (h * h ^ q + h * (e + nu))) by ring.
        apply Rmult_le_compat_l; [apply Rmult_le_pos; assumption|]; cbn [pow]; apply Rplus_le_compat_l.
        rewrite <- (Rmult_1_l (e + nu)) at 2; apply Rmult_le_compat_r; lra. }
      assert (Q3 : 0 <= L * h ^ S q) by (apply Rmult_le_pos; [exact HL0|apply pow_le, Hh]).
      assert (Q4 : 0 <= C' * (e + nu)) by (apply Rmult_le_pos; lra).
      rewrite (Rmult_plus_distr_l L (e + nu * h)); lra.
Qed.

(** *** One step *)
Variables (b : nat -> R) (eps : R).
Hypothesis Hord : order_conditions s a b p eps.

Lemma eps_nonneg : 0 <= eps.
Proof. eapply Rle_trans; [apply Rabs_pos|apply (Hord (Node [])); cbn; lia]. Qed.

Lemma local_error : exists C, 0 <= C /\
  forall t h z k x e nu, stages t h z k x e nu -> t + h <= t1 -> forall m, (m < N)%nat ->
  Rabs (vnth m z + h * rsum s (fun i => b i * vnth m (k i)) - vnth m (Z (t + h)))
    <= Rabs (vnth m z - vnth m (Z t)) + h * (C * (h ^ p + e + nu + eps)).
Proof.
  destruct (stage_series p (le_n p)) as (C1 & P1 & HC1).
  destruct (exact_series p (le_n p)) as (C2 & P2 & HC2).
  set (be := rsum s (fun i => Rabs (b i))).
  set (C3 := lsum (fun tr => weight tr * dbound B tr) (tset p)).
  assert (Pbe : 0 <= be) by (apply rsum_nonneg; intros; apply Rabs_pos).
  assert (P3 : 0 <= C3).
  { apply lsum_nonneg; intros tr H; apply Rmult_le_pos; [eapply weight_nonneg; exact H|eapply dbound_nonneg; [exact HB|exact H]]. }
  assert (Pb1 : 0 <= be * C1) by (apply Rmult_le_pos; assumption).
  pose proof eps_nonneg as Pe.
  exists (be * C1 + C2 + C3); split; [lra|].
  intros t h z k x e nu X H1 m Hm.
  pose proof (st_h _ _ _ _ _ _ _ X) as Hh; pose proof (st_e _ _ _ _ _ _ _ X) as He; pose proof (st_nu _ _ _ _ _ _ _ X) as Hnu.
  pose proof (pow_le h p (proj1 Hh)) as Ph.
  set (r := C1 * (h ^ p + e + nu)).
  assert (Pr : 0 <= r) by (apply Rmult_le_pos; lra).
  assert (V1 : Rabs (h * rsum s (fun i => b i * (vnth m (k i) - slope p (inner i) h t m))) <= h * (be * r)).
  { rewrite Rabs_mult, (Rabs_right h) by lra; apply Rmult_le_compat_l; [lra|].
    apply rsum_weighted; [|unfold be; lra|exact Pr].
    intros i Hi; apply (HC1 _ _ _ _ _ _ _ X); assumption. }
  rewrite (rsum_ext s (fun l => b l * (vnth m (k l) - slope p (inner l) h t m))
    (fun l => b l * vnth m (k l) - b l * slope p (inner l) h t m)) in V1 by (intros; ring).
  rewrite rsum_sub in V1.
  pose proof (HC2 t h m (proj1 (st_time _ _ _ _ _ _ _ X)) Hh H1 Hm) as V2.
  assert (V3 : Rabs (h * rsum s (fun i => b i * slope p (inner i) h t m) - series p rate h t m) <= h * (eps * C3)).
  { replace (h * rsum s (fun i => b i * slope p (inner i) h t m) - series p rate h t m)
      with (lsum (fun tr => weight tr * h ^ order tr * vnth m (differential (D t) tr) * defect s a b tr) (tset p)).
    - replace (h * (eps * C3)) with ((h * eps) * C3) by ring; unfold C3; rewrite <- lsum_scal.
      apply lsum_bound; intros tr Htr.
      pose proof (weight_nonneg _ _ Htr) as Hw; pose proof (differential_bounded N p g B HB T Z D HD p (le_n p) tr t m Htr (st_time _ _ _ _ _ _ _ X) Hm) as Hd.
      pose proof (tset_order _ _ Htr) as Ho.
      rewrite !Rabs_mult, (Rabs_right (weight tr)) by lra; rewrite (Rabs_right (h ^ _)) by (apply Rle_ge, pow_le, Hh).
      replace (h * eps * (weight tr * dbound B tr)) with (weight tr * h * dbound B tr * eps) by ring.
      apply Rmult_le_compat; [|apply Rabs_pos| |apply Hord; lia].
      + apply Rmult_le_pos; [apply Rmult_le_pos; [exact Hw|apply pow_le, Hh]|apply Rabs_pos].
      + apply Rmult_le_compat; [apply Rmult_le_pos; [exact Hw|apply pow_le, Hh]|apply Rabs_pos| |exact Hd].
        apply Rmult_le_compat_l; [exact Hw|]; rewrite <- (pow_1 h) at 2; apply pow_decr; [exact Hh|lia].
    - symmetry.
      transitivity (h * rsum s (fun j => lsum (fun tr => b j * (weight tr * stage_weight s a tr j * h ^ pred (order tr)
        * vnth m (differential (D t) tr))) (tset p)) - series p rate h t m).
      { f_equal; f_equal; apply rsum_ext; intros j _; rewrite lsum_scal; f_equal.
        apply lsum_ext; intros tr _; rewrite inner_child; reflexivity. }
      rewrite rsum_lsum_swap, <- lsum_scal; unfold series, L_Series.series; rewrite <- lsum_minus; apply lsum_ext; intros tr Htr; apply tset_order in Htr.
      unfold defect, rate; assert (Eh : h ^ order tr = h * h ^ pred (order tr)) by (rewrite tech_pow_Rmult; f_equal; lia); rewrite Eh.
      set (w := weight tr); set (d := vnth m (differential (D t) tr)); set (hp := h ^ pred (order tr)).
      rewrite (rsum_ext s (fun j => b j * (w * stage_weight s a tr j * hp * d))
        (fun j => (b j * stage_weight s a tr j) * (w * hp * d))) by (intros; ring).
      rewrite rsum_scale; ring. }
  assert (V4 : h * (be * r) + h * (eps * C3) + C2 * h ^ S p <= h * ((be * C1 + C2 + C3) * (h ^ p + e + nu + eps))).
  { cbn [pow]; replace (h * (be * r) + h * (eps * C3) + C2 * (h * h ^ p)) with (h * (be * C1 * (h ^ p + e + nu) + C3 * eps + C2 * h ^ p)) by (unfold r; ring).
    apply Rmult_le_compat_l; [lra|].
    assert (0 <= be * C1 * eps) by (apply Rmult_le_pos; lra).
    assert (0 <= C2 * (e + nu + eps)) by (apply Rmult_le_pos; lra).
    assert (0 <= C3 * (h ^ p + e + nu)) by (apply Rmult_le_pos; lra).
    lra. }
  revert V1 V2 V3 V4.
  generalize (rsum s (fun i => b i * vnth m (k i))), (rsum s (fun i => b i * slope p (inner i) h t m)), (series p rate h t m).
  generalize (vnth m z), (vnth m (Z t)), (vnth m (Z (t + h))).
  intros y u u' w w' sr V1 V2 V3 V4.
  replace (y + h * w - u') with ((y - u) + (h * (w - w') + ((h * w' - sr) + - (u' - u - sr)))) by ring.
  pose proof (Rabs_triang (y - u) (h * (w - w') + ((h * w' - sr) + - (u' - u - sr)))).
  pose proof (Rabs_triang (h * (w - w')) ((h * w' - sr) + - (u' - u - sr))).
  pose proof (Rabs_triang (h * w' - sr) (- (u' - u - sr))) as T3; rewrite Rabs_Ropp in T3; lra.
Qed.

(** The difference of two methods with the same stages. *)
Variables (b' : nat -> R) (eps' : R).
Hypothesis Hord' : order_conditions s a b' p eps'.

Lemma estimate_error : exists C, 0 <= C /\
  forall t h z k x e nu, stages t h z k x e nu -> forall m, (m < N)%nat ->
  Rabs (h * rsum s (fun i => (b i - b' i) * vnth m (k i))) <= h * (C * (h ^ p + e + nu + (eps + eps'))).
Proof.
  destruct (stage_series p (le_n p)) as (C1 & P1 & HC1).
  set (be := rsum s (fun i => Rabs (b i - b' i))).
  set (C3 := lsum (fun tr => weight tr * dbound B tr) (tset p)).
  assert (Pbe : 0 <= be) by (apply rsum_nonneg; intros; apply Rabs_pos).
  assert (P3 : 0 <= C3).
  { apply lsum_nonneg; intros tr H; apply Rmult_le_pos; [eapply weight_nonneg; exact H|eapply dbound_nonneg; [exact HB|exact H]]. }
  assert (Pb1 : 0 <= be * C1) by (apply Rmult_le_pos; assumption).
  pose proof eps_nonneg as Pe.
  assert (Pe' : 0 <= eps') by (eapply Rle_trans; [apply Rabs_pos|apply (Hord' (Node [])); cbn; lia]).
  exists (be * C1 + C3); split; [lra|].
  intros t h z k x e nu X m Hm.
  pose proof (st_h _ _ _ _ _ _ _ X) as Hh; pose proof (st_e _ _ _ _ _ _ _ X) as He; pose proof (st_nu _ _ _ _ _ _ _ X) as Hnu.
  pose proof (pow_le h p (proj1 Hh)) as Ph.
  set (r := C1 * (h ^ p + e + nu)).
  assert (Pr : 0 <= r) by (apply Rmult_le_pos; lra).
  assert (V1 : Rabs (h * rsum s (fun i => (b i - b' i) * (vnth m (k i) - slope p (inner i) h t m))) <= h * (be * r)).
  { rewrite Rabs_mult, (Rabs_right h) by lra; apply Rmult_le_compat_l; [lra|].
    apply rsum_weighted; [|unfold be; lra|exact Pr].
    intros i Hi; apply (HC1 _ _ _ _ _ _ _ X); assumption. }
  rewrite (rsum_ext s (fun l => (b l - b' l) * (vnth m (k l) - slope p (inner l) h t m))
    (fun l => (b l - b' l) * vnth m (k l) - (b l - b' l) * slope p (inner l) h t m)) in V1 by (intros; ring).
  rewrite rsum_sub in V1.
  assert (V3 : Rabs (h * rsum s (fun i => (b i - b' i) * slope p (inner i) h t m)) <= h * ((eps + eps') * C3)).
  { replace (h * rsum s (fun i => (b i - b' i) * slope p (inner i) h t m))
      with (lsum (fun tr => weight tr * h ^ order tr * vnth m (differential (D t) tr) * (defect s a b tr - defect s a b' tr)) (tset p)).
    - replace (h * ((eps + eps') * C3)) with ((h * (eps + eps')) * C3) by ring; unfold C3; rewrite <- lsum_scal.
      apply lsum_bound; intros tr Htr.
      pose proof (weight_nonneg _ _ Htr) as Hw; pose proof (differential_bounded N p g B HB T Z D HD p (le_n p) tr t m Htr (st_time _ _ _ _ _ _ _ X) Hm) as Hd.
      pose proof (tset_order _ _ Htr) as Ho.
      rewrite !Rabs_mult, (Rabs_right (weight tr)) by lra; rewrite (Rabs_right (h ^ _)) by (apply Rle_ge, pow_le, Hh).
      replace (h * (eps + eps') * (weight tr * dbound B tr)) with (weight tr * h * dbound B tr * (eps + eps')) by ring.
      apply Rmult_le_compat; [|apply Rabs_pos| |].
      + apply Rmult_le_pos; [apply Rmult_le_pos; [exact Hw|apply pow_le, Hh]|apply Rabs_pos].
      + apply Rmult_le_compat; [apply Rmult_le_pos; [exact Hw|apply pow_le, Hh]|apply Rabs_pos| |exact Hd].
        apply Rmult_le_compat_l; [exact Hw|]; rewrite <- (pow_1 h) at 2; apply pow_decr; [exact Hh|lia].
      + pose proof (Hord tr ltac:(lia)); pose proof (Hord' tr ltac:(lia)).
        pose proof (Rabs_triang (defect s a b tr) (- defect s a b' tr)) as TT; rewrite Rabs_Ropp in TT; unfold Rminus; lra.
    - symmetry.
      transitivity (h * rsum s (fun j => lsum (fun tr => (b j - b' j) * (weight tr * stage_weight s a tr j * h ^ pred (order tr)
        * vnth m (differential (D t) tr))) (tset p))).
      { f_equal; apply rsum_ext; intros j _; rewrite lsum_scal; f_equal.
        apply lsum_ext; intros tr _; rewrite inner_child; reflexivity. }
      rewrite rsum_lsum_swap, <- lsum_scal; apply lsum_ext; intros tr Htr; apply tset_order in Htr.
      assert (Eh : h ^ order tr = h * h ^ pred (order tr)) by (rewrite tech_pow_Rmult; f_equal; lia); rewrite Eh.
      unfold defect.
      set (w := weight tr); set (d := vnth m (differential (D t) tr)); set (hp := h ^ pred (order tr)).
      rewrite (rsum_ext s (fun j => (b j - b' j) * (w * stage_weight s a tr j * hp * d))
        (fun j => b j * stage_weight s a tr j * (w * hp * d) - b' j * stage_weight s a tr j * (w * hp * d))) by (intros; ring).
      rewrite rsum_sub, !rsum_scale; ring. }
  assert (V4 : h * (be * r) + h * ((eps + eps') * C3) <= h * ((be * C1 + C3) * (h ^ p + e + nu + (eps + eps')))).
  { replace (h * (be * r) + h * ((eps + eps') * C3)) with (h * (be * C1 * (h ^ p + e + nu) + C3 * (eps + eps'))) by (unfold r; ring).
    apply Rmult_le_compat_l; [lra|].
    assert (0 <= be * C1 * (eps + eps')) by (apply Rmult_le_pos; lra).
    assert (0 <= C3 * (h ^ p + e + nu)) by (apply Rmult_le_pos; lra).
    lra. }
  revert V1 V3.
  generalize (rsum s (fun i => (b i - b' i) * vnth m (k i))), (rsum s (fun i => (b i - b' i) * slope p (inner i) h t m)).
  intros w w' V1 V3.
  replace (h * w) with (h * (w - w') + h * w') by ring.
  pose proof (Rabs_triang (h * (w - w')) (h * w')); lra.
Qed.
End Solution.
