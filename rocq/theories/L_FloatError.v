(** Bounds for the errors of the expressions of the shipped tableaux, in multiples
    of the rounding error of the format. *)
From Coq Require Import ZArith QArith Qreals Reals SpecFloat List Lia Lra Psatz Bool.
From Verif Require Import Base M_Tableaux M_TableauxFloat SpecFloating SpecTableauxFloat L_Float L_FloatOps L_Fields.
Import ListNotations.
Open Scope R_scope.

(** A ball around the exact value, and the error of the computed value as a
    multiple of the rounding error (both in units of 2^-110). *)
Definition estimate : Type := (ball * Z)%type.
Definition mag (b : ball) : Z := (Z.abs (fst b) + snd b)%Z.
(** [c * 2^-53] and [c / unit], rounded up. *)
Definition tiny (c : Z) : Z := (Z.shiftr c 53 + 1)%Z.
Definition scaled (c : Z) : Z := (Z.shiftr c 110 + 1)%Z.
(** Rounding the result of an operation. *)
Definition finish (k : Z) (p : estimate) : option estimate :=
  let m := (mag (fst p) + tiny (snd p))%Z in
  if Z.leb m (Z.shiftl unit 50) then Some (fst p, snd p + k * (unit + m))%Z else None.
Definition eadd (p q : estimate) : estimate := (badd (fst p) (fst q), snd p + snd q)%Z.
Definition eopp (p : estimate) : estimate := (bopp (fst p), snd p).
Definition emul (p q : estimate) : estimate :=
  (bmul (fst p) (fst q), scaled (mag (fst p) * snd q + mag (fst q) * snd p + tiny (snd p * snd q)))%Z.
Definition ediv (p q : estimate) : option estimate :=
  let d := (Z.abs (fst (fst q)) - snd (fst q) - tiny (snd q))%Z in
  if Z.ltb 0 d then
    obind (bdiv (fst p) (fst q)) (fun b => Some (b, (snd p * unit + mag b * snd q) / d + 1)%Z)
  else None.
Fixpoint epow (p : estimate) (n : nat) : estimate :=
  match n with O => ((unit, 0), 0)%Z | S n' => emul p (epow p n') end.
Definition broot (x : ball) : option ball :=
  if Z.ltb 0 (fst x - snd x)
  then let s := Z.sqrt ((fst x - snd x) * unit) in
       Some (s, Z.sqrt ((fst x + snd x) * unit) + 1 - s)%Z
  else None.
Definition eroot (p : estimate) : option estimate :=
  if Z.ltb 0 (fst (fst p) - snd (fst p) - tiny (snd p)) then
    obind (broot (fst p)) (fun b => if Z.ltb 0 (fst b) then Some (b, snd p * unit / fst b + 1)%Z else None)
  else None.
Fixpoint evalC (e : expr) : option estimate :=
  match e with
  | Lit q => finish 1 ((qfloor q, 1), 0)%Z
  | Neg x => obind (evalC x) (fun a => Some (eopp a))
  | Add x y => obind (evalC x) (fun a => obind (evalC y) (fun b => finish 1 (eadd a b)))
  | Sub x y => obind (evalC x) (fun a => obind (evalC y) (fun b => finish 1 (eadd a (eopp b))))
  | Mul x y => obind (evalC x) (fun a => obind (evalC y) (fun b => finish 1 (emul a b)))
  | Div x y => obind (evalC x) (fun a => obind (evalC y) (fun b => obind (ediv a b) (finish 1)))
  | Pow x n => obind (evalC x) (fun a => finish 8 (epow a n))
  | Sqrt x => obind (evalC x) (fun a => obind (eroot a) (finish 1))
  end.

Lemma broot_sound b b' x : contains b x -> broot b = Some b' -> 0 < x /\ contains b' (sqrt x).
Proof.
  unfold broot, contains. intros H E. destruct (Z.ltb_spec 0 (fst b - snd b)) as [P|]; [|discriminate].
  cbv zeta in E. assert (Eb : b' = (Z.sqrt ((fst b - snd b) * unit), Z.sqrt ((fst b + snd b) * unit) + 1 - Z.sqrt ((fst b - snd b) * unit))%Z) by congruence.
  subst b'. clear E. cbn [fst snd].
  pose proof unit_pos as U. destruct b as [m r]; cbn [fst snd] in *.
  assert (X : IZR (m - r) <= x * IZR unit <= IZR (m + r)).
  { rewrite minus_IZR, plus_IZR. revert H. unfold Rabs. destruct (Rcase_abs _); lra. }
  apply IZR_lt in P as P'. assert (Px : 0 < x) by nra. split; [exact Px|].
  assert (U' : (0 < unit)%Z) by reflexivity.
  assert (M : (m - r <= m + r)%Z) by (apply le_IZR; lra).
  pose proof (Z.sqrt_spec ((m - r) * unit) ltac:(apply Z.mul_nonneg_nonneg; lia)) as [S1 _]. pose proof (Z.sqrt_spec ((m + r) * unit) ltac:(apply Z.mul_nonneg_nonneg; lia)) as [_ S2].
  pose proof (Z.sqrt_nonneg ((m - r) * unit)) as N1. pose proof (Z.sqrt_nonneg ((m + r) * unit)) as N2.
  set (s := Z.sqrt ((m - r) * unit)) in *. set (t := Z.sqrt ((m + r) * unit)) in *.
  apply IZR_le in S1, N1, N2. apply IZR_lt in S2. rewrite !mult_IZR in S1, S2. rewrite succ_IZR in S2.
  set (z := sqrt x * IZR unit). assert (Pz : 0 <= z) by (apply Rmult_le_pos; [apply sqrt_pos|lra]).
  assert (Ez : z * z = x * IZR unit * IZR unit).
  { unfold z. replace (sqrt x * IZR unit * (sqrt x * IZR unit)) with (sqrt x * sqrt x * IZR unit * IZR unit) by ring. rewrite sqrt_sqrt by lra. ring. }
  assert (X1 : IZR (m - r) * IZR unit <= x * IZR unit * IZR unit) by (apply Rmult_le_compat_r; lra).
  assert (X2 : x * IZR unit * IZR unit <= IZR (m + r) * IZR unit) by (apply Rmult_le_compat_r; lra).
  assert (Q1 : IZR s <= z) by (apply Rsqr_incr_0; unfold Rsqr; [lra|lra|lra]).
  assert (Q2 : z <= IZR t + 1) by (apply Rsqr_incr_0; unfold Rsqr; [lra|lra|lra]).
  rewrite minus_IZR, plus_IZR. rewrite Rabs_right; lra.
Qed.
Lemma literal_ball q : contains (qfloor q, 1%Z) (Q2R q).
Proof. unfold contains; cbn [fst snd]; pose proof (qfloor_bounds q); apply Rabs_le; lra. Qed.
Lemma bdiv_nonzero a b c y : contains b y -> bdiv a b = Some c -> y <> 0.
Proof.
  intros H E. unfold bdiv in E. destruct (Z.ltb_spec 0 (Z.abs (fst b) - snd b)) as [P|]; [|discriminate].
  pose proof (contains_abs _ _ H) as [A _]. apply IZR_lt in P. intros ->. rewrite Rabs_R0, Rmult_0_l in A. lra.
Qed.

Section Errors.
Variable u : R.
Hypothesis Hu : 0 < u <= pw (- (53)).
Notation U := (IZR unit).

Definition estimates (p : estimate) (x x' : R) : Prop :=
  contains (fst p) x /\ (0 <= snd p)%Z /\ Rabs (x' - x) * U <= IZR (snd p) * u.

Lemma mag_bound b x : contains b x -> Rabs x * U <= IZR (mag b) /\ 0 <= IZR (mag b).
Proof.
  intros H. destruct (contains_abs _ _ H) as [_ B]. split; [exact B|]. pose proof unit_pos. pose proof (Rabs_pos x).
  unfold mag. nra.
Qed.
Lemma pw53_inv : pw (- (53)) = / IZR (2 ^ 53).
Proof.
  pose proof (pw_opp 53) as O. rewrite (pw_IZR 53) in O by lia. assert (0 < IZR (2 ^ 53)) by (apply IZR_lt; lia).
  apply Rmult_eq_reg_r with (IZR (2 ^ 53)); [|lra]. rewrite O. symmetry. apply Rinv_l. lra.
Qed.
Lemma tiny_bound c : (0 <= c)%Z -> IZR c * u <= IZR (tiny c) /\ 0 <= IZR (tiny c).
Proof.
  intros Hc. unfold tiny. rewrite Z.shiftr_div_pow2 by lia. pose proof (div_bounds c (2 ^ 53) ltac:(lia)) as D. rewrite plus_IZR.
  apply IZR_le in Hc. assert (IZR c * u <= IZR c * / IZR (2 ^ 53)) by (apply Rmult_le_compat_l; [exact Hc|rewrite <- pw53_inv; apply Hu]).
  unfold Rdiv in D. assert (0 <= IZR c * u) by (apply Rmult_le_pos; lra). lra.
Qed.
Lemma scaled_bound c : IZR c <= IZR (scaled c) * U.
Proof.
  unfold scaled. rewrite Z.shiftr_div_pow2 by lia. fold unit. pose proof (div_bounds c unit ltac:(reflexivity)) as D. rewrite plus_IZR.
  pose proof unit_pos. apply Rmult_le_reg_r with (/ U); [apply Rinv_0_lt_compat; assumption|]. rewrite (Rmult_assoc _ U), Rinv_r by lra. unfold Rdiv in D. lra.
Qed.
Lemma tiny_nonneg c : (0 <= c)%Z -> (0 <= tiny c)%Z.
Proof. intros H. unfold tiny. pose proof (proj2 (Z.shiftr_nonneg c 53) H). lia. Qed.
Lemma scaled_nonneg c : (0 <= c)%Z -> (0 <= scaled c)%Z.
Proof. intros H. unfold scaled. pose proof (proj2 (Z.shiftr_nonneg c 110) H). lia. Qed.

(** The exact operation on computed values is close to the exact value. *)
Lemma value_bound p x x' : estimates p x x' -> Rabs x' * U <= IZR (mag (fst p) + tiny (snd p)).
Proof.
  intros (C & P & E). destruct (mag_bound _ _ C) as [M _]. destruct (tiny_bound _ P) as [T _]. rewrite plus_IZR.
  pose proof unit_pos. pose proof (Rabs_triang (x' - x) x) as Tr. replace (x' - x + x) with x' in Tr by ring. nra.
Qed.
Lemma finish_sound k p p' x x' z : (0 <= k)%Z -> estimates p x x' -> finish k p = Some p' ->
  Rabs (z - x') <= IZR k * (u * (1 + Rabs x')) -> estimates p' x z.
Proof.
  intros Hk He F Hz. pose proof (value_bound _ _ _ He) as V. destruct He as (C & P & E). unfold finish in F. cbv zeta in F.
  destruct (Z.leb _ _); [|discriminate].
  assert (Ep : p' = (fst p, snd p + k * (unit + (mag (fst p) + tiny (snd p))))%Z) by congruence. subst p'. clear F.
  pose proof unit_pos as PU. assert (Pm : (0 <= mag (fst p) + tiny (snd p))%Z).
  { apply le_IZR. pose proof (Rabs_pos x'). nra. }
  split; [exact C|]. cbn [snd]. split; [assert (0 < unit)%Z by reflexivity; nia|].
  rewrite plus_IZR, mult_IZR, (plus_IZR unit). set (m := IZR (mag (fst p) + tiny (snd p))) in *.
  replace (z - x) with ((z - x') + (x' - x)) by ring. apply Rle_trans with ((Rabs (z - x') + Rabs (x' - x)) * U).
  { apply Rmult_le_compat_r; [lra|apply Rabs_triang]. }
  apply IZR_le in Hk.
  assert (Rabs (z - x') * U <= IZR k * (U + m) * u).
  { apply Rle_trans with (IZR k * (u * (1 + Rabs x')) * U); [apply Rmult_le_compat_r; lra|].
    replace (IZR k * (u * (1 + Rabs x')) * U) with (IZR k * u * (U + Rabs x' * U)) by ring.
    replace (IZR k * (U + m) * u) with (IZR k * u * (U + m)) by ring. apply Rmult_le_compat_l; [apply Rmult_le_pos; lra|]. lra. }
  lra.
Qed.
Lemma finish_bound k p p' x x' : estimates p x x' -> finish k p = Some p' -> Rabs x' <= pw 50.
Proof.
  intros He F. pose proof (value_bound _ _ _ He) as V. unfold finish in F. cbv zeta in F.
  destruct (Z.leb_spec (mag (fst p) + tiny (snd p)) (Z.shiftl unit 50)) as [L|]; [|discriminate].
  rewrite Z.shiftl_mul_pow2 in L by lia. apply IZR_le in L. rewrite mult_IZR in L. rewrite pw_IZR by lia.
  pose proof unit_pos. apply Rmult_le_reg_r with U; [assumption|]. lra.
Qed.

Lemma eadd_sound p q x x' y y' : estimates p x x' -> estimates q y y' -> estimates (eadd p q) (x + y) (x' + y').
Proof.
  intros (C & P & E) (D & Q & F). split; [apply badd_sound; assumption|]. cbn [eadd snd]. split; [lia|].
  rewrite plus_IZR. replace (x' + y' - (x + y)) with ((x' - x) + (y' - y)) by ring. pose proof unit_pos.
  apply Rle_trans with ((Rabs (x' - x) + Rabs (y' - y)) * U); [apply Rmult_le_compat_r; [lra|apply Rabs_triang]|]. lra.
Qed.
Lemma eopp_sound p x x' : estimates p x x' -> estimates (eopp p) (- x) (- x').
Proof.
  intros (C & P & E). split; [apply bopp_sound; assumption|]. cbn [eopp snd]. split; [exact P|].
  replace (- x' - - x) with (- (x' - x)) by ring. rewrite Rabs_Ropp. exact E.
Qed.
Lemma emul_sound p q x x' y y' : estimates p x x' -> estimates q y y' -> estimates (emul p q) (x * y) (x' * y').
Proof.
  intros (C & P & E) (D & Q & F). destruct (mag_bound _ _ C) as [M1 N1]. destruct (mag_bound _ _ D) as [M2 N2].
  split; [apply bmul_sound; assumption|]. cbn [emul snd]. pose proof unit_pos as PU.
  assert (N1' : (0 <= mag (fst p))%Z) by (apply le_IZR; exact N1). assert (N2' : (0 <= mag (fst q))%Z) by (apply le_IZR; exact N2).
  assert (PQ : (0 <= snd p * snd q)%Z) by (apply Z.mul_nonneg_nonneg; assumption).
  pose proof (tiny_nonneg _ PQ) as T0. destruct (tiny_bound _ PQ) as [T1 _]. rewrite mult_IZR in T1.
  set (S := (mag (fst p) * snd q + mag (fst q) * snd p + tiny (snd p * snd q))%Z).
  assert (S0 : (0 <= S)%Z).
  { pose proof (Z.mul_nonneg_nonneg _ _ N1' Q). pose proof (Z.mul_nonneg_nonneg _ _ N2' P). unfold S. lia. }
  split; [apply scaled_nonneg, S0|].
  assert (SR : IZR S = IZR (mag (fst p)) * IZR (snd q) + IZR (mag (fst q)) * IZR (snd p) + IZR (tiny (snd p * snd q))).
  { unfold S. rewrite !plus_IZR, !mult_IZR. reflexivity. }
  pose proof (scaled_bound S) as SB. apply IZR_le in P, Q.
  set (a := Rabs (x' - x) * U) in *. set (b := Rabs (y' - y) * U) in *.
  assert (A0 : 0 <= a) by (apply Rmult_le_pos; [apply Rabs_pos|lra]). assert (B0 : 0 <= b) by (apply Rmult_le_pos; [apply Rabs_pos|lra]).
  apply Rmult_le_reg_r with U; [exact PU|].
  apply Rle_trans with (IZR S * u).
  2:{ apply Rle_trans with (IZR (scaled S) * U * u); [apply Rmult_le_compat_r; lra|right; ring]. }
  assert (T : Rabs (x' * y' - x * y) <= Rabs x * Rabs (y' - y) + Rabs y * Rabs (x' - x) + Rabs (x' - x) * Rabs (y' - y)).
  { replace (x' * y' - x * y) with (x * (y' - y) + y * (x' - x) + (x' - x) * (y' - y)) by ring. rewrite <- !Rabs_mult.
    eapply Rle_trans; [apply Rabs_triang|]. apply Rplus_le_compat_r, Rabs_triang. }
  apply Rle_trans with (Rabs x * U * b + Rabs y * U * a + a * b).
  { apply Rle_trans with ((Rabs x * Rabs (y' - y) + Rabs y * Rabs (x' - x) + Rabs (x' - x) * Rabs (y' - y)) * U * U).
    - apply Rmult_le_compat_r; [lra|]. apply Rmult_le_compat_r; [lra|exact T].
    - unfold a, b. right. ring. }
  assert (X1 : Rabs x * U * b <= IZR (mag (fst p)) * (IZR (snd q) * u)).
  { apply Rmult_le_compat; [apply Rmult_le_pos; [apply Rabs_pos|lra]|exact B0|exact M1|exact F]. }
  assert (X2 : Rabs y * U * a <= IZR (mag (fst q)) * (IZR (snd p) * u)).
  { apply Rmult_le_compat; [apply Rmult_le_pos; [apply Rabs_pos|lra]|exact A0|exact M2|exact E]. }
  assert (X3 : a * b <= IZR (snd p) * u * (IZR (snd q) * u)) by (apply Rmult_le_compat; assumption).
  assert (X4 : IZR (snd p) * u * (IZR (snd q) * u) <= IZR (tiny (snd p * snd q)) * u).
  { replace (IZR (snd p) * u * (IZR (snd q) * u)) with (IZR (snd p) * IZR (snd q) * u * u) by ring. apply Rmult_le_compat_r; [lra|exact T1]. }
  rewrite SR. lra.
Qed.
Lemma epow_sound p x x' n : estimates p x x' -> estimates (epow p n) (x ^ n) (x' ^ n).
Proof.
  intros H. induction n as [|n IH]; cbn [epow pow]; [|apply emul_sound; assumption].
  split; [apply b1_sound|]. split; [cbn; lia|]. cbn [snd]. rewrite Rminus_diag_eq, Rabs_R0 by reflexivity. lra.
Qed.
Lemma ediv_sound p q r x x' y y' : estimates p x x' -> estimates q y y' -> ediv p q = Some r -> y' <> 0 /\ estimates r (x / y) (x' / y').
Proof.
  intros (C & P & E) (D & Q & F) G. unfold ediv in G. cbv zeta in G.
  set (d := (Z.abs (fst (fst q)) - snd (fst q) - tiny (snd q))%Z) in *.
  destruct (Z.ltb_spec 0 d) as [Pd|]; [|discriminate]. destruct (bdiv (fst p) (fst q)) as [b|] eqn:Eb; [|discriminate]. cbn [obind] in G.
  assert (Er : r = (b, (snd p * unit + mag b * snd q) / d + 1)%Z) by congruence. subst r. clear G.
  pose proof (bdiv_sound _ _ _ _ _ C D Eb) as B. pose proof (bdiv_nonzero _ _ _ _ D Eb) as NZ.
  destruct (mag_bound _ _ B) as [MB MB0]. assert (MB0' : (0 <= mag b)%Z) by (apply le_IZR; exact MB0).
  destruct (contains_abs _ _ D) as [YL _]. destruct (tiny_bound _ Q) as [T _]. pose proof unit_pos as PU.
  assert (Yl : IZR d <= Rabs y' * U).
  { unfold d. rewrite !minus_IZR in *. pose proof (Rabs_triang_inv y (y - y')) as Tr. replace (y - (y - y')) with y' in Tr by ring.
    rewrite (Rabs_minus_sym y y') in Tr. nra. }
  apply IZR_lt in Pd as Pd'.
  assert (Ny : y' <> 0) by (intros ->; rewrite Rabs_R0 in Yl; lra).
  split; [exact Ny|]. split; [exact B|]. cbn [snd].
  assert (S0 : (0 <= snd p * unit + mag b * snd q)%Z).
  { assert (0 < unit)%Z by reflexivity. pose proof (Z.mul_nonneg_nonneg _ _ MB0' Q). nia. }
  split; [pose proof (Z.div_pos _ _ S0 Pd); lia|].
  pose proof (div_bounds (snd p * unit + mag b * snd q) d Pd) as DB. rewrite plus_IZR.
  assert (SR : IZR (snd p * unit + mag b * snd q) = IZR (snd p) * U + IZR (mag b) * IZR (snd q)) by (rewrite plus_IZR, !mult_IZR; reflexivity).
  rewrite SR in DB. set (S := IZR (snd p) * U + IZR (mag b) * IZR (snd q)) in *.
  assert (Py : 0 < Rabs y') by (apply Rabs_pos_lt, Ny).
  assert (T1 : Rabs (x' / y' - x / y) * Rabs y' <= Rabs (x' - x) + Rabs (x / y) * Rabs (y' - y)).
  { rewrite <- Rabs_mult. replace ((x' / y' - x / y) * y') with ((x' - x) + - (x / y * (y' - y))) by (field; split; assumption).
    eapply Rle_trans; [apply Rabs_triang|]. rewrite Rabs_Ropp, Rabs_mult. lra. }
  assert (T2 : Rabs (x' / y' - x / y) * U * (Rabs y' * U) <= S * u).
  { apply Rle_trans with ((Rabs (x' - x) + Rabs (x / y) * Rabs (y' - y)) * U * U).
    - replace (Rabs (x' / y' - x / y) * U * (Rabs y' * U)) with (Rabs (x' / y' - x / y) * Rabs y' * U * U) by ring.
      apply Rmult_le_compat_r; [lra|]. apply Rmult_le_compat_r; [lra|exact T1].
    - assert (X1 : Rabs (x / y) * U * (Rabs (y' - y) * U) <= IZR (mag b) * (IZR (snd q) * u)).
      { apply Rmult_le_compat; [apply Rmult_le_pos; [apply Rabs_pos|lra]|apply Rmult_le_pos; [apply Rabs_pos|lra]|exact MB|exact F]. }
      assert (X2 : Rabs (x' - x) * U * U <= IZR (snd p) * u * U) by (apply Rmult_le_compat_r; lra).
      unfold S. lra. }
  assert (T3 : Rabs (x' / y' - x / y) * U * IZR d <= S * u).
  { eapply Rle_trans; [|exact T2]. apply Rmult_le_compat_l; [apply Rmult_le_pos; [apply Rabs_pos|lra]|exact Yl]. }
  apply Rmult_le_reg_r with (IZR d); [exact Pd'|]. eapply Rle_trans; [exact T3|].
  replace ((IZR ((snd p * unit + mag b * snd q) / d) + 1) * u * IZR d) with ((IZR ((snd p * unit + mag b * snd q) / d) + 1) * IZR d * u) by ring.
  apply Rmult_le_compat_r; [lra|]. assert (S / IZR d * IZR d = S) by (field; lra). nra.
Qed.
Lemma eroot_sound p r x x' : estimates p x x' -> eroot p = Some r -> 0 < x' /\ estimates r (sqrt x) (sqrt x').
Proof.
  intros (C & P & E) G. unfold eroot in G.
  destruct (Z.ltb_spec 0 (fst (fst p) - snd (fst p) - tiny (snd p))) as [Pd|]; [|discriminate].
  destruct (broot (fst p)) as [b|] eqn:Eb; [|discriminate]. cbn [obind] in G.
  destruct (Z.ltb_spec 0 (fst b)) as [Pb|]; [|discriminate].
  assert (Er : r = (b, snd p * unit / fst b + 1)%Z) by congruence. subst r. clear G.
  destruct (broot_sound _ _ _ C Eb) as [Px B]. destruct (tiny_bound _ P) as [T _]. pose proof unit_pos as PU.
  apply IZR_lt in Pd as Pd'. rewrite !minus_IZR in Pd'.
  assert (Xl : IZR (fst (fst p)) - IZR (snd (fst p)) <= x * U).
  { unfold contains in C. revert C. unfold Rabs. destruct (Rcase_abs _); lra. }
  assert (Px' : 0 < x').
  { assert (x * U - IZR (snd p) * u <= x' * U); [|nra]. pose proof (Rle_abs (x - x')) as A. rewrite Rabs_minus_sym in A. nra. }
  split; [exact Px'|]. split; [exact B|]. cbn [snd].
  assert (U0 : (0 < unit)%Z) by reflexivity.
  split; [pose proof (Z.div_pos (snd p * unit) (fst b) ltac:(apply Z.mul_nonneg_nonneg; lia) Pb); lia|].
  pose proof (div_bounds (snd p * unit) (fst b) Pb) as DB. rewrite plus_IZR. rewrite mult_IZR in DB. apply IZR_lt in Pb as Pb'.
  assert (Sl : IZR (fst b) <= sqrt x * U).
  { unfold broot in Eb. destruct (Z.ltb_spec 0 (fst (fst p) - snd (fst p))) as [Pl|]; [|discriminate]. cbv zeta in Eb.
    assert (Ef : fst b = Z.sqrt ((fst (fst p) - snd (fst p)) * unit)) by (assert (Eb' := f_equal (option_map fst) Eb); cbn [option_map fst] in Eb'; congruence).
    pose proof (Z.sqrt_spec ((fst (fst p) - snd (fst p)) * unit) ltac:(apply Z.mul_nonneg_nonneg; lia)) as [S1 _]. rewrite <- Ef in S1.
    apply IZR_le in S1. rewrite !mult_IZR, minus_IZR in S1. pose proof (sqrt_pos x).
    apply Rsqr_incr_0; unfold Rsqr; [|lra|nra].
    replace (sqrt x * U * (sqrt x * U)) with (sqrt x * sqrt x * U * U) by ring. rewrite sqrt_sqrt by lra. nra. }
  pose proof (sqrt_lt_R0 x Px) as Qx. pose proof (sqrt_lt_R0 x' Px') as Qx'.
  assert (T1 : Rabs (sqrt x' - sqrt x) * sqrt x <= Rabs (x' - x)).
  { replace (x' - x) with ((sqrt x' - sqrt x) * (sqrt x' + sqrt x)).
    - rewrite Rabs_mult, (Rabs_pos_eq (_ + _)) by lra. apply Rmult_le_compat_l; [apply Rabs_pos|lra].
    - replace ((sqrt x' - sqrt x) * (sqrt x' + sqrt x)) with (sqrt x' * sqrt x' - sqrt x * sqrt x) by ring. rewrite !sqrt_sqrt by lra. reflexivity. }
  assert (T2 : Rabs (sqrt x' - sqrt x) * U * IZR (fst b) <= IZR (snd p) * u * U).
  { apply Rle_trans with (Rabs (sqrt x' - sqrt x) * U * (sqrt x * U)); [apply Rmult_le_compat_l; [apply Rmult_le_pos; [apply Rabs_pos|lra]|exact Sl]|].
    replace (Rabs (sqrt x' - sqrt x) * U * (sqrt x * U)) with (Rabs (sqrt x' - sqrt x) * sqrt x * U * U) by ring.
    apply Rmult_le_compat_r; [lra|]. eapply Rle_trans; [apply Rmult_le_compat_r; [lra|exact T1]|exact E]. }
  apply Rmult_le_reg_r with (IZR (fst b)); [exact Pb'|]. eapply Rle_trans; [exact T2|].
  replace ((IZR (snd p * unit / fst b) + 1) * u * IZR (fst b)) with ((IZR (snd p * unit / fst b) + 1) * IZR (fst b) * u) by ring.
  replace (IZR (snd p) * u * U) with (IZR (snd p) * U * u) by ring.
  apply Rmult_le_compat_r; [lra|]. assert (IZR (snd p) * U / IZR (fst b) * IZR (fst b) = IZR (snd p) * U) by (field; lra). nra.
Qed.
End Errors.

Section Format.
Variables prec emax : Z.
Hypothesis Hprec : (53 <= prec)%Z.
Hypothesis Hemax : (prec < emax)%Z.
Notation fin := (float_finite prec emax).
Notation ev := (eval_float prec emax).
Notation u := (pw (- prec)).

Lemma below50 x : Rabs x <= pw 50 -> Rabs x <= pw (emax - 1).
Proof. intros H. eapply Rle_trans; [exact H|]. apply pw_le. lia. Qed.
Lemma u53 : 0 < u <= pw (- (53)).
Proof. split; [apply pw_pos|apply pw_le; lia]. Qed.

Ltac openC := repeat match goal with
  | H : obind (evalC ?e) _ = Some _ |- _ => destruct (evalC e) as [?|] eqn:?; cbn [obind] in H; [|discriminate]
  | H : obind (ediv ?a ?b) _ = Some _ |- _ => destruct (ediv a b) as [?|] eqn:?; cbn [obind] in H; [|discriminate]
  | H : obind (eroot ?a) _ = Some _ |- _ => destruct (eroot a) as [?|] eqn:?; cbn [obind] in H; [|discriminate]
  end.

Theorem evalC_sound pow : faithful_power prec emax pow -> forall e p, evalC e = Some p ->
  fin (ev pow e) /\ estimates u p (evalR e) (float_value (ev pow e)).
Proof.
  intros HP. pose proof u53 as Hu. assert (P2 : (2 <= prec)%Z) by lia.
  assert (K1 : (0 <= 1)%Z) by lia. assert (K8 : (0 <= 8)%Z) by lia.
  assert (O : forall y x, Rabs y <= u * (1 + Rabs x) -> Rabs y <= IZR 1 * (u * (1 + Rabs x))) by (intros; lra).
  assert (B50 : forall x, Rabs x <= pw 50 -> Rabs x <= pw (emax - 1)) by (intros; apply below50; assumption).
  induction e; cbn [evalC eval_float evalR]; intros p H; openC.
  - assert (B : estimates u ((qfloor q, 1), 0)%Z (Q2R q) (Q2R q)).
    { split; [apply literal_ball|]. split; [cbn; lia|]. cbn [snd]. rewrite Rminus_diag_eq, Rabs_R0 by reflexivity. lra. }
    destruct (float_literal prec emax P2 Hemax q (B50 _ (finish_bound u Hu _ _ _ _ _ B H))) as [F V].
    split; [exact F|]. apply (finish_sound u Hu 1 _ _ _ _ _ K1 B H). apply O. exact V.
  - injection H as <-. destruct (IHe _ eq_refl) as [F C]. destruct (float_opp prec emax _ F) as [F' V'].
    split; [exact F'|]. cbn [nopp binary]. rewrite V'. apply eopp_sound, C.
  - destruct (IHe1 _ eq_refl) as [F1 C1]. destruct (IHe2 _ eq_refl) as [F2 C2].
    pose proof (eadd_sound u _ _ _ _ _ _ C1 C2) as B. destruct (float_add prec emax P2 Hemax _ _ F1 F2 (B50 _ (finish_bound u Hu _ _ _ _ _ B H))) as [F V].
    split; [exact F|]. apply (finish_sound u Hu 1 _ _ _ _ _ K1 B H). apply O. exact V.
  - destruct (IHe1 _ eq_refl) as [F1 C1]. destruct (IHe2 _ eq_refl) as [F2 C2].
    pose proof (eadd_sound u _ _ _ _ _ _ C1 (eopp_sound u _ _ _ C2)) as B. destruct (float_sub prec emax P2 Hemax _ _ F1 F2 (B50 _ (finish_bound u Hu _ _ _ _ _ B H))) as [F V].
    split; [exact F|]. apply (finish_sound u Hu 1 _ _ _ _ _ K1 B H). apply O. exact V.
  - destruct (IHe1 _ eq_refl) as [F1 C1]. destruct (IHe2 _ eq_refl) as [F2 C2].
    pose proof (emul_sound u Hu _ _ _ _ _ _ C1 C2) as B. destruct (float_mul prec emax P2 Hemax _ _ F1 F2 (B50 _ (finish_bound u Hu _ _ _ _ _ B H))) as [F V].
    split; [exact F|]. apply (finish_sound u Hu 1 _ _ _ _ _ K1 B H). apply O. exact V.
  - destruct (IHe1 _ eq_refl) as [F1 C1]. destruct (IHe2 _ eq_refl) as [F2 C2].
    destruct (ediv_sound u Hu _ _ _ _ _ _ _ C1 C2 Heqo1) as [NZ B].
    destruct (float_div prec emax P2 Hemax _ _ F1 F2 NZ (B50 _ (finish_bound u Hu _ _ _ _ _ B H))) as [F V].
    split; [exact F|]. apply (finish_sound u Hu 1 _ _ _ _ _ K1 B H). apply O. exact V.
  - destruct (IHe _ eq_refl) as [F1 C1]. pose proof (epow_sound u Hu _ _ _ n C1) as B.
    destruct (HP _ n F1 (B50 _ (finish_bound u Hu _ _ _ _ _ B H))) as [F V]. split; [exact F|].
    apply (finish_sound u Hu 8 _ _ _ _ _ K8 B H). exact V.
  - destruct (IHe _ eq_refl) as [F1 C1]. destruct (eroot_sound u Hu _ _ _ _ C1 Heqo0) as [P B].
    pose proof (B50 _ (finish_bound u Hu _ _ _ _ _ B H)) as Bd. rewrite Rabs_pos_eq in Bd by apply sqrt_pos.
    destruct (float_sqrt prec emax P2 Hemax _ F1 P Bd) as [F V]. split; [exact F|].
    apply (finish_sound u Hu 1 _ _ _ _ _ K1 B H). apply O. rewrite (Rabs_pos_eq (sqrt _)) by apply sqrt_pos. exact V.
Qed.
End Format.

(** An error of at most [k] roundings. *)
Definition within_roundings (k : positive) (p : estimate) : bool := Z.leb (snd p) (Zpos k * unit).
Lemma within_sound u k p x x' : 0 < u <= pw (- (53)) -> estimates u p x x' -> within_roundings k p = true -> Rabs (x' - x) <= IZR (Zpos k) * u.
Proof.
  intros Hu (_ & _ & E) H. apply Z.leb_le, IZR_le in H. rewrite mult_IZR in H. pose proof unit_pos.
  apply Rmult_le_reg_r with (IZR unit); [assumption|]. eapply Rle_trans; [exact E|].
  apply Rle_trans with (IZR (Zpos k) * IZR unit * u); [apply Rmult_le_compat_r; lra|right; ring].
Qed.

(** A ball around the computed value. *)
Definition around (p : estimate) : ball := (fst (fst p), snd (fst p) + tiny (snd p))%Z.
Lemma around_sound u p x x' : 0 < u <= pw (- (53)) -> estimates u p x x' -> contains (around p) x'.
Proof.
  intros Hu (C & P & E). destruct (tiny_bound u Hu _ P) as [T _]. unfold contains in *. cbn [around fst snd]. rewrite plus_IZR.
  pose proof unit_pos. replace (x' * IZR unit - IZR (fst (fst p))) with ((x' - x) * IZR unit + (x * IZR unit - IZR (fst (fst p)))) by ring.
  eapply Rle_trans; [apply Rabs_triang|]. rewrite Rabs_mult, (Rabs_pos_eq (IZR unit)) by lra. lra.
Qed.
Lemma around_exact u p x x' : estimates u p x x' -> contains (around p) x.
Proof.
  intros (C & P & _). unfold contains in *. cbn [around fst snd]. rewrite plus_IZR. apply tiny_nonneg, IZR_le in P. lra.
Qed.
