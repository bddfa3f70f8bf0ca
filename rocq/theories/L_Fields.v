(** Exact arithmetic in Q(sqrt 2, sqrt 3), and the evaluation of the
    expressions of the shipped tableaux in it. *)
From Coq Require Import String.
From Coq Require Import List Reals QArith Qreals Lra Lia Bool.
From Verif Require Import M_Tableaux.
Import ListNotations.
Local Open Scope R_scope.

(** a + b sqrt 2 + c sqrt 3 + d sqrt 2 sqrt 3. *)
Record fld : Type := F { fa : Q; fb : Q; fc : Q; fd : Q }.

Definition r2 : R := R_sqrt.sqrt 2.
Definition r3 : R := R_sqrt.sqrt 3.

Definition toR (x : fld) : R :=
  Q2R (fa x) + Q2R (fb x) * r2 + Q2R (fc x) * r3 + Q2R (fd x) * (r2 * r3).

(** Rational operations without reduction; sums of fractions with the same
    denominator keep it. *)
Definition qadd (x y : Q) : Q :=
  match Qnum x, Qnum y with
  | Z0, _ => y
  | _, Z0 => x
  | a, b => if Pos.eqb (Qden x) (Qden y) then (a + b) # Qden x else (x + y)%Q
  end.
Definition qmul (x y : Q) : Q :=
  match Qnum x, Qnum y with
  | Z0, _ => 0%Q
  | _, Z0 => 0%Q
  | _, _ => (x * y)%Q
  end.

Definition fnorm (x : fld) : fld := F (Qred (fa x)) (Qred (fb x)) (Qred (fc x)) (Qred (fd x)).
Definition fofQ (q : Q) : fld := F q 0 0 0.
Definition fadd (x y : fld) : fld :=
  F (qadd (fa x) (fa y)) (qadd (fb x) (fb y)) (qadd (fc x) (fc y)) (qadd (fd x) (fd y)).
Definition fopp (x : fld) : fld := F (- fa x) (- fb x) (- fc x) (- fd x).
Definition fsub (x y : fld) : fld := fadd x (fopp y).
Definition fmul (x y : fld) : fld :=
  F (qadd (qadd (qmul (fa x) (fa y)) (qmul 2 (qmul (fb x) (fb y))))
          (qadd (qmul 3 (qmul (fc x) (fc y))) (qmul 6 (qmul (fd x) (fd y)))))
    (qadd (qadd (qmul (fa x) (fb y)) (qmul (fb x) (fa y)))
          (qmul 3 (qadd (qmul (fc x) (fd y)) (qmul (fd x) (fc y)))))
    (qadd (qadd (qmul (fa x) (fc y)) (qmul (fc x) (fa y)))
          (qmul 2 (qadd (qmul (fb x) (fd y)) (qmul (fd x) (fb y)))))
    (qadd (qadd (qmul (fa x) (fd y)) (qmul (fd x) (fa y)))
          (qadd (qmul (fb x) (fc y)) (qmul (fc x) (fb y)))).
Definition feqb (x y : fld) : bool :=
  Qeq_bool (fa x) (fa y) && Qeq_bool (fb x) (fb y) && Qeq_bool (fc x) (fc y) && Qeq_bool (fd x) (fd y).
(** Conjugates. *)
Definition conj3 (x : fld) : fld := F (fa x) (fb x) (- fc x) (- fd x).
Definition conj2 (x : fld) : fld := F (fa x) (- fb x) (fc x) (- fd x).
(** x * conj3 x lies in Q(sqrt 2); times its conjugate, in Q. *)
Definition finv (x : fld) : fld :=
  let u := fnorm (fmul x (conj3 x)) in
  let v := fnorm (fmul u (conj2 u)) in
  fmul (fmul (conj3 x) (conj2 u)) (fofQ (/ fa v)).
Definition f1 : fld := fofQ 1.
Definition fdiv (x y : fld) : option fld :=
  let i := finv y in
  if feqb (fmul y i) f1 then Some (fmul x i) else None.
Fixpoint fpow (x : fld) (n : nat) : fld :=
  match n with O => f1 | S n' => fmul x (fpow x n') end.
(** sqrt 2, sqrt 3 and sqrt ((2 + sqrt 3) / 3) = sqrt 2 / 2 + sqrt 6 / 6. *)
Definition roots : list fld := [F 0 1 0 0; F 0 0 1 0; F 0 (1 # 2) 0 (1 # 6)].
Definition fsqrt (x : fld) : option fld := find (fun r => feqb (fmul r r) x) roots.

Definition obind {A B} (x : option A) (f : A -> option B) : option B :=
  match x with Some a => f a | None => None end.

Fixpoint evalF (e : expr) : option fld :=
  match e with
  | Lit q => Some (fofQ (Qred q))
  | Neg x => obind (evalF x) (fun a => Some (fopp a))
  | Add x y => obind (evalF x) (fun a => obind (evalF y) (fun b => Some (fnorm (fadd a b))))
  | Sub x y => obind (evalF x) (fun a => obind (evalF y) (fun b => Some (fnorm (fsub a b))))
  | Mul x y => obind (evalF x) (fun a => obind (evalF y) (fun b => Some (fnorm (fmul a b))))
  | Div x y => obind (evalF x) (fun a => obind (evalF y) (fun b => obind (fdiv a b) (fun c => Some (fnorm c))))
  | Pow x n => obind (evalF x) (fun a => Some (fnorm (fpow a n)))
  | Sqrt x => obind (evalF x) fsqrt
  end.

Lemma r2_sq : r2 * r2 = 2. Proof. unfold r2; apply sqrt_sqrt; lra. Qed.
Lemma r3_sq : r3 * r3 = 3. Proof. unfold r3; apply sqrt_sqrt; lra. Qed.
Lemma r2_pos : 0 < r2. Proof. unfold r2; apply sqrt_lt_R0; lra. Qed.
Lemma r3_pos : 0 < r3. Proof. unfold r3; apply sqrt_lt_R0; lra. Qed.

Lemma Q2R_red : forall q, Q2R (Qred q) = Q2R q.
Proof. intros q; apply Qeq_eqR, Qred_correct. Qed.
Lemma Q2R_int : forall z, Q2R (z # 1) = IZR z.
Proof. intros z; unfold Q2R; cbn; field. Qed.

Lemma Q2R_0 : Q2R 0 = 0.
Proof. unfold Q2R; cbn; lra. Qed.
Lemma Q2R_num0 : forall d, Q2R (0 # d) = 0.
Proof. intros d; unfold Q2R; cbn; lra. Qed.
Lemma Q2R_add_same : forall a b d, Q2R ((a + b) # d) = Q2R (a # d) + Q2R (b # d).
Proof. intros a b d; unfold Q2R; cbn [Qnum Qden]; rewrite plus_IZR; ring. Qed.
Lemma qadd_sound : forall x y, Q2R (qadd x y) = Q2R x + Q2R y.
Proof.
  intros [a d] [b d']; unfold qadd; cbn [Qnum Qden].
  destruct a as [|a|a]; [rewrite Q2R_num0; ring| |]; (destruct b as [|b|b]; [rewrite Q2R_num0; ring| |]);
  (destruct (Pos.eqb_spec d d') as [->|]; [apply Q2R_add_same|apply Q2R_plus]).
Qed.
Lemma qmul_sound : forall x y, Q2R (qmul x y) = Q2R x * Q2R y.
Proof.
  intros [a d] [b d']; unfold qmul; cbn [Qnum Qden].
  destruct a as [|a|a]; [rewrite !Q2R_num0; ring| |]; (destruct b as [|b|b]; [rewrite !Q2R_num0; ring| |]);
  apply Q2R_mult.
Qed.
Ltac q2r := rewrite ?Q2R_red, ?qadd_sound, ?qmul_sound, ?Q2R_plus, ?Q2R_mult, ?Q2R_opp, ?Q2R_int.

Lemma toR_norm : forall x, toR (fnorm x) = toR x.
Proof. intros x; unfold toR, fnorm; cbn -[Q2R]; q2r; reflexivity. Qed.
Lemma toR_ofQ : forall q, toR (fofQ q) = Q2R q.
Proof. intros q; unfold toR, fofQ; cbn -[Q2R]; change (Q2R 0) with (Q2R (0 # 1)); q2r; lra. Qed.
Lemma toR_add : forall x y, toR (fadd x y) = toR x + toR y.
Proof. intros x y; unfold fadd, toR; cbn [fa fb fc fd]; q2r; ring. Qed.
Lemma toR_opp : forall x, toR (fopp x) = - toR x.
Proof. intros x; unfold fopp, toR; cbn [fa fb fc fd]; q2r; ring. Qed.
Lemma toR_sub : forall x y, toR (fsub x y) = toR x - toR y.
Proof. intros x y; unfold fsub; rewrite toR_add, toR_opp; ring. Qed.
Lemma toR_mul : forall x y, toR (fmul x y) = toR x * toR y.
Proof.
  intros [a b c d] [a' b' c' d']; unfold fmul, toR; cbn [fa fb fc fd].
  change 2%Q with (2 # 1)%Q; change 3%Q with (3 # 1)%Q; change 6%Q with (6 # 1)%Q; q2r; q2r.
  pose proof r2_sq as E2; pose proof r3_sq as E3.
  generalize dependent r2; generalize dependent r3; intros s E3 r E2.
  generalize (Q2R a) (Q2R b) (Q2R c) (Q2R d) (Q2R a') (Q2R b') (Q2R c') (Q2R d').
  intros A B C D A' B' C' D'.
  replace 6 with (r * r * (s * s)) by (rewrite E2, E3; ring).
  replace ((A + B * r + C * s + D * (r * s)) * (A' + B' * r + C' * s + D' * (r * s)))
    with (A * A' + (r * r) * (B * B') + (s * s) * (C * C') + (r * r * (s * s)) * (D * D')
          + (A * B' + B * A' + (s * s) * (C * D') + (s * s) * (D * C')) * r
          + (A * C' + C * A' + (r * r) * (B * D') + (r * r) * (D * B')) * s
          + (A * D' + D * A' + B * C' + C * B') * (r * s)) by ring.
  rewrite E2, E3; ring.
Qed.
Lemma feqb_toR : forall x y, feqb x y = true -> toR x = toR y.
Proof.
  intros x y H; unfold feqb in H; repeat rewrite andb_true_iff in H.
  destruct H as [[[Ha Hb] Hc] Hd].
  apply Qeq_bool_iff, Qeq_eqR in Ha; apply Qeq_bool_iff, Qeq_eqR in Hb;
  apply Qeq_bool_iff, Qeq_eqR in Hc; apply Qeq_bool_iff, Qeq_eqR in Hd.
  unfold toR; rewrite Ha, Hb, Hc, Hd; reflexivity.
Qed.
Lemma toR_1 : toR f1 = 1.
Proof. unfold f1; rewrite toR_ofQ; change (Q2R 1) with (Q2R (1 # 1)); q2r; reflexivity. Qed.
Lemma toR_div : forall x y z, fdiv x y = Some z -> toR z = toR x / toR y.
Proof.
  intros x y z H; unfold fdiv in H.
  destruct (feqb (fmul y (finv y)) f1) eqn:E; [|discriminate]; injection H as H; subst z.
  apply feqb_toR in E; rewrite toR_mul, toR_1 in E.
  rewrite toR_mul.
  assert (toR y <> 0) by (intros H0; rewrite H0 in E; lra).
  apply Rmult_eq_reg_r with (toR y); [|assumption].
  unfold Rdiv; rewrite !Rmult_assoc; rewrite Rinv_l by assumption.
  rewrite (Rmult_comm _ (toR y)), E; reflexivity.
Qed.
Lemma toR_pow : forall x n, toR (fpow x n) = toR x ^ n.
Proof. intros x n; induction n; cbn; [apply toR_1|rewrite toR_mul, IHn; reflexivity]. Qed.
Lemma roots_nonneg : forall r, In r roots -> 0 <= toR r.
Proof.
  pose proof r2_pos as P2; pose proof r3_pos as P3.
  assert (P6 : 0 < r2 * r3) by (apply Rmult_lt_0_compat; assumption).
  unfold roots, toR; intros r [<-|[<-|[<-|[]]]]; cbn -[Q2R];
    change (Q2R 0) with (Q2R (0 # 1)); change (Q2R 1) with (Q2R (1 # 1)); q2r;
    unfold Q2R; cbn; lra.
Qed.
Lemma toR_sqrt : forall x r, fsqrt x = Some r -> toR r = R_sqrt.sqrt (toR x).
Proof.
  intros x r H; apply find_some in H; destruct H as [Hi He].
  apply roots_nonneg in Hi; apply feqb_toR in He; rewrite toR_mul in He.
  rewrite <- He; symmetry; apply sqrt_square; exact Hi.
Qed.

Lemma evalF_sound : forall e x, evalF e = Some x -> evalR e = toR x.
Proof.
  induction e; cbn; intros z H;
    repeat match goal with
    | H : obind (evalF ?e) _ = Some _ |- _ =>
        destruct (evalF e) as [?|] eqn:?; cbn in H; [|discriminate]
    end.
  - injection H as <-; rewrite toR_ofQ; symmetry; apply Q2R_red.
  - injection H as <-; rewrite toR_opp; f_equal; auto.
  - injection H as <-; rewrite toR_norm, toR_add; f_equal; auto.
  - injection H as <-; rewrite toR_norm, toR_sub; f_equal; auto.
  - injection H as <-; rewrite toR_norm, toR_mul; f_equal; auto.
  - destruct (fdiv _ _) as [c|] eqn:E; cbn in H; [|discriminate]; injection H as <-.
    apply toR_div in E; rewrite toR_norm, E; f_equal; auto.
  - injection H as <-; rewrite toR_norm, toR_pow; f_equal; auto.
  - apply toR_sqrt in H; rewrite H; f_equal; auto.
Qed.

(** ** Enclosures *)

(** Rational approximations of sqrt 2, sqrt 3 and sqrt 6 and their error. *)
Definition q2 : Q := 1.4142135623730950488016887242096980785696718753769.
Definition q3 : Q := 1.7320508075688772935274463415058723669428052538104.
Definition q6 : Q := 2.4494897427831780981972840747058913919659474806567.
Definition qe : Q := 1e-48.

Lemma qe_nonneg : 0 <= Q2R qe.
Proof. rewrite <- Q2R_0; apply Qle_Rle, Qle_bool_iff; vm_compute; reflexivity. Qed.

Lemma sqrt_enclosed : forall z q, (0 <= z)%Z ->
  Qle_bool 0 (q - qe) && Qle_bool ((q - qe) * (q - qe)) (z # 1) && Qle_bool (z # 1) ((q + qe) * (q + qe)) = true ->
  Rabs (R_sqrt.sqrt (IZR z) - Q2R q) <= Q2R qe.
Proof.
  intros z q Hz H; repeat rewrite andb_true_iff in H; destruct H as [[H0 H1] H2].
  apply Qle_bool_iff, Qle_Rle in H0; apply Qle_bool_iff, Qle_Rle in H1; apply Qle_bool_iff, Qle_Rle in H2.
  rewrite Q2R_mult, Q2R_minus, Q2R_int in H1; rewrite Q2R_mult, Q2R_plus, Q2R_int in H2.
  change (Q2R 0) with (Q2R (0 # 1)) in H0; rewrite Q2R_minus, Q2R_int in H0.
  pose proof qe_nonneg as He.
  apply IZR_le in Hz.
  set (s := R_sqrt.sqrt (IZR z)); assert (Hs : s * s = IZR z) by (apply sqrt_sqrt; assumption).
  assert (0 <= s) by apply sqrt_pos.
  generalize dependent (Q2R qe); generalize dependent (Q2R q); intros Q' H1 H2 E H0 He.
  apply Rabs_le; split; [|]; apply Rnot_lt_le; intros C; nra.
Qed.

Lemma r2_enclosed : Rabs (r2 - Q2R q2) <= Q2R qe.
Proof. apply (sqrt_enclosed 2); [lia|vm_compute; reflexivity]. Qed.
Lemma r3_enclosed : Rabs (r3 - Q2R q3) <= Q2R qe.
Proof. apply (sqrt_enclosed 3); [lia|vm_compute; reflexivity]. Qed.
Lemma r6_enclosed : Rabs (r2 * r3 - Q2R q6) <= Q2R qe.
Proof.
  unfold r2, r3; rewrite <- sqrt_mult by lra; replace (2 * 3) with (IZR 6) by lra.
  apply (sqrt_enclosed 6); [lia|vm_compute; reflexivity].
Qed.

Definition fapprox (x : fld) : Q :=
  qadd (qadd (fa x) (qmul (fb x) q2)) (qadd (qmul (fc x) q3) (qmul (fd x) q6)).
Definition ferr (x : fld) : Q :=
  qmul (qadd (Qabs.Qabs (fb x)) (qadd (Qabs.Qabs (fc x)) (Qabs.Qabs (fd x)))) qe.

Lemma Q2R_abs : forall q, Q2R (Qabs.Qabs q) = Rabs (Q2R q).
Proof.
  intros q; destruct (Qlt_le_dec q 0) as [H|H].
  - assert (E : (Qabs.Qabs q == - q)%Q) by (apply Qabs.Qabs_neg, Qlt_le_weak; exact H).
    rewrite (Qeq_eqR _ _ E), Q2R_opp; apply Qlt_Rlt in H; change (Q2R 0) with (Q2R (0 # 1)) in H; rewrite Q2R_int in H.
    rewrite Rabs_left by exact H; reflexivity.
  - rewrite (Qeq_eqR _ _ (Qabs.Qabs_pos _ H)); apply Qle_Rle in H; change (Q2R 0) with (Q2R (0 # 1)) in H; rewrite Q2R_int in H.
    rewrite Rabs_right by lra; reflexivity.
Qed.

Lemma toR_enclosed : forall x, Rabs (toR x - Q2R (fapprox x)) <= Q2R (ferr x).
Proof.
  intros x; unfold fapprox, ferr; rewrite ?qadd_sound, ?qmul_sound, ?qadd_sound, ?Q2R_abs; unfold toR.
  pose proof r2_enclosed as A; pose proof r3_enclosed as B; pose proof r6_enclosed as C.
  replace (Q2R (fa x) + Q2R (fb x) * r2 + Q2R (fc x) * r3 + Q2R (fd x) * (r2 * r3) -
     (Q2R (fa x) + Q2R (fb x) * Q2R q2 + (Q2R (fc x) * Q2R q3 + Q2R (fd x) * Q2R q6)))
   with (Q2R (fb x) * (r2 - Q2R q2) + Q2R (fc x) * (r3 - Q2R q3) + Q2R (fd x) * (r2 * r3 - Q2R q6)) by ring.
  eapply Rle_trans; [apply Rabs_triang|]; eapply Rle_trans; [apply Rplus_le_compat_r, Rabs_triang|].
  rewrite !Rabs_mult, !Rmult_plus_distr_r, <- Rplus_assoc.
  repeat apply Rplus_le_compat; apply Rmult_le_compat_l; auto using Rabs_pos.
Qed.

(** |x| <= e, decided exactly for e = 0 and by enclosure otherwise. *)
Definition fsmall (x : fld) (e : Q) : bool :=
  (feqb x (fofQ 0) && Qle_bool 0 e) || Qle_bool (Qabs.Qabs (fapprox x) + ferr x) e.
Definition flarge (x : fld) (e : Q) : bool :=
  Qle_bool (e + ferr x) (Qabs.Qabs (fapprox x)).

Lemma fsmall_sound : forall x e, fsmall x e = true -> Rabs (toR x) <= Q2R e.
Proof.
  intros x e H; unfold fsmall in H; apply orb_true_iff in H; destruct H as [H|H].
  - apply andb_true_iff in H; destruct H as [H He]; apply feqb_toR in H; rewrite H, toR_ofQ.
    apply Qle_bool_iff, Qle_Rle in He; change (Q2R 0) with (Q2R (0 # 1)) in *; rewrite Q2R_int in *; rewrite Rabs_R0; exact He.
  - apply Qle_bool_iff, Qle_Rle in H; rewrite Q2R_plus, Q2R_abs in H.
    pose proof (toR_enclosed x) as E.
    replace (toR x) with ((toR x - Q2R (fapprox x)) + Q2R (fapprox x)) by ring.
    eapply Rle_trans; [apply Rabs_triang|]; lra.
Qed.
Lemma flarge_sound : forall x e, flarge x e = true -> Q2R e <= Rabs (toR x).
Proof.
  intros x e H; apply Qle_bool_iff, Qle_Rle in H; rewrite Q2R_plus, Q2R_abs in H.
  pose proof (toR_enclosed x) as E.
  pose proof (Rabs_triang_inv (Q2R (fapprox x)) (toR x)) as T; rewrite (Rabs_minus_sym _ (toR x)) in T; lra.
Qed.

(** The same number with denominator [d]. *)
Definition qrescale (d : positive) (q : Q) : Q :=
  let r := (Qnum q * (Zpos d / Zpos (Qden q)))%Z # d in
  if Qeq_bool r q then r else q.
Definition frescale (d : positive) (x : fld) : fld :=
  F (qrescale d (fa x)) (qrescale d (fb x)) (qrescale d (fc x)) (qrescale d (fd x)).
Definition fden (x : fld) (d : positive) : positive :=
  let l a b := Z.to_pos (Z.lcm (Zpos a) (Zpos b)) in
  l (Qden (fa x)) (l (Qden (fb x)) (l (Qden (fc x)) (l (Qden (fd x)) d))).

Lemma qrescale_sound : forall d q, Q2R (qrescale d q) = Q2R q.
Proof.
  intros d q; unfold qrescale; cbv zeta; destruct (Qeq_bool _ q) eqn:E; [|reflexivity].
  apply Qeq_bool_iff, Qeq_eqR in E; exact E.
Qed.
Lemma frescale_sound : forall d x, toR (frescale d x) = toR x.
Proof. intros d x; unfold toR, frescale; cbn [fa fb fc fd]; rewrite !qrescale_sound; reflexivity. Qed.

(** ** Rounded arithmetic: a midpoint and a radius, in units of 2^-110 *)
Definition unit : Z := (2 ^ 110)%Z.
Definition ball : Type := (Z * Z)%type.
Definition contains (b : ball) (x : R) : Prop := Rabs (x * IZR unit - IZR (fst b)) <= IZR (snd b).
Definition badd (x y : ball) : ball := (fst x + fst y, snd x + snd y)%Z.
Definition bmul (x y : ball) : ball :=
  match fst x, snd x, fst y, snd y with
  | Z0, Z0, _, _ => (0, 0)%Z
  | _, _, Z0, Z0 => (0, 0)%Z
  | m, r, m', r' =>
      (Z.shiftr (m * m') 110, Z.shiftr (Z.abs m * r' + Z.abs m' * r + r * r') 110 + 2)%Z
  end.
Definition qfloor (q : Q) : Z := (Qnum q * unit / Zpos (Qden q))%Z.
Definition ball_of (x : fld) : ball := (qfloor (fapprox x), qfloor (ferr x) + 2)%Z.
Definition bsmall (b : ball) (e : Q) : bool :=
  Z.leb ((Z.abs (fst b) + snd b) * Zpos (Qden e)) (Qnum e * unit).
Definition blarge (b : ball) (e : Q) : bool :=
  Z.leb (Qnum e * unit) ((Z.abs (fst b) - snd b) * Zpos (Qden e)).

Lemma unit_pos : 0 < IZR unit.
Proof. apply IZR_lt; reflexivity. Qed.

Lemma div_bounds : forall a b, (0 < b)%Z -> IZR (a / b) <= IZR a / IZR b < IZR (a / b) + 1.
Proof.
  intros a b Hb; pose proof (Z.div_mod a b ltac:(lia)) as E; pose proof (Z.mod_pos_bound a b Hb) as M.
  apply IZR_lt in Hb as Hb'.
  assert (IZR a = IZR b * IZR (a / b) + IZR (a mod b)) as E'
    by (rewrite <- mult_IZR, <- plus_IZR; f_equal; exact E).
  assert (0 <= IZR (a mod b) < IZR b) as M' by (split; [apply IZR_le|apply IZR_lt]; lia).
  split.
  - apply Rmult_le_reg_r with (IZR b); [assumption|]; unfold Rdiv; rewrite Rmult_assoc, Rinv_l by lra; lra.
  - apply Rmult_lt_reg_r with (IZR b); [assumption|]; unfold Rdiv; rewrite Rmult_assoc, Rinv_l by lra; lra.
Qed.

Lemma badd_sound : forall b c x y, contains b x -> contains c y -> contains (badd b c) (x + y).
Proof.
  unfold contains, badd; cbn [fst snd]; intros b c x y Hx Hy; rewrite !plus_IZR.
  replace ((x + y) * IZR unit - (IZR (fst b) + IZR (fst c))) with ((x * IZR unit - IZR (fst b)) + (y * IZR unit - IZR (fst c))) by ring.
  eapply Rle_trans; [apply Rabs_triang|]; lra.
Qed.

Lemma bmul_general : forall m r m' r' x y, contains (m, r) x -> contains (m', r') y ->
  contains (Z.shiftr (m * m') 110, Z.shiftr (Z.abs m * r' + Z.abs m' * r + r * r') 110 + 2)%Z (x * y).
Proof.
  unfold contains; cbn [fst snd]; intros m r m' r' x y Hx Hy.
  rewrite !Z.shiftr_div_pow2 by lia; fold unit.
  pose proof unit_pos as U.
  assert (U' : (0 < unit)%Z) by reflexivity.
  pose proof (div_bounds (m * m') unit U') as D1.
  pose proof (div_bounds (Z.abs m * r' + Z.abs m' * r + r * r') unit U') as D2.
  rewrite plus_IZR.
  set (e := x * IZR unit - IZR m) in *; set (e' := y * IZR unit - IZR m') in *.
  assert (E : x * y * IZR unit = (IZR m * IZR m' + (IZR m * e' + IZR m' * e + e * e')) / IZR unit).
  { unfold e, e'; field; lra. }
  rewrite E, Rdiv_plus_distr.
  assert (B : Rabs (IZR m * e' + IZR m' * e + e * e') <= IZR (Z.abs m * r' + Z.abs m' * r + r * r')).
  { rewrite !plus_IZR, !mult_IZR, !abs_IZR.
    assert (Rabs (IZR m * e' + IZR m' * e + e * e') <= Rabs (IZR m) * Rabs e' + Rabs (IZR m') * Rabs e + Rabs e * Rabs e').
    { rewrite <- !Rabs_mult; eapply Rle_trans; [apply Rabs_triang|]; apply Rplus_le_compat_r, Rabs_triang. }
    assert (Rabs (IZR m) * Rabs e' <= Rabs (IZR m) * IZR r') by (apply Rmult_le_compat_l; auto using Rabs_pos).
    assert (Rabs (IZR m') * Rabs e <= Rabs (IZR m') * IZR r) by (apply Rmult_le_compat_l; auto using Rabs_pos).
    assert (Rabs e * Rabs e' <= IZR r * IZR r') by (apply Rmult_le_compat; auto using Rabs_pos).
    lra. }
  set (P := IZR m * e' + IZR m' * e + e * e') in *; clearbody P.
  assert (B' : Rabs (P / IZR unit) <= IZR (Z.abs m * r' + Z.abs m' * r + r * r') / IZR unit).
  { unfold Rdiv; rewrite Rabs_mult, (Rabs_right (/ _)) by (left; apply Rinv_0_lt_compat, U).
    apply Rmult_le_compat_r; [left; apply Rinv_0_lt_compat, U|exact B]. }
  rewrite <- mult_IZR.
  replace (IZR (m * m') / IZR unit + P / IZR unit - IZR (m * m' / unit))
    with ((IZR (m * m') / IZR unit - IZR (m * m' / unit)) + P / IZR unit) by ring.
  eapply Rle_trans; [apply Rabs_triang|].
  rewrite (Rabs_right (_ - _)) by lra; lra.
Qed.

Lemma contains_0 : forall x, contains (0, 0)%Z x <-> x = 0.
Proof.
  unfold contains; cbn [fst snd]; intros x; pose proof unit_pos as U; rewrite Rminus_0_r; split; intros H.
  - destruct (Req_dec x 0) as [E|E]; [exact E|].
    assert (0 < Rabs (x * IZR unit)); [|lra].
    apply Rabs_pos_lt; apply Rmult_integral_contrapositive_currified; lra.
  - subst x; rewrite Rmult_0_l, Rabs_R0; lra.
Qed.

Lemma bmul_sound : forall b c x y, contains b x -> contains c y -> contains (bmul b c) (x * y).
Proof.
  intros [m r] [m' r'] x y Hx Hy; pose proof (bmul_general _ _ _ _ _ _ Hx Hy) as G.
  unfold bmul; cbn [fst snd].
  destruct m as [|m|m], r as [|r|r]; try (apply contains_0 in Hx; apply contains_0; rewrite Hx; ring);
    destruct m' as [|m'|m'], r' as [|r'|r']; try exact G;
    apply contains_0 in Hy; apply contains_0; rewrite Hy; ring.
Qed.

Lemma qfloor_bounds : forall q, IZR (qfloor q) <= Q2R q * IZR unit < IZR (qfloor q) + 1.
Proof.
  intros q; unfold qfloor, Q2R.
  pose proof (div_bounds (Qnum q * unit) (Zpos (Qden q)) ltac:(reflexivity)) as D.
  rewrite mult_IZR in D; unfold Rdiv in D.
  replace (IZR (Qnum q) * / IZR (Zpos (Qden q)) * IZR unit) with (IZR (Qnum q) * IZR unit * / IZR (Zpos (Qden q))) by ring.
  exact D.
Qed.

Lemma ball_of_sound : forall x, contains (ball_of x) (toR x).
Proof.
  intros x; unfold contains, ball_of; cbn [fst snd]; rewrite plus_IZR.
  pose proof unit_pos as U; pose proof (toR_enclosed x) as E.
  pose proof (qfloor_bounds (fapprox x)) as A; pose proof (qfloor_bounds (ferr x)) as B.
  replace (toR x * IZR unit - IZR (qfloor (fapprox x)))
    with ((toR x - Q2R (fapprox x)) * IZR unit + (Q2R (fapprox x) * IZR unit - IZR (qfloor (fapprox x)))) by ring.
  eapply Rle_trans; [apply Rabs_triang|].
  rewrite Rabs_mult, (Rabs_right (IZR unit)), (Rabs_right (Q2R (fapprox x) * IZR unit - _)) by lra.
  assert (Rabs (toR x - Q2R (fapprox x)) * IZR unit <= Q2R (ferr x) * IZR unit)
    by (apply Rmult_le_compat_r; lra).
  lra.
Qed.

Lemma contains_abs : forall b x, contains b x ->
  IZR (Z.abs (fst b) - snd b) <= Rabs x * IZR unit <= IZR (Z.abs (fst b) + snd b).
Proof.
  unfold contains; intros b x H; pose proof unit_pos as U.
  assert (E : Rabs x * IZR unit = Rabs (x * IZR unit)) by (rewrite Rabs_mult, (Rabs_right (IZR unit)); lra).
  rewrite E, minus_IZR, plus_IZR, abs_IZR; split.
  - pose proof (Rabs_triang_inv (IZR (fst b)) (x * IZR unit)) as T; rewrite Rabs_minus_sym in T; lra.
  - pose proof (Rabs_triang (x * IZR unit - IZR (fst b)) (IZR (fst b))) as T.
    replace (x * IZR unit - IZR (fst b) + IZR (fst b)) with (x * IZR unit) in T by ring; lra.
Qed.

Lemma Q2R_scaled : forall e, Q2R e * IZR (Zpos (Qden e)) = IZR (Qnum e).
Proof. intros e; unfold Q2R; rewrite Rmult_assoc, Rinv_l; [ring|]; apply not_0_IZR; discriminate. Qed.

Lemma bsmall_sound : forall b x e, contains b x -> bsmall b e = true -> Rabs x <= Q2R e.
Proof.
  intros b x e H S; apply contains_abs in H; apply Z.leb_le, IZR_le in S; rewrite !mult_IZR in S.
  pose proof unit_pos as U; assert (D : 0 < IZR (Zpos (Qden e))) by (apply IZR_lt; reflexivity).
  rewrite <- (Q2R_scaled e) in S.
  apply Rmult_le_reg_r with (IZR unit); [exact U|].
  apply Rmult_le_reg_r with (IZR (Zpos (Qden e))); [exact D|].
  apply Rle_trans with (IZR (Z.abs (fst b) + snd b) * IZR (Zpos (Qden e))).
  - apply Rmult_le_compat_r; lra.
  - eapply Rle_trans; [exact S|]; right; ring.
Qed.
Lemma blarge_sound : forall b x e, contains b x -> blarge b e = true -> Q2R e <= Rabs x.
Proof.
  intros b x e H S; apply contains_abs in H; apply Z.leb_le, IZR_le in S; rewrite !mult_IZR in S.
  pose proof unit_pos as U; assert (D : 0 < IZR (Zpos (Qden e))) by (apply IZR_lt; reflexivity).
  rewrite <- (Q2R_scaled e) in S.
  apply Rmult_le_reg_r with (IZR unit); [exact U|].
  apply Rmult_le_reg_r with (IZR (Zpos (Qden e))); [exact D|].
  apply Rle_trans with (IZR (Z.abs (fst b) - snd b) * IZR (Zpos (Qden e))).
  - eapply Rle_trans; [|exact S]; right; ring.
  - apply Rmult_le_compat_r; lra.
Qed.

(** Rounded evaluation of the expressions. *)
Definition bopp (x : ball) : ball := (- fst x, snd x)%Z.
Definition bdiv (x y : ball) : option ball :=
  let d := (Z.abs (fst y) - snd y)%Z in
  if Z.ltb 0 d && Z.leb 0 (snd y)
  then Some (fst x * unit / fst y,
             (snd x * Z.abs (fst y) + Z.abs (fst x) * snd y) * unit / (d * Z.abs (fst y)) + 2)%Z
  else None.
Fixpoint bpow (x : ball) (n : nat) : ball :=
  match n with O => (unit, 0)%Z | S n' => bmul x (bpow x n') end.
Fixpoint evalB (e : expr) : option ball :=
  match e with
  | Lit q => Some (qfloor q, if Z.eqb (Qnum q) 0 then 0 else 1)%Z
  | Neg x => obind (evalB x) (fun a => Some (bopp a))
  | Add x y => obind (evalB x) (fun a => obind (evalB y) (fun b => Some (badd a b)))
  | Sub x y => obind (evalB x) (fun a => obind (evalB y) (fun b => Some (badd a (bopp b))))
  | Mul x y => obind (evalB x) (fun a => obind (evalB y) (fun b => Some (bmul a b)))
  | Div x y => obind (evalB x) (fun a => obind (evalB y) (fun b => bdiv a b))
  | Pow x n => obind (evalB x) (fun a => Some (bpow a n))
  | Sqrt x => obind (evalF (Sqrt x)) (fun a => Some (ball_of a))
  end.

Lemma bopp_sound : forall b x, contains b x -> contains (bopp b) (- x).
Proof.
  unfold contains, bopp; cbn [fst snd]; intros b x H; rewrite opp_IZR.
  replace (- x * IZR unit - - IZR (fst b)) with (- (x * IZR unit - IZR (fst b))) by ring.
  rewrite Rabs_Ropp; exact H.
Qed.
Lemma b1_sound : contains (unit, 0)%Z 1.
Proof. unfold contains; cbn [fst snd]; rewrite Rmult_1_l, Rminus_diag_eq, Rabs_R0 by reflexivity; lra. Qed.
Lemma bpow_sound : forall b x n, contains b x -> contains (bpow b n) (x ^ n).
Proof. intros b x n H; induction n; cbn [bpow pow]; [apply b1_sound|apply bmul_sound; assumption]. Qed.

Lemma div_bounds_abs : forall a b, (b <> 0)%Z -> Rabs (IZR a / IZR b - IZR (a / b)) <= 1.
Proof.
  intros a b Hb; destruct (Z.lt_ge_cases 0 b) as [P|P].
  - pose proof (div_bounds a b P); apply Rabs_le; lra.
  - pose proof (div_bounds (- a) (- b) ltac:(lia)) as D.
    rewrite Z.div_opp_opp in D by exact Hb; rewrite !opp_IZR in D.
    assert (IZR b <> 0) by (apply not_0_IZR; exact Hb).
    replace (- IZR a / - IZR b) with (IZR a / IZR b) in D by (field; assumption).
    apply Rabs_le; lra.
Qed.

Lemma bdiv_sound : forall a b c x y, contains a x -> contains b y -> bdiv a b = Some c -> contains c (x / y).
Proof.
  intros [n q] [m r] c x y Hx H E; unfold bdiv in E; cbn [fst snd] in E.
  destruct (Z.ltb_spec 0 (Z.abs m - r)) as [P|]; [|discriminate].
  destruct (Z.leb_spec 0 r) as [P'|]; cbn [andb] in E; [|discriminate].
  assert (Ec : c = (n * unit / m, (q * Z.abs m + Z.abs n * r) * unit / ((Z.abs m - r) * Z.abs m) + 2)%Z) by congruence.
  subst c; clear E; pose proof unit_pos as U.
  pose proof (contains_abs _ _ H) as [A _]; cbn [fst snd] in A.
  apply IZR_lt in P as PR.
  assert (Y : y <> 0) by (intros ->; rewrite Rabs_R0, Rmult_0_l in A; lra).
  assert (M : (m <> 0)%Z) by (intros ->; cbn in P; lia).
  assert (MR : IZR m <> 0) by (apply not_0_IZR; exact M).
  unfold contains in *; cbn [fst snd] in *; rewrite plus_IZR.
  set (d := (Z.abs m - r)%Z) in *.
  assert (D0 : (0 < d * Z.abs m)%Z) by (apply Z.mul_pos_pos; lia).
  pose proof (div_bounds ((q * Z.abs m + Z.abs n * r) * unit) (d * Z.abs m) D0) as B2.
  pose proof (div_bounds_abs (n * unit) m M) as B1.
  rewrite mult_IZR in B1; rewrite !mult_IZR, plus_IZR, !mult_IZR, !abs_IZR in B2.
  assert (AY : 0 < Rabs y) by (apply Rabs_pos_lt; exact Y).
  assert (AM : 0 < Rabs (IZR m)) by (apply Rabs_pos_lt; exact MR).
  set (e := x * IZR unit - IZR n) in *; set (f := y * IZR unit - IZR m) in *.
  assert (K : Rabs (x / y * IZR unit - IZR n * IZR unit / IZR m)
              <= (IZR q * Rabs (IZR m) + Rabs (IZR n) * IZR r) * IZR unit / (IZR d * Rabs (IZR m))).
  { replace (x / y * IZR unit - IZR n * IZR unit / IZR m)
      with ((e * IZR m - IZR n * f) * / (y * IZR m)) by (unfold e, f; field; split; assumption).
    rewrite Rabs_mult, Rabs_inv, Rabs_mult.
    unfold Rdiv; rewrite Rmult_assoc.
    apply Rmult_le_compat; [apply Rabs_pos| | |].
    - left; apply Rinv_0_lt_compat, Rmult_lt_0_compat; assumption.
    - unfold Rminus; eapply Rle_trans; [apply Rabs_triang|]; rewrite Rabs_Ropp, !Rabs_mult.
      apply Rplus_le_compat; [apply Rmult_le_compat_r|apply Rmult_le_compat_l]; auto using Rabs_pos.
    - apply Rmult_le_reg_r with (Rabs y * Rabs (IZR m)); [apply Rmult_lt_0_compat; assumption|].
      rewrite Rinv_l by (apply Rgt_not_eq, Rmult_lt_0_compat; assumption).
      replace (IZR unit * / (IZR d * Rabs (IZR m)) * (Rabs y * Rabs (IZR m)))
        with ((Rabs y * IZR unit) * / IZR d) by (field; split; apply Rgt_not_eq; assumption).
      apply Rmult_le_reg_r with (IZR d); [exact PR|].
      rewrite Rmult_assoc, Rinv_l by lra; lra. }
  replace (x / y * IZR unit - IZR (n * unit / m))
    with ((x / y * IZR unit - IZR n * IZR unit / IZR m) + (IZR n * IZR unit / IZR m - IZR (n * unit / m))) by ring.
  eapply Rle_trans; [apply Rabs_triang|]; lra.
Qed.

Lemma lit_sound : forall q, contains (qfloor q, if Z.eqb (Qnum q) 0 then 0 else 1)%Z (Q2R q).
Proof.
  intros q; destruct (Z.eqb_spec (Qnum q) 0) as [E|E].
  - destruct q as [n d]; cbn [Qnum] in E; subst n.
    replace (qfloor (0 # d)) with 0%Z by reflexivity; apply contains_0, Q2R_num0.
  - unfold contains; cbn [fst snd]; pose proof (qfloor_bounds q); apply Rabs_le; lra.
Qed.

Lemma evalB_sound : forall e b, evalB e = Some b -> contains b (evalR e).
Proof.
  induction e; cbn [evalB evalR]; intros z H;
    repeat match goal with
    | H : obind (evalB ?e) _ = Some _ |- _ =>
        destruct (evalB e) as [?|] eqn:?; cbn [obind] in H; [|discriminate]
    end.
  - injection H as <-; apply lit_sound.
  - injection H as <-; apply bopp_sound; auto.
  - injection H as <-; apply badd_sound; auto.
  - injection H as <-; apply badd_sound; [|apply bopp_sound]; auto.
  - injection H as <-; apply bmul_sound; auto.
  - eapply bdiv_sound; [| |exact H]; auto.
  - injection H as <-; apply bpow_sound; auto.
  - destruct (evalF (Sqrt e)) as [a|] eqn:E; cbn [obind] in H; [|discriminate]; injection H as <-.
    change (R_sqrt.sqrt (evalR e)) with (evalR (Sqrt e)); rewrite (evalF_sound _ _ E); apply ball_of_sound.
Qed.
