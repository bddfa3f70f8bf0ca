(** How the shipped tableaux come out in floating point. *)
From Coq Require Import String.
From Coq Require Import ZArith QArith Qreals Reals SpecFloat List Lia Lra Psatz Bool.
From Verif Require Import Base Ext M_Tableau M_Tableaux M_TableauxInit M_TableauxFloat SpecRK SpecShape SpecTree SpecOrder
  SpecFloating SpecTableauxFloat L_Vec L_Local L_Step L_Tableau L_Float L_FloatOps L_Fields L_OrderCheck L_Order L_FloatError L_TableauxFloatCheck.
Import ListNotations.
Local Open Scope nat_scope.
Local Open Scope R_scope.

Section Format.
Variables prec emax : Z.
Hypothesis Hprec : (53 <= prec)%Z.
Hypothesis Hemax : (prec < emax)%Z.
Notation fin := (float_finite prec emax).
Notation u := (pw (- prec)).
#[local] Instance bin : Num spec_float := binary prec emax.

Lemma sub_equal x y : fin x -> fin y -> float_value x = float_value y -> SFeqb (SFsub prec emax x y) (S754_zero false) = true.
Proof.
  intros Fx Fy E.
  destruct x as [sx|sx| |sx mx ex], y as [sy|sy| |sy my ey]; try contradiction; cbn [SFsub].
  - destruct (Bool.eqb sx (negb sy)); reflexivity.
  - exfalso. cbn [float_value] in E. pose proof (pw_pos ey). assert (0 < IZR (Zpos my)) by (apply IZR_lt; lia).
    destruct sy; rewrite ?IZR_neg in E; nra.
  - exfalso. cbn [float_value] in E. pose proof (pw_pos ex). assert (0 < IZR (Zpos mx)) by (apply IZR_lt; lia).
    destruct sx; rewrite ?IZR_neg in E; nra.
  - set (ez := Z.min ex ey).
    pose proof (shl_value mx ex ez) as Sx. pose proof (shl_value my ey ez) as Sy.
    destruct (shl_align mx ex ez) as [mx' ex']. destruct (shl_align my ey ez) as [my' ey'].
    destruct Sx as (Vx & _ & Ex). destruct Sy as (Vy & _ & Ey). cbn [fst].
    assert (ex' = ez) by (unfold ez in *; lia). assert (ey' = ez) by (unfold ez in *; lia). clear Ex Ey. subst ex' ey'.
    assert (D : (cond_Zopp sx (Zpos mx') - cond_Zopp sy (Zpos my') = 0)%Z).
    { apply eq_IZR. rewrite minus_IZR, !cond_value. cbn [float_value] in E. pose proof (pw_pos ez).
      apply Rmult_eq_reg_r with (pw ez); [|lra]. rewrite Rmult_0_l, Rmult_minus_distr_r.
      destruct sx, sy; rewrite ?IZR_neg in *; lra. }
    rewrite D. reflexivity.
Qed.
Lemma add_zero x s : fin x -> fin (SFadd prec emax x (S754_zero s)) /\ float_value (SFadd prec emax x (S754_zero s)) = float_value x.
Proof.
  destruct x as [sx|sx| |sx mx ex]; cbn [SFadd]; intros F; try contradiction.
  - destruct (Bool.eqb sx s); split; (exact I || reflexivity).
  - split; [exact F|reflexivity].
Qed.
Lemma zero_add x : fin x -> fin (SFadd prec emax (S754_zero false) x) /\ float_value (SFadd prec emax (S754_zero false) x) = float_value x.
Proof.
  destruct x as [sx|sx| |sx mx ex]; cbn [SFadd]; intros F; try contradiction.
  - destruct (Bool.eqb false sx); split; (exact I || reflexivity).
  - split; [exact F|reflexivity].
Qed.

Lemma expr_eqb_eq : forall x y, expr_eqb x y = true -> x = y.
Proof.
  induction x; intros [] H; cbn [expr_eqb] in H; try discriminate; rewrite ?andb_true_iff in H;
  try match type of H with _ /\ _ => destruct H as [H1 H2] end; f_equal; auto.
  - apply Z.eqb_eq in H1. apply Pos.eqb_eq in H2. destruct q, q0; cbn in *; congruence.
  - apply Nat.eqb_eq in H2. exact H2.
Qed.
Lemma lit0_float pow x : is_lit0 x = true -> eval_float prec emax pow x = S754_zero false /\ evalR x = 0.
Proof.
  destruct x; cbn [is_lit0]; try discriminate. intros H. apply Z.eqb_eq in H. destruct q as [n d]. cbn [Qnum] in H. subst n.
  split; [reflexivity|]. cbn [evalR]. apply Q2R_num0.
Qed.

Section Pow.
Variable pow : spec_float -> nat -> spec_float.
Hypothesis HP : faithful_power prec emax pow.
Notation ev := (eval_float prec emax pow).

Lemma omap_float l v : omap evalC l = Some v ->
  length v = length l /\ forall i, (i < length l)%nat ->
    evalC (nth i l (Lit 0)) = Some (nth i v (b0, 0%Z)).
Proof.
  revert v. induction l as [|x l IH]; cbn [omap]; intros v H.
  - injection H as <-. split; [reflexivity|cbn; intros; lia].
  - destruct (evalC x) as [k|] eqn:E; [|discriminate]. cbn [obind] in H.
    destruct (omap evalC l) as [v'|]; [|discriminate]. cbn [obind] in H. injection H as <-.
    destruct (IH v' eq_refl) as [L G]. split; [cbn; congruence|].
    intros [|i] Hi; [exact E|]. apply (G i). cbn in Hi. lia.
Qed.
(** The computed vector. *)
Lemma float_vec l v k : omap evalC l = Some v -> forallb (within_roundings k) v = true ->
  reps b0 contains (length l) (map around v) (fun i => float_value (nth i (map ev l) n0)) /\
  (forall i, (i < length l)%nat -> fin (nth i (map ev l) n0) /\
     Rabs (float_value (nth i (map ev l) n0) - vnth i (map evalR l)) <= IZR (Zpos k) * u).
Proof.
  intros H T. destruct (omap_float l v H) as [L G]. rewrite forallb_forall in T.
  assert (Nf : forall i, (i < length l)%nat -> nth i (map ev l) n0 = ev (nth i l (Lit 0))).
  { intros i Hi. rewrite (nth_indep _ n0 (ev (Lit 0))) by (rewrite map_length; exact Hi). apply map_nth. }
  assert (Nr : forall i, (i < length l)%nat -> vnth i (map evalR l) = evalR (nth i l (Lit 0))).
  { intros i Hi. unfold vnth. rewrite (nth_indep _ 0 (evalR (Lit 0))) by (rewrite map_length; exact Hi). apply map_nth. }
  pose proof (u53 prec Hprec) as Hu. set (e0 := (b0, 0%Z) : estimate) in *.
  split.
  - split; [rewrite map_length; exact L|]. intros i Hi. cbv beta. rewrite (Nf i Hi).
    rewrite (nth_indep _ b0 (around e0)) by (rewrite map_length; lia). rewrite map_nth.
    apply (around_sound u _ (evalR (nth i l (Lit 0))) _ Hu), (evalC_sound prec emax Hprec Hemax pow HP), G, Hi.
  - intros i Hi. rewrite (Nf i Hi), (Nr i Hi). destruct (evalC_sound prec emax Hprec Hemax pow HP _ _ (G i Hi)) as [F C].
    split; [exact F|]. apply (within_sound u k _ _ _ Hu C). apply T, nth_In. lia.
Qed.

(** Sums. *)
Lemma sum_expr b : forall z, fold_left nadd (map ev b) (ev z) = ev (fold_left Add b z).
Proof. induction b as [|x b IH]; intros z; cbn [map fold_left]; [reflexivity|]. apply (IH (Add z x)). Qed.
Lemma vsum_expr b : vsum (map ev b) = ev (weight_sum b).
Proof. exact (sum_expr b (Lit 0)). Qed.

Lemma u_small : 0 < u <= / 9007199254740992.
Proof.
  destruct (u53 prec Hprec) as [H1 H2]. split; [exact H1|]. rewrite pw53_inv in H2. exact H2.
Qed.
Lemma small_big x : Rabs x <= 1000000 -> Rabs x <= pw (emax - 1).
Proof.
  intros H. apply (below50 prec emax Hprec Hemax). eapply Rle_trans; [exact H|]. rewrite pw_IZR by lia. apply IZR_le. lia.
Qed.
Lemma small_int z : Rabs (IZR z) <= 1000000 ->
  let r := binary_normalize prec emax z 0 false in fin r /\ Rabs (float_value r - IZR z) <= u * (1 + Rabs (IZR z)).
Proof.
  intros H. pose proof (normalize_spec prec emax ltac:(lia) Hemax z 0) as N. cbv zeta in N.
  assert (E : IZR z * pw 0 = IZR z) by (change (pw 0) with 1; ring). rewrite E in N. apply N, small_big, H.
Qed.
Lemma bminus1_sound b x : contains b x -> contains (bminus1 b) (x - 1).
Proof.
  unfold contains. cbn [bminus1 fst snd]. intros H. rewrite minus_IZR.
  replace ((x - 1) * IZR unit - (IZR (fst b) - IZR unit)) with (x * IZR unit - IZR (fst b)) by ring. exact H.
Qed.

Lemma weights_quiet b w : evalC (weight_sum b) = Some w -> bsmall (bminus1 (around w)) (1 # 1000000) = true -> warn_weights (map ev b) = false.
Proof.
  intros E S. pose proof (u53 prec Hprec) as Hu. pose proof u_small as Us.
  destruct (evalC_sound prec emax Hprec Hemax pow HP _ _ E) as [F C]. apply (around_sound u _ _ _ Hu) in C.
  pose proof (bsmall_sound _ _ _ (bminus1_sound _ _ C) S) as B. clear C S E.
  assert (Q2 : Q2R (1 # 1000000) = / 1000000) by (unfold Q2R; cbn; lra). rewrite Q2 in B.
  unfold warn_weights. rewrite vsum_expr. set (y := ev (weight_sum b)) in *.
  destruct (nltb _ _) eqn:L; [|reflexivity]. exfalso.
  assert (A1 : Rabs (IZR 1) = 1) by apply Rabs_R1.
  destruct (small_int 1 ltac:(rewrite A1; lra)) as [F1 V1]. rewrite A1 in V1. set (o := binary_normalize prec emax 1 0 false) in *.
  assert (P1 : (2 <= prec)%Z) by lia.
  assert (A2 : Rabs (IZR 100000) = 100000) by (apply Rabs_pos_eq; lra).
  destruct (small_int 100000 ltac:(rewrite A2; lra)) as [F2 V2]. rewrite A2 in V2. set (z := binary_normalize prec emax 100000 0 false) in *.
  apply Rabs_le_inv in B, V1, V2. assert (U1 : u * (1 + 1) <= / 1000000) by nra. assert (U2 : u * (1 + 100000) <= / 1000000) by nra.
  assert (O : 1 - / 1000000 <= float_value o <= 1 + / 1000000) by lra.
  assert (Z : 100000 - / 1000000 <= float_value z <= 100000 + / 1000000) by lra.
  (* the difference *)
  assert (D : Rabs (float_value y - float_value o) <= 2 * / 1000000) by (apply Rabs_le; lra).
  destruct (float_sub prec emax P1 Hemax y o F F1) as [Fd Vd]; [apply small_big; lra|].
  set (d := SFsub prec emax y o) in *.
  assert (Vd' : Rabs (float_value d) <= 3 * / 1000000).
  { pose proof (Rabs_triang (float_value d - (float_value y - float_value o)) (float_value y - float_value o)) as T.
    replace (float_value d - (float_value y - float_value o) + (float_value y - float_value o)) with (float_value d) in T by ring. nra. }
  assert (Dn : fin (nabs d) /\ Rabs (float_value (nabs d)) = Rabs (float_value d)).
  { unfold nabs. destruct (nltb d n0); [|split; [exact Fd|reflexivity]]. destruct (float_opp prec emax d Fd) as [F' V].
    split; [exact F'|]. change (nopp d) with (SFopp d). rewrite V. apply Rabs_Ropp. }
  destruct Dn as [D1 D2].
  (* the literal *)
  assert (Zn : float_value z <> 0) by lra.
  assert (Qz : 9 * / 1000000 <= float_value o / float_value z <= 1).
  { split; [apply Rmult_le_reg_r with (float_value z); [lra|]|apply Rmult_le_reg_r with (float_value z); [lra|]];
    unfold Rdiv; rewrite (Rmult_assoc (float_value o)), Rinv_l by exact Zn; lra. }
  destruct (float_div prec emax P1 Hemax o z F1 F2 Zn) as [G1 G2]; [apply small_big; rewrite Rabs_pos_eq; lra|].
  rewrite (Rabs_pos_eq (float_value o / float_value z)) in G2 by lra. apply Rabs_le_inv in G2.
  change (SFltb (SFdiv prec emax o z) (nabs d) = true) in L.
  pose proof (float_ltb prec emax P1 _ _ G1 D1 L) as LT.
  pose proof (Rle_abs (float_value (nabs d))).
  assert (u * (1 + float_value o / float_value z) <= / 1000000) by nra. lra.
Qed.

Lemma zeros_value l : forall x, fin x -> Forall (fun y => y = S754_zero false) l ->
  fin (fold_left nadd l x) /\ float_value (fold_left nadd l x) = float_value x.
Proof.
  induction l as [|y l IH]; intros x F H; cbn [fold_left]; [split; [exact F|reflexivity]|].
  inversion H as [|? ? -> H']; subst. destruct (add_zero x false F) as [F' V]. destruct (IH _ F' H') as [G W].
  split; [exact G|]. exact (eq_trans W V).
Qed.
Lemma row_quiet (A : list (list spec_float)) c g zs : (0 < length A)%nat -> length A = length c ->
  nth 0 A [] = g :: zs -> Forall (fun y => y = S754_zero false) zs -> fin g -> nth 0 c n0 = g -> warn_rows A c = false.
Proof.
  intros P L E Z F Ec. unfold warn_rows. destruct A as [|r A]; [cbn in P; lia|]. cbn [nth] in E. subst r.
  destruct c as [|g' c]; [discriminate|]. cbn [nth] in Ec. subst g'.
  destruct (zero_add g F) as [F0 V0]. destruct (zeros_value zs _ F0 Z) as [F1 V1].
  set (h := fold_left nadd zs (SFadd prec emax (S754_zero false) g)) in *.
  assert (S0 : neqb (nsub h g) n0 = true) by (apply (sub_equal h g F1 F); rewrite V1; exact V0).
  assert (H : exists l, bsub (map vsum ((g :: zs) :: A)) (g :: c) = nsub h g :: l).
  { cbn [map]. change (vsum (g :: zs)) with h. destruct A as [|r A].
    - destruct c; [|discriminate]. cbn. eauto.
    - destruct c; [discriminate|]. cbn. eauto. }
  destruct H as [l ->]. cbn [forallb]. rewrite S0. reflexivity.
Qed.

(** Which coefficients are zero. *)
Lemma apart_sound b x : contains b x -> apart b = true -> x <> 0.
Proof.
  intros H A. apply Z.ltb_lt, IZR_lt in A. pose proof (contains_abs _ _ H) as [B _]. rewrite minus_IZR in B.
  intros ->. rewrite Rabs_R0, Rmult_0_l in B. lra.
Qed.
End Pow.

Lemma forallb_same {A} (f g : A -> bool) l : (forall x, In x l -> f x = g x) -> forallb f l = forallb g l.
Proof. induction l as [|x l IH]; intros H; cbn [forallb]; [reflexivity|]. rewrite (H x) by (left; reflexivity). f_equal. apply IH. intros y Hy. apply H. now right. Qed.

Lemma tests_float (bf : tableau spec_float) (bt : tableau R) : t_stages bf = t_stages bt ->
  (forall i j, (i <= j < t_stages bt)%nat -> neqb (entry (t_A bf) i j) n0 = neqb (entry (t_A bt) i j) n0) ->
  is_explicit bf = is_explicit bt /\ is_diagonally_implicit bf = is_diagonally_implicit bt /\ is_implicit bf = is_implicit bt.
Proof.
  intros S H.
  assert (E : is_explicit bf = is_explicit bt).
  { unfold is_explicit. rewrite S. apply forallb_same. intros i Hi. apply in_seq in Hi. apply forallb_same. intros j Hj. apply in_seq in Hj. apply H. lia. }
  assert (D : is_diagonally_implicit bf = is_diagonally_implicit bt).
  { unfold is_diagonally_implicit. rewrite E, S. destruct (is_explicit bt); [reflexivity|].
    apply forallb_same. intros i Hi. apply in_seq in Hi. apply forallb_same. intros j Hj. apply in_seq in Hj. apply H. lia. }
  split; [exact E|]. split; [exact D|]. unfold is_implicit. rewrite E, D. reflexivity.
Qed.


Theorem float_shipped pow x k e eh t th : faithful_power prec emax pow -> check_float x k e eh t th = true ->
  forall bt, shipped_init x = Ok (bt, []) -> tableau_wf bt -> (0 < t_stages bt)%nat -> t_p bt = Some (s_p x) -> t_name bt = s_name x ->
  t_A bt = map (map evalR) (s_A x) -> t_b bt = map evalR (s_b x) -> t_c bt = map evalR (s_c x) ->
  t_hat bt = match s_hat x with None => None | Some (bh, ph) => Some (map evalR bh, Some ph) end ->
  exists bf, shipped_init_float prec emax pow x = Ok (bf, []) /\ tableau_wf bf /\
    holds_values float_value fin (IZR (Zpos k) * u) bf (t_stages bt) (entry (t_A bt)) (fun i => vnth i (t_b bt)) (fun i => vnth i (t_c bt)) /\
    t_p bf = t_p bt /\ t_name bf = t_name bt /\
    is_explicit bf = is_explicit bt /\ is_diagonally_implicit bf = is_diagonally_implicit bt /\ is_implicit bf = is_implicit bt /\
    computed_order bf (t_b bf) (s_p x) (Q2R (roundings e)) /\
    match t_hat bt, t_hat bf with
    | None, None => True
    | Some (h, p), Some (hf, pf) => pf = p /\
        (forall i, (i < t_stages bt)%nat -> fin (nth i hf n0) /\ Rabs (float_value (nth i hf n0) - vnth i h) <= IZR (Zpos k) * u) /\
        (forall q, p = Some q -> computed_order bf hf q (Q2R (roundings eh)))
    | _, _ => False
    end.
Proof.
  intros HP H bt Hi W Hs Ep En EA Eb Ec Eh. unfold check_float in H. cbv zeta in H.
  set (s := length (s_b x)) in *.
  assert (Es : t_stages bt = s) by (rewrite <- (tw_b _ W), Eb, map_length; reflexivity).
  assert (LA : length (s_A x) = s) by (rewrite <- Es, <- (tw_A _ W), EA, map_length; reflexivity).
  assert (Lc : length (s_c x) = s) by (rewrite <- Es, <- (tw_c _ W), Ec, map_length; reflexivity).
  assert (LR : forall r, In r (s_A x) -> length r = s).
  { intros r Hr. pose proof (tw_rows _ W) as F. rewrite EA, Es, Forall_forall in F.
    rewrite <- (map_length evalR). apply F, in_map, Hr. }
  assert (LR' : forall i, (i < s)%nat -> length (nth i (s_A x) []) = s) by (intros i Hi'; apply LR, nth_In; lia).
  rewrite Es in Hs.
  destruct (omap (omap evalC) (s_A x)) as [A|] eqn:OA; [|discriminate].
  destruct (omap evalC (s_b x)) as [b|] eqn:Ob; [|discriminate].
  destruct (omap evalC (s_c x)) as [c|] eqn:Oc; [|discriminate].
  destruct (evalC (weight_sum (s_b x))) as [w|] eqn:Ow; [|discriminate].
  repeat rewrite andb_true_iff in H. destruct H as [[[[[[[TA Tb] Tc] Tw] TZ] T0] TC] TH].
  set (ev := eval_float prec emax pow) in *.
  set (bA := map (map ev) (s_A x)). set (bb := map ev (s_b x)). set (bc := map ev (s_c x)).
  destruct (omap_mat _ _ _ OA) as [LA' RA]. rewrite forallb_forall in TA.
  set (A' := map (map around) A) in *.
  assert (RowA : forall i, nth i A' [] = map around (nth i A [])).
  { intros i. unfold A'. change (@nil ball) with (map around []). apply map_nth. }
  pose proof (u53 prec Hprec) as Hu.
  (* rows *)
  assert (Row : forall i, (i < s)%nat -> nth i bA [] = map ev (nth i (s_A x) [])).
  { intros i _. unfold bA. change (@nil spec_float) with (map ev []). apply map_nth. }
  assert (RowR : forall i, (i < s)%nat -> nth i (t_A bt) [] = map evalR (nth i (s_A x) [])).
  { intros i _. rewrite EA. change (@nil R) with (map evalR []). apply map_nth. }
  assert (FR : forall i, (i < s)%nat ->
    reps b0 contains s (nth i A' []) (fun j => float_value (entry bA i j)) /\
    forall j, (j < s)%nat -> fin (entry bA i j) /\ Rabs (float_value (entry bA i j) - entry (t_A bt) i j) <= IZR (Zpos k) * u).
  { intros i Hi'. destruct (float_vec pow HP (nth i (s_A x) []) (nth i A []) k) as [R1 R2].
    - apply RA. lia.
    - apply TA, nth_In. lia.
    - rewrite (LR' i Hi') in *. unfold entry. rewrite RowA, (Row i Hi'), (RowR i Hi'). split; [exact R1|exact R2]. }
  destruct (float_vec pow HP _ _ k Ob Tb) as [Rb1 Rb2]. destruct (float_vec pow HP _ _ k Oc Tc) as [Rc1 Rc2].
  fold s in Rb1, Rb2. rewrite Lc in Rc1, Rc2. fold ev bb in Rb1, Rb2. fold ev bc in Rc1, Rc2.
  (* zeros *)
  assert (Co : forall i j, (i < s)%nat -> (j < s)%nat -> entry bA i j = ev (coefficient (s_A x) i j) /\ entry (t_A bt) i j = evalR (coefficient (s_A x) i j)).
  { intros i j Hi' Hj. unfold entry, coefficient. rewrite (Row i Hi'), (RowR i Hi'). split.
    - rewrite (nth_indep _ n0 (ev (Lit 0))) by (rewrite map_length, LR'; assumption). apply map_nth.
    - rewrite (nth_indep _ n0 (evalR (Lit 0))) by (rewrite map_length, LR'; assumption). apply map_nth. }
  rewrite forallb_forall in TZ.
  assert (Up : forall i j, (i < j < s)%nat -> is_lit0 (coefficient (s_A x) i j) = true).
  { intros i j Hij. specialize (TZ i ltac:(apply in_seq; lia)). apply andb_true_iff in TZ. destruct TZ as [TZ _].
    rewrite forallb_forall in TZ. apply TZ, in_seq. lia. }
  assert (Zt : forall i j, (i <= j < s)%nat -> neqb (entry bA i j) n0 = neqb (entry (t_A bt) i j) n0).
  { intros i j Hij. destruct (Co i j ltac:(lia) ltac:(lia)) as [C1 C2].
    destruct (is_lit0 (coefficient (s_A x) i j)) eqn:Z0.
    - destruct (lit0_float pow _ Z0) as [Z1 Z2]. rewrite C1, C2. unfold ev. rewrite Z1, Z2.
      transitivity true; [reflexivity|]. symmetry. apply L_Step.Reqb_true. reflexivity.
    - assert (i = j) by (destruct (Nat.eq_dec i j); [assumption|rewrite Up in Z0 by lia; discriminate]). subst j.
      specialize (TZ i ltac:(apply in_seq; lia)). apply andb_true_iff in TZ. destruct TZ as [_ TZ]. rewrite Z0 in TZ. cbn [orb] in TZ.
      destruct (FR i ltac:(lia)) as [[_ F1] F2]. destruct (F2 i ltac:(lia)) as [F3 _]. specialize (F1 i ltac:(lia)). cbv beta in F1.
      assert (NZ : float_value (entry bA i i) <> 0) by (apply (apart_sound _ _ F1 TZ)).
      assert (NR : entry (t_A bt) i i <> 0).
      { apply (apart_sound (nth i (nth i A' []) b0)); [|exact TZ]. rewrite C2, RowA.
        pose proof (RA i ltac:(lia)) as RA'. destruct (omap_float _ _ RA') as [LG G].
        rewrite (nth_indep _ b0 (around (b0, 0%Z))) by (rewrite map_length, LG, LR'; lia). rewrite map_nth.
        specialize (G i ltac:(rewrite LR'; lia)).
        destruct (evalC_sound prec emax Hprec Hemax pow HP _ _ G) as [_ GE]. apply (around_exact _ _ _ _ GE). }
      assert (neqb (entry bA i i) n0 = false).
      { destruct (neqb (entry bA i i) n0) eqn:Q; [|reflexivity]. exfalso. apply NZ. apply (float_eqb0 prec emax _ false F3). exact Q. }
      rewrite H. symmetry. destruct (neqb (entry (t_A bt) i i) n0) eqn:Q; [|reflexivity]. exfalso. apply NR. apply L_Step.Reqb_true in Q. exact Q. }
  (* construction *)
  set (A0 := {| mrows := length (s_A x); mcols := length (nth 0 (s_A x) []); mdata := bA |}).
  destruct (proj2 (tableau_init_ok A0 bb (Some bc) (Some (s_p x)) (s_name x))) as [[bf ws] Hf].
  { unfold bb, bc. rewrite !map_length. cbn [mrows mcols A0]. rewrite (LR' 0%nat Hs), LA, Lc. repeat split; reflexivity. }
  pose proof (tableau_init_fields _ _ _ _ _ _ _ Hf) as (E1 & E2 & E3 & E4 & E5 & E6 & E7 & W1 & W2).
  cbn [mdata A0] in E1, W2.
  assert (WF : tableau_wf bf).
  { eapply tableau_init_wf; [|exact Hf]. split; cbn [mdata mrows mcols A0]; [apply map_length|].
    rewrite (LR' 0%nat Hs). apply Forall_forall. intros r Hr. apply in_map_iff in Hr. destruct Hr as (r' & <- & Hr). rewrite map_length. apply LR, Hr. }
  assert (Sf : t_stages bf = s) by (rewrite E6; unfold bb; apply map_length).
  assert (Wn : ws = []).
  { apply no_warning_left.
    - intros HI. apply W1 in HI. pose proof (weights_quiet pow HP _ _ Ow Tw) as Wq. fold ev in Wq. fold bb in Wq. congruence.
    - intros HI. apply W2 in HI. destruct HI as (cs & Ecs & HI). injection Ecs as <-.
      destruct (nth 0 (s_A x) []) as [|g0 zs0] eqn:Er; [specialize (LR' 0%nat Hs); rewrite Er in LR'; cbn in LR'; lia|].
      rewrite (row_quiet bA bc (ev g0) (map ev zs0)) in HI; [discriminate| | | | | |].
      + unfold bA. rewrite map_length. lia.
      + unfold bA, bc. rewrite !map_length. lia.
      + rewrite (Row 0%nat Hs), Er. reflexivity.
      + apply Forall_forall. intros y Hy. apply in_map_iff in Hy. destruct Hy as (z & <- & Hz).
        destruct (In_nth _ _ (Lit 0) Hz) as (j & Hj & <-).
        assert (Lz : length (g0 :: zs0) = s) by (rewrite <- Er; apply LR', Hs). cbn [length] in Lz.
        pose proof (Up 0%nat (S j) ltac:(lia)) as U. unfold coefficient in U. rewrite Er in U. cbn [nth] in U. apply (lit0_float pow), U.
      + destruct (FR 0%nat Hs) as [_ F]. destruct (F 0%nat Hs) as [F0 _]. unfold entry in F0. rewrite (Row 0%nat Hs), Er in F0. exact F0.
      + apply expr_eqb_eq in T0. unfold coefficient in T0. rewrite Er in T0. cbn [nth] in T0. rewrite T0.
        unfold bc. rewrite (nth_indep _ n0 (ev (Lit 0))) by (rewrite map_length; lia). apply map_nth. }
  subst ws.
  assert (HV : forall bf', t_stages bf' = s -> t_A bf' = bA -> t_b bf' = bb -> t_c bf' = bc ->
    holds_values float_value fin (IZR (Zpos k) * u) bf' (t_stages bt) (entry (t_A bt)) (fun i => vnth i (t_b bt)) (fun i => vnth i (t_c bt))).
  { intros bf' S' EA' b' c'. rewrite Es. constructor; [exact S'|..].
    - intros i j Hi' Hj. rewrite EA'. apply (FR i Hi'), Hj.
    - intros i Hi'. rewrite b', Eb. apply Rb2, Hi'.
    - intros i Hi'. rewrite c', Ec. apply Rc2, Hi'. }
  assert (CO : forall bf' bl q p' e' t', t_stages bf' = s -> t_A bf' = bA -> t_c bf' = bc -> reps b0 contains s q (fun i => float_value (nth i bl n0)) ->
    conditions b0 bone badd bmul bnear bfar A' q (map around c) p' e' t' = true -> computed_order bf' bl p' (Q2R e')).
  { intros bf' bl q p' e' t' S' EA' c' Rq Cq. unfold computed_order. rewrite S', EA', c'.
    destruct (rounded_sound s A' (fun i j => float_value (entry bA i j)) q (map around c) _ _ p' e' t' ltac:(unfold A'; rewrite map_length; lia)
      (fun i Hi' => proj1 (FR i Hi')) Rq Rc1 Cq) as (O1 & (tt' & O2 & O3) & O4).
    split; [exact O1|]. split; [|exact O4]. exists tt'. split; [exact O2|].
    assert (Eq : Q2R sharp_bound = 1 / 1000) by (unfold Q2R, sharp_bound; cbn; lra). rewrite <- Eq. exact O3. }
  unfold shipped_init_float. cbv zeta. change (binary prec emax) with bin. fold ev. fold bA bb bc A0.
  destruct (s_hat x) as [[bh ph]|].
  - destruct (omap evalC bh) as [hh|] eqn:Oh; [|discriminate]. apply andb_true_iff in TH. destruct TH as [Th TH].
    assert (Lh : length bh = s).
    { pose proof (tw_hat _ W) as Wh. rewrite Eh, Es, map_length in Wh. exact Wh. }
    destruct (float_vec pow HP _ _ k Oh Th) as [Rh1 Rh2]. rewrite Lh in Rh1, Rh2. fold ev in Rh1, Rh2.
    unfold embedded_init. rewrite Hf. cbn [bind].
    assert (Lq : length (map ev bh) = length (t_b bf)) by (rewrite E2; unfold bb; rewrite !map_length; exact Lh).
    rewrite Lq, Nat.eqb_refl. cbn [negb]. eexists. split; [reflexivity|].
    destruct WF as [V1 V2 V3 V4 _].
    split; [constructor; cbn [t_A t_stages t_b t_c t_hat]; auto; congruence|].
    split; [apply HV; cbn [t_A t_stages t_b t_c t_hat]; assumption|]. cbn [t_A t_stages t_b t_c t_hat t_p t_name].
    split; [congruence|]. split; [congruence|].
    rewrite Eh.
    match goal with |- is_explicit ?z = _ /\ _ => destruct (tests_float z bt) as (P1 & P2 & P3); cbn [t_stages t_A]; [congruence| |] end.
    { intros i j Hij. rewrite E1. apply Zt. rewrite Es in Hij. exact Hij. }
    split; [exact P1|]. split; [exact P2|]. split; [exact P3|].
    split.
    { rewrite E2. apply (CO _ bb (map around b) _ _ t); [exact Sf|exact E1|exact E7|exact Rb1|exact TC]. }
    split; [reflexivity|]. split; [rewrite Es; exact Rh2|].
    intros q Hq. injection Hq as <-. apply (CO _ (map ev bh) (map around hh) _ _ th); [exact Sf|exact E1|exact E7|exact Rh1|exact TH].
  - exists bf. split; [exact Hf|]. split; [exact WF|]. split; [apply HV; assumption|].
    split; [congruence|]. split; [congruence|].
    destruct (tests_float bf bt) as (P1 & P2 & P3); [congruence|intros i j Hij; rewrite E1; apply Zt; rewrite Es in Hij; exact Hij|].
    split; [exact P1|]. split; [exact P2|]. split; [exact P3|]. split.
    { rewrite E2. apply (CO _ bb (map around b) _ _ t); [exact Sf|exact E1|exact E7|exact Rb1|exact TC]. }
    rewrite Eh, E5. exact I.
Qed.
End Format.
