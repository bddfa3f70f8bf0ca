(** Lemmas: any number of processes stays in step; one process alone. *)
From Coq Require Import String.
From Coq Require Import List Bool Arith Lia.
From Verif Require Import Base M_Tableau M_State M_ODE M_Step M_Controller M_Measure M_Integrator M_Metadata M_MPI
  SpecMetadata SpecMPI L_Metadata L_Metadata2 L_Metadata3 L_MPI L_MPI2.
Import ListNotations.
Local Open Scope nat_scope.
Local Open Scope list_scope.

Lemma nth_error_map2 {A B D} (f : A -> B -> D) : forall x y j d, nth_error (map2 f x y) j = Some d ->
  exists a b, nth_error x j = Some a /\ nth_error y j = Some b /\ d = f a b.
Proof.
  induction x as [|a x IH]; intros [|b y] [|j] d; cbn; try discriminate; [intros [= <-]; eauto|apply IH].
Qed.
Lemma nth_error_map_inv {A B} (f : A -> B) x j d : nth_error (map f x) j = Some d ->
  exists a, nth_error x j = Some a /\ d = f a.
Proof. rewrite nth_error_map; destruct (nth_error x j); cbn; [intros [= <-]; eauto|discriminate]. Qed.
Lemma Forall2_nth2 {A B} (P : A -> B -> Prop) l l' : Forall2 P l l' -> forall j a b,
  nth_error l j = Some a -> nth_error l' j = Some b -> P a b.
Proof. induction 1; intros [|j] ? ?; cbn; try discriminate; [intros [= <-] [= <-]; auto|eauto]. Qed.
Lemma Forall2_len {A B} (P : A -> B -> Prop) l l' : Forall2 P l l' -> length l = length l'.
Proof. induction 1; cbn; auto. Qed.
Lemma Forall_image {A B} (f : A -> B) (P : A -> Prop) (l : list B) :
  Forall (fun y => exists x, y = f x /\ P x) l -> exists xs, l = map f xs /\ Forall P xs.
Proof.
  induction 1 as [|y l (x & -> & Px) _ (xs & -> & F)]; [exists []; auto|exists (x :: xs); auto].
Qed.

Section Many.
Context {T : Type} {N : Num T} {A : Type}.
Variables (ord : order T) (excl : list string) (mds : list metadata).
Variable Q : metadata -> metadata -> A -> A -> Prop.
Hypothesis Mt : forall i j m m', nth_error mds i = Some m -> nth_error mds j = Some m' -> matching m m'.

Definition all_aligned (ps : list (prog T A)) : Prop :=
  length ps = length mds /\ forall i j m m' p p', nth_error mds i = Some m -> nth_error mds j = Some m' ->
    nth_error ps i = Some p -> nth_error ps j = Some p' -> aligned excl m m' (Q m m') p p'.

Lemma move_aligned ps ps' : all_aligned ps -> move ord excl mds ps ps' -> all_aligned ps'.
Proof.
  intros [L Al] Mv; destruct Mv as [qs ans (y & Cs)|qs e|qs|qs ans La|qs e|qs ans La|qs e|mo b s ks|qs].
  - rewrite map_length in L; pose proof (Forall2_len _ _ _ Cs) as La.
    split; [rewrite map2_length; lia|].
    intros i j m m' p p' Hm Hm' Hp Hp'.
    apply nth_error_map2 in Hp as (q & r & Hq & Hr & ->); apply nth_error_map2 in Hp' as (q' & r' & Hq' & Hr' & ->).
    assert (X := Al i j m m' _ _ Hm Hm' (map_nth_error _ _ _ Hq) (map_nth_error _ _ _ Hq')).
    inversion X; subst; match goal with H : forall x y, good_answers _ _ _ _ _ -> _ |- _ => apply H end.
    destruct (Forall2_nth2 _ _ _ Cs _ _ _ Hm Hr) as [A1 A2]; destruct (Forall2_nth2 _ _ _ Cs _ _ _ Hm' Hr') as [B1 B2].
    split; [exact A1|]; split; [exact B1|].
    apply (shared_agree excl m m' (Mt _ _ _ _ Hm Hm')); congruence.
  - rewrite map_length in L; split; [rewrite map_length; exact L|].
    intros i j m m' p p' Hm Hm' Hp Hp'.
    apply nth_error_map_inv in Hp as (q & Hq & ->); apply nth_error_map_inv in Hp' as (q' & Hq' & ->).
    assert (X := Al i j m m' _ _ Hm Hm' (map_nth_error _ _ _ Hq) (map_nth_error _ _ _ Hq')).
    inversion X; subst; auto.
  - rewrite map_length in L; split; [rewrite map_length; exact L|].
    intros i j m m' p p' Hm Hm' Hp Hp'.
    apply nth_error_map_inv in Hp as (q & Hq & ->); apply nth_error_map_inv in Hp' as (q' & Hq' & ->).
    assert (X := Al i j m m' _ _ Hm Hm' (map_nth_error _ _ _ Hq) (map_nth_error _ _ _ Hq')).
    inversion X; subst; auto.
  - rewrite map_length in L; split; [rewrite map2_length; lia|].
    intros i j m m' p p' Hm Hm' Hp Hp'.
    apply nth_error_map2 in Hp as (q & r & Hq & Hr & ->); apply nth_error_map2 in Hp' as (q' & r' & Hq' & Hr' & ->).
    assert (X := Al i j m m' _ _ Hm Hm' (map_nth_error _ _ _ Hq) (map_nth_error _ _ _ Hq')).
    inversion X; subst; auto.
  - rewrite map_length in L; split; [rewrite map_length; exact L|].
    intros i j m m' p p' Hm Hm' Hp Hp'.
    apply nth_error_map_inv in Hp as (q & Hq & ->); apply nth_error_map_inv in Hp' as (q' & Hq' & ->).
    assert (X := Al i j m m' _ _ Hm Hm' (map_nth_error _ _ _ Hq) (map_nth_error _ _ _ Hq')).
    inversion X; subst; auto.
  - rewrite map_length in L; split; [rewrite map2_length; lia|].
    intros i j m m' p p' Hm Hm' Hp Hp'.
    apply nth_error_map2 in Hp as (q & r & Hq & Hr & ->); apply nth_error_map2 in Hp' as (q' & r' & Hq' & Hr' & ->).
    assert (X := Al i j m m' _ _ Hm Hm' (map_nth_error _ _ _ Hq) (map_nth_error _ _ _ Hq')).
    inversion X; subst; auto.
  - rewrite map_length in L; split; [rewrite map_length; exact L|].
    intros i j m m' p p' Hm Hm' Hp Hp'.
    apply nth_error_map_inv in Hp as (q & Hq & ->); apply nth_error_map_inv in Hp' as (q' & Hq' & ->).
    assert (X := Al i j m m' _ _ Hm Hm' (map_nth_error _ _ _ Hq) (map_nth_error _ _ _ Hq')).
    inversion X; subst; auto.
  - rewrite map_length in L; split; [exact L|].
    intros i j m m' p p' Hm Hm' Hp Hp'.
    assert (X := Al i j m m' _ _ Hm Hm' (map_nth_error _ _ _ Hp) (map_nth_error _ _ _ Hp')).
    inversion X; subst; auto.
  - rewrite map_length in L; split; [rewrite map_length; exact L|].
    intros i j m m' p p' Hm Hm' Hp Hp'.
    apply nth_error_map_inv in Hp as (q & Hq & ->); apply nth_error_map_inv in Hp' as (q' & Hq' & ->).
    assert (X := Al i j m m' _ _ Hm Hm' (map_nth_error _ _ _ Hq) (map_nth_error _ _ _ Hq')).
    inversion X; subst; auto.
Qed.

Variable alike : list A -> Prop.
Hypothesis Qa : forall m0 a0 rs, Forall (fun a => exists m, Q m0 m a0 a) rs -> alike rs.

Lemma aligned_abreast ps : all_aligned ps -> abreast alike ps.
Proof.
  intros [L Al]; destruct ps as [|p0 ps]; [right; right; left; exists []; reflexivity|].
  destruct mds as [|m0 ms]; [discriminate|].
  assert (F : Forall (fun p => exists m, aligned excl m0 m (Q m0 m) p0 p) (p0 :: ps)).
  { apply Forall_forall; intros p I; apply In_nth_error in I as (j & Hj).
    assert (exists m, nth_error (m0 :: ms) j = Some m) as (m & Hm).
    { destruct (nth_error (m0 :: ms) j) eqn:E; [eauto|apply nth_error_None in E].
      assert (j < length (p0 :: ps)) by (apply nth_error_Some; congruence); lia. }
    exists m; exact (Al 0 j m0 m p0 p eq_refl Hm eq_refl Hj). }
  clear Al L; revert F; generalize (p0 :: ps); clear ps; intros ps F; unfold abreast.
  destruct p0 as [a0|i0 h0 a0 k0|x0 k0|lp0 i0 h0 a0 k0|lp0 i0 h0 a0 k0|mo0 b0 s0 k0|h0 b0 k0].
  - left; destruct (Forall_image (Done _) (fun a => exists m, Q m0 m a0 a) ps) as (rs & -> & Fr).
    { eapply Forall_impl; [|exact F]; intros p (m & X); inversion X; subst; eauto. }
    exists rs; split; [reflexivity|exact (Qa _ _ _ Fr)].
  - right; left; exists (time i0), h0, a0.
    destruct (Forall_image (fun q : _ * _ => Solve _ (fst q) h0 a0 (snd q)) (fun q => time (fst q) = time i0) ps) as (qs & -> & Fq); [|eauto].
    eapply Forall_impl; [|exact F]; intros p (m & X); inversion X as [|? j ? ? ? l Et| | | | |]; subst; exists (j, l); split; [reflexivity|symmetry; exact Et].
  - do 2 right; left.
    destruct (Forall_image (fun q : _ * _ => Reduce _ (fst q) (snd q)) (fun _ => True) ps) as (qs & -> & _); [|eauto].
    eapply Forall_impl; [|exact F]; intros p (m & X); inversion X as [| |? y ? l| | | |]; subst; exists (y, l); auto.
  - do 3 right; left; exists h0, a0.
    destruct (Forall_image (fun q : _ * _ * _ => Jvp _ (fst (fst q)) (snd (fst q)) h0 a0 (snd q)) (fun _ => True) ps) as (qs & -> & _); [|eauto].
    eapply Forall_impl; [|exact F]; intros p (m & X); inversion X as [| | |? lp ? j ? ? ? l| | |]; subst; exists (lp, j, l); auto.
  - do 4 right; left; exists h0, a0.
    destruct (Forall_image (fun q : _ * _ * _ => Vjp _ (fst (fst q)) (snd (fst q)) h0 a0 (snd q)) (fun _ => True) ps) as (qs & -> & _); [|eauto].
    eapply Forall_impl; [|exact F]; intros p (m & X); inversion X as [| | | |? lp ? j ? ? ? l| |]; subst; exists (lp, j, l); auto.
  - do 5 right; left; exists mo0, b0, s0.
    destruct (Forall_image (Hook _ mo0 b0 s0) (fun _ => True) ps) as (ks & -> & _); [|eauto].
    eapply Forall_impl; [|exact F]; intros p (m & X); inversion X; subst; eauto.
  - do 6 right; exists h0, b0.
    destruct (Forall_image (Decide _ h0 b0) (fun _ => True) ps) as (ks & -> & _); [|eauto].
    eapply Forall_impl; [|exact F]; intros p (m & X); inversion X; subst; eauto.
Qed.

Lemma stay_abreast ps ps' : all_aligned ps -> moves ord excl mds ps ps' -> abreast alike ps'.
Proof.
  intros Al Mv; apply aligned_abreast; induction Mv as [|ps1 ps2 Mv IH Mv']; [exact Al|].
  exact (move_aligned _ _ IH Mv').
Qed.
End Many.

Lemma same_results_alike {T} {N : Num T} {C} (op : options T C) excl m0 a0 rs :
  Forall (fun a => exists m, same_result excl m0 m op a0 a) rs -> same_outcome rs.
Proof.
  intros Fr.
  exists (fst (fst a0)), (suggestion (snd (fst a0))), (step_hist (snd (fst a0))), (err_hist (snd (fst a0))),
    (final_time (disc (snd (fst a0)))), (snd a0).
  eapply Forall_impl; [|exact Fr]; intros x (m & E1 & [[_ _ E2 _] E3 E4 E5] & E6); cbv zeta; repeat split; congruence.
Qed.

Lemma c37 {T} {N : Num T} {C} (op : options T C) ord excl procs vs qs is mds sts fuel it c ps :
  metadata_of procs vs qs is = Ok mds -> well_tagged vs qs -> norm_defined ord excl mds ->
  together excl (o_bt op) mds sts ->
  moves ord excl mds (map2 (fun md st => p_forward op ord excl md fuel it c st) mds sts) ps ->
  in_step ps.
Proof.
  intros M W Nd (h & sh & eh & t & y & F) Mv.
  assert (Mt : forall i j m m', nth_error mds i = Some m -> nth_error mds j = Some m' -> matching m m')
    by (intros; eapply metadata_matching; eassumption).
  eapply (stay_abreast ord excl mds (fun m m' => same_result excl m m' op) Mt); [exact (same_results_alike op excl)| |exact Mv]; split.
  - rewrite map2_length, (Forall2_len _ _ _ F); lia.
  - intros i j m m' p p' Hm Hm' Hp Hp'.
    apply nth_error_map2 in Hp as (m1 & st & Hm1 & Hs & ->); apply nth_error_map2 in Hp' as (m2 & st' & Hm2 & Hs' & ->).
    rewrite Hm in Hm1; injection Hm1 as <-; rewrite Hm' in Hm2; injection Hm2 as <-.
    destruct (Forall2_nth2 _ _ _ F _ _ _ Hm Hs) as (Z & E1 & E2 & E3 & E4 & E5).
    destruct (Forall2_nth2 _ _ _ F _ _ _ Hm' Hs') as (Z' & E1' & E2' & E3' & E4' & E5').
    assert (Ok : forall k m, nth_error mds k = Some m -> ok_order ord excl m).
    { intros k mk Hk; destruct Nd as [Nd|Nd]; [left; exact Nd|right].
      rewrite Forall_forall in Nd; exact (Nd _ (nth_error_In _ _ Hk)). }
    apply aligned_forward; [eauto|eauto|eauto|].
    constructor; [constructor; auto|congruence..].
    + congruence.
    + apply (shared_agree excl m m' (Mt _ _ _ _ Hm Hm')); congruence.
Qed.
