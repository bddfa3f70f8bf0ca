(** Lemmas about the shipped components (C41-C44). *)
From Coq Require Import String.
From Coq Require Import List Reals Lia Lra.
From Verif Require Import Base Ext SpecRK L_Vec M_Components SpecComponents.
Import ListNotations.
Local Open Scope string_scope.
Local Open Scope R_scope.
Local Open Scope list_scope.

Section Generic.
Context {E : Type} (size : E -> nat) (e : E -> E -> R).

Definition shape (v : omvec E) := map (fun p => (fst p, size (snd p))) v.

Lemma shape_mem (v w : omvec E) n : shape v = shape w -> mem n v = mem n w.
Proof.
  unfold mem. revert w; induction v as [|[m x] v IH]; intros [|[k y] w] H; try discriminate; [reflexivity|].
  cbn in H; injection H as <- _ H. cbn [existsb fst]. now rewrite (IH w H).
Qed.
Lemma mem_get (v : omvec E) n : mem n v = true -> exists x, get n v = Ok x.
Proof.
  unfold mem. induction v as [|[m x] v IH]; cbn [existsb get fst]; [discriminate|].
  destruct (String.eqb n m); [eauto|auto].
Qed.
Lemma get_mem (v : omvec E) n x : get n v = Ok x -> mem n v = true.
Proof.
  unfold mem. induction v as [|[m y] v IH]; cbn [existsb get fst]; [discriminate|].
  destruct (String.eqb n m); auto.
Qed.
Lemma shape_get (v w : omvec E) n x : shape v = shape w -> get n v = Ok x ->
  exists y, get n w = Ok y /\ size x = size y.
Proof.
  revert w; induction v as [|[m z] v IH]; intros [|[k y] w] H G; try discriminate.
  cbn in H; injection H as <- Hs H. cbn [get] in *.
  destruct (String.eqb n m); [injection G as <-; eauto|eauto].
Qed.

(** An accumulating assignment. *)
Definition accumulates (s : R) (f : E -> E -> res E) : Prop :=
  forall y x z, f y x = Ok z -> size y = size x /\ size z = size y /\
    forall w, size w = size y -> e w z = e w y + s * e w x /\ e z w = e y w + s * e x w.

Lemma update_shape s f n x (v v' : omvec E) : accumulates s f ->
  update f n x v = Ok v' -> shape v' = shape v.
Proof.
  intros A. revert v'; induction v as [|[m y] v IH]; intros v'; cbn [update]; [discriminate|].
  destruct (String.eqb n m).
  - destruct (f y x) as [z|] eqn:F; cbn [bind]; [|discriminate]. intros [= <-].
    cbn. now rewrite (proj1 (proj2 (A _ _ _ F))).
  - destruct (update f n x v) as [u|]; cbn [bind]; [|discriminate]. intros [= <-].
    unfold shape; cbn [map fst snd]. f_equal. exact (IH _ eq_refl).
Qed.
Lemma update_inner s f n x (v v' w : omvec E) (u : E) : accumulates s f ->
  update f n x v = Ok v' -> shape w = shape v -> get n w = Ok u ->
  inner e w v' = inner e w v + s * e u x /\ inner e v' w = inner e v w + s * e x u.
Proof.
  intros A. revert v' w; induction v as [|[m y] v IH]; intros v' [|[k t] w] U S G; try discriminate.
  cbn in S; injection S as -> Sz S. cbn [update get] in *.
  destruct (String.eqb n m).
  - injection G as ->. destruct (f y x) as [z|] eqn:F; cbn [bind] in U; [|discriminate].
    injection U as <-. destruct (A _ _ _ F) as (_ & _ & L). destruct (L u Sz) as [L1 L2].
    cbn [inner]. rewrite L1, L2. split; ring.
  - destruct (update f n x v) as [v1|]; cbn [bind] in U; [|discriminate]. injection U as <-.
    destruct (IH _ _ eq_refl S G) as [I1 I2]. cbn [inner]. rewrite I1, I2. split; ring.
Qed.

(** A guarded product and its guarded transpose. *)
Lemma pair_transposed s fg (f : E -> E) n m din win dout wout dout' win' :
  accumulates s fg -> (forall x, size (f x) = size x) ->
  (forall u x, size u = size x -> e u (f x) = e (f u) x) ->
  shape win = shape din -> shape wout = shape dout ->
  transfer (update fg) f n din m dout = Ok dout' ->
  into (update fg) f m wout n win = Ok win' ->
  inner e wout dout' - inner e wout dout = inner e win' din - inner e win din
  /\ shape dout' = shape dout /\ shape win' = shape win.
Proof.
  intros A Sf Ad S1 S2. unfold transfer, into. rewrite (shape_mem _ _ n S1).
  destruct (mem n din) eqn:M; [|intros [= <-] [= <-]; repeat split; ring].
  destruct (mem_get _ _ M) as [x Gx]. rewrite Gx; cbn [bind]. intros U.
  destruct (get m wout) as [u|] eqn:Gu; cbn [bind]; [|discriminate]. intros V.
  destruct (update_inner s fg m (f x) dout dout' wout u A U S2 Gu) as [I1 _].
  destruct (update_inner s fg n (f u) win win' din x A V (eq_sym S1) Gx) as [_ I2].
  rewrite I1, I2. repeat split; [|eapply update_shape; eauto|eapply update_shape; eauto].
  assert (Hs : size u = size x).
  { destruct (shape_get _ _ _ _ S2 Gu) as (y & Gy & ->).
    destruct (shape_get _ _ _ _ (eq_sym S1) Gx) as (x' & Gx' & Ex).
    clear I1 I2 V. revert U Gy. clear S2 Gu. revert dout'.
    induction dout as [|[k z] d IH]; intros dout' U Gy; cbn [update get] in *; [discriminate|].
    destruct (String.eqb m k).
    - injection Gy as <-. destruct (fg z (f x)) eqn:F; [|discriminate].
      destruct (A _ _ _ F) as [-> _]. apply Sf.
    - destruct (update fg m (f x) d); [|discriminate]. eauto. }
  rewrite (Ad u x Hs). ring.
Qed.
End Generic.

(** ** Arrays *)
Definition lshape := shape (@length R).
Lemma same_len_ok f y x z : same_len f y x = Ok z -> length y = length x /\ z = f y x.
Proof. unfold same_len. destruct (Nat.eqb_spec (length y) (length x)); [|discriminate]. intros [= <-]; auto. Qed.
Lemma length_vsub_eq (x y : list R) n : length x = n -> length y = n -> length (vsub x y) = n.
Proof. intros. unfold vsub. rewrite length_map2. lia. Qed.
Lemma dot_vsub_l x y z : length x = length y -> dot (vsub x y) z = dot x z - dot y z.
Proof.
  revert y z; induction x as [|a x IH]; intros [|b y] z H; try discriminate.
  - cbn; destruct z; ring.
  - destruct z as [|c z]; [cbn; ring|]. cbn in H; injection H as H.
    change (vsub (a :: x) (b :: y)) with ((a - b) :: vsub x y). cbn [dot]. rewrite IH by exact H. ring.
Qed.
Lemma accumulates_add : accumulates (@length R) dot 1 (same_len vadd).
Proof.
  intros y x z F. destruct (same_len_ok _ _ _ _ F) as [L ->]. repeat split; [exact L|apply length_vadd_eq; congruence| |].
  - rewrite dot_vadd_r by exact L. ring.
  - rewrite dot_vadd_l by exact L. ring.
Qed.
Lemma accumulates_sub : accumulates (@length R) dot (-1) (same_len vsub).
Proof.
  intros y x z F. destruct (same_len_ok _ _ _ _ F) as [L ->]. repeat split; [exact L|apply length_vsub_eq; congruence| |].
  - rewrite (dot_comm w), dot_vsub_l, (dot_comm y), (dot_comm x) by exact L. ring.
  - rewrite dot_vsub_l by exact L. ring.
Qed.
Lemma vdivs_scale x c : vdivs x c = vscale (/ c) x.
Proof. unfold vdivs, vscale. apply map_ext; intros a; cbn. unfold Rdiv; ring. Qed.
Lemma scale_size c (x : list R) : length (vscale c x) = length x.
Proof. apply map_length. Qed.
Lemma scale_adj c u x : length u = length x -> dot u (vscale c x) = dot (vscale c u) x.
Proof. intros _. rewrite dot_vscale_l, dot_vscale_r. reflexivity. Qed.

(** A scaling written in any of the ways the components write it. *)
Definition scaling (f : list R -> list R) (c : R) : Prop := forall x, f x = vscale c x.
Lemma scaling_id : scaling (fun x => x) 1.
Proof. intros x. unfold vscale. rewrite <- (map_id x) at 1. apply map_ext; intros a; cbn; ring. Qed.
Lemma scaling_mul c : scaling (vscale c) c.
Proof. intros x; reflexivity. Qed.
Lemma scaling_div c : scaling (fun x => vdivs x c) (/ c).
Proof. intros x; apply vdivs_scale. Qed.

Lemma iadd_pair f c n m din win dout wout dout' win' : scaling f c ->
  lshape win = lshape din -> lshape wout = lshape dout ->
  transfer iadd f n din m dout = Ok dout' -> into iadd f m wout n win = Ok win' ->
  vinner wout dout' - vinner wout dout = vinner win' din - vinner win din
  /\ lshape dout' = lshape dout /\ lshape win' = lshape win.
Proof.
  intros Sc S1 S2 T I. eapply pair_transposed; eauto using accumulates_add.
  - intros x. rewrite Sc. apply scale_size.
  - intros u x H. rewrite !Sc. now apply scale_adj.
Qed.
Lemma isub_pair f c n m din win dout wout dout' win' : scaling f c ->
  lshape win = lshape din -> lshape wout = lshape dout ->
  transfer isub f n din m dout = Ok dout' -> into isub f m wout n win = Ok win' ->
  vinner wout dout' - vinner wout dout = vinner win' din - vinner win din
  /\ lshape dout' = lshape dout /\ lshape win' = lshape win.
Proof.
  intros Sc S1 S2 T I. eapply pair_transposed; eauto using accumulates_sub.
  - intros x. rewrite Sc. apply scale_size.
  - intros u x H. rewrite !Sc. now apply scale_adj.
Qed.

Lemma get_sized sz v n x : sized sz v -> get n v = Ok x -> length x = sz n.
Proof.
  unfold sized. induction 1 as [|[m y] v H _ IH]; cbn [get]; [discriminate|].
  destruct (String.eqb_spec n m); [|exact IH]. intros [= <-]. subst; exact H.
Qed.
Lemma update_sized f g sz n x v :
  (forall y x, length y = length x -> f y x = Ok (g y x) /\ length (g y x) = length x) ->
  sized sz v -> length x = sz n -> mem n v = true ->
  exists v', update f n x v = Ok v' /\ sized sz v' /\ names v' = names v.
Proof.
  intros F S L. unfold mem. induction S as [|[m y] v H S IH]; cbn [existsb fst]; [discriminate|].
  cbn [update]. destruct (String.eqb_spec n m); cbn [orb].
  - intros _. subst m. cbn [fst snd] in H. destruct (F y x ltac:(congruence)) as [-> Lg]. cbn [bind].
    eexists; split; [reflexivity|]. split; [|reflexivity]. constructor; [cbn [fst snd]; congruence|exact S].
  - intros M. destruct (IH M) as (v' & -> & S' & N'). cbn [bind]. eexists; split; [reflexivity|]. split.
    + constructor; assumption.
    + unfold names in *; cbn [map fst]. now rewrite N'.
Qed.
Lemma same_len_f (g : list R -> list R -> list R) : (forall y x, length y = length x -> length (g y x) = length x) ->
  forall y x, length y = length x -> same_len g y x = Ok (g y x) /\ length (g y x) = length x.
Proof. intros G y x L. split; [|auto]. unfold same_len. rewrite (proj2 (Nat.eqb_eq _ _) L). reflexivity. Qed.
Lemma vadd_f : forall y x : list R, length y = length x -> same_len vadd y x = Ok (vadd y x) /\ length (vadd y x) = length x.
Proof. apply same_len_f. intros; apply length_vadd_eq; auto. Qed.
Lemma vsub_f : forall y x : list R, length y = length x -> same_len vsub y x = Ok (vsub y x) /\ length (vsub y x) = length x.
Proof. apply same_len_f. intros; apply length_vsub_eq; auto. Qed.

Definition good (fg : list R -> list R -> res (list R)) : Prop :=
  exists g, forall y x, length y = length x -> fg y x = Ok (g y x) /\ length (g y x) = length x.
Lemma good_add : good (same_len vadd). Proof. eexists; apply vadd_f. Qed.
Lemma good_sub : good (same_len vsub). Proof. eexists; apply vsub_f. Qed.

Lemma names_mem {E F} (v : omvec E) (w : omvec F) n : names v = names w -> mem n v = mem n w.
Proof.
  unfold mem, names. revert w; induction v as [|[m x] v IH]; intros [|[k y] w] H; try discriminate; [reflexivity|].
  cbn [map fst] in H; injection H as <- H. cbn [existsb fst]. now rewrite (IH w H).
Qed.
Lemma transfer_ok fg f c sz n m src dst : good fg -> scaling f c -> sized sz src -> sized sz dst ->
  sz n = sz m -> mem m dst = true ->
  exists dst', transfer (update fg) f n src m dst = Ok dst' /\ sized sz dst' /\ names dst' = names dst.
Proof.
  intros [g F] Sc S1 S2 Z M. unfold transfer. destruct (mem n src) eqn:Mn; [|eauto].
  destruct (mem_get _ _ Mn) as [x Gx]. rewrite Gx; cbn [bind].
  eapply update_sized; eauto. rewrite Sc, scale_size, (get_sized _ _ _ _ S1 Gx). exact Z.
Qed.
Lemma into_ok fg f c sz n m src dst : good fg -> scaling f c -> sized sz src -> sized sz dst ->
  sz n = sz m -> mem m src = true ->
  exists dst', into (update fg) f m src n dst = Ok dst' /\ sized sz dst' /\ names dst' = names dst.
Proof.
  intros [g F] Sc S1 S2 Z M. unfold into. destruct (mem n dst) eqn:Mn; [|eauto].
  destruct (mem_get _ _ M) as [x Gx]. rewrite Gx; cbn [bind].
  eapply update_sized; eauto. rewrite Sc, scale_size, (get_sized _ _ _ _ S1 Gx). symmetry; exact Z.
Qed.
Lemma sized_shape sz v w : sized sz v -> sized sz w -> names v = names w -> lshape v = lshape w.
Proof.
  unfold sized, names, lshape, shape. intros H. revert w; induction H as [|[m x] v Hx H IH]; intros [|[k y] w] G N; try discriminate; [reflexivity|].
  cbn [map fst snd] in *. injection N as <- N. inversion G as [|? ? Hy G']; subst. cbn [fst snd] in *.
  rewrite (IH w G' N). congruence.
Qed.


Definition signed (fg : list R -> list R -> res (list R)) : Prop :=
  good fg /\ exists s, accumulates (@length R) dot s fg.
Lemma signed_add : signed (same_len vadd). Proof. split; [apply good_add|eexists; apply accumulates_add]. Qed.
Lemma signed_sub : signed (same_len vsub). Proof. split; [apply good_sub|eexists; apply accumulates_sub]. Qed.

(** The four vectors of a pair of products. *)
Record views (sz : string -> nat) (din win dout wout : omvec (list R)) : Prop := {
  v_din : sized sz din; v_win : sized sz win; v_dout : sized sz dout; v_wout : sized sz wout;
  v_in : names win = names din; v_out : names wout = names dout }.

Lemma views_step fg f c sz n m din win dout wout : signed fg -> scaling f c -> sz n = sz m ->
  views sz din win dout wout -> mem m dout = true ->
  exists dout' win',
    transfer (update fg) f n din m dout = Ok dout' /\ into (update fg) f m wout n win = Ok win' /\
    views sz din win' dout' wout /\ names dout' = names dout /\ names win' = names win /\
    vinner wout dout' - vinner wout dout = vinner win' din - vinner win din.
Proof.
  intros [G [s A]] Sc Z [Di Wi Do Wo N1 N2] M.
  assert (M' : mem m wout = true) by (rewrite (names_mem wout dout _ N2); exact M).
  destruct (transfer_ok fg f c sz n m din dout G Sc Di Do Z M) as (d & T & Sd & Nd).
  destruct (into_ok fg f c sz n m wout win G Sc Wo Wi Z M') as (w & I & Sw & Nw).
  exists d, w. repeat split; try assumption; try congruence.
  refine (proj1 (pair_transposed (@length R) dot s fg f n m din win dout wout d w A _ _ _ _ T I)).
  - intros x. rewrite Sc. apply scale_size.
  - intros u x H. rewrite !Sc. now apply scale_adj.
  - exact (sized_shape _ _ _ Wi Di N1).
  - exact (sized_shape _ _ _ Wo Do N2).
Qed.

Tactic Notation "vstep" constr(S) constr(Sc) constr(Z) constr(V) constr(M) ident(d) ident(w) ident(V') ident(M') ident(Eq) :=
  let T := fresh "T" in let I := fresh "I" in let Nd := fresh "Nd" in let Nw := fresh "Nw" in
  destruct (views_step _ _ _ _ _ _ _ _ _ _ S Sc Z V M) as (d & w & T & I & V' & Nd & Nw & Eq);
  fold iadd in T, I; fold isub in T, I; rewrite T, I; cbn [bind];
  assert (M' := M); rewrite <- (names_mem d _ _ Nd) in M'.

(** *** StageValueComponent *)
Lemma c41_value_transposed sz ex din win dout wout :
  sz "old_value" = sz "stage_value" -> sz "acc_stages" = sz "stage_value" -> sz "stage_slope" = sz "stage_value" ->
  sized sz din -> sized sz win -> sized sz dout -> sized sz wout ->
  names win = names din -> names wout = names dout ->
  exists dout' win',
    stage_value_fwd ex din dout = Ok dout' /\ stage_value_rev ex win wout = Ok win' /\
    vinner wout dout' - vinner wout dout = vinner win' din - vinner win din.
Proof.
  intros Z1 Z2 Z3 Di Wi Do Wo N1 N2. unfold stage_value_fwd, stage_value_rev.
  rewrite (names_mem wout dout _ N2). destruct (mem "stage_value" dout) eqn:M.
  2:{ do 2 eexists; repeat split. ring. }
  assert (V : views sz din win dout wout) by (constructor; assumption).
  vstep signed_add scaling_id Z1 V M d1 w1 V1 M1 E1.
  vstep signed_add (scaling_mul (x_step_size ex)) Z2 V1 M1 d2 w2 V2 M2 E2.
  vstep signed_add (scaling_mul (x_step_size ex * x_stage_factor ex)) Z3 V2 M2 d3 w3 V3 M3 E3.
  exists d3, w3; repeat split. lra.
Qed.

(** *** StageUpdateComponent *)
Lemma c41_update_transposed sz qs ex din win dout wout :
  quantity_sizes sz qs ->
  sized sz din -> sized sz win -> sized sz dout -> sized sz wout ->
  names win = names din -> names wout = names dout ->
  exists dout' win',
    stage_update_fwd qs ex din dout = Ok dout' /\ stage_update_rev qs ex win wout = Ok win' /\
    vinner wout dout' - vinner wout dout = vinner win' din - vinner win din.
Proof.
  intros Q Di Wi Do Wo N1 N2. unfold stage_update_fwd, stage_update_rev.
  assert (V : views sz din win dout wout) by (constructor; assumption).
  clear Wi Do N1 N2 Di Wo. revert win dout V.
  induction qs as [|q qs IH]; intros win dout V; cbn [loop].
  - do 2 eexists; repeat split. ring.
  - specialize (IH (fun p Hp => Q p (or_intror Hp))). destruct (Q q (or_introl eq_refl)) as (Zu & Zo & Za).
    rewrite (names_mem wout dout _ (v_out _ _ _ _ _ V)).
    destruct (mem (q ++ "_update") dout) eqn:M; cbn [bind].
    + assert (Z1 : sz q = sz (q ++ "_update")%string) by congruence.
      assert (Z2 : sz (q ++ "_old")%string = sz (q ++ "_update")%string) by congruence.
      assert (Z3 : sz (q ++ "_acc_stages")%string = sz (q ++ "_update")%string) by congruence.
      vstep signed_add (scaling_div (x_step_size ex * x_stage_factor ex)) Z1 V M d1 w1 V1 M1 E1.
      vstep signed_sub (scaling_div (x_step_size ex * x_stage_factor ex)) Z2 V1 M1 d2 w2 V2 M2 E2.
      vstep signed_sub (scaling_div (x_stage_factor ex)) Z3 V2 M2 d3 w3 V3 M3 E3.
      destruct (IH w3 d3 V3) as (d' & w' & -> & -> & E). exists d', w'; repeat split. lra.
    + exact (IH win dout V).
Qed.

(** *** The derivatives of both components *)
Lemma update_names {E} f n x (v v' : omvec E) : update f n x v = Ok v' -> names v' = names v.
Proof.
  unfold names. revert v'; induction v as [|[m y] v IH]; intros v'; cbn [update]; [discriminate|].
  destruct (String.eqb n m).
  - destruct (f y x); cbn [bind]; [|discriminate]. intros [= <-]; reflexivity.
  - destruct (update f n x v) as [u|]; cbn [bind]; [|discriminate]. intros [= <-].
    cbn [map fst]. f_equal. exact (IH u eq_refl).
Qed.
Lemma get_update {E} f n x (v v' : omvec E) : update f n x v = Ok v' ->
  (exists y z, get n v = Ok y /\ f y x = Ok z /\ get n v' = Ok z) /\
  (forall k, k <> n -> get k v' = get k v).
Proof.
  revert v'; induction v as [|[m y] v IH]; intros v'; cbn [update]; [discriminate|].
  destruct (String.eqb_spec n m) as [->|D].
  - destruct (f y x) as [z|] eqn:F; cbn [bind]; [|discriminate]. intros [= <-]. split.
    + exists y, z. cbn [get]. rewrite String.eqb_refl. auto.
    + intros k Hk. cbn [get]. destruct (String.eqb_spec k m); [contradiction|reflexivity].
  - destruct (update f n x v) as [u|]; cbn [bind]; [|discriminate]. intros [= <-].
    destruct (IH u eq_refl) as [(y0 & z & A & B & C) O]. split.
    + exists y0, z. cbn [get]. rewrite (proj2 (String.eqb_neq n m) D). auto.
    + intros k Hk. cbn [get]. destruct (String.eqb k m); [reflexivity|auto].
Qed.
Lemma get_update_ok {E} f n x (v : omvec E) y z : get n v = Ok y -> f y x = Ok z ->
  exists v', update f n x v = Ok v' /\ get n v' = Ok z.
Proof.
  induction v as [|[m t] v IH]; cbn [get update]; [discriminate|].
  destruct (String.eqb n m) eqn:D.
  - intros [= ->] ->. cbn [bind]. eexists; split; [reflexivity|]. cbn [get]. now rewrite D.
  - intros G F. destruct (IH G F) as (v' & -> & G'). cbn [bind]. eexists; split; [reflexivity|].
    cbn [get]. now rewrite D.
Qed.
Lemma nth_vadd x y i : length x = length y -> nth i (vadd x y) 0 = nth i x 0 + nth i y 0.
Proof. exact (vnth_vadd x y i). Qed.
Lemma nth_vscale c x i : nth i (vscale c x) 0 = c * nth i x 0.
Proof.
  unfold vscale. revert i; induction x as [|a x IH]; intros [|i]; cbn [map nth]; [ring|ring|reflexivity|apply IH].
Qed.
Lemma nth_vsub x y i : length x = length y -> nth i (vsub x y) 0 = nth i x 0 - nth i y 0.
Proof.
  revert y i; induction x as [|a x IH]; intros [|b y] i H; try discriminate.
  - destruct i; cbn; ring.
  - cbn in H; injection H as H. change (vsub (a :: x) (b :: y)) with ((a - b) :: vsub x y).
    destruct i; cbn [nth]; [reflexivity|auto].
Qed.
Lemma nth_vdivs x c i : nth i (vdivs x c) 0 = nth i x 0 / c.
Proof. rewrite vdivs_scale, nth_vscale. unfold Rdiv; ring. Qed.

Lemma transfer_look_add f c n src m dst dst' : scaling f c -> transfer iadd f n src m dst = Ok dst' ->
  (forall i, look m i dst' = look m i dst + c * look n i src) /\
  (forall k i, k <> m -> look k i dst' = look k i dst) /\ names dst' = names dst.
Proof.
  intros Sc. unfold transfer. destruct (mem n src) eqn:M.
  - destruct (mem_get _ _ M) as [x Gx]. rewrite Gx; cbn [bind]. intros U.
    destruct (get_update _ _ _ _ _ U) as [(y & z & A & B & C) O].
    destruct (same_len_ok _ _ _ _ B) as [L ->]. repeat split.
    + intros i. unfold look. rewrite A, C, Gx, nth_vadd by exact L. rewrite Sc, nth_vscale. reflexivity.
    + intros k i Hk. unfold look. now rewrite O.
    + exact (update_names _ _ _ _ _ U).
  - intros [= <-]. repeat split. intros i. replace (look n i src) with 0; [ring|].
    unfold look. destruct (get n src) as [x|] eqn:G; [|reflexivity]. apply get_mem in G. congruence.
Qed.
Lemma transfer_look_sub f c n src m dst dst' : scaling f c -> transfer isub f n src m dst = Ok dst' ->
  (forall i, look m i dst' = look m i dst - c * look n i src) /\
  (forall k i, k <> m -> look k i dst' = look k i dst) /\ names dst' = names dst.
Proof.
  intros Sc. unfold transfer. destruct (mem n src) eqn:M.
  - destruct (mem_get _ _ M) as [x Gx]. rewrite Gx; cbn [bind]. intros U.
    destruct (get_update _ _ _ _ _ U) as [(y & z & A & B & C) O].
    destruct (same_len_ok _ _ _ _ B) as [L ->]. repeat split.
    + intros i. unfold look. rewrite A, C, Gx, nth_vsub by exact L. rewrite Sc, nth_vscale. reflexivity.
    + intros k i Hk. unfold look. now rewrite O.
    + exact (update_names _ _ _ _ _ U).
  - intros [= <-]. repeat split. intros i. replace (look n i src) with 0; [ring|].
    unfold look. destruct (get n src) as [x|] eqn:G; [|reflexivity]. apply get_mem in G. congruence.
Qed.

Lemma stage_value_look sz ex inp out o :
  sz "old_value" = sz "stage_value" -> sz "acc_stages" = sz "stage_value" -> sz "stage_slope" = sz "stage_value" ->
  sized sz inp -> stage_value_compute ex inp out = Ok o ->
  (forall i, look "stage_value" i o = look "old_value" i inp
     + x_step_size ex * (look "acc_stages" i inp + x_stage_factor ex * look "stage_slope" i inp)) /\
  (forall k i, k <> "stage_value" -> look k i o = look k i out).
Proof.
  intros Z1 Z2 Z3 S. unfold stage_value_compute.
  destruct (get "old_value" inp) as [old|] eqn:Go; cbn [bind]; [|discriminate].
  destruct (get "acc_stages" inp) as [acc|] eqn:Ga; cbn [bind]; [|discriminate].
  destruct (get "stage_slope" inp) as [k|] eqn:Gk; cbn [bind]; [|discriminate]. intros U.
  destruct (get_update _ _ _ _ _ U) as [(y & z & A & B & C) O].
  destruct (same_len_ok _ _ _ _ B) as [L ->].
  assert (Lo := get_sized _ _ _ _ S Go). assert (La := get_sized _ _ _ _ S Ga). assert (Lk := get_sized _ _ _ _ S Gk).
  assert (Ls := scale_size (x_stage_factor ex) k).
  assert (Lsum : length (vadd acc (vscale (x_stage_factor ex) k)) = sz "stage_value")
    by (apply length_vadd_eq; congruence).
  assert (Lb := scale_size (x_step_size ex) (vadd acc (vscale (x_stage_factor ex) k))).
  split.
  - intros i. unfold look. rewrite C, Go, Ga, Gk.
    rewrite nth_vadd by congruence. rewrite nth_vscale, nth_vadd by congruence. rewrite nth_vscale. reflexivity.
  - intros n i Hn. unfold look. now rewrite O.
Qed.
Lemma c41_value_derivative sz ex inp d inp' out o o' dd dd' :
  sz "old_value" = sz "stage_value" -> sz "acc_stages" = sz "stage_value" -> sz "stage_slope" = sz "stage_value" ->
  sized sz inp -> sized sz inp' -> moved inp d inp' ->
  stage_value_compute ex inp out = Ok o -> stage_value_compute ex inp' out = Ok o' ->
  stage_value_fwd ex d dd = Ok dd' ->
  forall n i, mem n dd = true -> look n i dd' - look n i dd = look n i o' - look n i o.
Proof.
  intros Z1 Z2 Z3 S S' [_ Mv] C C' F n i Hn.
  destruct (stage_value_look sz ex inp out o Z1 Z2 Z3 S C) as [Lo Ko].
  destruct (stage_value_look sz ex inp' out o' Z1 Z2 Z3 S' C') as [Lo' Ko'].
  unfold stage_value_fwd in F.
  destruct (String.eqb_spec n "stage_value") as [->|D].
  - rewrite Hn in F.
    destruct (transfer iadd (fun x => x) _ _ _ dd) as [d1|] eqn:T1; cbn [bind] in F; [|discriminate].
    destruct (transfer iadd _ "acc_stages" _ _ d1) as [d2|] eqn:T2; cbn [bind] in F; [|discriminate].
    rewrite (proj1 (transfer_look_add _ _ _ _ _ _ _ (scaling_mul _) F)),
      (proj1 (transfer_look_add _ _ _ _ _ _ _ (scaling_mul _) T2)),
      (proj1 (transfer_look_add _ _ _ _ _ _ _ scaling_id T1)), Lo, Lo', !Mv. ring.
  - rewrite Ko, Ko' by exact D. destruct (mem "stage_value" dd); [|injection F as <-; ring].
    destruct (transfer iadd (fun x => x) _ _ _ dd) as [d1|] eqn:T1; cbn [bind] in F; [|discriminate].
    destruct (transfer iadd _ "acc_stages" _ _ d1) as [d2|] eqn:T2; cbn [bind] in F; [|discriminate].
    rewrite (proj1 (proj2 (transfer_look_add _ _ _ _ _ _ _ (scaling_mul _) F))),
      (proj1 (proj2 (transfer_look_add _ _ _ _ _ _ _ (scaling_mul _) T2))),
      (proj1 (proj2 (transfer_look_add _ _ _ _ _ _ _ scaling_id T1))) by exact D. ring.
Qed.

Lemma slength_app a b : String.length (a ++ b)%string = (String.length a + String.length b)%nat.
Proof. induction a as [|c a IH]; cbn; [reflexivity|]. now rewrite IH. Qed.
Lemma append_inj a b s : (a ++ s)%string = (b ++ s)%string -> a = b.
Proof.
  revert b; induction a as [|c a IH]; intros [|d b] H; [reflexivity| | |].
  - exfalso. apply (f_equal String.length) in H. cbn in H. rewrite slength_app in H. lia.
  - exfalso. apply (f_equal String.length) in H. cbn in H. rewrite slength_app in H. lia.
  - cbn in H. injection H as <- H. f_equal. auto.
Qed.

Lemma stage_update_one_look sz ex inp q out o : quantity_sizes sz [q] ->
  sized sz inp -> stage_update_one ex inp q out = Ok o ->
  (forall i, look (q ++ "_update") i o = (look q i inp - look (q ++ "_old") i inp
     - x_step_size ex * look (q ++ "_acc_stages") i inp) / (x_step_size ex * x_stage_factor ex)) /\
  (forall k i, k <> (q ++ "_update")%string -> look k i o = look k i out).
Proof.
  intros Q S. destruct (Q q (or_introl eq_refl)) as (_ & Zo & Za). unfold stage_update_one.
  destruct (get q inp) as [x|] eqn:Gx; cbn [bind]; [|discriminate].
  destruct (get (q ++ "_old") inp) as [old|] eqn:Go; cbn [bind]; [|discriminate].
  destruct (get (q ++ "_acc_stages") inp) as [acc|] eqn:Ga; cbn [bind]; [|discriminate]. intros U.
  destruct (get_update _ _ _ _ _ U) as [(y & z & A & B & C) O].
  destruct (same_len_ok _ _ _ _ B) as [L ->].
  assert (Lx := get_sized _ _ _ _ S Gx). assert (Lo := get_sized _ _ _ _ S Go). assert (La := get_sized _ _ _ _ S Ga).
  assert (Ls := scale_size (x_step_size ex) acc).
  assert (Ld : length (vsub x old) = sz q) by (apply length_vsub_eq; congruence).
  split.
  - intros i. unfold look. rewrite C, Gx, Go, Ga.
    rewrite nth_vdivs, nth_vsub by congruence. rewrite nth_vsub by congruence. rewrite nth_vscale. reflexivity.
  - intros n i Hn. unfold look. now rewrite O.
Qed.
Lemma stage_update_look sz ex inp qs out o : quantity_sizes sz qs -> sized sz inp ->
  stage_update_compute qs ex inp out = Ok o ->
  (forall q i, In q qs -> look (q ++ "_update") i o = (look q i inp - look (q ++ "_old") i inp
     - x_step_size ex * look (q ++ "_acc_stages") i inp) / (x_step_size ex * x_stage_factor ex)) /\
  (forall k i, (forall q, In q qs -> k <> (q ++ "_update")%string) -> look k i o = look k i out).
Proof.
  intros Q S. unfold stage_update_compute. revert out; induction qs as [|q qs IH]; intros out; cbn [loop].
  - intros [= <-]. split; [intros q i []|reflexivity].
  - destruct (stage_update_one ex inp q out) as [o1|] eqn:U; cbn [bind]; [|discriminate]. intros Lp.
    specialize (IH (fun p Hp => Q p (or_intror Hp)) o1 Lp). destruct IH as [I1 I2].
    assert (Q1 : quantity_sizes sz [q]) by (intros p [<-|[]]; apply Q; left; reflexivity).
    destruct (stage_update_one_look sz ex inp q out o1 Q1 S U) as [U1 U2]. split.
    + intros p i [<-|Hp]; [|auto].
      destruct (in_dec string_dec q qs) as [Hq|Hq]; [auto|]. rewrite I2; [auto|].
      intros p Hp E. apply append_inj in E. congruence.
    + intros k i Hk. rewrite I2; [|intros p Hp; apply Hk; right; exact Hp].
      apply U2. apply Hk. left; reflexivity.
Qed.
Lemma stage_update_fwd_look qs ex d dd dd' : NoDup qs -> stage_update_fwd qs ex d dd = Ok dd' ->
  (forall q i, In q qs -> mem (q ++ "_update") dd = true ->
     look (q ++ "_update") i dd' = look (q ++ "_update") i dd
       + / (x_step_size ex * x_stage_factor ex) * look q i d
       - / (x_step_size ex * x_stage_factor ex) * look (q ++ "_old") i d
       - / x_stage_factor ex * look (q ++ "_acc_stages") i d) /\
  (forall k i, (forall q, In q qs -> k <> (q ++ "_update")%string) -> look k i dd' = look k i dd).
Proof.
  unfold stage_update_fwd. intros ND. revert dd; induction ND as [|q qs Nq ND IH]; intros dd; cbn [loop].
  - intros [= <-]. split; [intros q i []|reflexivity].
  - destruct (mem (q ++ "_update") dd) eqn:M; cbn [bind].
    + destruct (transfer iadd _ q _ _ dd) as [d1|] eqn:T1; cbn [bind]; [|discriminate].
      destruct (transfer isub _ (q ++ "_old") _ _ d1) as [d2|] eqn:T2; cbn [bind]; [|discriminate].
      destruct (transfer isub _ (q ++ "_acc_stages") _ _ d2) as [d3|] eqn:T3; cbn [bind]; [|discriminate].
      intros Lp. destruct (IH d3 Lp) as [I1 I2].
      destruct (transfer_look_add _ _ _ _ _ _ _ (scaling_div _) T1) as (A1 & B1 & N1).
      destruct (transfer_look_sub _ _ _ _ _ _ _ (scaling_div _) T2) as (A2 & B2 & N2).
      destruct (transfer_look_sub _ _ _ _ _ _ _ (scaling_div _) T3) as (A3 & B3 & N3).
      split.
      * intros p i [<-|Hp] Mp.
        -- rewrite I2; [rewrite A3, A2, A1; ring|]. intros p Hp E. apply append_inj in E. congruence.
        -- assert (D : (p ++ "_update")%string <> (q ++ "_update")%string)
             by (intros E; apply append_inj in E; congruence).
           rewrite I1; [|exact Hp|rewrite (names_mem d3 dd) by congruence; exact Mp].
           rewrite B3, B2, B1 by exact D. reflexivity.
      * intros k i Hk. rewrite I2; [|intros p Hp; apply Hk; right; exact Hp].
        assert (D := Hk q (or_introl eq_refl)). rewrite B3, B2, B1 by exact D. reflexivity.
    + intros Lp. destruct (IH dd Lp) as [I1 I2]. split.
      * intros p i [<-|Hp] Mp; [congruence|auto].
      * intros k i Hk. apply I2. intros p Hp; apply Hk; right; exact Hp.
Qed.
Lemma c41_update_derivative sz qs ex inp d inp' out o o' dd dd' :
  x_step_size ex * x_stage_factor ex <> 0 -> NoDup qs -> quantity_sizes sz qs ->
  sized sz inp -> sized sz inp' -> moved inp d inp' ->
  stage_update_compute qs ex inp out = Ok o -> stage_update_compute qs ex inp' out = Ok o' ->
  stage_update_fwd qs ex d dd = Ok dd' ->
  forall n i, mem n dd = true -> look n i dd' - look n i dd = look n i o' - look n i o.
Proof.
  intros Nz ND Q S S' [_ Mv] C C' F n i Hn.
  destruct (stage_update_look sz ex inp qs out o Q S C) as [Lo Ko].
  destruct (stage_update_look sz ex inp' qs out o' Q S' C') as [Lo' Ko'].
  destruct (stage_update_fwd_look qs ex d dd dd' ND F) as [Lf Kf].
  assert (D : (exists q, In q qs /\ n = (q ++ "_update")%string) \/ (forall q, In q qs -> n <> (q ++ "_update")%string)).
  { clear - qs. induction qs as [|q qs [(p & Hp & E)|IH]]; [right; intros q []|left; exists p; split; [right|]; assumption|].
    destruct (string_dec n (q ++ "_update")) as [E|E]; [left; exists q; split; [left; reflexivity|exact E]|].
    right; intros p [<-|Hp]; auto. }
  destruct D as [(q & Hq & ->)|D].
  - rewrite Lf, Lo, Lo', !Mv by assumption. field. split; intros E; apply Nz; rewrite E; ring.
  - rewrite Kf, Ko, Ko' by exact D. ring.
Qed.

(** *** Each undoes the other *)
Lemma vec_ext x y : length x = length y -> (forall i, nth i x 0 = nth i y 0) -> x = y.
Proof. intros L H. apply (nth_ext x y 0 0 L). intros; apply H. Qed.
Lemma c41_inverse ex n old acc x k z z' q :
  x_step_size ex * x_stage_factor ex <> 0 ->
  length old = n -> length acc = n -> length x = n -> length k = n -> length z = n -> length z' = n ->
  (stage_update_compute [q] ex [(q, x); ((q ++ "_old")%string, old); ((q ++ "_acc_stages")%string, acc)] [((q ++ "_update")%string, z)]
     = Ok [((q ++ "_update")%string, k)] <->
   stage_value_compute ex [("stage_slope", k); ("old_value", old); ("acc_stages", acc)] [("stage_value", z')]
     = Ok [("stage_value", x)]).
Proof.
  intros Nz Lo La Lx Lk Lz Lz'.
  assert (Nh : x_step_size ex <> 0) by (intros E; apply Nz; rewrite E; ring).
  assert (Na : x_stage_factor ex <> 0) by (intros E; apply Nz; rewrite E; ring).
  assert (Dq : forall s, s <> "" -> String.eqb (q ++ s) q = false).
  { intros s Hs. apply String.eqb_neq. intros E. apply (f_equal String.length) in E. rewrite slength_app in E.
    destruct s; [contradiction|cbn in E; lia]. }
  assert (Dao : String.eqb (q ++ "_acc_stages") (q ++ "_old") = false).
  { apply String.eqb_neq. intros E. apply (f_equal String.length) in E. rewrite !slength_app in E. cbn in E; lia. }
  unfold stage_update_compute, stage_value_compute; cbn [loop]. unfold stage_update_one.
  cbn [get String.eqb Ascii.eqb Bool.eqb bind]. rewrite String.eqb_refl, (Dq "_old"), (Dq "_acc_stages"), Dao by discriminate.
  rewrite !String.eqb_refl. cbn [bind get]. unfold put. cbn [update String.eqb Ascii.eqb Bool.eqb]. rewrite String.eqb_refl.
  assert (L1 : length (vsub x old) = n) by (apply length_vsub_eq; congruence).
  assert (L2 := scale_size (x_step_size ex) acc).
  assert (L3 : length (vsub (vsub x old) (vscale (x_step_size ex) acc)) = n) by (apply length_vsub_eq; congruence).
  assert (L4 := scale_size (x_stage_factor ex) k).
  assert (L5 : length (vadd acc (vscale (x_stage_factor ex) k)) = n) by (apply length_vadd_eq; congruence).
  assert (L6 := scale_size (x_step_size ex) (vadd acc (vscale (x_stage_factor ex) k))).
  assert (L7 : length (vadd old (vscale (x_step_size ex) (vadd acc (vscale (x_stage_factor ex) k)))) = n)
    by (apply length_vadd_eq; congruence).
  assert (L8 : forall c, length (vdivs (vsub (vsub x old) (vscale (x_step_size ex) acc)) c) = n)
    by (intros c; rewrite vdivs_scale, scale_size; exact L3).
  unfold same_len. rewrite Lz, L8, Lz', L7, Nat.eqb_refl. cbn [bind].
  split.
  - intros H. do 3 f_equal. assert (K : vdivs (vsub (vsub x old) (vscale (x_step_size ex) acc))
      (x_step_size ex * x_stage_factor ex) = k) by congruence. clear H.
    apply vec_ext; [congruence|]. intros i. rewrite nth_vadd by congruence.
    rewrite nth_vscale, nth_vadd, nth_vscale by congruence. rewrite <- K, nth_vdivs, nth_vsub by congruence.
    rewrite nth_vsub, nth_vscale by congruence. field. auto.
  - intros H. do 3 f_equal. assert (K : vadd old (vscale (x_step_size ex) (vadd acc (vscale (x_stage_factor ex) k))) = x)
      by congruence. clear H.
    apply vec_ext; [rewrite L8; congruence|]. intros i. rewrite nth_vdivs, nth_vsub by congruence.
    rewrite nth_vsub, nth_vscale by congruence. rewrite <- K. rewrite nth_vadd by congruence.
    rewrite nth_vscale, nth_vadd, nth_vscale by congruence. field. auto.
Qed.
