(** Expansion of right hand sides, stages and solutions into sums over rooted
    trees (B-series), with remainders that are uniform in the point of
    expansion. *)
From Coq Require Import List Reals Lia Lra Bool Arith.
From Verif Require Import SpecRK SpecTree SpecOrder SpecConvergence L_Convergence.
Import ListNotations.
Open Scope R_scope.

(** *** Sums and products over lists *)
Definition lsum {A} (f : A -> R) (l : list A) : R := fold_right (fun x s => f x + s) 0 l.
Definition lprod {A} (f : A -> R) (l : list A) : R := fold_right (fun x s => f x * s) 1 l.

Section Lists.
Context {A : Type}.
Implicit Types (f g : A -> R) (l : list A).
Lemma lsum_cons f x l : lsum f (x :: l) = f x + lsum f l.
Proof. reflexivity. Qed.
Lemma lsum_nil f : lsum f [] = 0.
Proof. reflexivity. Qed.
Lemma lprod_cons f x l : lprod f (x :: l) = f x * lprod f l.
Proof. reflexivity. Qed.
Lemma lprod_nil f : lprod f [] = 1.
Proof. reflexivity. Qed.
Lemma lsum_app f l l' : lsum f (l ++ l') = lsum f l + lsum f l'.
Proof. induction l as [|x l IH]; cbn [app]; rewrite ?lsum_cons, ?lsum_nil, ?IH; ring. Qed.
Lemma lsum_ext f g l : (forall x, In x l -> f x = g x) -> lsum f l = lsum g l.
Proof. induction l as [|x l IH]; intros H; [reflexivity|]; rewrite !lsum_cons, H by (left; auto); f_equal; apply IH; intros; apply H; right; auto. Qed.
Lemma lsum_le f g l : (forall x, In x l -> f x <= g x) -> lsum f l <= lsum g l.
Proof. induction l as [|x l IH]; intros H; [rewrite !lsum_nil; lra|]; rewrite !lsum_cons; apply Rplus_le_compat; [apply H; left; auto|apply IH; intros; apply H; right; auto]. Qed.
Lemma lsum_scal c f l : lsum (fun x => c * f x) l = c * lsum f l.
Proof. induction l as [|x l IH]; rewrite ?lsum_cons, ?lsum_nil, ?IH; ring. Qed.
Lemma lsum_plus f g l : lsum (fun x => f x + g x) l = lsum f l + lsum g l.
Proof. induction l as [|x l IH]; rewrite ?lsum_cons, ?lsum_nil, ?IH; ring. Qed.
Lemma lsum_minus f g l : lsum (fun x => f x - g x) l = lsum f l - lsum g l.
Proof. induction l as [|x l IH]; rewrite ?lsum_cons, ?lsum_nil, ?IH; ring. Qed.
Lemma lsum_abs f l : Rabs (lsum f l) <= lsum (fun x => Rabs (f x)) l.
Proof. induction l as [|x l IH]; rewrite ?lsum_cons, ?lsum_nil; [rewrite Rabs_R0; lra|]; eapply Rle_trans; [apply Rabs_triang|lra]. Qed.
Lemma lsum_nonneg f l : (forall x, In x l -> 0 <= f x) -> 0 <= lsum f l.
Proof. induction l as [|x l IH]; intros H; [rewrite lsum_nil; lra|]; rewrite lsum_cons; apply Rplus_le_le_0_compat; [apply H; left; auto|apply IH; intros; apply H; right; auto]. Qed.
Lemma lsum_bound f g l : (forall x, In x l -> Rabs (f x) <= g x) -> Rabs (lsum f l) <= lsum g l.
Proof. intros H; eapply Rle_trans; [apply lsum_abs|apply lsum_le, H]. Qed.
Lemma lsum_filter f (P : A -> bool) l : lsum f l = lsum f (filter P l) + lsum f (filter (fun x => negb (P x)) l).
Proof. induction l as [|x l IH]; cbn [filter]; [rewrite !lsum_nil; ring|]; destruct (P x); cbn [negb]; rewrite !lsum_cons, IH; ring. Qed.

Lemma lprod_nonneg f l : (forall x, In x l -> 0 <= f x) -> 0 <= lprod f l.
Proof. induction l as [|x l IH]; intros H; [rewrite lprod_nil; lra|]; rewrite lprod_cons; apply Rmult_le_pos; [apply H; left; auto|apply IH; intros; apply H; right; auto]. Qed.
Lemma lprod_abs f l : Rabs (lprod f l) = lprod (fun x => Rabs (f x)) l.
Proof. induction l as [|x l IH]; [apply Rabs_R1|]; rewrite !lprod_cons, Rabs_mult, IH; reflexivity. Qed.
Lemma lprod_le f g l : (forall x, In x l -> 0 <= f x <= g x) -> lprod f l <= lprod g l.
Proof.
  induction l as [|x l IH]; intros H; [rewrite !lprod_nil; lra|]; rewrite !lprod_cons.
  apply Rmult_le_compat; [apply H; left; auto| |apply H; left; auto|apply IH; intros; apply H; right; auto].
  apply lprod_nonneg; intros; apply H; right; auto.
Qed.
Lemma lprod_mult f g l : lprod (fun x => f x * g x) l = lprod f l * lprod g l.
Proof. induction l as [|x l IH]; rewrite ?lprod_cons, ?lprod_nil, ?IH; ring. Qed.
Lemma lprod_ext f g l : (forall x, In x l -> f x = g x) -> lprod f l = lprod g l.
Proof. induction l as [|x l IH]; intros H; [reflexivity|]; rewrite !lprod_cons, H by (left; auto); f_equal; apply IH; intros; apply H; right; auto. Qed.
End Lists.

Lemma lsum_map {A B} (f : B -> R) (g : A -> B) l : lsum f (map g l) = lsum (fun x => f (g x)) l.
Proof. induction l as [|x l IH]; [reflexivity|]; cbn [map]; rewrite !lsum_cons, IH; reflexivity. Qed.
Lemma lprod_map {A B} (f : B -> R) (g : A -> B) l : lprod f (map g l) = lprod (fun x => f (g x)) l.
Proof. induction l as [|x l IH]; [reflexivity|]; cbn [map]; rewrite !lprod_cons, IH; reflexivity. Qed.
Lemma lsum_flat_map {A B} (f : B -> R) (g : A -> list B) l : lsum f (flat_map g l) = lsum (fun x => lsum f (g x)) l.
Proof. induction l as [|x l IH]; [reflexivity|]; cbn [flat_map]; rewrite lsum_app, lsum_cons, IH; reflexivity. Qed.
Lemma rsum_lsum f n : rsum n f = lsum f (seq 0 n).
Proof. induction n as [|n IH]; [reflexivity|]; rewrite seq_S, lsum_app; cbn [rsum]; rewrite IH, lsum_cons, lsum_nil, Rplus_0_r; reflexivity. Qed.
Lemma rsum_lsum_swap {A} (f : nat -> A -> R) n l : rsum n (fun i => lsum (f i) l) = lsum (fun x => rsum n (fun i => f i x)) l.
Proof.
  induction n as [|n IH]; cbn [rsum].
  - induction l as [|x l IH]; [reflexivity|]; rewrite lsum_cons, <- IH; ring.
  - rewrite IH, <- lsum_plus; reflexivity.
Qed.

(** *** Trees with at most [q] vertices *)
Fixpoint tuples {A} (k : nat) (l : list A) : list (list A) :=
  match k with
  | O => [[]]
  | S k' => flat_map (fun x => map (cons x) (tuples k' l)) l
  end.
Definition tuples_upto {A} (q : nat) (l : list A) : list (list A) := flat_map (fun k => tuples k l) (seq 0 (S q)).
Definition total (ts : list tree) : nat := fold_right (fun u n => (order u + n)%nat) 0%nat ts.
Fixpoint tset (q : nat) : list tree :=
  match q with
  | O => []
  | S q' => map Node (filter (fun ts => total ts <=? q')%nat (tuples_upto q' (tset q')))
  end.

Lemma in_tuples {A} k : forall (l : list A) ts, In ts (tuples k l) -> length ts = k /\ forall x, In x ts -> In x l.
Proof.
  induction k as [|k IH]; intros l ts H; cbn in H.
  - destruct H as [<-|[]]; split; [reflexivity|intros x []].
  - apply in_flat_map in H as (x & Hx & H); apply in_map_iff in H as (ts' & <- & H').
    destruct (IH _ _ H') as [E F]; split; [cbn; auto|]; intros y [<-|Hy]; auto.
Qed.
Lemma in_tuples_upto {A} q (l : list A) ts : In ts (tuples_upto q l) -> (length ts <= q)%nat /\ forall x, In x ts -> In x l.
Proof.
  intros H; apply in_flat_map in H as (k & Hk & H); apply in_seq in Hk; destruct (in_tuples _ _ _ H) as [E F]; split; [lia|exact F].
Qed.
Lemma in_tset q tr : In tr (tset q) -> exists q' ts, q = S q' /\ tr = Node ts /\ (length ts <= q')%nat /\ (total ts <= q')%nat /\
  forall u, In u ts -> In u (tset q').
Proof.
  destruct q as [|q]; [intros []|]; cbn [tset]; intros H; apply in_map_iff in H as (ts & <- & H).
  apply filter_In in H as [H T]; apply Nat.leb_le in T; destruct (in_tuples_upto _ _ _ H) as [E F].
  exists q, ts; auto.
Qed.
Lemma tset_order q tr : In tr (tset q) -> (1 <= order tr <= q)%nat.
Proof.
  intros H; apply in_tset in H as (q' & ts & -> & -> & _ & T & _).
  change (order (Node ts)) with (S (total ts)); lia.
Qed.

(** Coefficient of the tree, elementary differential, and a bound for it. *)
Fixpoint weight (t : tree) : R :=
  match t with Node ts => / INR (fact (length ts)) * fold_right (fun u x => weight u * x) 1 ts end.
Fixpoint differential (D : list (list R) -> list R) (t : tree) : list R :=
  match t with Node ts => D (map (differential D) ts) end.
Fixpoint dbound (B : R) (t : tree) : R :=
  match t with Node ts => B * fold_right (fun u x => dbound B u * x) 1 ts end.
Definition child (a : tree -> R) (t : tree) : R := match t with Node ts => lprod a ts end.

Lemma weight_node ts : weight (Node ts) = / INR (fact (length ts)) * lprod weight ts.
Proof. reflexivity. Qed.
Lemma dbound_node B ts : dbound B (Node ts) = B * lprod (dbound B) ts.
Proof. reflexivity. Qed.
Lemma fact_inv k : 0 < / INR (fact k) <= 1.
Proof.
  pose proof (lt_O_fact k) as H; assert (P : 1 <= INR (fact k)) by (apply (le_INR 1); lia).
  split; [apply Rinv_0_lt_compat; lra|]; rewrite <- Rinv_1; apply Rinv_le_contravar; lra.
Qed.

Lemma weight_nonneg q tr : In tr (tset q) -> 0 <= weight tr.
Proof.
  revert tr; induction q as [|q IH]; intros tr H; [destruct H|].
  apply in_tset in H as (q' & ts & E & -> & _ & _ & F); injection E as <-.
  rewrite weight_node; apply Rmult_le_pos; [left; apply fact_inv|apply lprod_nonneg; auto].
Qed.
Lemma dbound_nonneg B q tr : 0 <= B -> In tr (tset q) -> 0 <= dbound B tr.
Proof.
  intros HB; revert tr; induction q as [|q IH]; intros tr H; [destruct H|].
  apply in_tset in H as (q' & ts & E & -> & _ & _ & F); injection E as <-.
  rewrite dbound_node; apply Rmult_le_pos; [exact HB|apply lprod_nonneg; auto].
Qed.

(** *** A right hand side with bounded derivatives at a point *)
Definition vcomb (n : nat) (al : R) (u : list R) (be : R) (v : list R) : list R :=
  vmake n (fun m => al * vnth m u + be * vnth m v).
Definition vadd (n : nat) (y v : list R) : list R := vmake n (fun m => vnth m y + vnth m v).

Record expands (N p : nat) (g : list R -> list R) (z : list R) (D : list (list R) -> list R) (B : R) : Prop := {
  ex_linear : forall us ws u v al be m, (m < N)%nat ->
    vnth m (D (us ++ vcomb N al u be v :: ws)) = al * vnth m (D (us ++ u :: ws)) + be * vnth m (D (us ++ v :: ws));
  ex_bounded : forall vs rs m, (m < N)%nat -> (length vs < p)%nat ->
    Forall2 (fun v r => 0 <= r /\ forall i, (i < N)%nat -> Rabs (vnth i v) <= r) vs rs ->
    Rabs (vnth m (D vs)) <= B * lprod (fun r => r) rs;
  ex_taylor : forall q v r m, (m < N)%nat -> (q < p)%nat -> length v = N -> 0 <= r <= 1 ->
    (forall i, (i < N)%nat -> Rabs (vnth i v) <= r) ->
    Rabs (vnth m (g (vadd N z v)) - rsum (S q) (fun k => / INR (fact k) * vnth m (D (repeat v k)))) <= B * r ^ S q
}.

Lemma vmake_ext n f g : (forall m, (m < n)%nat -> f m = g m) -> vmake n f = vmake n g.
Proof. intros H; apply map_ext_in; intros m Hm; apply in_seq in Hm; apply H; lia. Qed.

Section Multilinear.
Context {A : Type} (N : nat) (D : list (list R) -> list R).
Hypothesis lin : forall us ws u v al be m, (m < N)%nat ->
  vnth m (D (us ++ vcomb N al u be v :: ws)) = al * vnth m (D (us ++ u :: ws)) + be * vnth m (D (us ++ v :: ws)).
Variables (c : A -> R) (G : A -> list R).
Definition combination (l : list A) : list R := vmake N (fun m => lsum (fun x => c x * vnth m (G x)) l).

Lemma linear_sum us ws l m : (m < N)%nat ->
  vnth m (D (us ++ combination l :: ws)) = lsum (fun x => c x * vnth m (D (us ++ G x :: ws))) l.
Proof.
  intros Hm; induction l as [|x l IH].
  - replace (combination []) with (vcomb N 0 [] 0 []).
    + rewrite lin by exact Hm; rewrite lsum_nil; ring.
    + apply vmake_ext; intros j _; rewrite lsum_nil; ring.
  - replace (combination (x :: l)) with (vcomb N (c x) (G x) 1 (combination l)).
    + rewrite lin, IH by exact Hm; rewrite lsum_cons; ring.
    + apply vmake_ext; intros j Hj; unfold combination; rewrite vnth_vmake by exact Hj; rewrite lsum_cons; ring.
Qed.

Lemma multilinear_sum l m : (m < N)%nat -> forall k us,
  vnth m (D (us ++ repeat (combination l) k)) =
  lsum (fun xs => lprod c xs * vnth m (D (us ++ map G xs))) (tuples k l).
Proof.
  intros Hm; induction k as [|k IH]; intros us.
  - cbn [repeat tuples]; rewrite lsum_cons, lsum_nil, lprod_nil; cbn [map]; rewrite !app_nil_r; ring.
  - cbn [repeat tuples]; rewrite linear_sum by exact Hm.
    rewrite lsum_flat_map; apply lsum_ext; intros x _.
    rewrite lsum_map; cbn [map].
    replace (us ++ G x :: repeat (combination l) k) with ((us ++ [G x]) ++ repeat (combination l) k)
      by (rewrite <- app_assoc; reflexivity).
    rewrite IH, <- lsum_scal; apply lsum_ext; intros xs _; rewrite <- app_assoc, lprod_cons; cbn [map app]; ring.
Qed.
End Multilinear.

Lemma within_trans n r r' x y z : within n r x y -> within n r' y z -> within n (r + r') x z.
Proof.
  intros H H' m Hm; specialize (H m Hm); specialize (H' m Hm).
  replace (vnth m x - vnth m z) with ((vnth m x - vnth m y) + (vnth m y - vnth m z)) by ring.
  eapply Rle_trans; [apply Rabs_triang|lra].
Qed.
Lemma vadd_length n y v : length (vadd n y v) = n.
Proof. apply vmake_length. Qed.
Lemma vnth_vadd n y v m : (m < n)%nat -> vnth m (vadd n y v) = vnth m y + vnth m v.
Proof. apply vnth_vmake. Qed.
Lemma vnth_ext n (x y : list R) : length x = n -> length y = n -> (forall m, (m < n)%nat -> vnth m x = vnth m y) -> x = y.
Proof. intros H H' E; apply (nth_ext _ _ 0 0); [congruence|]; intros m Hm; apply E; lia. Qed.
Lemma pow_le_1 h k : 0 <= h <= 1 -> h ^ k <= 1.
Proof. intros H; rewrite <- (pow1 k); apply pow_incr, H. Qed.
Lemma pow_decr h k j : 0 <= h <= 1 -> (k <= j)%nat -> h ^ j <= h ^ k.
Proof.
  intros H Hk; replace j with (k + (j - k))%nat by lia; rewrite pow_add.
  rewrite <- (Rmult_1_r (h ^ k)) at 2; apply Rmult_le_compat_l; [apply pow_le, H|apply pow_le_1, H].
Qed.
Lemma lprod_pow h ts : lprod (fun u => h ^ order u) ts = h ^ total ts.
Proof. induction ts as [|u ts IH]; [reflexivity|]; rewrite lprod_cons, IH, <- pow_add; reflexivity. Qed.

(** *** Composition of a right hand side with a series *)
Section Compose.
Variables (N p : nat) (g : list R -> list R) (L B : R).
Hypothesis HL0 : 0 <= L.
Hypothesis HB : 0 <= B.
Hypothesis HL : forall y z r, length y = N -> length z = N -> within N r y z -> within N (L * r) (g y) (g z).
Variables (T : R -> Prop) (Z : R -> list R) (D : R -> list (list R) -> list R).
Hypothesis HZ : forall t, length (Z t) = N.
Hypothesis HD : forall t, T t -> expands N p g (Z t) (D t) B.

Definition series (q : nat) (a : tree -> R) (h t : R) (m : nat) : R :=
  lsum (fun tr => weight tr * a tr * h ^ order tr * vnth m (differential (D t) tr)) (tset q).
Definition slope (q : nat) (a : tree -> R) (h t : R) (m : nat) : R :=
  lsum (fun tr => weight tr * child a tr * h ^ pred (order tr) * vnth m (differential (D t) tr)) (tset q).

Lemma differential_bounded q : (q <= p)%nat -> forall tr t m, In tr (tset q) -> T t -> (m < N)%nat ->
  Rabs (vnth m (differential (D t) tr)) <= dbound B tr.
Proof.
  induction q as [|q IH]; intros Hq tr t m H Ht Hm; [destruct H|].
  apply in_tset in H as (q' & ts & E & -> & Hl & _ & F); injection E as <-.
  rewrite dbound_node; cbn [differential].
  eapply Rle_trans; [apply (ex_bounded _ _ _ _ _ _ (HD t Ht) (map (differential (D t)) ts) (map (dbound B) ts)); [exact Hm|rewrite map_length; lia|]|].
  - clear Hl; induction ts as [|u ts IHt]; cbn [map]; constructor.
    + split; [apply (dbound_nonneg B q); [exact HB|apply F; left; auto]|].
      intros i Hi; apply IH; [lia|apply F; left; auto|exact Ht|exact Hi].
    + apply IHt; intros u' Hu'; apply F; right; exact Hu'.
  - rewrite lprod_map; right; reflexivity.
Qed.

Lemma rhs_bounded t m : (0 < p)%nat -> T t -> (m < N)%nat -> Rabs (vnth m (g (Z t))) <= B.
Proof.
  intros Hp Ht Hm; pose proof (HD t Ht) as E.
  pose proof (ex_taylor _ _ _ _ _ _ E 0 (vmake N (fun _ => 0)) 0 m Hm Hp (vmake_length _ _) ltac:(lra)) as X.
  replace (vadd N (Z t) (vmake N (fun _ => 0))) with (Z t) in X.
  2:{ apply (vnth_ext N); [apply HZ|apply vadd_length|]; intros j Hj; rewrite vnth_vadd, vnth_vmake by exact Hj; ring. }
  pose proof (ex_bounded _ _ _ _ _ _ E [] [] m Hm Hp (Forall2_nil _)) as Y.
  rewrite lprod_nil, Rmult_1_r in Y; eapply Rle_trans; [|exact Y]; right; f_equal.
  assert (W : Rabs (vnth m (g (Z t)) - vnth m (D t [])) <= 0).
  { cbn [rsum repeat fact INR] in X; rewrite Rinv_1, Rmult_1_l, Rplus_0_l in X.
    eapply Rle_trans; [apply X|right; cbn [pow]; ring].
    intros i Hi; rewrite vnth_vmake by exact Hi; rewrite Rabs_R0; lra. }
  pose proof (Rabs_pos (vnth m (g (Z t)) - vnth m (D t []))).
  destruct (Req_dec (vnth m (g (Z t)) - vnth m (D t [])) 0) as [|Hn]; [lra|apply Rabs_pos_lt in Hn; lra].
Qed.

Section Fixed.
Variables (q : nat) (A : R).
Hypothesis Hq : (q < p)%nat.
Hypothesis HA : 0 <= A.
Definition Wt (tr : tree) : R := weight tr * A * dbound B tr.
Definition S1 : R := lsum Wt (tset q).
Definition U (ts : list tree) : R := B * lprod Wt ts.
Definition S2 : R := lsum U (filter (fun ts => negb (total ts <=? q)%nat) (tuples_upto q (tset q))).
Definition S3 : R := lsum (fun tr => weight tr * child (fun _ => A) tr * dbound B tr) (tset (S q)).
Definition CC : R := B * S1 ^ S q + S2 + (B + L * S1 + S3) * S1 ^ S q.

Lemma Wt_nonneg tr : In tr (tset q) -> 0 <= Wt tr.
Proof. intros H; unfold Wt; apply Rmult_le_pos; [apply Rmult_le_pos; [eapply weight_nonneg; exact H|exact HA]|eapply dbound_nonneg; [exact HB|exact H]]. Qed.
Lemma S1_nonneg : 0 <= S1.
Proof. apply lsum_nonneg, Wt_nonneg. Qed.
Lemma S2_nonneg : 0 <= S2.
Proof.
  apply lsum_nonneg; intros ts H; apply filter_In in H as [H _]; apply in_tuples_upto in H as [_ H].
  apply Rmult_le_pos; [exact HB|apply lprod_nonneg; auto using Wt_nonneg].
Qed.
Lemma S3_nonneg : 0 <= S3.
Proof.
  apply lsum_nonneg; intros tr H; apply Rmult_le_pos; [apply Rmult_le_pos|eapply dbound_nonneg; [exact HB|exact H]].
  - eapply weight_nonneg; exact H.
  - destruct tr; cbn; apply lprod_nonneg; auto.
Qed.
Lemma CC_nonneg : 0 <= CC.
Proof.
  pose proof S1_nonneg; pose proof S2_nonneg; pose proof S3_nonneg; pose proof (pow_le S1 (S q) S1_nonneg).
  assert (0 <= L * S1) by (apply Rmult_le_pos; assumption).
  unfold CC; apply Rplus_le_le_0_compat; [apply Rplus_le_le_0_compat; [apply Rmult_le_pos|]|apply Rmult_le_pos]; lra.
Qed.

Variables (t h : R) (a : tree -> R).
Hypothesis Ht : T t.
Hypothesis Hh : 0 <= h <= 1.
Hypothesis Ha : forall tr, In tr (tset q) -> Rabs (a tr) <= A.
Notation coef := (fun tr => weight tr * a tr * h ^ order tr).
Notation Dl := (combination N coef (differential (D t)) (tset q)).

Lemma coef_bound tr : In tr (tset q) -> Rabs (coef tr) <= weight tr * A * h ^ order tr.
Proof.
  intros H; cbv beta; rewrite !Rabs_mult, (Rabs_right (weight tr)) by (apply Rle_ge, (weight_nonneg q), H).
  rewrite (Rabs_right (h ^ order tr)) by (apply Rle_ge, pow_le, Hh).
  apply Rmult_le_compat_r; [apply pow_le, Hh|]; apply Rmult_le_compat_l; [apply (weight_nonneg q), H|auto].
Qed.
Lemma Dl_nth m : (m < N)%nat -> vnth m Dl = series q a h t m.
Proof. intros Hm; unfold combination; rewrite vnth_vmake by exact Hm; reflexivity. Qed.
Lemma Dl_bound m : (m < N)%nat -> Rabs (vnth m Dl) <= S1 * h.
Proof.
  intros Hm; rewrite Dl_nth by exact Hm; unfold series, S1.
  rewrite Rmult_comm, <- lsum_scal; apply lsum_bound; intros tr H.
  rewrite Rabs_mult; apply Rle_trans with (weight tr * A * h ^ order tr * dbound B tr).
  - apply Rmult_le_compat; [apply Rabs_pos|apply Rabs_pos|apply coef_bound, H|apply (differential_bounded q); auto; lia].
  - unfold Wt; rewrite (Rmult_assoc (weight tr * A)), (Rmult_comm (h ^ _)), <- Rmult_assoc.
    rewrite (Rmult_comm h); apply Rmult_le_compat_l; [apply Wt_nonneg, H|].
    rewrite <- (pow_1 h) at 2; apply pow_decr; [exact Hh|apply tset_order in H; lia].
Qed.

(** The part of the expansion of low order. *)
Notation term m := (fun ts => / INR (fact (length ts)) * (lprod coef ts * vnth m (D t (map (differential (D t)) ts)))).
Lemma term_bound ts m : (m < N)%nat -> In ts (tuples_upto q (tset q)) -> Rabs (term m ts) <= h ^ total ts * U ts.
Proof.
  intros Hm H; apply in_tuples_upto in H as [Hl F].
  assert (E : Rabs (vnth m (D t (map (differential (D t)) ts))) <= B * lprod (dbound B) ts).
  { eapply Rle_trans; [apply (ex_bounded _ _ _ _ _ _ (HD t Ht) (map (differential (D t)) ts) (map (dbound B) ts)); [exact Hm|rewrite map_length; lia|]|].
    - clear Hl; induction ts as [|u ts IHt]; cbn [map]; constructor.
      + split; [apply (dbound_nonneg B q); [exact HB|apply F; left; auto]|].
        intros i Hi; apply (differential_bounded q); [lia|apply F; left; auto|exact Ht|exact Hi].
      + apply IHt; intros u' Hu'; apply F; right; exact Hu'.
    - rewrite lprod_map; right; reflexivity. }
  assert (P : Rabs (lprod coef ts) <= lprod (fun tr => weight tr * A) ts * h ^ total ts).
  { rewrite lprod_abs, <- lprod_pow, <- lprod_mult; apply lprod_le; intros u Hu; split; [apply Rabs_pos|apply coef_bound; auto]. }
  pose proof (fact_inv (length ts)) as Q.
  cbv beta; rewrite !(Rabs_mult (/ _)), !(Rabs_mult (lprod _ _)), (Rabs_right (/ _)) by lra.
  assert (X : Rabs (lprod coef ts) * Rabs (vnth m (D t (map (differential (D t)) ts))) <= h ^ total ts * U ts).
  { eapply Rle_trans; [apply Rmult_le_compat; [apply Rabs_pos|apply Rabs_pos|exact P|exact E]|].
    unfold U, Wt; rewrite (lprod_mult (fun tr => weight tr * A)); right; ring. }
  eapply Rle_trans; [apply Rmult_le_compat_r; [apply Rmult_le_pos; apply Rabs_pos|apply Q]|].
  rewrite Rmult_1_l; exact X.
Qed.

Lemma expansion m : (m < N)%nat ->
  rsum (S q) (fun k => / INR (fact k) * vnth m (D t (repeat Dl k))) = lsum (term m) (tuples_upto q (tset q)).
Proof.
  intros Hm; rewrite rsum_lsum; unfold tuples_upto; rewrite lsum_flat_map; apply lsum_ext; intros k _.
  pose proof (multilinear_sum N (D t) (ex_linear _ _ _ _ _ _ (HD t Ht)) coef (differential (D t)) (tset q) m Hm k []) as E; cbn [app] in E; rewrite E.
  rewrite <- lsum_scal; apply lsum_ext; intros ts H; apply in_tuples in H as [<- _]; reflexivity.
Qed.

Lemma slope_sum m : slope (S q) a h t m = lsum (term m) (filter (fun ts => total ts <=? q)%nat (tuples_upto q (tset q))).
Proof.
  unfold slope; cbn [tset]; rewrite lsum_map; apply lsum_ext; intros ts _.
  rewrite weight_node; change (order (Node ts)) with (S (total ts)); cbn [pred child differential].
  rewrite (lprod_mult (fun tr => weight tr * a tr)), lprod_mult, lprod_pow; ring.
Qed.

Lemma slope_close m : (m < N)%nat ->
  Rabs (rsum (S q) (fun k => / INR (fact k) * vnth m (D t (repeat Dl k))) - slope (S q) a h t m) <= S2 * h ^ S q.
Proof.
  intros Hm; rewrite expansion, slope_sum by exact Hm.
  rewrite (lsum_filter _ (fun ts => total ts <=? q)%nat).
  match goal with |- Rabs (?x + ?y - ?x) <= _ => replace (x + y - x) with y by ring end.
  unfold S2; rewrite Rmult_comm, <- lsum_scal; apply lsum_bound; intros ts H.
  apply filter_In in H as [H Ho]; apply negb_true_iff, Nat.leb_gt in Ho.
  eapply Rle_trans; [apply term_bound; assumption|].
  apply Rmult_le_compat_r; [|apply pow_decr; [exact Hh|lia]].
  apply in_tuples_upto in H as [_ H]; apply Rmult_le_pos; [exact HB|apply lprod_nonneg; auto using Wt_nonneg].
Qed.

Lemma slope_bound m : (m < N)%nat -> Rabs (slope (S q) a h t m) <= S3.
Proof.
  intros Hm; apply lsum_bound; intros tr H.
  pose proof (weight_nonneg _ _ H) as Hw; pose proof (differential_bounded (S q) ltac:(lia) tr t m H Ht Hm) as Hd.
  rewrite !Rabs_mult, (Rabs_right (weight tr)) by lra.
  rewrite (Rabs_right (h ^ _)) by (apply Rle_ge, pow_le, Hh).
  apply Rmult_le_compat; [| |  |exact Hd].
  - apply Rmult_le_pos; [apply Rmult_le_pos; [exact Hw|apply Rabs_pos]|apply pow_le, Hh].
  - apply Rabs_pos.
  - rewrite <- (Rmult_1_r (weight tr * child _ tr)); apply Rmult_le_compat.
    + apply Rmult_le_pos; [exact Hw|apply Rabs_pos].
    + apply pow_le, Hh.
    + apply Rmult_le_compat_l; [exact Hw|].
      apply in_tset in H as (q' & ts & E & -> & _ & _ & F); injection E as <-; cbn [child].
      rewrite lprod_abs; apply lprod_le; intros u Hu; split; [apply Rabs_pos|auto].
    + apply pow_le_1, Hh.
Qed.

Lemma compose_at v dl m : length v = N -> 0 <= dl ->
  (forall i, (i < N)%nat -> Rabs (vnth i v - series q a h t i) <= dl) -> (m < N)%nat ->
  Rabs (vnth m (g (vadd N (Z t) v)) - slope (S q) a h t m) <= L * dl + CC * h ^ S q.
Proof.
  intros Hv Hd Hc Hm.
  pose proof S1_nonneg as P1; pose proof S2_nonneg as P2; pose proof S3_nonneg as P3.
  pose proof (pow_le h (S q) (proj1 Hh)) as Ph; pose proof (pow_le S1 (S q) P1) as PS.
  assert (PL : 0 <= L * S1) by (apply Rmult_le_pos; assumption).
  destruct (Rle_lt_dec (S1 * h) 1) as [Hs|Hs].
  - assert (E1 : Rabs (vnth m (g (vadd N (Z t) v)) - vnth m (g (vadd N (Z t) Dl))) <= L * dl).
    { apply HL; [apply vadd_length|apply vadd_length| |exact Hm].
      intros i Hi; rewrite !vnth_vadd, Dl_nth by exact Hi.
      replace (vnth i (Z t) + vnth i v - (vnth i (Z t) + series q a h t i)) with (vnth i v - series q a h t i) by ring; auto. }
    assert (Hr : 0 <= S1 * h) by (apply Rmult_le_pos; lra).
    pose proof (ex_taylor _ _ _ _ _ _ (HD t Ht) q Dl (S1 * h) m Hm Hq (vmake_length _ _) (conj Hr Hs) (fun i => Dl_bound i)) as E2.
    pose proof (slope_close m Hm) as E3.
    rewrite Rpow_mult_distr in E2.
    assert (X : CC * h ^ S q = B * (S1 ^ S q * h ^ S q) + S2 * h ^ S q + (B + L * S1 + S3) * S1 ^ S q * h ^ S q) by (unfold CC; ring).
    assert (0 <= (B + L * S1 + S3) * S1 ^ S q * h ^ S q) by (apply Rmult_le_pos; [apply Rmult_le_pos; lra|exact Ph]).
    revert E1 E2 E3; generalize (rsum (S q) (fun k => / INR (fact k) * vnth m (D t (repeat Dl k)))).
    generalize (vnth m (g (vadd N (Z t) v))), (vnth m (g (vadd N (Z t) Dl))), (slope (S q) a h t m).
    intros x y z w E1 E2 E3.
    replace (x - z) with ((x - y) + ((y - w) + (w - z))) by ring.
    pose proof (Rabs_triang (x - y) ((y - w) + (w - z))); pose proof (Rabs_triang (y - w) (w - z)); lra.
  - assert (E1 : Rabs (vnth m (g (vadd N (Z t) v)) - vnth m (g (Z t))) <= L * (dl + S1 * h)).
    { apply HL; [apply vadd_length|apply HZ| |exact Hm].
      intros i Hi; rewrite !vnth_vadd by exact Hi.
      replace (vnth i (Z t) + vnth i v - vnth i (Z t)) with ((vnth i v - series q a h t i) + vnth i Dl) by (rewrite Dl_nth by exact Hi; ring).
      eapply Rle_trans; [apply Rabs_triang|]; apply Rplus_le_compat; [auto|apply Dl_bound, Hi]. }
    pose proof (rhs_bounded t m ltac:(lia) Ht Hm) as E2; pose proof (slope_bound m Hm) as E3.
    assert (G : 1 <= S1 ^ S q * h ^ S q) by (rewrite <- Rpow_mult_distr; apply pow_R1_Rle; lra).
    assert (X : CC * h ^ S q = (B + S2 / S1 ^ S q * 0) * (S1 ^ S q * h ^ S q) + S2 * h ^ S q + (B + L * S1 + S3) * (S1 ^ S q * h ^ S q)) by (unfold CC; ring).
    assert (Y1 : L * (S1 * h) <= L * S1).
    { rewrite <- (Rmult_1_r (L * S1)), <- Rmult_assoc; apply Rmult_le_compat_l; [exact PL|apply Hh]. }
    assert (Y2 : B + L * S1 + S3 <= (B + L * S1 + S3) * (S1 ^ S q * h ^ S q)).
    { rewrite <- (Rmult_1_r (B + L * S1 + S3)) at 1; apply Rmult_le_compat_l; lra. }
    assert (Y3 : 0 <= B * (S1 ^ S q * h ^ S q)) by (apply Rmult_le_pos; lra).
    assert (Y4 : 0 <= S2 * h ^ S q) by (apply Rmult_le_pos; lra).
    rewrite Rmult_0_r, Rplus_0_r in X.
    rewrite Rmult_plus_distr_l in E1.
    revert E1 E2 E3; generalize (vnth m (g (vadd N (Z t) v))), (vnth m (g (Z t))), (slope (S q) a h t m).
    intros x y z E1 E2 E3.
    replace (x - z) with ((x - y) + (y - z)) by ring.
    pose proof (Rabs_triang (x - y) (y - z)); pose proof (Rabs_triang y (- z)) as T2; rewrite Rabs_Ropp in T2.
    unfold Rminus in *; lra.
Qed.
End Fixed.

Lemma compose q A : (q < p)%nat -> 0 <= A -> exists C, 0 <= C /\
  forall t h a v dl m, T t -> 0 <= h <= 1 -> (forall tr, In tr (tset q) -> Rabs (a tr) <= A) ->
  length v = N -> 0 <= dl -> (forall i, (i < N)%nat -> Rabs (vnth i v - series q a h t i) <= dl) -> (m < N)%nat ->
  Rabs (vnth m (g (vadd N (Z t) v)) - slope (S q) a h t m) <= L * dl + C * h ^ S q.
Proof.
  intros Hq HA; exists (CC q A); split; [apply CC_nonneg; assumption|].
  intros t h a v dl m Ht Hh Ha Hv Hd Hc Hm; apply (compose_at q A); assumption.
Qed.
End Compose.
