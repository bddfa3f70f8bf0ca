(** Lemmas about the list/array operations of Base.v over the reals. *)
From Coq Require Import List Reals Lia Lra.
From Verif Require Import Base Ext SpecRK.
Import ListNotations.
Open Scope R_scope.

(** ** Lists *)
Lemma length_upd {A} i (v : A) l : length (upd i v l) = length l.
Proof. revert i; induction l as [|x l IH]; intros [|i]; simpl; auto. Qed.

Lemma nth_upd_same {A} i (v d : A) l : (i < length l)%nat -> nth i (upd i v l) d = v.
Proof.
  revert i; induction l as [|x l IH]; intros [|i]; simpl; intros H; try lia; auto.
  apply IH; lia.
Qed.

Lemma nth_upd_other {A} i j (v d : A) l : i <> j -> nth j (upd i v l) d = nth j l d.
Proof.
  revert i j; induction l as [|x l IH]; intros [|i] [|j]; simpl; intros H;
    try reflexivity; try lia.
  apply IH; lia.
Qed.

Lemma Forall_upd {A} (P : A -> Prop) i v l : P v -> Forall P l -> Forall P (upd i v l).
Proof.
  intros Hv H; revert i; induction H as [|x l Hx Hl IH]; intros [|i]; simpl; auto.
Qed.

Lemma firstn_upd_ge {A} i k (v : A) l : (k <= i)%nat -> firstn k (upd i v l) = firstn k l.
Proof.
  revert i k; induction l as [|x l IH]; intros [|i] [|k]; simpl; intros H;
    try reflexivity; try lia.
  f_equal; apply IH; lia.
Qed.

Lemma upd_oob {A} i (v : A) l : (length l <= i)%nat -> upd i v l = l.
Proof.
  revert i; induction l as [|x l IH]; intros [|i]; simpl; intros H; try lia; auto.
  f_equal; apply IH; lia.
Qed.

Lemma list_eq_nth {A} (d : A) x y :
  length x = length y -> (forall m, (m < length x)%nat -> nth m x d = nth m y d) -> x = y.
Proof. intros Hl H; apply nth_ext with (d := d) (d' := d); auto. Qed.

Lemma Forall_nth_lt {A} (P : A -> Prop) l d i :
  Forall P l -> (i < length l)%nat -> P (nth i l d).
Proof. intros H Hi; rewrite Forall_forall in H; apply H, nth_In, Hi. Qed.

Lemma length_map2 {A B C} (f : A -> B -> C) x y :
  length (map2 f x y) = Nat.min (length x) (length y).
Proof. revert y; induction x as [|a x IH]; intros [|b y]; simpl; auto. Qed.

Lemma nth_map2 {A B C} (f : A -> B -> C) x y m da db dc :
  (m < length x)%nat -> (m < length y)%nat ->
  nth m (map2 f x y) dc = f (nth m x da) (nth m y db).
Proof.
  revert y m; induction x as [|a x IH]; intros [|b y] [|m]; simpl; intros Hx Hy;
    try lia; auto.
  apply IH; lia.
Qed.

(** ** rsum *)
Lemma rsum_ext n f g : (forall i, (i < n)%nat -> f i = g i) -> rsum n f = rsum n g.
Proof.
  induction n as [|n IH]; simpl; intros H; [reflexivity|].
  rewrite IH, (H n) by (auto; intros; apply H; lia); reflexivity.
Qed.

Lemma rsum_zero n : rsum n (fun _ => 0) = 0.
Proof. induction n as [|n IH]; simpl; lra. Qed.

Lemma rsum_plus n f g : rsum n (fun i => f i + g i) = rsum n f + rsum n g.
Proof. induction n as [|n IH]; simpl; lra. Qed.

Lemma rsum_scal n c f : rsum n (fun i => c * f i) = c * rsum n f.
Proof. induction n as [|n IH]; simpl; [lra|]. rewrite IH; lra. Qed.

Lemma rsum_app n k f : rsum (n + k) f = rsum n f + rsum k (fun i => f (n + i)%nat).
Proof.
  induction k as [|k IH].
  - rewrite Nat.add_0_r; simpl; lra.
  - rewrite Nat.add_succ_r; simpl; rewrite IH; lra.
Qed.

Lemma rsum_swap n k f : rsum n (fun i => rsum k (fun j => f i j)) = rsum k (fun j => rsum n (fun i => f i j)).
Proof.
  induction n as [|n IH]; simpl; [rewrite rsum_zero; reflexivity|].
  rewrite IH, <- rsum_plus; reflexivity.
Qed.

(** first [k] terms of a longer sum whose tail vanishes *)
Lemma rsum_trunc n k f : (k <= n)%nat -> (forall i, (k <= i < n)%nat -> f i = 0) -> rsum n f = rsum k f.
Proof.
  intros Hk H; replace n with (k + (n - k))%nat by lia; rewrite rsum_app.
  rewrite (rsum_ext (n - k) _ (fun _ => 0)), rsum_zero; [lra|].
  intros i Hi; apply H; lia.
Qed.

Lemma rsum_S_first n f : rsum (S n) f = f 0%nat + rsum n (fun i => f (S i)).
Proof. induction n as [|n IH]; simpl in *; [lra|]. rewrite IH; lra. Qed.

(** ** vmake *)
Lemma length_vmake n f : length (vmake n f) = n.
Proof. unfold vmake; rewrite map_length, seq_length; reflexivity. Qed.

Lemma vnth_vmake n f m : (m < n)%nat -> vnth m (vmake n f) = f m.
Proof.
  intros H; unfold vnth, vmake.
  rewrite (nth_indep _ 0 (f 0%nat)) by (rewrite map_length, seq_length; exact H).
  rewrite map_nth, seq_nth by exact H; reflexivity.
Qed.

Lemma vmake_ext n f g : (forall m, (m < n)%nat -> f m = g m) -> vmake n f = vmake n g.
Proof.
  intros H; unfold vmake; apply map_ext_in; intros m Hm; apply H.
  apply in_seq in Hm; lia.
Qed.

Lemma vmake_vnth n v : length v = n -> vmake n (fun m => vnth m v) = v.
Proof.
  intros Hn; apply list_eq_nth with (d := 0); rewrite length_vmake; auto.
  intros m Hm; apply (vnth_vmake n (fun m => vnth m v)); exact Hm.
Qed.

Lemma vec_eq n x y : length x = n -> length y = n ->
  (forall m, (m < n)%nat -> vnth m x = vnth m y) -> x = y.
Proof. intros Hx Hy H; apply list_eq_nth with (d := 0); [congruence|]; intros m Hm; apply H; lia. Qed.

(** ** vector operations over R *)
Lemma length_vzeros n : length (vzeros (T := R) n) = n.
Proof. apply repeat_length. Qed.

Lemma vnth_vzeros n m : vnth m (vzeros n) = 0.
Proof.
  unfold vnth, vzeros; revert m; induction n as [|n IH]; intros [|m]; simpl; auto.
Qed.

Lemma length_vadd (x y : list R) : length (vadd x y) = Nat.min (length x) (length y).
Proof. apply length_map2. Qed.

Lemma length_vadd_eq (x y : list R) n : length x = n -> length y = n -> length (vadd x y) = n.
Proof. intros Hx Hy; rewrite length_vadd; lia. Qed.

Lemma length_vsub_eq (x y : list R) n : length x = n -> length y = n -> length (vsub x y) = n.
Proof. intros Hx Hy; unfold vsub; rewrite length_map2; lia. Qed.

Lemma vnth_vadd x y m : length x = length y -> vnth m (vadd x y) = vnth m x + vnth m y.
Proof.
  intros H; unfold vnth, vadd; destruct (Nat.lt_ge_cases m (length x)) as [Hm|Hm].
  - rewrite (nth_map2 _ _ _ _ 0 0) by lia; reflexivity.
  - rewrite !nth_overflow by (rewrite ?length_map2; lia); lra.
Qed.

Lemma vnth_vsub x y m : length x = length y -> vnth m (vsub x y) = vnth m x - vnth m y.
Proof.
  intros H; unfold vnth, vsub; destruct (Nat.lt_ge_cases m (length x)) as [Hm|Hm].
  - rewrite (nth_map2 _ _ _ _ 0 0) by lia; reflexivity.
  - rewrite !nth_overflow by (rewrite ?length_map2; lia); lra.
Qed.

Lemma length_vscale c (x : list R) : length (vscale c x) = length x.
Proof. apply map_length. Qed.

Lemma vnth_vscale c x m : vnth m (vscale c x) = c * vnth m x.
Proof.
  unfold vnth, vscale; destruct (Nat.lt_ge_cases m (length x)) as [Hm|Hm].
  - rewrite (nth_indep _ 0 (nmul c 0)) by (rewrite map_length; exact Hm).
    rewrite map_nth; reflexivity.
  - rewrite !nth_overflow by (rewrite ?map_length; lia); lra.
Qed.

(** ** einsum *)
Lemma einsum_fold (l : list (list R * R)) acc n :
  length acc = n -> Forall (fun rw => length (fst rw) = n) l ->
  let r := fold_left (fun acc rw => vadd acc (map (fun x => nmul x (snd rw)) (fst rw))) l acc in
  length r = n /\
  forall m, vnth m r = vnth m acc
     + rsum (length l) (fun i => vnth m (fst (nth i l ([], 0))) * snd (nth i l ([], 0))).
Proof.
  revert acc; induction l as [|[row w] l IH]; intros acc Ha Hl; cbn zeta.
  - simpl; split; [exact Ha|]; intros m; lra.
  - inversion Hl as [|? ? Hr Hl']; subst; cbn [fst] in Hr.
    assert (Hlen : length (vadd acc (map (fun x => nmul x w) row)) = length acc).
    { apply length_vadd_eq; [reflexivity|]; rewrite map_length; exact Hr. }
    destruct (IH (vadd acc (map (fun x => nmul x w) row)) Hlen Hl') as [H1 H2].
    split; [exact H1|]; intros m; cbn [fold_left fst snd]; rewrite H2.
    cbn [length]; rewrite rsum_S_first; cbn [nth fst snd].
    rewrite vnth_vadd by (rewrite map_length; congruence).
    replace (vnth m (map (fun x => nmul x w) row)) with (vnth m row * w); [lra|].
    unfold vnth; destruct (Nat.lt_ge_cases m (length row)) as [Hm|Hm].
    + rewrite (nth_indep (map _ _) 0 (nmul 0 w)) by (rewrite map_length; exact Hm).
      rewrite (map_nth (fun x => nmul x w)); reflexivity.
    + rewrite !nth_overflow by (rewrite ?map_length; lia); lra.
Qed.

Lemma nth_combine_eq {A B} (x : list A) (y : list B) i da db :
  length x = length y -> nth i (combine x y) (da, db) = (nth i x da, nth i y db).
Proof. intros H; apply combine_nth; exact H. Qed.

Lemma einsum_spec n field (w : list R) :
  Forall (fun r => length r = n) field -> length field = length w ->
  length (einsum_ij_i n field w) = n /\
  forall m, vnth m (einsum_ij_i n field w)
     = rsum (length field) (fun i => vnth m (nth i field []) * vnth i w).
Proof.
  intros Hf Hw; unfold einsum_ij_i.
  destruct (einsum_fold (combine field w) (vzeros n) n (length_vzeros n)) as [H1 H2].
  - apply Forall_forall; intros [r c] Hin; apply in_combine_l in Hin.
    rewrite Forall_forall in Hf; apply Hf; exact Hin.
  - split; [exact H1|]; intros m; rewrite H2, vnth_vzeros, combine_length.
    rewrite Nat.min_l by lia. rewrite Rplus_0_l; apply rsum_ext; intros i Hi.
    rewrite nth_combine_eq by exact Hw; reflexivity.
Qed.

(** ** dot *)
Lemma dot_vmake_r n x f : length x = n -> dot x (vmake n f) = rsum n (fun m => vnth m x * f m).
Proof.
  revert n f; induction x as [|a x IH]; intros n f Hn; simpl in Hn; subst n.
  - reflexivity.
  - rewrite rsum_S_first; unfold vmake; simpl; unfold vnth at 1; simpl; f_equal.
    rewrite <- seq_shift, map_map; apply (IH _ (fun m => f (S m))); reflexivity.
Qed.

Lemma dot_rsum n x y : length x = n -> length y = n ->
  dot x y = rsum n (fun m => vnth m x * vnth m y).
Proof. intros Hx Hy; rewrite <- (vmake_vnth n y Hy) at 1; apply dot_vmake_r; exact Hx. Qed.

Lemma dot_comm x y : dot x y = dot y x.
Proof. revert y; induction x as [|a x IH]; intros [|b y]; simpl; try lra. rewrite IH; lra. Qed.

Lemma dot_vadd_l x y z : length x = length y -> dot (vadd x y) z = dot x z + dot y z.
Proof.
  revert y z; induction x as [|a x IH]; intros [|b y] [|c z] H; simpl in *; try lra; try lia.
  unfold vadd in *; cbn [map2 dot]; rewrite IH by lia; cbn [nadd RNum]; lra.
Qed.

Lemma dot_vadd_r x y z : length x = length y -> dot z (vadd x y) = dot z x + dot z y.
Proof. intros H; rewrite dot_comm, dot_vadd_l, (dot_comm x), (dot_comm y) by exact H; reflexivity. Qed.

Lemma dot_vscale_l c x z : dot (vscale c x) z = c * dot x z.
Proof.
  revert z; induction x as [|a x IH]; intros [|b z]; simpl; try lra.
  unfold vscale in IH; rewrite IH; lra.
Qed.

Lemma dot_vscale_r c x z : dot z (vscale c x) = c * dot z x.
Proof. rewrite dot_comm, dot_vscale_l, dot_comm; reflexivity. Qed.

Lemma dot_vzeros_l n z : dot (vzeros n) z = 0.
Proof.
  unfold vzeros; revert z; induction n as [|n IH]; intros [|b z]; simpl; try lra.
  rewrite IH; lra.
Qed.

Lemma dot_vzeros_r n z : dot z (vzeros n) = 0.
Proof. rewrite dot_comm; apply dot_vzeros_l. Qed.

(** inner product with an einsum *)
Lemma dot_einsum n field (w z : list R) :
  Forall (fun r => length r = n) field -> length field = length w -> length z = n ->
  dot z (einsum_ij_i n field w)
  = rsum (length field) (fun i => vnth i w * dot z (nth i field [])).
Proof.
  intros Hf Hw Hz; destruct (einsum_spec n field w Hf Hw) as [H1 H2].
  rewrite (dot_rsum n _ _ Hz H1).
  rewrite (rsum_ext n _ (fun m => rsum (length field)
     (fun i => vnth m z * (vnth m (nth i field []) * vnth i w)))).
  - rewrite rsum_swap; apply rsum_ext; intros i Hi.
    rewrite (dot_rsum n z (nth i field []) Hz) by (apply (Forall_nth_lt (fun r => length r = n)); auto).
    rewrite <- rsum_scal; apply rsum_ext; intros m Hm; lra.
  - intros m Hm; rewrite H2, <- rsum_scal; reflexivity.
Qed.
