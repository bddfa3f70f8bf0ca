(** C39: linearity and derivatives of the OpenMDAO-backed ODE. *)
From Coq Require Import String.
From Coq Require Import List Bool Arith Reals Lia Lra.
From Verif Require Import Base Ext M_ODE M_Metadata M_Components SpecMetadata SpecRK SpecDeriv SpecComponents
  M_Packing SpecPacking L_Vec L_Components L_Metadata L_Metadata2 L_Packing L_Packing2 L_Packing3 L_Packing4 L_Packing5.
Import ListNotations.
Local Open Scope string_scope.
Local Open Scope R_scope.
Local Open Scope list_scope.

Lemma firstn_map2 {A B C} (f : A -> B -> C) n : forall x y, firstn n (map2 f x y) = map2 f (firstn n x) (firstn n y).
Proof. induction n as [|n IH]; intros [|a x] [|b y]; cbn; try reflexivity. now rewrite IH. Qed.
Lemma map2_nil_r {A B C} (f : A -> B -> C) x : map2 f x [] = [].
Proof. destruct x; reflexivity. Qed.
Lemma skipn_map2 {A B C} (f : A -> B -> C) n : forall x y, skipn n (map2 f x y) = map2 f (skipn n x) (skipn n y).
Proof.
  induction n as [|n IH]; intros [|a x] [|b y]; cbn; try reflexivity; [now rewrite map2_nil_r|]. apply IH.
Qed.
Lemma vlin_cons al a x be b y : vlin al (a :: x) be (b :: y) = (al * a + be * b) :: vlin al x be y.
Proof. reflexivity. Qed.
Lemma part_vlin a al x be y : part a (vlin al x be y) = vlin al (part a x) be (part a y).
Proof.
  unfold part, vlin, vadd, vscale. rewrite skipn_map2, firstn_map2, !skipn_map, !firstn_map. reflexivity.
Qed.
Lemma vlin_length al x be y n : length x = n -> length y = n -> length (vlin al x be y) = n.
Proof. intros. apply length_vadd_eq; rewrite length_vscale; assumption. Qed.
Lemma vscale_vlin f al x be y : vscale f (vlin al x be y) = vlin al (vscale f x) be (vscale f y).
Proof.
  revert y; induction x as [|a x IH]; intros [|b y]; try reflexivity.
  rewrite vlin_cons. change (vscale f (a :: x)) with (f * a :: vscale f x). change (vscale f (b :: y)) with (f * b :: vscale f y).
  rewrite vlin_cons, <- IH. cbn [vscale map]. f_equal. cbn; ring.
Qed.
Lemma vlin_zeros al be n : vlin al (vzeros n) be (vzeros n) = vzeros n.
Proof.
  unfold vzeros. induction n as [|n IH]; cbn; [reflexivity|]. fold (vlin al (repeat n0 n) be (repeat n0 n)).
  f_equal; [cbn; ring|exact IH].
Qed.

Lemma vec_lin_layout al (v : vec R) be w : layout v = layout w -> layout (vec_lin al v be w) = layout v.
Proof.
  unfold vec_lin. revert w; induction v as [|[k x] v IH]; intros [|[k' y] w] L; try discriminate; [reflexivity|].
  injection L as <- Lx L. specialize (IH w L). unfold layout in *; cbn [map map2 fst snd].
  rewrite (vlin_length al x be y (length x)) by auto. f_equal. exact IH.
Qed.
Lemma vec_lin_get al (v : vec R) be w n x y : layout v = layout w -> get n v = Ok x -> get n w = Ok y ->
  get n (vec_lin al v be w) = Ok (vlin al x be y).
Proof.
  unfold vec_lin. revert w; induction v as [|[k x'] v IH]; intros [|[k' y'] w] L G1 G2; try discriminate.
  injection L as <- Lx L. cbn [get map2 fst snd] in *. destruct (String.eqb n k); [congruence|]. apply IH; auto.
Qed.
Lemma assign_lin n x y al (v v' : vec R) be w w' : layout v = layout w ->
  assign n x v = Ok v' -> assign n y w = Ok w' ->
  assign n (vlin al x be y) (vec_lin al v be w) = Ok (vec_lin al v' be w').
Proof.
  unfold assign. revert w v' w'; induction v as [|[k a] v IH]; intros [|[k' b] w] v' w' L A B; try discriminate.
  injection L as <- Lx L. cbn [update vec_lin map2 fst snd] in *. destruct (String.eqb n k).
  - apply bind_ok in A as (z & Fz & A). apply bind_ok in B as (z' & Fz' & B). injection A as <-. injection B as <-.
    destruct (length a =? length x)%nat eqn:E1; [|discriminate]. destruct (length b =? length y)%nat eqn:E2; [|discriminate].
    injection Fz as <-. injection Fz' as <-. apply Nat.eqb_eq in E1, E2.
    rewrite (vlin_length al a be b (length a)), (vlin_length al x be y (length a)), Nat.eqb_refl by congruence.
    reflexivity.
  - apply bind_ok in A as (z & Fz & A). apply bind_ok in B as (z' & Fz' & B). injection A as <-. injection B as <-.
    fold (vec_lin al v be w). rewrite (IH _ _ _ L Fz Fz'). reflexivity.
Qed.
Lemma writes_lin al be W1 : forall W2 v w v' w', map fst W1 = map fst W2 -> layout v = layout w ->
  writes W1 v = Ok v' -> writes W2 w = Ok w' ->
  writes (map2 (fun p q => (fst p, vlin al (snd p) be (snd q))) W1 W2) (vec_lin al v be w) = Ok (vec_lin al v' be w').
Proof.
  induction W1 as [|[n x] W1 IH]; intros [|[n' y] W2] v w v' w' E L A B; try discriminate.
  - injection A as <-. injection B as <-. reflexivity.
  - injection E as <- E. unfold writes in *; cbn [map2 scan fst snd] in *.
    apply bind_ok in A as (v1 & A1 & A2). apply bind_ok in B as (w1 & B1 & B2).
    rewrite (assign_lin _ _ _ al _ _ be _ _ L A1 B1). cbn [bind]. apply (IH W2 v1 w1); auto.
    apply assign_inv in A1 as (-> & _). apply assign_inv in B1 as (-> & _). exact L.
Qed.
Lemma zeroed_lin al (v : vec R) be : vec_lin al (zeroed v) be (zeroed v) = zeroed v.
Proof.
  unfold vec_lin. induction v as [|[k x] v IH]; [reflexivity|].
  change (zeroed ((k, x) :: v)) with ((k, map (fun x => nmul x n0) x) :: zeroed v).
  cbn [map2 fst snd]. rewrite IH. f_equal. f_equal.
  induction x as [|a x IHx]; [reflexivity|]. cbn [map]. rewrite vlin_cons, IHx. f_equal. cbn; ring.
Qed.

Section More.
Variables (procs rank : nat) (vs : list variable) (qs is : list string) (mds : list metadata) (md : metadata).
Variables (pb : problem R) (st : om_state R) (norm : ode_out R -> R).
Hypothesis Hmd : metadata_of procs vs qs is = Ok mds.
Hypothesis Hr : nth_error mds rank = Some md.

Let Lt := proj1 (md_laid_out _ _ _ _ _ _ _ Hmd Hr).
Let Li := proj2 (md_laid_out _ _ _ _ _ _ _ Hmd Hr).

Lemma sels_forall (P : (ode_in R -> list R) -> Prop) :
  P (fun i => [time i]) ->
  (forall q, In q (time_integration_quantities md) -> P (fun i => part (q_array q) (M_ODE.step_input i))) ->
  (forall q, In q (time_integration_quantities md) -> P (fun i => part (q_array q) (stage_input i))) ->
  (forall q, In q (time_independent_quantities md) -> P (fun i => part (q_array q) (independent_input i))) ->
  Forall (fun p => P (snd p)) (sels md).
Proof.
  intros A B C D. unfold sels. rewrite !Forall_app. split; [|split].
  - unfold time_sels. destruct (time_variable md); constructor; auto.
  - apply Forall_forall. intros p I. apply in_flat_map in I as (q & Iq & I). unfold ti_sels in I.
    destruct (local (q_array q)); [|contradiction]. destruct (step_input_var (q_translation q)); [|contradiction].
    destruct I as [<-|[<-|[]]]; cbn; auto.
  - apply Forall_forall. intros p I. apply in_flat_map in I as (q & Iq & I). unfold ind_sels in I.
    destruct (local (q_array q)); [|contradiction]. destruct I as [<-|[]]; cbn; auto.
Qed.
Lemma resolved_forall (P : (ode_in R -> list R) -> Prop) L : resolved pb md L ->
  Forall (fun p => P (snd p)) (sels md) -> Forall (fun p => P (snd p)) L.
Proof.
  unfold resolved. revert L. induction (sels md) as [|[n g] l IH]; intros [|p L] R F; cbn in R; try discriminate; [constructor|].
  destruct (source_of pb n) as [s|] eqn:E; [|discriminate]. cbn in R. injection R as <- R.
  inversion F; subst. constructor; auto.
Qed.

Lemma assignments_lin L f al x be y : resolved pb md L ->
  assignments L (lin_in al x be y) f
  = map2 (fun p q => (fst p, vlin al (snd p) be (snd q))) (assignments L x f) (assignments L y f).
Proof.
  intros Rs.
  assert (F : Forall (fun p => snd p (lin_in al x be y) = vlin al (snd p x) be (snd p y)) L).
  2: { clear Rs. unfold assignments. induction L as [|p L IH]; [reflexivity|].
    inversion F as [|? ? F1 F2]; subst. cbn [map map2 fst snd].
    rewrite IH by assumption. f_equal. rewrite F1. now rewrite vscale_vlin. }
  apply (resolved_forall (fun g => g (lin_in al x be y) = vlin al (g x) be (g y)) L Rs).
  { apply (sels_forall (fun g => g (lin_in al x be y) = vlin al (g x) be (g y))).
    + reflexivity.
    + intros; apply part_vlin.
    + intros; apply part_vlin.
    + intros; apply part_vlin. }
Qed.
Lemma assignments_names L d f : map fst (assignments L d f) = map fst L.
Proof. unfold assignments. rewrite map_map. reflexivity. Qed.

Lemma scan_reads_conv {X} (pick : quantity X -> option (res (list R))) ql : 
  Forall (fun q => forall e, pick q <> Some (Err e)) ql -> forall arr,
  scan (picked pick) arr ql =
  reads (map (fun q => (match pick q with Some (Ok x) => Some x | _ => None end, rng (q_array q))) ql) arr.
Proof.
  induction ql as [|q ql IH]; intros F arr; [reflexivity|]. inversion F as [|? ? F1 F2]; subst.
  unfold reads; cbn [map scan fst snd rng]. unfold picked at 1.
  destruct (pick q) as [[x|e]|]; [|exfalso; apply (F1 e); reflexivity|]; cbn [bind].
  - destruct (copy_into _ _ x arr); cbn [bind]; [apply IH, F2|reflexivity].
  - apply IH, F2.
Qed.

(** Reading stage outputs succeeds when they are there, with the given values. *)
Lemma read_output_conv x upd : length upd = time_integration_array_size md ->
  (forall q, In q (time_integration_quantities md) -> local (q_array q) = true ->
     exists n, out_name q = Ok n /\ get n x = Ok (part (q_array q) upd)) ->
  om_vector_to_output_state md x (vzeros (time_integration_array_size md)) = Ok upd.
Proof.
  intros Lu H.
  pose (pk := fun q : quantity ti_translation => if local (q_array q) then
     Some (let* n := out_name q in get n x) else None).
  assert (E : forall l p, scan (fun arr q =>
    let a := q_array q in
    if local a then
      let* n := output_name (stage_output_var (q_translation q)) in
      let* x := get n x in
      copy_into (start_index a) (end_index a) x arr
    else Ok arr) p l = scan (picked pk) p l).
  { intros l p. apply scan_ext. intros arr q. unfold picked, pk. cbn zeta. destruct (local (q_array q)); [|reflexivity].
    rewrite bind_assoc. reflexivity. }
  assert (PK : forall q, In q (time_integration_quantities md) -> pk q =
    if local (q_array q) then Some (Ok (part (q_array q) upd)) else None).
  { intros q I. unfold pk. destruct (local (q_array q)) eqn:El; [|reflexivity].
    destruct (H q I El) as (n & -> & G). cbn. now rewrite G. }
  pose proof (laid_out_lay _ _ _ Lt) as Y. rewrite map_map in Y.
  assert (X : exists u, scan (picked pk) (vzeros (time_integration_array_size md)) (time_integration_quantities md) = Ok u).
  { rewrite scan_reads_conv.
    - apply (reads_ok _ 0 (time_integration_array_size md)).
      + rewrite map_map. exact Y.
      + rewrite length_vzeros; lia.
      + rewrite Forall_map. apply Forall_forall. intros q I. cbn [fst snd]. rewrite (PK q I).
        destruct (local (q_array q)); [|exact Logic.I]. cbn [rng fst snd].
        rewrite (part_length _ _ Lt q upd I Lu). symmetry. apply (q_size _ _ Lt q I).
    - apply Forall_forall. intros q I e. rewrite (PK q I). destruct (local (q_array q)); discriminate. }
  destruct X as (u & Eu). unfold om_vector_to_output_state. rewrite E, Eu. f_equal.
  assert (Ru : om_vector_to_output_state md x (vzeros (time_integration_array_size md)) = Ok u)
    by (unfold om_vector_to_output_state; rewrite E; exact Eu).
  destruct (read_output md Lt _ _ Ru) as (L1 & P1).
  apply (cuts_eq (map (fun q => rng (q_array q)) (time_integration_quantities md)) 0
           (time_integration_array_size md) u upd Y L1 Lu).
  intros r I. apply in_map_iff in I as (q & <- & I). specialize (P1 q I).
  change (part (q_array q) u = part (q_array q) upd).
  destruct (local (q_array q)) eqn:El.
  - destruct P1 as (n & En & G). destruct (H q I El) as (n' & En' & G'). congruence.
  - rewrite !(nonlocal_part _ _ _ _ _ _ _ Hmd Hr) by assumption. reflexivity.
Qed.

Lemma lin_in_sized al x be y : sized_in md x -> sized_in md y -> sized_in md (lin_in al x be y).
Proof. intros (A & B & C) (D & E & F). split; [|split]; apply vlin_length; assumption. Qed.

Lemma c39_linear : keeps_layout pb -> solves_linear pb -> well_formed st -> scalar_time pb md st ->
  ode_linear (openmdao_ode pb md st norm).
Proof.
  intros (K1 & K2 & K3) Lin (W1 & W2) Sc lp h a al x be y rx ry _ _ Hx Hy.
  apply derivative_call in Hx as (Zx & sx & Hx). apply derivative_call in Hy as (Zy & sy & Hy).
  pose proof (lin_in_sized al x be y Zx Zy) as (Z1 & Z2 & Z3).
  apply derivative_inv_state in Hx as (st1 & vx & S & Ax & Bx & Cx & Ex1 & Ex2 & _).
  apply derivative_inv_state in Hy as (st1' & vy & S' & Ay & By & Cy & Ey1 & Ey2 & _).
  rewrite S in S'. injection S' as <-.
  pose proof (set_layout _ _ _ S) as (L1 & L2 & L3 & L4).
  assert (Sz : scalar pb md (zeroed (om_dres st1))).
  { rewrite L4. eapply scalar_layout; [|exact Sc]. rewrite zeroed_layout. exact W2. }
  destruct (input_writes pb md Lt Li _ _ _ _ Sz Zx Ax) as (L & R & Wx).
  destruct (input_writes pb md Lt Li _ _ _ _ Sz Zy Ay) as (L' & R' & Wy).
  rewrite <- (resolved_unique _ _ _ _ R R') in Wy. clear L' R'.
  pose proof (put_input_layout _ _ _ _ _ _ Ax) as Lx. pose proof (put_input_layout _ _ _ _ _ _ Ay) as Ly.
  rewrite zeroed_layout in Lx, Ly.
  assert (Qx : layout vx = layout (om_out st1)) by congruence.
  assert (Qy : layout vy = layout (om_out st1)) by congruence.
  destruct (Lin _ _ _ _ _ _ _ _ _ _ _ al be Qx Qy Bx By) as (r' & B).
  pose proof (K2 _ _ _ _ _ _ _ _ Bx) as (Bx1 & Bx2). pose proof (K2 _ _ _ _ _ _ _ _ By) as (By1 & By2).
  cbn [compute_update_derivative openmdao_ode]. rewrite Z1, Z2, Z3, !Nat.eqb_refl. cbn [andb].
  unfold om_derivative. rewrite S. cbn [bind].
  rewrite (input_writes_conv pb md Lt Li _ _ _ L Sz (lin_in_sized al x be y Zx Zy) R).
  rewrite assignments_lin by exact R.
  assert (W : writes (map2 (fun p q => (fst p, vlin al (snd p) be (snd q))) (assignments L x (nopp n1))
       (assignments L y (nopp n1))) (zeroed (om_dres st1)) = Ok (vec_lin al vx be vy)).
  { rewrite <- (zeroed_lin al _ be). apply writes_lin; auto. now rewrite !assignments_names. }
  rewrite W. cbn [bind]. rewrite B. cbn [bind].
  rewrite Z1. rewrite (proj1 Zx) in Cx, Ex1. rewrite (proj1 Zy) in Cy, Ey1.
  destruct (read_output md Lt _ _ Cx) as (Ux & Px). destruct (read_output md Lt _ _ Cy) as (Uy & Py).
  rewrite (read_output_conv _ (vlin al (stage_update rx) be (stage_update ry))).
  - cbn [bind]. unfold lin_out. rewrite Ex1, Ex2, Ey1, Ey2. rewrite vlin_zeros. reflexivity.
  - apply vlin_length; assumption.
  - intros q I El. specialize (Px q I). specialize (Py q I). rewrite El in Px, Py.
    destruct Px as (n & En & Gx). destruct Py as (n' & En' & Gy). assert (n' = n) by congruence; subst n'.
    exists n. split; [exact En|]. rewrite part_vlin. apply vec_lin_get; [congruence|assumption|assumption].
Qed.

(** *** Derivatives *)
Lemma look_get n i (v : vec R) x : get n v = Ok x -> look n i v = nth i x 0.
Proof. unfold look. now intros ->. Qed.

Definition in_curve (I : R -> ode_in R) (d : ode_in R) : Prop :=
  curve (fun e => M_ODE.step_input (I e)) (M_ODE.step_input d) /\
  curve (fun e => stage_input (I e)) (stage_input d) /\
  curve (fun e => independent_input (I e)) (independent_input d) /\
  derivable_pt_lim (fun e => time (I e)) 0 (time d).

Lemma nth_firstn_lt {A} (d : A) n i l : (i < n)%nat -> nth i (firstn n l) d = nth i l d.
Proof. revert i l; induction n as [|n IH]; intros [|i] [|x l] H; cbn; try lia; auto. apply IH; lia. Qed.
Lemma nth_skipn {A} (d : A) n i l : nth i (skipn n l) d = nth (n + i) l d.
Proof. revert l; induction n as [|n IH]; intros [|x l]; cbn; auto. destruct i; reflexivity. Qed.
Lemma vnth_part a i l : vnth i (part a l) =
  if (i <? end_index a - start_index a)%nat then vnth (start_index a + i) l else 0.
Proof.
  unfold part, vnth. destruct (i <? _)%nat eqn:E.
  - apply Nat.ltb_lt in E. rewrite nth_firstn_lt by assumption. apply nth_skipn.
  - apply Nat.ltb_ge in E. apply nth_overflow. rewrite firstn_length. lia.
Qed.
Lemma derivable_ext f g l : (forall e, f e = g e) -> derivable_pt_lim f 0 l -> derivable_pt_lim g 0 l.
Proof.
  intros E H eps He. destruct (H eps He) as (d & Hd). exists d. intros k Hk1 Hk2. rewrite <- !E. auto.
Qed.
Lemma derivable_near del f g l : 0 < del -> (forall e, Rabs e < del -> f e = g e) ->
  derivable_pt_lim f 0 l -> derivable_pt_lim g 0 l.
Proof.
  intros D E H eps He. destruct (H eps He) as (d & Hd).
  assert (P : 0 < Rmin d del) by (apply Rmin_pos; [apply cond_pos|exact D]).
  exists (mkposreal _ P). intros k Hk1 Hk2. cbn in Hk2.
  assert (Rabs k < d) by (eapply Rlt_le_trans; [exact Hk2|apply Rmin_l]).
  assert (Rabs k < del) by (eapply Rlt_le_trans; [exact Hk2|apply Rmin_r]).
  rewrite <- !E; [auto|rewrite Rabs_R0; exact D|rewrite Rplus_0_l; assumption].
Qed.

Lemma part_curve a (Y : R -> list R) d : curve Y d -> curve (fun e => part a (Y e)) (part a d).
Proof.
  intros C i. rewrite vnth_part. destruct (i <? _)%nat eqn:E.
  - eapply derivable_ext; [|apply (C (start_index a + i)%nat)]. intros e. cbn. rewrite vnth_part, E. reflexivity.
  - eapply derivable_ext; [|apply derivable_pt_lim_const with (a := 0)]. intros e. cbn. rewrite vnth_part, E. reflexivity.
Qed.

Lemma sels_curve L I d : resolved pb md L -> in_curve I d ->
  Forall (fun p => curve (fun e => snd p (I e)) (snd p d)) L.
Proof.
  intros R (C1 & C2 & C3 & C4). apply (resolved_forall (fun g => curve (fun e => g (I e)) (g d)) L R).
  apply (sels_forall (fun g => curve (fun e => g (I e)) (g d))).
  - intros [|i]; cbn; [exact C4|]. destruct i; apply derivable_pt_lim_const.
  - intros q _. apply part_curve, C1.
  - intros q _. apply part_curve, C2.
  - intros q _. apply part_curve, C3.
Qed.

Lemma layout_neg (r : vec R) : layout (map (fun p => (fst p, map Ropp (snd p))) r) = layout r.
Proof. unfold layout. rewrite map_map. apply map_ext. intros [n x]; cbn. now rewrite map_length. Qed.
Lemma look_neg n i (r : vec R) : look n i (map (fun p => (fst p, map Ropp (snd p))) r) = - look n i r.
Proof.
  unfold look. induction r as [|[k x] r IH]; cbn; [ring|]. destruct (String.eqb n k); [|exact IH].
  rewrite <- Ropp_0 at 1. apply map_nth.
Qed.
Lemma look_zeroed n i (v : vec R) : look n i (zeroed v) = 0.
Proof.
  unfold look. destruct (get n (zeroed v)) as [x|] eqn:G; [|reflexivity].
  apply zeroed_get in G as (y & _ & ->). revert i. induction y as [|a y IH]; intros [|i]; cbn; auto. ring.
Qed.

Lemma writes_look L d f v v' n i : NoDup (map fst L) -> writes (assignments L d f) v = Ok v' ->
  (exists g, In (n, g) L /\ look n i v' = f * vnth i (g d)) \/ (~ In n (map fst L) /\ look n i v' = look n i v).
Proof.
  intros ND W. apply writes_inv in W as (_ & A & B & _). rewrite assignments_names in *.
  destruct (in_dec string_dec n (map fst L)) as [I|I].
  - left. apply in_map_iff in I as ([n' g] & <- & I). exists g. split; [exact I|]. cbn [fst].
    rewrite (look_get _ _ _ (vscale f (g d))).
    + apply (vnth_vscale f (g d) i).
    + apply A; [exact ND|]. unfold assignments. apply in_map_iff. exists (n', g). auto.
  - right. split; [exact I|]. unfold look. now rewrite B.
Qed.
Lemma nodup_fun {A} (L : list (string * A)) n g g' : NoDup (map fst L) -> In (n, g) L -> In (n, g') L -> g = g'.
Proof.
  induction L as [|[k x] L IH]; cbn; intros ND A1 B1; [contradiction|]. inversion ND; subst.
  destruct A1 as [A1|A1], B1 as [B1|B1].
  - congruence.
  - injection A1 as -> ->. exfalso; apply H1. apply (in_map fst _ _ B1).
  - injection B1 as -> ->. exfalso; apply H1. apply (in_map fst _ _ A1).
  - auto.
Qed.

Lemma c39_differentiable : keeps_layout pb -> problem_differentiable (source_names pb md) pb -> well_formed st ->
  distinct_sources pb md -> scalar_time pb md st ->
  ode_differentiable (openmdao_ode pb md st norm).
Proof.
  intros (K1 & K2 & K3) Diff (W1 & W2) Ds Sc del h a I d r lp dr Hdel SI Sd HI C1 C2 C3 C4 Hd.
  assert (H0 : Rabs 0 < del) by (rewrite Rabs_R0; exact Hdel).
  (* the calls *)
  assert (U : forall e, Rabs e < del -> exists st', om_compute_update pb md st (I e) h a = Ok (st', (r e, lp e))).
  { intros e He. specialize (HI e He). apply update_call in HI as (_ & H). exact H. }
  pose (V := fun e => match input_state_to_om_vector pb md (I e) n1 (om_out st) with Ok v => v | Err _ => [] end).
  pose (i1 := fun e => match p_nonlinear pb h a (om_in st) (V e) with Ok (i, _) => i | Err _ => [] end).
  pose (o1 := fun e => match p_nonlinear pb h a (om_in st) (V e) with Ok (_, o) => o | Err _ => [] end).
  assert (U' : forall e, Rabs e < del ->
    input_state_to_om_vector pb md (I e) n1 (om_out st) = Ok (V e) /\
    p_nonlinear pb h a (om_in st) (V e) = Ok (i1 e, o1 e) /\
    om_vector_to_output_state md (o1 e) (vzeros (time_integration_array_size md)) = Ok (stage_update (r e)) /\
    stage_state (r e) = vzeros (time_integration_array_size md) /\ independent_output (r e) = [] /\
    lp e = flat (i1 e) ++ flat (o1 e)).
  { intros e He. destruct (U e He) as (st' & E). apply update_inv_state in E as (v & A & B & C & D & F & G & _).
    rewrite (proj1 (SI e He)) in C, D. cbn [state_size openmdao_ode] in C, D.
    assert (EV : V e = v) by (unfold V; now rewrite A). rewrite EV.
    assert (Ei : i1 e = om_in st') by (unfold i1; rewrite EV, B; reflexivity).
    assert (Eo : o1 e = om_out st') by (unfold o1; rewrite EV, B; reflexivity).
    rewrite Ei, Eo. repeat split; auto. }
  apply derivative_call in Hd as (Zd & st2 & Hd).
  apply derivative_inv_state in Hd as (st1 & rr & S & A & B & C & E1 & E2 & _).
  rewrite (proj1 Zd) in C, E1.
  destruct (U' 0 H0) as (V0 & N0 & _ & _ & _ & Elp).
  pose proof (put_input_layout _ _ _ _ _ _ V0) as LV0. pose proof (K1 _ _ _ _ _ _ N0) as (Li1 & Lo1).
  rewrite Elp in S.
  assert (S0 : set_linearization_point (flat (i1 0) ++ flat (o1 0)) st
    = Ok {| om_in := i1 0; om_out := o1 0; om_dout := om_dout st; om_dres := om_dres st |}).
  { apply (restore {| om_in := i1 0; om_out := o1 0; om_dout := om_dout st; om_dres := om_dres st |} st); cbn [om_in om_out]; [exact (eq_sym Li1) || exact Li1 | congruence]. }
  rewrite S0 in S. injection S as <-. cbn [om_in om_out om_dout om_dres] in *.
  assert (Sz : scalar pb md (zeroed (om_dres st))).
  { eapply scalar_layout; [|exact Sc]. rewrite zeroed_layout. exact W2. }
  assert (Szo : scalar pb md (om_out st)) by exact Sc.
  destruct (input_writes pb md Lt Li _ _ _ _ Sz Zd A) as (L & R & Wd).
  pose proof (resolved_nodup _ _ _ R Ds) as ND.
  pose proof (put_input_layout _ _ _ _ _ _ A) as Lr. rewrite zeroed_layout in Lr.
  assert (WV : forall e, Rabs e < del -> writes (assignments L (I e) 1) (om_out st) = Ok (V e)).
  { intros e He. destruct (U' e He) as (E & _). rewrite <- E. symmetry.
    apply (input_writes_conv pb md Lt Li); auto. apply SI, He. }
  assert (IC : in_curve I d) by (repeat split; assumption).
  pose proof (sels_curve L I d R IC) as SC. rewrite Forall_forall in SC.
  cbn [nopp n1 RNum] in *.
  assert (VC : vec_curve V (map (fun p => (fst p, map Ropp (snd p))) rr)).
  { intros n i. rewrite look_neg.
    destruct (writes_look L d (-1) _ _ n i ND Wd) as [(g & Ig & Eg)|(NI & Eg)].
    - rewrite Eg. replace (- (-1 * vnth i (g d))) with (vnth i (g d)) by ring.
      apply (derivable_near del (fun e => vnth i (g (I e))) _ _ Hdel); [|apply (SC _ Ig i)].
      intros e He. destruct (writes_look L (I e) 1 _ _ n i ND (WV e He)) as [(g' & Ig' & Eg')|(NI' & _)].
      + rewrite Eg', (nodup_fun _ _ _ _ ND Ig Ig'). ring.
      + exfalso; apply NI'. apply (in_map fst _ _ Ig).
    - rewrite Eg, look_zeroed, Ropp_0.
      apply (derivable_near del (fun e => look n i (om_out st)) _ _ Hdel); [|apply derivable_pt_lim_const].
      intros e He. destruct (writes_look L (I e) 1 _ _ n i ND (WV e He)) as [(g' & Ig' & _)|(NI' & ->)]; [|reflexivity].
      exfalso; apply NI. apply (in_map fst _ _ Ig'). }
  assert (OC : vec_curve o1 (om_dout st2)).
  { apply (Diff del h a (om_in st) V rr i1 o1 (om_dout st) (om_dout st2) (om_dres st2)); auto.
    - intros e He. destruct (U' e He) as (E & _). apply put_input_layout in E. congruence.
    - congruence.
    - intros n k NI. rewrite <- (resolved_names _ _ _ R) in NI.
      destruct (writes_look L d (-1) _ _ n k ND Wd) as [(g & Ig & _)|(_ & ->)]; [|apply look_zeroed].
      exfalso; apply NI. apply (in_map fst _ _ Ig).
    - intros e He. apply U', He. }
  destruct (read_output md Lt _ _ C) as (Lu & P).
  split; [|split].
  - assert (Z : forall m, (time_integration_array_size md <= m)%nat ->
      derivable_pt_lim (fun e => vnth m (stage_update (r e))) 0 (vnth m (stage_update dr))).
    { intros m Hm. replace (vnth m (stage_update dr)) with 0 by (unfold vnth; rewrite nth_overflow; [reflexivity|lia]).
      apply (derivable_near del (fun e => 0) _ _ Hdel); [|apply derivable_pt_lim_const].
      intros e He. destruct (U' e He) as (_ & _ & Re & _). destruct (read_output md Lt _ _ Re) as (Le & _).
      unfold vnth. rewrite nth_overflow; [reflexivity|lia]. }
    intros m. destruct (le_lt_dec (time_integration_array_size md) m) as [Hm|Hm]; [apply Z, Hm|].
    (* the quantity holding position m *)
    assert (F : exists q, In q (time_integration_quantities md) /\
       (start_index (q_array q) <= m < end_index (q_array q))%nat).
    { destruct (c24_fills _ _ _ _ _ _ _ Hmd Hr) as ((F & _) & _).
      destruct (F m Hm) as (j & aa & Ej & Ha). rewrite nth_error_map in Ej.
      destruct (nth_error (time_integration_quantities md) j) as [q|] eqn:Eq; [|discriminate].
      injection Ej as <-. exists q. split; [eapply nth_error_In; eauto|exact Ha]. }
    destruct F as (q & Iq & Hq).
    assert (El : local (q_array q) = true).
    { destruct (local (q_array q)) eqn:El; [reflexivity|exfalso].
      pose proof (part_length _ _ Lt q (stage_update dr) Iq Lu) as PL.
      rewrite (nonlocal_part _ _ _ _ _ _ _ Hmd Hr q _ Iq El) in PL. cbn [length] in PL.
      pose proof (q_size _ _ Lt q Iq). lia. }
    pose (i := (m - start_index (q_array q))%nat).
    assert (Epart : forall u, vnth m u = vnth i (part (q_array q) u)).
    { intros u. rewrite vnth_part. unfold i. destruct (_ <? _)%nat eqn:E; [f_equal; lia|].
      apply Nat.ltb_ge in E. lia. }
    rewrite Epart. pose proof (P q Iq) as Pq. rewrite El in Pq. destruct Pq as (n & En & G).
    assert (OCn := OC n i). rewrite (look_get _ _ _ _ G) in OCn.
    eapply (derivable_near del); [exact Hdel| |exact OCn].
    intros e He. rewrite Epart. destruct (U' e He) as (_ & _ & Re & _).
    destruct (read_output md Lt _ _ Re) as (_ & Pe). specialize (Pe q Iq). rewrite El in Pe.
    destruct Pe as (n' & En' & G'). assert (n' = n) by congruence; subst n'.
    rewrite (look_get _ _ _ _ G'). reflexivity.
  - intros m. rewrite E1, vnth_vzeros.
    apply (derivable_near del (fun e => 0) _ _ Hdel); [|apply derivable_pt_lim_const].
    intros e He. destruct (U' e He) as (_ & _ & _ & -> & _). now rewrite vnth_vzeros.
  - intros m. rewrite E2. replace (vnth m []) with 0 by (destruct m; reflexivity).
    apply (derivable_near del (fun e => 0) _ _ Hdel); [|apply derivable_pt_lim_const].
    intros e He. destruct (U' e He) as (_ & _ & _ & _ & -> & _). destruct m; reflexivity.
Qed.
End More.
