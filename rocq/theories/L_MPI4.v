(** Lemmas: the norm over several processes. *)
From Coq Require Import String.
From Coq Require Import List Bool Arith Lia Reals Lra QArith Qreals.
From Verif Require Import Base Ext M_Tableau M_State M_ODE M_Metadata M_MPI SpecMetadata SpecMPI
  L_Metadata L_Metadata2 L_Metadata3 L_MPI L_MPI3.
Import ListNotations.
Local Open Scope list_scope.
Local Open Scope R_scope.

(** *** Sums and maxima *)

Section Combine.
Variable ord : order R.

Definition red (x y : R) : R := match ord with OrdInf => Rmax x y | _ => x + y end.
Definition big (l : list R) : R := fold_right red 0 l.
Arguments big l : simpl never.
Lemma big_cons x l : big (x :: l) = red x (big l).
Proof. reflexivity. Qed.

Lemma red_comm x y : red x y = red y x.
Proof. unfold red; destruct ord; [apply Rmax_comm|apply Rplus_comm..]. Qed.
Lemma red_assoc x y z : red (red x y) z = red x (red y z).
Proof. unfold red; destruct ord; [rewrite Rmax_assoc; reflexivity|ring..]. Qed.
Lemma red_0 x : 0 <= x -> red 0 x = x.
Proof. unfold red; destruct ord; intros; [apply Rmax_right; assumption|ring..]. Qed.
Lemma red_pos x y : 0 <= x -> 0 <= y -> 0 <= red x y.
Proof. unfold red; destruct ord; intros; [|lra..]. apply Rle_trans with x; [assumption|apply Rmax_l]. Qed.
Lemma big_pos l : Forall (fun x => 0 <= x) l -> 0 <= big l.
Proof. induction 1; [cbv; lra|rewrite big_cons; apply red_pos; assumption]. Qed.
Lemma big_app l l' : Forall (fun x => 0 <= x) l' -> big (l ++ l') = red (big l) (big l').
Proof.
  intros F; induction l as [|x l IH]; cbn [app]; [symmetry; apply red_0, big_pos, F|].
  rewrite !big_cons, IH, red_assoc; reflexivity.
Qed.
Lemma add_is_red x y : positive ord -> add_to_intermediate ord x y = red x y.
Proof.
  unfold positive, add_to_intermediate, red; destruct ord; intros P; [|contradiction|reflexivity].
  unfold pymax; cbn; unfold Rltb, Rmax; destruct (Rlt_dec x y), (Rle_dec x y); try lra; reflexivity.
Qed.
Lemma fold_left_big l : positive ord -> forall x, 0 <= x -> Forall (fun x => 0 <= x) l -> fold_left (add_to_intermediate ord) l x = red x (big l).
Proof.
  intros P; induction l as [|y l IH]; intros x Hx F; cbn [fold_left]; [rewrite red_comm; symmetry; apply red_0, Hx|].
  inversion F; subst; rewrite IH by (try assumption; rewrite add_is_red by exact P; apply red_pos; assumption).
  rewrite big_cons, add_is_red, red_assoc by exact P; reflexivity.
Qed.
Lemma allreduce_big l : positive ord -> Forall (fun x => 0 <= x) l -> allreduce ord l = big l.
Proof. intros P; destruct l as [|x l]; intros F; cbn; [reflexivity|]; inversion F; subst; apply fold_left_big; assumption. Qed.

Lemma big_red {A} (f g : A -> R) l : (forall a, In a l -> 0 <= f a) -> (forall a, In a l -> 0 <= g a) ->
  big (map (fun a => red (f a) (g a)) l) = red (big (map f l)) (big (map g l)).
Proof.
  induction l as [|a l IH]; intros F G; cbn [map]; [symmetry; apply red_0; cbv; lra|].
  rewrite !big_cons, IH by (intros; auto with datatypes).
  rewrite !red_assoc; f_equal; rewrite <- !red_assoc; f_equal; apply red_comm.
Qed.
Lemma big_zero {A} (l : list A) : big (map (fun _ => 0) l) = 0.
Proof. induction l; cbn [map]; [reflexivity|rewrite big_cons, IHl, red_0; lra]. Qed.
Lemma big_swap {A B} (f : A -> B -> R) la : forall lb, (forall a b, In a la -> In b lb -> 0 <= f a b) ->
  big (map (fun a => big (map (f a) lb)) la) = big (map (fun b => big (map (fun a => f a b) la)) lb).
Proof.
  induction la as [|a la IH]; intros lb F; cbn [map].
  - symmetry; apply big_zero.
  - rewrite big_cons, IH by (intros; apply F; auto with datatypes).
    symmetry; apply (big_red (f a) (fun b => big (map (fun a => f a b) la))).
    + intros b Ib; apply F; auto with datatypes.
    + intros b Ib; apply big_pos; rewrite Forall_map; apply Forall_forall; intros a' Ia; apply F; auto with datatypes.
Qed.
Lemma big_ext {A} (f g : A -> R) l : (forall a, In a l -> f a = g a) -> big (map f l) = big (map g l).
Proof. intros H; f_equal; apply map_ext_in, H. Qed.
Lemma map_pos {A} (f : A -> R) l : (forall a, In a l -> 0 <= f a) -> Forall (fun x => 0 <= x) (map f l).
Proof. intros H; rewrite Forall_map; apply Forall_forall; exact H. Qed.

(** What a vector contributes. *)
Definition term (y : R) : R :=
  match ord with
  | Ord p => if Reqb p 0 then (if Reqb y 0 then 0 else 1) else rpow (Rabs y) p
  | _ => Rabs y
  end.
Definition g (x : list R) : R := big (map term x).

Lemma rpow_pos x p : 0 <= rpow x p.
Proof. unfold rpow; destruct (Req_EM_T x 0); [lra|left; apply exp_pos]. Qed.
Lemma term_pos y : 0 <= term y.
Proof. unfold term; destruct ord; try apply Rabs_pos; destruct (Reqb p 0), (Reqb y 0); try lra; apply rpow_pos. Qed.
Lemma g_pos x : 0 <= g x.
Proof. apply big_pos, map_pos; intros; apply term_pos. Qed.
Lemma g_app x y : g (x ++ y) = red (g x) (g y).
Proof. unfold g; rewrite map_app; apply big_app, map_pos; intros; apply term_pos. Qed.
Lemma g_concat ls : g (concat ls) = big (map g ls).
Proof. induction ls as [|x ls IH]; cbn [concat map]; [reflexivity|rewrite g_app, IH; reflexivity]. Qed.
End Combine.

(** *** The norm of one vector *)
Lemma power_rpow x e : power x e = rpow x e.
Proof. unfold power, rpow; cbn; unfold Reqb; destruct (Req_EM_T x 0); reflexivity. Qed.
Lemma rpow_inv x p : 0 <= x -> 0 < p -> rpow (rpow x (1 / p)) p = x.
Proof.
  intros Hx Hp; unfold rpow at 2; destruct (Req_EM_T x 0) as [->|Nx]; [unfold rpow; destruct (Req_EM_T 0 0); lra|].
  unfold rpow; destruct (Req_EM_T (Rpower x (1 / p)) 0) as [E|_]; [unfold Rpower in E; pose proof (exp_pos (1/p * ln x)); lra|].
  rewrite Rpower_mult; replace (1 / p * p) with 1 by (field; lra); apply Rpower_1; lra.
Qed.
Lemma rpow_1 x : 0 <= x -> rpow x 1 = x.
Proof. intros H; unfold rpow; destruct (Req_EM_T x 0); [auto|apply Rpower_1; lra]. Qed.
Lemma rpow_2 x : rpow (Rabs x) 2 = x * x.
Proof.
  unfold rpow; destruct (Req_EM_T (Rabs x) 0) as [E|E].
  - destruct (Req_dec x 0) as [->|Nx]; [lra|apply Rabs_no_R0 in Nx; contradiction].
  - replace 2 with (INR 2) by (cbn; lra); rewrite Rpower_pow by (pose proof (Rabs_pos x); lra).
    cbn; rewrite Rmult_1_r, <- Rabs_mult, Rabs_pos_eq; [reflexivity|apply Rle_0_sqr].
Qed.

Lemma vsum_rsum (l : list R) : vsum l = rsum l.
Proof.
  unfold vsum, rsum; rewrite <- fold_symmetric; [reflexivity|..]; cbn; intros; ring.
Qed.
Lemma nabs_Rabs x : nabs x = Rabs x.
Proof. unfold nabs; cbn; unfold Rltb, Rabs; destruct (Rlt_dec x 0), (Rcase_abs x); lra. Qed.

Lemma rsum_big p l : rsum l = big (Ord p) l.
Proof. reflexivity. Qed.

Lemma rsum_pos l : Forall (fun x => 0 <= x) l -> 0 <= rsum l.
Proof. induction 1; cbn; [lra|]. unfold rsum in *; cbn in *; lra. Qed.

(** What a slice adds to the intermediate value. *)
Lemma fold_pymax l : forall x, 0 <= x -> fold_left pymax l x = Rmax x (fold_right Rmax 0 l).
Proof.
  assert (E : forall a b, pymax a b = Rmax a b).
  { intros a b; unfold pymax; cbn; unfold Rltb, Rmax; destruct (Rlt_dec a b), (Rle_dec a b); try lra; reflexivity. }
  induction l as [|y l IH]; intros x Hx; cbn; [rewrite Rmax_left; auto|].
  rewrite IH by (rewrite E; apply Rle_trans with x; [exact Hx|apply Rmax_l]).
  rewrite E, Rmax_assoc; reflexivity.
Qed.

Lemma np_norm_g ord x : positive ord -> (ord = OrdInf -> x <> []) ->
  exists n, np_norm ord x = Ok n /\ power n (exponent ord) = g ord x.
Proof.
  unfold g; intros P Ne; destruct ord as [| |p]; cbn [np_norm exponent].
  - destruct x as [|a x]; [destruct (Ne eq_refl eq_refl)|]; cbn [map].
    eexists; split; [reflexivity|].
    change (@n1 R RNum) with 1; rewrite power_rpow, rpow_1; rewrite nabs_Rabs, fold_pymax by apply Rabs_pos.
    + cbn; f_equal; induction x as [|b x IH]; cbn; [reflexivity|]; rewrite IH by (intros; discriminate); unfold red; f_equal; apply nabs_Rabs.
    + apply Rle_trans with (Rabs a); [apply Rabs_pos|apply Rmax_l].
  - contradiction.
  - cbn in P; cbn [neqb RNum n0 n1].
    destruct (Req_EM_T p 0) as [->|Np].
    + assert (E0 : Reqb 0 0 = true) by (unfold Reqb; destruct (Req_EM_T 0 0); [reflexivity|lra]); rewrite E0.
      eexists; split; [reflexivity|].
      rewrite power_rpow; unfold count_nonzero; rewrite vsum_rsum, rpow_1.
      * rewrite (rsum_big 0); f_equal; apply map_ext; intros y; cbn; unfold Reqb.
        destruct (Req_EM_T 0 0); [|lra]; reflexivity.
      * apply rsum_pos, map_pos; intros y _; cbn; destruct (Reqb y 0); lra.
    + assert (E0 : Reqb p 0 = false) by (unfold Reqb; destruct (Req_EM_T p 0); [contradiction|reflexivity]); rewrite E0.
      assert (Hp : 0 < p) by lra.
      assert (Tm : forall y, term (Ord p) y = rpow (Rabs y) p).
      { intros y; unfold term, Reqb; destruct (Req_EM_T p 0); [contradiction|reflexivity]. }
      assert (Hs : 0 <= rsum (map (fun y => rpow (Rabs y) p) x)) by (apply rsum_pos, map_pos; intros; apply rpow_pos).
      rewrite (map_ext _ _ Tm), <- rsum_big.
      unfold Reqb at 1; destruct (Req_EM_T p 1) as [->|N1]; [|unfold Reqb at 1; destruct (Req_EM_T p (nlit 2)) as [E2|N2]].
      * eexists; split; [reflexivity|]; rewrite power_rpow, vsum_rsum.
        assert (E : map nabs x = map (fun y => rpow (Rabs y) 1) x).
        { apply map_ext; intros y; rewrite nabs_Rabs, rpow_1 by apply Rabs_pos; reflexivity. }
        rewrite E, rpow_1; [reflexivity|exact Hs].
      * eexists; split; [reflexivity|].
        assert (p = 2) as -> by (rewrite E2; cbn; unfold Q2R; cbn; lra).
        rewrite !power_rpow, vsum_rsum.
        assert (E : map (fun y => nmul y y) x = map (fun y => rpow (Rabs y) 2) x).
        { apply map_ext; intros y; rewrite rpow_2; reflexivity. }
        rewrite E; replace (nlit (1 # 2)) with (1 / 2) by (cbn; unfold Q2R; cbn; lra).
        apply rpow_inv; [exact Hs|lra].
      * eexists; split; [reflexivity|].
        rewrite !power_rpow, vsum_rsum.
        assert (E : map (fun y => power (nabs y) p) x = map (fun y => rpow (Rabs y) p) x).
        { apply map_ext; intros y; rewrite nabs_Rabs, power_rpow; reflexivity. }
        rewrite E; apply rpow_inv; assumption.
Qed.

(** The last step gives the norm. *)
Lemma eqb_refl x : Reqb x x = true.
Proof. unfold Reqb; destruct (Req_EM_T x x); [reflexivity|congruence]. Qed.
Lemma eqb_neq x y : x <> y -> Reqb x y = false.
Proof. unfold Reqb; destruct (Req_EM_T x y); [contradiction|reflexivity]. Qed.
Lemma big_max_spec (x : list R) : x <> [] -> In (fold_right Rmax 0 (map Rabs x)) (map Rabs x) /\
  (forall y, In y x -> Rabs y <= fold_right Rmax 0 (map Rabs x)).
Proof.
  intros Ne; split.
  - induction x as [|a x IH]; [congruence|]; cbn [map fold_right].
    destruct x as [|b x]; [left; cbn; symmetry; apply Rmax_left, Rabs_pos|].
    specialize (IH ltac:(discriminate)).
    unfold Rmax at 1; destruct (Rle_dec (Rabs a) (fold_right Rmax 0 (map Rabs (b :: x)))); [right; exact IH|left; reflexivity].
  - clear Ne; induction x as [|a x IH]; intros y []; cbn [map fold_right].
    + subst; apply Rmax_l.
    + apply Rle_trans with (2 := Rmax_r _ _); apply IH; assumption.
Qed.

Lemma finish_is_norm ord x : positive ord -> is_norm ord x (power (g ord x) (root_exponent ord)).
Proof.
  intros P; rewrite power_rpow; destruct ord as [| |p]; [|contradiction|].
  - cbn [root_exponent]; change (@n1 R RNum) with 1; rewrite rpow_1 by apply g_pos.
    cbn [is_norm]; destruct x as [|a x]; [left; split; reflexivity|right].
    change (g OrdInf (a :: x)) with (fold_right Rmax 0 (map Rabs (a :: x))); apply big_max_spec; discriminate.
  - cbn in P; cbn [root_exponent is_norm neqb RNum n0 n1]; destruct (Req_EM_T p 0) as [->|Np]; [rewrite eqb_refl|rewrite eqb_neq by exact Np].
    + left; split; [reflexivity|].
      rewrite rpow_1 by apply g_pos; unfold g.
      induction x as [|a x IH]; [reflexivity|]; cbn [map]; rewrite big_cons, IH; cbn [filter]; unfold term, Reqb.
      destruct (Req_EM_T 0 0); [|lra]; destruct (Req_EM_T a 0); cbn [negb red]; [ring|].
      cbn [length]; rewrite S_INR; ring.
    + right; split; [lra|].
      unfold g; rewrite (map_ext (term (Ord p)) (fun y => rpow (Rabs y) p)); [reflexivity|].
      intros y; unfold term, Reqb; destruct (Req_EM_T p 0); [contradiction|reflexivity].
Qed.

(** *** One process *)
Section Own.
Variable ord : order R.
Hypothesis Pos : positive ord.
Variable excl : list string.
Notation G := (g ord).
Notation big := (big ord).
Notation red := (red ord).

Definition dist_of (md : metadata) (j : nat) : bool :=
  match array_of j md with Some a => distributed a | None => false end.
Definition dpart (md : metadata) (s : list R) (j : nat) : R := if dist_of md j then G (portion j (md, s)) else 0.
Definition npart (md : metadata) (s : list R) (j : nat) : R := if dist_of md j then 0 else G (portion j (md, s)).

Lemma dpart_pos md s j : 0 <= dpart md s j.
Proof. unfold dpart; destruct (dist_of md j); [apply g_pos|lra]. Qed.
Lemma npart_pos md s j : 0 <= npart md s j.
Proof. unfold npart; destruct (dist_of md j); [lra|apply g_pos]. Qed.

Lemma own_scan md s l : forall k d n, (forall j, nth_error (time_integration_quantities md) (k + j) = nth_error l j) ->
  0 <= d -> 0 <= n ->
  (ord = OrdInf -> forall j q, nth_error l j = Some q -> mem (q_name q) excl = false -> portion (k + j) (md, s) <> []) ->
  let js := filter (fun j => match nth_error (time_integration_quantities md) j with
                   | Some q => negb (mem (q_name q) excl) | None => false end) (seq k (length l)) in
  scan (fun (dn : R * R) q =>
    if mem (q_name q) excl then Ok dn
    else
      let* x := partial_norm_intermediate ord s (q_array q) in
      if distributed (q_array q) then Ok (add_to_intermediate ord (fst dn) x, snd dn)
      else Ok (fst dn, add_to_intermediate ord (snd dn) x)) (d, n) l =
  Ok (red d (big (map (dpart md s) js)), red n (big (map (npart md s) js))).
Proof.
  induction l as [|q l IH]; intros k d n E Hd Hn Ne; cbn [length seq filter].
  - cbn [scan map]; f_equal; f_equal; rewrite red_comm; symmetry; apply red_0; assumption.
  - pose proof (E 0%nat) as E0; rewrite Nat.add_0_r in E0; cbn [nth_error] in E0; rewrite E0.
    assert (E' : forall j, nth_error (time_integration_quantities md) (Datatypes.S k + j) = nth_error l j).
    { intros j; specialize (E (Datatypes.S j)); rewrite Nat.add_succ_r in E; exact E. }
    assert (Ne' : ord = OrdInf -> forall j q, nth_error l j = Some q -> mem (q_name q) excl = false -> portion (Datatypes.S k + j) (md, s) <> []).
    { intros O j q' N M; specialize (Ne O (Datatypes.S j) q'); rewrite Nat.add_succ_r in Ne; exact (Ne N M). }
    cbn [scan]; destruct (mem (q_name q) excl) eqn:Mq; cbn [negb bind].
    + apply IH; assumption.
    + unfold partial_norm_intermediate.
      assert (Po : portion k (md, s) = slice (start_index (q_array q)) (end_index (q_array q)) s).
      { unfold portion; cbn [fst snd]; rewrite E0; reflexivity. }
      assert (Di : dist_of md k = distributed (q_array q)).
      { unfold dist_of, array_of; rewrite E0; reflexivity. }
      destruct (np_norm_g ord (portion k (md, s)) Pos) as (m & Em & Eg).
      { intros O; specialize (Ne O 0%nat q eq_refl Mq); rewrite Nat.add_0_r in Ne; exact Ne. }
      rewrite <- Po, Em; cbn [bind]; rewrite Eg; cbn [fst snd].
      cbn [map]; rewrite !big_cons.
      unfold dpart at 1, npart at 1; rewrite Di.
      destruct (distributed (q_array q)); cbn [bind].
      * rewrite (IH (Datatypes.S k)); try assumption; [|rewrite add_is_red by exact Pos; apply red_pos; [assumption|apply g_pos]].
        rewrite add_is_red, red_assoc by exact Pos; f_equal; f_equal; f_equal.
        symmetry; apply red_0, big_pos, map_pos; intros; apply npart_pos.
      * rewrite (IH (Datatypes.S k)); try assumption; [|rewrite add_is_red by exact Pos; apply red_pos; [assumption|apply g_pos]].
        rewrite add_is_red, red_assoc by exact Pos; f_equal; f_equal; f_equal.
        symmetry; apply red_0, big_pos, map_pos; intros; apply dpart_pos.
Qed.

Lemma own_ok md s : (ord = OrdInf -> no_gap excl (md, s)) ->
  own_intermediates ord excl md s = Ok (big (map (dpart md s) (included excl md)), big (map (npart md s) (included excl md))).
Proof.
  intros Ng; unfold own_intermediates.
  rewrite (own_scan md s _ 0 n0 n0); [|reflexivity|apply Rle_refl|apply Rle_refl|].
  - fold (included excl md); f_equal; f_equal; apply red_0, big_pos, map_pos; intros; [apply dpart_pos|apply npart_pos].
  - intros O j q Nq Mq; specialize (Ng O); unfold no_gap in Ng; rewrite Forall_forall in Ng.
    apply Ng; cbn [fst]; unfold included; apply filter_In; split; [|rewrite Nat.add_0_l, Nq, Mq; reflexivity].
    apply in_seq; split; [lia|]; cbn; apply nth_error_Some; rewrite Nq; discriminate.
Qed.
End Own.

(** *** All processes *)
Section All.
Variable ord : order R.
Hypothesis Pos : positive ord.
Variable excl : list string.
Variables (n : nat) (vs : list variable) (qs is : list string) (mds : list metadata).
Hypothesis M : metadata_of n vs qs is = Ok mds.
Hypothesis W : well_tagged vs qs.
Variable procs : list (metadata * list R).
Hypothesis Mp : map fst procs = mds.
Hypothesis Fit : fitting procs.

Lemma proc_md p : In p procs -> exists r, nth_error mds r = Some (fst p).
Proof.
  intros I; destruct (In_nth_error _ _ I) as (r & E); exists r; rewrite <- Mp, nth_error_map, E; reflexivity.
Qed.

Lemma same_included p p' : In p procs -> In p' procs -> included excl (fst p) = included excl (fst p').
Proof.
  intros I I'; destruct (proc_md p I) as (r & E), (proc_md p' I') as (r' & E').
  pose proof (same_length _ _ _ _ _ M _ _ _ _ E E') as L.
  unfold included; rewrite L; apply filter_ext; intros j.
  destruct (c24_same_names _ _ _ _ _ _ _ _ _ M E E') as [X _].
  apply (f_equal (fun l => nth_error l j)) in X; rewrite !nth_error_map in X.
  destruct (nth_error (time_integration_quantities (fst p)) j), (nth_error (time_integration_quantities (fst p')) j); cbn in X; congruence.
Qed.

Lemma same_dist p p' j : In p procs -> In p' procs -> dist_of (fst p) j = dist_of (fst p') j.
Proof.
  intros I I'; destruct (proc_md p I) as (r & E), (proc_md p' I') as (r' & E').
  pose proof (metadata_matching _ _ _ _ _ M W _ _ _ _ E E') as X.
  unfold dist_of, array_of.
  assert (L := Forall2_len _ _ _ X).
  destruct (nth_error (time_integration_quantities (fst p)) j) as [q|] eqn:Q.
  - destruct (nth_error (time_integration_quantities (fst p')) j) as [q'|] eqn:Q'; cbn.
    + exact (lk_dist _ _ _ _ (Forall2_nth2 _ _ _ X _ _ _ Q Q')).
    + apply nth_error_None in Q'; assert (j < length (time_integration_quantities (fst p)))%nat by (apply nth_error_Some; congruence); lia.
  - destruct (nth_error (time_integration_quantities (fst p')) j) as [q'|] eqn:Q'; [|reflexivity].
    apply nth_error_None in Q; assert (j < length (time_integration_quantities (fst p')))%nat by (apply nth_error_Some; congruence); lia.
Qed.

Lemma dist_spec p j a : In p procs -> array_of j (fst p) = Some a ->
  (distributed a = true <-> exists p' a', In p' procs /\ array_of j (fst p') = Some a' /\ shape a' <> global_shape a').
Proof.
  intros I A; destruct (proc_md p I) as (r & E).
  unfold array_of in *; destruct (nth_error (time_integration_quantities (fst p)) j) as [q|] eqn:Q; [|discriminate].
  injection A as <-; rewrite (c50_distributed _ _ _ _ _ _ _ _ _ M E Q); split.
  - intros (r' & md' & q' & E' & Q' & Ne).
    rewrite <- Mp, nth_error_map in E'; destruct (nth_error procs r') as [p'|] eqn:P'; [|discriminate].
    injection E' as <-; exists p', (q_array q'); split; [exact (nth_error_In _ _ P')|]; rewrite Q'; auto.
  - intros (p' & a' & I' & A' & Ne); destruct (proc_md p' I') as (r' & E').
    destruct (nth_error (time_integration_quantities (fst p')) j) as [q'|] eqn:Q'; [|discriminate].
    injection A' as <-; exists r', (fst p'), q'; auto.
Qed.

Lemma portion_length p j a : In p procs -> array_of j (fst p) = Some a -> length (portion j p) = prod (shape a).
Proof.
  intros I A; destruct (proc_md p I) as (r & E).
  unfold array_of, portion in *; destruct (nth_error (time_integration_quantities (fst p)) j) as [q|] eqn:Q; [|discriminate].
  injection A as <-.
  pose proof (range_bounds _ _ _ _ _ M _ _ _ _ E Q); pose proof (range_width _ _ _ _ _ M W _ _ _ _ E Q).
  unfold fitting in Fit; rewrite Forall_forall in Fit; specialize (Fit _ I).
  unfold slice; rewrite firstn_length, skipn_length; lia.
Qed.

Lemma concat_same_length {A} w (l : list (list A)) : (forall x, In x l -> length x = w) -> length (concat l) = (length l * w)%nat.
Proof.
  induction l as [|x l IH]; intros H; cbn; [reflexivity|].
  rewrite app_length, IH, H by (intros; auto with datatypes); reflexivity.
Qed.

Lemma quantity_once p j y : In p procs -> whole procs j y ->
  red ord (big ord (map (fun p' => dpart ord (fst p') (snd p') j) procs)) (npart ord (fst p) (snd p) j) = g ord y.
Proof.
  intros I [Wl Wr]; rewrite Forall_forall in Wl.
  destruct (Wl _ I) as (a & Aj & Ly).
  assert (Da : dist_of (fst p) j = distributed a) by (unfold dist_of; rewrite Aj; reflexivity).
  pose proof (dist_spec _ _ _ I Aj) as Sp.
  destruct (distributed a) eqn:D.
  - rewrite (big_ext ord _ (fun p' => g ord (portion j p'))).
    + unfold npart; rewrite Da, red_comm, red_0; [|apply big_pos, map_pos; intros; apply g_pos].
      destruct Wr as [Wr|<-]; [|rewrite g_concat, map_map; reflexivity].
      destruct (proj1 Sp eq_refl) as (p' & a' & I' & A' & Ne).
      rewrite Forall_forall in Wr; destruct (Wr _ I') as (_ & a2 & A2 & E2); congruence.
    + intros p' I'; unfold dpart; rewrite (same_dist _ _ _ I' I), Da; destruct p'; reflexivity.
  - rewrite (big_ext ord _ (fun _ => 0)), big_zero, red_0; [|apply npart_pos|].
    + unfold npart; rewrite Da; f_equal; destruct p as [md s]; cbn [fst snd].
      destruct Wr as [Wr|Wr]; [rewrite Forall_forall in Wr; exact (proj1 (Wr _ I))|].
      assert (Sh : forall p', In p' procs -> length (portion j p') = length y).
      { intros p' I'; destruct (Wl _ I') as (a' & A' & L'); rewrite (portion_length _ _ _ I' A'), L'.
        destruct (list_eq_dec Nat.eq_dec (shape a') (global_shape a')) as [->|Ne]; [reflexivity|].
        assert (false = true) by (apply Sp; exists p', a'; auto); discriminate. }
      assert (Lc : length y = (length procs * length y)%nat).
      { rewrite <- Wr at 1; rewrite (concat_same_length (length y)), map_length; [reflexivity|].
        intros x Ix; apply in_map_iff in Ix as (p' & <- & I'); apply Sh, I'. }
      destruct (Nat.eq_dec (length y) 0) as [Z|Z].
      * specialize (Sh _ I); rewrite Z in Sh; apply length_zero_iff_nil in Sh, Z; congruence.
      * destruct procs as [|p0 [|p1 l]]; [destruct I| |cbn in Lc; lia].
        destruct I as [->|[]]; cbn in Wr; rewrite app_nil_r in Wr; exact Wr.
    + intros p' I'; unfold dpart; rewrite (same_dist _ _ _ I' I), Da; reflexivity.
Qed.

Theorem c36 x : (ord = OrdInf -> Forall (no_gap excl) procs) -> assembled excl procs x ->
  exists v, is_norm ord x v /\ compute_state_norms ord excl procs = Ok (map (fun _ => v) procs).
Proof.
  intros Ng (md0 & st0 & rest & parts & Ep & Wh & ->).
  exists (power (g ord (concat parts)) (root_exponent ord)); split; [apply finish_is_norm, Pos|].
  assert (I0 : In (md0, st0) procs) by (rewrite Ep; left; reflexivity).
  set (J := included excl md0) in *.
  unfold compute_state_norms.
  assert (A : all_ok (map (fun p => own_intermediates ord excl (fst p) (snd p)) procs) =
    Ok (map (fun p => (big ord (map (dpart ord (fst p) (snd p)) J), big ord (map (npart ord (fst p) (snd p)) J))) procs)).
  { assert (X : forall l, incl l procs -> all_ok (map (fun p => own_intermediates ord excl (fst p) (snd p)) l) =
      Ok (map (fun p => (big ord (map (dpart ord (fst p) (snd p)) J), big ord (map (npart ord (fst p) (snd p)) J))) l)).
    { induction l as [|[md s] l IH]; intros Ic; [reflexivity|]; cbn [map all_ok fst snd].
      rewrite (own_ok ord Pos excl md s).
      - cbn [bind]; rewrite IH by (intros b Ib; apply Ic; right; exact Ib); cbn [bind].
        assert (Ei := same_included (md, s) (md0, st0) (Ic _ (or_introl eq_refl)) I0); cbn [fst] in Ei; rewrite Ei; reflexivity.
      - intros O; specialize (Ng O); rewrite Forall_forall in Ng; apply Ng, Ic; left; reflexivity. }
    apply X, incl_refl. }
  rewrite A; cbn [bind]; f_equal; rewrite !map_map; apply map_ext_in; intros p Ip.
  cbn [fst snd]; unfold finish_norm; f_equal.
  rewrite allreduce_big, add_is_red; try exact Pos; [|apply map_pos; intros; apply big_pos, map_pos; intros; apply dpart_pos].
  rewrite (big_swap ord (fun p j => dpart ord (fst p) (snd p) j)) by (intros; apply dpart_pos).
  rewrite <- (big_red ord (fun j => big ord (map (fun p => dpart ord (fst p) (snd p) j) procs)) (npart ord (fst p) (snd p)) J).
  - rewrite g_concat; clear -Wh Ip I0 M W Mp Fit.
    induction Wh as [|j y J parts Wj Wh IH]; cbn [map]; [reflexivity|].
    rewrite !big_cons, IH; f_equal; apply quantity_once; assumption.
  - intros; apply big_pos, map_pos; intros; apply dpart_pos.
  - intros; apply npart_pos.
Qed.
End All.
