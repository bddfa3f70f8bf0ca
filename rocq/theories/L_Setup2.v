(** Lemmas about the error controllers with arguments of their own, called by
    hand. *)
From Coq Require Import String.
From Coq Require Import List Bool ZArith QArith Permutation.
From Verif Require Import Base M_Controller M_Integrator M_Setup SpecSetup.
Import ListNotations.
Local Open Scope nat_scope.

Section L.
Context {T : Type} {N : Num T} {I : NumInf T}.

Lemma mem_In x l : mem x l = true <-> In x l.
Proof.
  unfold mem; rewrite existsb_exists; split.
  - intros (y & H & E); apply String.eqb_eq in E; subst y; exact H.
  - intros H; exists x; split; [exact H|apply String.eqb_refl].
Qed.

Lemma arg_In (args : list (string * T)) k v : NoDup (map fst args) -> In (k, v) args -> arg args k = v.
Proof.
  unfold arg; induction args as [|[k' v'] args IH]; intros D H; [contradiction|].
  cbn [map fst] in D; inversion D as [|? ? D1 D2]; subst; cbn [find fst].
  destruct (String.eqb k' k) eqn:E.
  - apply String.eqb_eq in E; subst k'; destruct H as [H|H]; [congruence|].
    exfalso; apply D1; apply in_map_iff; exists (k, v); split; [reflexivity|exact H].
  - destruct H as [H|H]; [injection H as -> ->; rewrite String.eqb_refl in E; discriminate|].
    apply IH; assumption.
Qed.

Lemma names_checked (f : factory T) (args : list (string * T)) :
  forallb (fun a => mem a (map fst args)) (f_args f) && forallb (fun k => mem k (f_args f)) (map fst args) = true
  <-> (forall k, In k (map fst args) <-> In k (f_args f)).
Proof.
  rewrite andb_true_iff, !forallb_forall; split.
  - intros [H1 H2] k; split; intros H; [apply mem_In, H2, H|apply mem_In, H1, H].
  - intros H; split; intros x Hx; apply mem_In, H, Hx.
Qed.

Lemma called_ok (f : factory T) n args cfg :
  (forall k, In k (map fst args) <-> In k (f_args f)) ->
  call_factory f (Some n) args cfg =
  Ok (f_exponents f (nlit (inject_Z (Z.of_nat n))) (arg args), match cfg with Some c => c | None => f_config f end).
Proof. intros H; apply names_checked in H; unfold call_factory; rewrite H; reflexivity. Qed.

Lemma called_iff (f : factory T) p args cfg :
  NoDup (f_args f) -> NoDup (map fst args) ->
  ((exists r, call_factory f p args cfg = Ok r) <->
   Permutation (map fst args) (f_args f) /\ (p = None -> f_uses_order f = false)).
Proof.
  intros D1 D2; unfold call_factory; split.
  - intros [r H].
    destruct (forallb (fun a => mem a (map fst args)) (f_args f) && forallb (fun k => mem k (f_args f)) (map fst args)) eqn:E;
      [|discriminate].
    split; [apply NoDup_Permutation; [assumption..|]; apply names_checked; exact E|].
    intros ->; destruct (f_uses_order f); [discriminate|reflexivity].
  - intros [P O].
    rewrite (proj2 (names_checked f args)).
    + destruct p; [eexists; reflexivity|]. rewrite (O eq_refl); eexists; reflexivity.
    + intros k; split; intros H; [apply (Permutation_in _ P H)|apply (Permutation_in _ (Permutation_sym P) H)].
Qed.

Lemma called_error (f : factory T) p args cfg e : call_factory f p args cfg = Err e -> e = TypeError.
Proof.
  unfold call_factory; destruct (_ && _); [|congruence].
  destruct p; [discriminate|destruct (f_uses_order f); congruence].
Qed.

Lemma three_args (args : list (string * T)) x y z u v w :
  Permutation args [(x, u); (y, v); (z, w)] -> NoDup [x; y; z] ->
  (forall k, In k (map fst args) <-> In k [x; y; z]) /\ arg args x = u /\ arg args y = v /\ arg args z = w.
Proof.
  intros P D; pose proof (Permutation_map fst P) as Q; cbn [map fst] in Q.
  split.
  - intros k; split; intros H; [apply (Permutation_in _ Q H)|apply (Permutation_in _ (Permutation_sym Q) H)].
  - assert (D' : NoDup (map fst args)) by apply (Permutation_NoDup (Permutation_sym Q) D).
    repeat split; apply arg_In; try exact D'; apply (Permutation_in _ (Permutation_sym P)); cbn; tauto.
Qed.

Lemma distinct_three (x y z : string) :
  String.eqb x y = false -> String.eqb x z = false -> String.eqb y z = false -> NoDup [x; y; z].
Proof.
  intros A B C; apply String.eqb_neq in A; apply String.eqb_neq in B; apply String.eqb_neq in C.
  repeat constructor; cbn; intuition.
Qed.

Lemma called_312 n args cfg va a b :
  Permutation args [("var_alpha", va); ("a", a); ("b", b)]%string ->
  call_factory h_312_general_factory (Some n) args cfg =
  let p := nlit (inject_Z (Z.of_nat n)) in
  Ok ({| x_alpha := ndiv va p; x_beta := ndiv (nmul (nlit (-2 # 1)) va) p; x_gamma := ndiv va p; x_a := a; x_b := b |},
      match cfg with Some c => c | None => default_config end).
Proof.
  intros P; assert (D : NoDup ["var_alpha"; "a"; "b"]%string) by (apply distinct_three; reflexivity).
  destruct (three_args args _ _ _ _ _ _ P D) as (Q & E1 & E2 & E3).
  rewrite (called_ok h_312_general_factory n args cfg Q); cbn [f_exponents f_config h_312_general_factory].
  rewrite E1, E2, E3; reflexivity.
Qed.
Lemma called_321 n args cfg va vb a :
  Permutation args [("var_alpha", va); ("var_beta", vb); ("a", a)]%string ->
  call_factory h_321_general_factory (Some n) args cfg =
  let p := nlit (inject_Z (Z.of_nat n)) in
  Ok ({| x_alpha := ndiv va p; x_beta := ndiv vb p; x_gamma := ndiv (nopp (nadd va vb)) p;
         x_a := a; x_b := nsub (nlit (1 # 1)) a |},
      match cfg with Some c => c | None => default_config end).
Proof.
  intros P; assert (D : NoDup ["var_alpha"; "var_beta"; "a"]%string) by (apply distinct_three; reflexivity).
  destruct (three_args args _ _ _ _ _ _ P D) as (Q & E1 & E2 & E3).
  rewrite (called_ok h_321_general_factory n args cfg Q); cbn [f_exponents f_config h_321_general_factory].
  rewrite E1, E2, E3; reflexivity.
Qed.
Lemma called_330 n args cfg va vb vc :
  Permutation args [("var_alpha", va); ("var_beta", vb); ("var_gamma", vc)]%string ->
  call_factory h_330_general_factory (Some n) args cfg =
  let p := nlit (inject_Z (Z.of_nat n)) in
  Ok ({| x_alpha := ndiv va p; x_beta := ndiv vb p; x_gamma := ndiv vc p;
         x_a := nlit (2 # 1); x_b := nlit (-1 # 1) |},
      match cfg with Some c => c | None => default_config end).
Proof.
  intros P; assert (D : NoDup ["var_alpha"; "var_beta"; "var_gamma"]%string) by (apply distinct_three; reflexivity).
  destruct (three_args args _ _ _ _ _ _ P D) as (Q & E1 & E2 & E3).
  rewrite (called_ok h_330_general_factory n args cfg Q); cbn [f_exponents f_config h_330_general_factory].
  rewrite E1, E2, E3; reflexivity.
Qed.

Lemma general_nodup (g : factory T) : In g general_factories -> NoDup (f_args g) /\ f_uses_order g = true.
Proof.
  intros [<-|[<-|[<-|[]]]]; (split; [apply distinct_three; reflexivity|reflexivity]).
Qed.
Lemma general_iff (g : factory T) p args cfg : In g general_factories -> NoDup (map fst args) ->
  ((exists r, call_factory g p args cfg = Ok r) <-> Permutation (map fst args) (f_args g) /\ p <> None).
Proof.
  intros G D; destruct (general_nodup g G) as [D' U]; rewrite (called_iff g p args cfg D' D), U.
  split; intros [P H]; (split; [exact P|]); [intros E; discriminate (H E)|intros E; contradiction (H E)].
Qed.
End L.

Lemma storages_kept size sts :
  Forall2 (storage_named size) (filter (fun e => mem (fst e) ["Numpy"; "Disk"; "Bytes"]%string) sts)
    (flat_map (make_storage size) sts).
Proof.
  induction sts as [|[k o] sts IH]; cbn [filter flat_map]; [constructor|].
  unfold make_storage at 1; unfold mem at 1; cbn [fst snd existsb].
  destruct (String.eqb k "Numpy") eqn:E1; [|destruct (String.eqb k "Disk") eqn:E2; [|destruct (String.eqb k "Bytes") eqn:E3]];
    cbn [orb app].
  - apply String.eqb_eq in E1; constructor; [repeat split; exact E1|exact IH].
  - apply String.eqb_eq in E2; constructor; [repeat split; exact E2|exact IH].
  - apply String.eqb_eq in E3; constructor; [repeat split; exact E3|exact IH].
  - exact IH.
Qed.
