(** Lemmas about the set-up of a component. *)
From Coq Require Import String.
From Coq Require Import List Bool ZArith QArith Reals Lia.
From Verif Require Import Base Ext M_Tableau M_State M_ODE M_Step M_Controller M_Measure M_Integrator
  SpecRK SpecShape SpecDeriv SpecRun SpecRevolve M_Setup SpecSetup L_Generic L_Run L_Iter L_Revolve L_RevolveLog L_Tableau M_Tableaux M_TableauxInit.
Import ListNotations.
Local Open Scope nat_scope.

(** ** Error controllers *)
Section Controllers.
Context {T : Type} {N : Num T} {I : NumInf T}.

Lemma call_no_args (f : factory T) p cfg : f_args f = [] ->
  call_factory f p [] cfg =
  match p with
  | Some n => Ok (f_exponents f (nlit (inject_Z (Z.of_nat n))) (arg []),
                  match cfg with Some c => c | None => f_config f end)
  | None => if f_uses_order f then Err TypeError
            else Ok (f_exponents f n0 (arg []), match cfg with Some c => c | None => f_config f end)
  end.
Proof. intros H; unfold call_factory; rewrite H; cbn; destruct p; reflexivity. Qed.

Lemma check_iff (fs : list (factory T)) :
  (exists u, check_error_controller fs = Ok u) <-> Forall (fun f => f_args f = []) fs.
Proof.
  induction fs as [|f fs IH]; [split; [constructor|exists tt; reflexivity]|].
  cbn [check_error_controller]; destruct (f_args f) as [|x xs] eqn:E.
  - rewrite call_no_args by exact E; cbn [bind]; rewrite IH; split; [intros H; constructor; auto|].
    intros H; inversion H; auto.
  - unfold call_factory; rewrite E; cbn; split; [intros (u & H); discriminate|].
    intros H; inversion H; congruence.
Qed.

Lemma check_err (fs : list (factory T)) e : check_error_controller fs = Err e -> e = TypeError.
Proof.
  induction fs as [|f fs IH]; [discriminate|]; cbn [check_error_controller].
  destruct (call_factory f (Some 1) [] None) as [r|e'] eqn:E; [exact IH|]; cbn; intros [= <-].
  unfold call_factory in E; destruct (_ && _); congruence.
Qed.

(** With arguments no factory without arguments can be called. *)
Lemma call_args_nil (f : factory T) p args cfg r : f_args f = [] -> call_factory f p args cfg = Ok r -> args = [].
Proof.
  intros H E; unfold call_factory in E; rewrite H in E; destruct args as [|[k v] args]; [reflexivity|].
  cbn in E; discriminate.
Qed.

Definition order_value (p : option nat) : T := match p with Some n => nlit (inject_Z (Z.of_nat n)) | None => n0 end.
Definition exps (p : option nat) (f : factory T) : exponents T := f_exponents f (order_value p) (arg []).
Definition add_level (base : option (controller T)) (x : exponents T) : option (controller T) :=
  match base with None => Some (mk_plain x) | Some c => Some (mk_decorated x c) end.

Lemma nest_ok p cfg : forall fs base, Forall (fun f => f_args f = []) fs ->
  (p = None -> Forall (fun f => f_uses_order f = false) fs) ->
  exists r, nest p [] cfg fs base = Ok r /\
    option_map fst r = fold_left add_level (map (exps p) fs) (option_map fst base) /\
    option_map snd r = match base with
                       | Some (_, c) => Some c
                       | None => match fs with
                                 | [] => None
                                 | f :: _ => Some match cfg with Some c => c | None => f_config f end
                                 end
                       end.
Proof.
  induction fs as [|f fs IH]; intros base H HO.
  - exists base; cbn; destruct base as [[c d]|]; auto.
  - inversion H as [|? ? H1 H2]; subst.
    assert (HO2 : p = None -> Forall (fun f => f_uses_order f = false) fs)
      by (intros E; specialize (HO E); inversion HO; auto).
    cbn [nest map fold_left]; rewrite call_no_args by exact H1.
    assert (E : match p with
                | Some n => Ok (f_exponents f (nlit (inject_Z (Z.of_nat n))) (arg []),
                                match cfg with Some c => c | None => f_config f end)
                | None => if f_uses_order f then Err TypeError
                          else Ok (f_exponents f n0 (arg []), match cfg with Some c => c | None => f_config f end)
                end = Ok (exps p f, match cfg with Some c => c | None => f_config f end)).
    { destruct p; [reflexivity|]; specialize (HO eq_refl); inversion HO as [|? ? G _]; rewrite G; reflexivity. }
    rewrite E; cbn [bind].
    destruct (IH (Some match base with
              | None => (mk_plain (exps p f), match cfg with Some c => c | None => f_config f end)
              | Some (inner, ci) => (mk_decorated (exps p f) inner, ci)
              end) H2 HO2) as (r & R1 & R2 & R3).
    exists r; split; [exact R1|]; rewrite R2, R3; destruct base as [[c d]|]; auto.
Qed.

Lemma nest_err p args cfg : forall fs base e, nest p args cfg fs base = Err e -> e = TypeError.
Proof.
  induction fs as [|f fs IH]; intros base e; [discriminate|]; cbn [nest].
  destruct (call_factory f p args cfg) as [[x c]|e'] eqn:E; cbn [bind]; [apply IH|].
  intros [= <-]; unfold call_factory in E; destruct (_ && _); [|congruence].
  destruct p; [discriminate|]; destruct (f_uses_order f); congruence.
Qed.

Lemma nest_orders p args cfg : forall fs base r, Forall (fun f => f_args f = []) fs ->
  nest p args cfg fs base = Ok r ->
  (fs = [] \/ args = []) /\ (p = None -> Forall (fun f => f_uses_order f = false) fs).
Proof.
  induction fs as [|f fs IH]; intros base r H E; [split; auto|].
  inversion H as [|? ? H1 H2]; subst; cbn [nest] in E.
  destruct (call_factory f p args cfg) as [[x c]|e'] eqn:E1; cbn [bind] in E; [|discriminate].
  pose proof (call_args_nil _ _ _ _ _ H1 E1) as ->; split; [auto|]; intros ->.
  apply IH in E as [_ G]; [|exact H2]; constructor; [|auto].
  rewrite call_no_args in E1 by exact H1; destruct (f_uses_order f); [discriminate|reflexivity].
Qed.

Lemma build_chain_levels (xs : list (exponents T)) : build_chain xs = fold_left add_level xs None.
Proof. reflexivity. Qed.

Lemma levels_some : forall (xs : list (exponents T)) c, exists c', fold_left add_level xs (Some c) = Some c'.
Proof. induction xs as [|x xs IHx]; intros c; [exists c; reflexivity|exact (IHx (mk_decorated x c))]. Qed.

Lemma min_order (bt : tableau T) fs : orders_known bt fs ->
  exists p, min_p_order bt = Ok p /\ (p = None -> t_hat bt = None /\ t_p bt = None) /\
    (p <> None -> p = Some (weaker_order bt)).
Proof.
  unfold orders_known, min_p_order, weaker_order; destruct (t_hat bt) as [[bh [q|]]|]; destruct (t_p bt) as [p|];
    intros H.
  - exists (Some (Nat.min p q)); split; [reflexivity|]; split; [discriminate|]; intros _; f_equal.
    destruct (Nat.leb p q) eqn:E; [apply Nat.leb_le in E|apply Nat.leb_gt in E]; lia.
  - destruct H; congruence.
  - destruct H; congruence.
  - destruct H; congruence.
  - exists (Some p); split; [reflexivity|]; split; [discriminate|auto].
  - exists None; split; [reflexivity|]; split; [auto|congruence].
Qed.

Lemma min_order_err (bt : tableau T) e : min_p_order bt = Err e -> e = TypeError.
Proof. unfold min_p_order; destruct (t_hat bt) as [[bh [q|]]|]; destruct (t_p bt); congruence. Qed.

Lemma setup_controller_iff (bt : tableau T) args cfg fs : Forall (fun f => f_args f = []) fs ->
  ((exists r, setup_error_controller bt args cfg fs = Ok r) <->
   fs <> [] /\ args = [] /\ orders_known bt fs).
Proof.
  intros H; split.
  - intros (r & E); unfold setup_error_controller in E.
    destruct (min_p_order bt) as [p|e] eqn:E1; cbn [bind] in E; [|discriminate].
    destruct (nest p args cfg fs None) as [[cc|]|e] eqn:E2; cbn [bind] in E; [|discriminate|discriminate].
    destruct (nest_orders _ _ _ _ _ _ H E2) as [A B].
    destruct fs as [|f fs]; [discriminate E2|].
    split; [discriminate|]; split; [destruct A; [discriminate|auto]|].
    unfold orders_known, min_p_order in *; destruct (t_hat bt) as [[bh [q|]]|]; destruct (t_p bt) as [p'|];
      try discriminate; try (split; discriminate); [left; discriminate|right; injection E1 as <-; auto].
  - intros (F & -> & HO); destruct (min_order bt fs HO) as (p & P1 & P2 & P3).
    unfold setup_error_controller; rewrite P1; cbn [bind].
    destruct (nest_ok p cfg fs None H) as (r & R1 & R2 & R3).
    { intros ->; destruct (P2 eq_refl) as [A B]; unfold orders_known in HO; rewrite A, B in HO.
      destruct HO; [congruence|auto]. }
    rewrite R1; cbn [bind]; destruct fs as [|f fs]; [congruence|].
    cbn in R2; destruct (levels_some (map (exps p) fs) (mk_plain (exps p f))) as (c' & E).
    rewrite E in R2; destruct r; [eauto|discriminate].
Qed.

Lemma setup_controller_value (bt : tableau T) args cfg fs c g : Forall (fun f => f_args f = []) fs ->
  setup_error_controller bt args cfg fs = Ok (c, g) ->
  build_chain (map (fun f => f_exponents f (match t_p bt with
                                            | Some _ => nlit (inject_Z (Z.of_nat (weaker_order bt)))
                                            | None => n0 end) (arg [])) fs) = Some c /\
  exists f fs', fs = f :: fs' /\ g = match cfg with Some c => c | None => f_config f end.
Proof.
  intros H E.
  destruct (proj1 (setup_controller_iff bt args cfg fs H) (ex_intro _ _ E)) as (F & -> & HO).
  destruct (min_order bt fs HO) as (p & P1 & P2 & P3).
  unfold setup_error_controller in E; rewrite P1 in E; cbn [bind] in E.
  destruct (nest_ok p cfg fs None H) as (r & R1 & R2 & R3).
  { intros ->; destruct (P2 eq_refl) as [A B]; unfold orders_known in HO; rewrite A, B in HO.
    destruct HO; [congruence|auto]. }
  rewrite R1 in E; cbn [bind] in E; destruct r as [[c' g']|]; [|discriminate]; injection E as -> ->.
  cbn in R2, R3; split.
  - rewrite build_chain_levels, R2; f_equal; apply map_ext; intros f; unfold exps; f_equal.
    destruct p as [n|]; cbn [order_value].
    + injection (P3 ltac:(discriminate)) as ->; destruct (t_p bt) eqn:Et; [reflexivity|].
      exfalso; unfold orders_known, min_p_order in *; rewrite Et in *.
      destruct (t_hat bt) as [[bh [q|]]|]; try discriminate.
    + destruct (P2 eq_refl) as [_ ->]; reflexivity.
  - destruct fs as [|f fs]; [congruence|]; exists f, fs; split; [reflexivity|]; injection R3 as ->; reflexivity.
Qed.

Lemma setup_controller_err (bt : tableau T) args cfg fs e : Forall (fun f => f_args f = []) fs ->
  setup_error_controller bt args cfg fs = Err e ->
  (e = AttributeError /\ fs = []) \/ e = TypeError.
Proof.
  intros H E; unfold setup_error_controller in E.
  destruct (min_p_order bt) as [p|e'] eqn:E1; cbn [bind] in E.
  2: injection E as <-; right; exact (min_order_err _ _ E1).
  destruct (nest p args cfg fs None) as [[cc|]|e'] eqn:E2; cbn [bind] in E; [discriminate| |].
  2: injection E as <-; right; exact (nest_err _ _ _ _ _ _ E2).
  injection E as <-; left; split; [reflexivity|]; destruct fs as [|f fs]; [reflexivity|exfalso].
  destruct (nest_orders _ _ _ _ _ _ H E2) as [[G| ->] B]; [discriminate|].
  destruct (nest_ok p cfg (f :: fs) None H B) as (r & R1 & R2 & R3); rewrite E2 in R1; injection R1 as <-.
  discriminate R3.
Qed.
End Controllers.

(** ** Dictionaries *)
Lemma dget_dset k k' v d : dget k (dset k' v d) = if String.eqb k k' then Some v else dget k d.
Proof.
  induction d as [|[j w] d IH]; cbn; [reflexivity|].
  destruct (String.eqb k' j) eqn:E1; cbn.
  - apply String.eqb_eq in E1; subst j; destruct (String.eqb k k'); reflexivity.
  - destruct (String.eqb k j) eqn:E2.
    + apply String.eqb_eq in E2; subst j; rewrite String.eqb_sym, E1; reflexivity.
    + exact IH.
Qed.

Lemma dget_notin k d : ~ In k (map fst d) -> dget k d = None.
Proof.
  induction d as [|[j w] d IH]; [reflexivity|]; cbn; intros H.
  destruct (String.eqb k j) eqn:E; [apply String.eqb_eq in E; subst; tauto|]; apply IH; tauto.
Qed.

Lemma dget_in k v d : dget k d = Some v -> In k (map fst d).
Proof.
  induction d as [|[j w] d IH]; [discriminate|]; cbn; destruct (String.eqb k j) eqn:E;
    [apply String.eqb_eq in E; auto|auto].
Qed.

Definition conv (t : string) (size : nat) (k : string) (v : oval) : oval :=
  if String.eqb t "MultiLevel" && String.eqb k "storage_list" then
    match v with VDict sts => VStorages (flat_map (make_storage size) sts) | _ => v end
  else v.

Lemma convert_get t size : forall items d d', NoDup (map fst items) ->
  convert_options t size items d = Ok d' ->
  forall k, dget k d' = match dget k items with Some v => Some (conv t size k v) | None => dget k d end.
Proof.
  induction items as [|[j v] items IH]; intros d d' ND E k; [injection E as <-; reflexivity|].
  cbn [map fst] in ND; inversion ND as [|? ? N1 N2]; subst; cbn [convert_options] in E; cbn [dget].
  assert (G : exists d1, convert_options t size items d1 = Ok d' /\
    forall k, dget k d1 = if String.eqb k j then Some (conv t size j v) else dget k d).
  { unfold conv; destruct (String.eqb t "MultiLevel" && String.eqb j "storage_list").
    - destruct v; try discriminate; eexists; split; [exact E|]; intros k'; apply dget_dset.
    - eexists; split; [exact E|]; intros k'; apply dget_dset. }
  destruct G as (d1 & E1 & G); rewrite (IH _ _ N2 E1 k), G.
  destruct (String.eqb k j) eqn:Ek; [|destruct (dget k items); reflexivity].
  apply String.eqb_eq in Ek; subst k; rewrite (dget_notin j items N1); reflexivity.
Qed.

Lemma convert_iff t size : forall items d, NoDup (map fst items) ->
  ((exists d', convert_options t size items d = Ok d') <->
   (t = "MultiLevel"%string -> forall v, dget "storage_list" items = Some v -> exists sts, v = VDict sts)).
Proof.
  induction items as [|[j v] items IH]; intros d ND; [split; [intros _ _ w H; discriminate|exists d; reflexivity]|].
  cbn [map fst] in ND; inversion ND as [|? ? N1 N2]; subst; cbn [convert_options dget].
  destruct (String.eqb t "MultiLevel") eqn:Et; cbn [andb].
  - apply String.eqb_eq in Et; subst t; rewrite (String.eqb_sym "storage_list" j).
    destruct (String.eqb j "storage_list") eqn:Ej.
    + apply String.eqb_eq in Ej; subst j; split.
      * intros (d' & E) _ w [= <-]; destruct v; try discriminate; eauto.
      * intros H; destruct (H eq_refl v eq_refl) as (sts & ->); apply IH; [exact N2|].
        intros _ w Hw; apply dget_in in Hw; contradiction.
    + rewrite IH by exact N2; reflexivity.
  - rewrite IH by exact N2; apply String.eqb_neq in Et; split; intros H E; contradiction.
Qed.

Lemma convert_err t size : forall items d e, convert_options t size items d = Err e -> e = AttributeError.
Proof.
  induction items as [|[j v] items IH]; intros d e; [discriminate|]; cbn [convert_options].
  destruct (_ && _); [destruct v; try (intros [= <-]; reflexivity)|]; apply IH.
Qed.

Lemma class_iff t : (exists c, setup_revolver_class_type t = Ok c) <-> In t revolver_types.
Proof.
  unfold setup_revolver_class_type, revolver_types; split.
  - intros (c & H).
    destruct (String.eqb t "SingleLevel") eqn:E1; [apply String.eqb_eq in E1; subst; cbn; auto|].
    destruct (String.eqb t "MultiLevel") eqn:E2; [apply String.eqb_eq in E2; subst; cbn; auto|].
    destruct (String.eqb t "Disk") eqn:E3; [apply String.eqb_eq in E3; subst; cbn; auto|].
    destruct (String.eqb t "Base") eqn:E4; [apply String.eqb_eq in E4; subst; cbn; auto|].
    destruct (String.eqb t "Memory") eqn:E5; [apply String.eqb_eq in E5; subst; cbn; auto 6|discriminate].
  - cbn; intros [<-|[<-|[<-|[<-|[<-|[]]]]]]; cbn; eauto.
Qed.

Lemma class_named t c : setup_revolver_class_type t = Ok c -> In (t, c) revolvers.
Proof.
  unfold setup_revolver_class_type, revolvers; intros H.
  destruct (String.eqb t "SingleLevel") eqn:E1; [apply String.eqb_eq in E1; injection H as <-; subst; cbn; auto|].
  destruct (String.eqb t "MultiLevel") eqn:E2; [apply String.eqb_eq in E2; injection H as <-; subst; cbn; auto|].
  destruct (String.eqb t "Disk") eqn:E3; [apply String.eqb_eq in E3; injection H as <-; subst; cbn; auto|].
  destruct (String.eqb t "Base") eqn:E4; [apply String.eqb_eq in E4; injection H as <-; subst; cbn; auto|].
  destruct (String.eqb t "Memory") eqn:E5; [apply String.eqb_eq in E5; injection H as <-; subst; cbn; auto 6|discriminate].
Qed.

Lemma class_err t e : setup_revolver_class_type t = Err e -> e = TypeError.
Proof.
  unfold setup_revolver_class_type; repeat (destruct (String.eqb t _); [discriminate|]); congruence.
Qed.

(** ** __post_init__ *)
Section PostInit.
Context {T : Type} {N : Num T}.

Lemma post_init_iff h t a size who (crit : criterion T) : dict_wf (h a) ->
  ((exists rc, snd (post_init h t a size who crit) = Ok rc) <-> usable_options t crit (h a)).
Proof.
  intros W; unfold usable_options, post_init; rewrite <- class_iff.
  destruct (setup_revolver_class_type t) as [cl|e]; cbn.
  2:{ split; [intros (? & ?); discriminate|intros ((? & ?) & _); discriminate]. }
  destruct crit as [n|tm]; cbn.
  2:{ split; [intros (? & ?); discriminate|intros (_ & (? & ?) & _); discriminate]. }
  rewrite <- (convert_iff t size (h a) (h a) W).
  destruct (convert_options t size (h a) (h a)) as [d|e]; cbn; split.
  - intros _; repeat split; eauto.
  - eauto.
  - intros (? & ?); discriminate.
  - intros (_ & _ & ? & ?); discriminate.
Qed.

Lemma post_init_err h t a size who (crit : criterion T) h' e :
  post_init h t a size who crit = (h', Err e) -> h' = h /\
  (e = TypeError /\ (~ In t revolver_types \/ exists tm, crit = PredefinedFinalTime tm) \/
   e = AttributeError /\ In t revolver_types /\ exists n, crit = PredefinedNumberOfSteps n).
Proof.
  unfold post_init; rewrite <- class_iff; destruct (setup_revolver_class_type t) as [cl|e1] eqn:E1.
  2:{ intros [= <- <-]; split; [reflexivity|]; left; rewrite (class_err _ _ E1); split; [reflexivity|].
      left; intros (? & ?); discriminate. }
  destruct crit as [n|tm].
  2:{ intros [= <- <-]; split; [reflexivity|]; left; eauto. }
  destruct (convert_options t size (h a) (h a)) as [d|e2] eqn:E2; [discriminate|].
  intros [= <- <-]; split; [reflexivity|]; right; rewrite (convert_err _ _ _ _ _ E2); eauto.
Qed.

Lemma mem_types t : mem t ["MultiLevel"; "Base"]%string = negb (negb (String.eqb t "MultiLevel") && negb (String.eqb t "Base")).
Proof. cbn; destruct (String.eqb t "MultiLevel"), (String.eqb t "Base"); reflexivity. Qed.

Lemma post_init_get h t a size who n h' rc : dict_wf (h a) ->
  post_init h t a size who (PredefinedNumberOfSteps n : criterion T) = (h', Ok rc) ->
  rc_options rc = a /\ setup_revolver_class_type t = Ok (rc_class rc) /\ (forall b, b <> a -> h' b = h b) /\
  forall k, dget k (h' a) = to_library t size who n (h a) k.
Proof.
  intros W H; unfold post_init in H; destruct (setup_revolver_class_type t) as [cl|e1] eqn:E1; [|discriminate].
  destruct (convert_options t size (h a) (h a)) as [d|e2] eqn:E2; [|discriminate].
  injection H as <- <-; cbn [rc_options rc_class]; split; [reflexivity|]; split; [reflexivity|].
  split; [intros b Hb; unfold hset; apply Nat.eqb_neq in Hb; rewrite Hb; reflexivity|].
  pose proof (convert_get t size _ _ _ W E2) as G.
  intros k; unfold hset; rewrite Nat.eqb_refl, (dget_dset k "rev_operator"), (dget_dset k "fwd_operator").
  unfold to_library.
  destruct (String.eqb k "rev_operator") eqn:K1; [apply String.eqb_eq in K1; subst k; reflexivity|].
  destruct (String.eqb k "fwd_operator") eqn:K2; [apply String.eqb_eq in K2; subst k; reflexivity|].
  set (d2 := dset "n_timesteps" (VInt (Z.of_nat n - 1)) (dset "checkpoint" (VCheckpoint who) d)).
  assert (G2 : forall k, String.eqb k "checkpoint" = false -> String.eqb k "n_timesteps" = false ->
    dget k d2 = match dget k (h a) with Some v => Some (conv t size k v) | None => None end).
  { intros k' A B; unfold d2; rewrite !dget_dset, A, B, G; destruct (dget k' (h a)); reflexivity. }
  assert (G3 : dget k match dget "n_checkpoints" d2 with
           | Some _ => d2
           | None => if mem t ["MultiLevel"; "Base"]%string then d2
                     else dset "n_checkpoints" (if Nat.eqb n 1 then VInt 1 else VNone) d2
           end = match dget k d2 with
                 | Some v => Some v
                 | None => if String.eqb k "n_checkpoints" && negb (String.eqb t "MultiLevel") && negb (String.eqb t "Base")
                           then Some (if Nat.eqb n 1 then VInt 1 else VNone) else None
                 end).
  { rewrite mem_types, <- andb_assoc; destruct (dget "n_checkpoints" d2) as [v|] eqn:Ec.
    - destruct (dget k d2) eqn:Ek; [reflexivity|].
      destruct (String.eqb k "n_checkpoints") eqn:Q; [apply String.eqb_eq in Q; subst; congruence|reflexivity].
    - destruct (negb (String.eqb t "MultiLevel") && negb (String.eqb t "Base")) eqn:B; cbn [negb].
      + rewrite dget_dset; destruct (String.eqb k "n_checkpoints") eqn:Q; cbn [andb].
        * apply String.eqb_eq in Q; subst k; rewrite Ec; reflexivity.
        * destruct (dget k d2); reflexivity.
      + rewrite andb_false_r; destruct (dget k d2); reflexivity. }
  refine (eq_trans G3 _).
  destruct (String.eqb k "checkpoint") eqn:K3.
  { apply String.eqb_eq in K3; subst k; unfold d2; rewrite !dget_dset; reflexivity. }
  destruct (String.eqb k "n_timesteps") eqn:K4.
  { apply String.eqb_eq in K4; subst k; unfold d2; rewrite !dget_dset; reflexivity. }
  rewrite G2 by assumption; unfold conv.
  destruct (dget k (h a)) as [v|]; [|reflexivity].
  destruct (String.eqb t "MultiLevel" && String.eqb k "storage_list"); destruct v; reflexivity.
Qed.

Lemma dset_keys k v d : NoDup (map fst d) -> NoDup (map fst (dset k v d)).
Proof.
  induction d as [|[j w] d IH]; cbn; intros H; [constructor; [intros []|constructor]|].
  inversion H as [|? ? H1 H2]; subst; destruct (String.eqb k j) eqn:E; cbn.
  - apply String.eqb_eq in E; subst; constructor; auto.
  - constructor; [|auto]; intros G; apply H1.
    assert (K : forall d, In j (map fst (dset k v d)) -> In j (map fst d)).
    { apply String.eqb_neq in E; clear - E; induction d as [|[i u] d IH]; cbn; [intros [?|[]]; congruence|].
      destruct (String.eqb k i) eqn:Q; cbn; [apply String.eqb_eq in Q; subst; tauto|tauto]. }
    exact (K _ G).
Qed.

Lemma convert_keys t size : forall items d d', NoDup (map fst d) ->
  convert_options t size items d = Ok d' -> NoDup (map fst d').
Proof.
  induction items as [|[j v] items IH]; intros d d' W E; [injection E as <-; exact W|].
  cbn [convert_options] in E; destruct (_ && _).
  - destruct v; try discriminate; apply IH in E; auto using dset_keys.
  - apply IH in E; auto using dset_keys.
Qed.

Lemma post_init_wf h t a size who (crit : criterion T) b : dict_wf (h b) -> dict_wf (fst (post_init h t a size who crit) b).
Proof.
  intros W; unfold post_init; destruct (setup_revolver_class_type t); [|exact W].
  destruct crit as [n|tm]; [|exact W].
  destruct (convert_options t size (h a) (h a)) as [d|] eqn:E; [|exact W]; cbn; unfold hset.
  destruct (Nat.eqb b a) eqn:Eb; [|exact W]; apply Nat.eqb_eq in Eb; subst b.
  apply convert_keys in E; [|exact W]; unfold dict_wf.
  repeat apply dset_keys; repeat match goal with |- context [match ?x with _ => _ end] => destruct x end;
    auto using dset_keys.
Qed.

Lemma post_init_other h t a size who (crit : criterion T) b : b <> a -> fst (post_init h t a size who crit) b = h b.
Proof.
  intros Hb; unfold post_init; destruct (setup_revolver_class_type t); [|reflexivity].
  destruct crit as [n|tm]; [|reflexivity].
  destruct (convert_options t size (h a) (h a)) as [d|]; [|reflexivity]; cbn; unfold hset.
  apply Nat.eqb_neq in Hb; rewrite Hb; reflexivity.
Qed.

Lemma setups_other (l : list (one_setup (T := T))) : forall h b, Forall (fun s => address_of s <> b) l -> run_setups l h b = h b.
Proof.
  induction l as [|[[[[t a] size] who] crit] l IH]; intros h b H; [reflexivity|].
  inversion H as [|? ? H1 H2]; subst; cbn [run_setups fold_left]; fold (run_setups l).
  change (fold_left _ l ?x) with (run_setups l x); rewrite IH by exact H2.
  apply post_init_other; cbn in H1; auto.
Qed.

(** Setting up again with the same dictionary. *)
Lemma again_get h t a size size' who who' n h' rc h'' rc' : dict_wf (h a) ->
  post_init h t a size who (PredefinedNumberOfSteps n : criterion T) = (h', Ok rc) ->
  post_init h' t a size' who' (PredefinedNumberOfSteps n : criterion T) = (h'', Ok rc') ->
  (t = "MultiLevel"%string -> dget "storage_list" (h a) = None) ->
  forall k, dget k (h'' a) = to_library t size' who' n (h a) k.
Proof.
  intros W H1 H2 HM k.
  assert (W' : dict_wf (h' a)).
  { pose proof (post_init_wf h t a size who (PredefinedNumberOfSteps n : criterion T) a W) as G; rewrite H1 in G; exact G. }
  destruct (post_init_get _ _ _ _ _ _ _ _ W H1) as (_ & _ & _ & G1).
  destruct (post_init_get _ _ _ _ _ _ _ _ W' H2) as (_ & _ & _ & G2).
  rewrite G2; unfold to_library.
  destruct (String.eqb k "checkpoint") eqn:K1; [reflexivity|].
  destruct (String.eqb k "n_timesteps") eqn:K2; [reflexivity|].
  destruct (String.eqb k "fwd_operator") eqn:K3; [reflexivity|].
  destruct (String.eqb k "rev_operator") eqn:K4; [reflexivity|].
  rewrite G1; unfold to_library; rewrite K1, K2, K3, K4.
  destruct (dget k (h a)) as [v|] eqn:Ek.
  - destruct (String.eqb t "MultiLevel" && String.eqb k "storage_list") eqn:B.
    + apply andb_prop in B as [B1 B2]; apply String.eqb_eq in B1; apply String.eqb_eq in B2; subst.
      rewrite (HM eq_refl) in Ek; discriminate.
    + destruct v; reflexivity.
  - destruct (String.eqb k "n_checkpoints") eqn:K5; cbn [andb]; [|reflexivity].
    destruct (negb (String.eqb t "MultiLevel") && negb (String.eqb t "Base")); [|reflexivity].
    destruct (Nat.eqb n 1); reflexivity.
Qed.

(** Storages. *)
Lemma storages_named size sts :
  Forall (fun e => In (fst e) ["Numpy"; "Disk"; "Bytes"]%string) sts ->
  Forall2 (storage_named size) sts (flat_map (make_storage size) sts).
Proof.
  induction 1 as [|[k o] sts H _ IH]; [constructor|]; cbn [flat_map].
  cbn in H; unfold make_storage at 1; cbn [fst snd].
  destruct H as [<-|[<-|[<-|[]]]]; cbn; constructor; auto; repeat split.
Qed.
End PostInit.

(** ** The component *)
Section Component.
Context {T : Type} {N : Num T} {I : NumInf T}.

Lemma setup_iff (u : user_options T) size who h sc :
  (forall t a, u_ckpt u = ChooseRevolve t a -> dict_wf (h a)) ->
  ((exists r, snd (construct_and_setup u size who h sc) = Ok r) <->
   u_controllers u <> [] /\ Forall (fun f => f_args f = []) (u_controllers u) /\ u_args u = [] /\
   orders_known (u_bt u) (u_controllers u) /\ checkpointing_usable u h).
Proof.
  intros W; unfold construct_and_setup.
  pose proof (check_iff (u_controllers u)) as K.
  destruct (check_error_controller (u_controllers u)) as [x|e]; cbn.
  2:{ split; [intros (? & ?); discriminate|]; intros (_ & F & _); apply K in F as (? & ?); discriminate. }
  assert (F : Forall (fun f => f_args f = []) (u_controllers u)) by (apply K; eauto).
  pose proof (setup_controller_iff (u_bt u) (u_args u) (u_config u) (u_controllers u) F) as S.
  destruct (setup_error_controller (u_bt u) (u_args u) (u_config u) (u_controllers u)) as [[c g]|e].
  2:{ split; [intros (? & ?); discriminate|]; intros (A & _ & B & D & _).
      destruct (proj2 S (conj A (conj B D))); discriminate. }
  destruct (proj1 S (ex_intro _ _ eq_refl)) as (A & B & D).
  assert (G : (exists r, snd (setup_checkpointing u size who h sc) = Ok r) <-> checkpointing_usable u h).
  { unfold setup_checkpointing, checkpointing_usable; destruct (u_ckpt u) as [| |t a] eqn:E; cbn; [split; eauto|split; eauto|].
    rewrite <- (post_init_iff h t a size who (u_crit u) (W t a eq_refl)).
    destruct (post_init h t a size who (u_crit u)) as [h' [rc|e]]; cbn; split; intros (? & ?); eauto; discriminate. }
  destruct (setup_checkpointing u size who h sc) as [h' [ck|e]]; cbn in *; split.
  - intros _; repeat split; auto; apply G; eauto.
  - eauto.
  - intros (? & ?); discriminate.
  - intros (_ & _ & _ & _ & Z); apply G in Z as (? & ?); discriminate.
Qed.

Lemma setup_value (u : user_options T) size who h sc h' op w :
  construct_and_setup u size who h sc = (h', Ok (op, w)) ->
  exists f fs c cfg ck, u_controllers u = f :: fs /\
    cfg = match u_config u with Some g => g | None => f_config f end /\
    build_chain (map (fun f => f_exponents f (match t_p (u_bt u) with
                                              | Some _ => nlit (inject_Z (Z.of_nat (weaker_order (u_bt u))))
                                              | None => n0 end) (arg [])) (f :: fs)) = Some c /\
    holds_options u cfg (ctl_call cfg) ninf op /\ o_ckpt op = ck /\ w = setup op c /\
    match u_ckpt u with
    | ChooseNo => ck = NoCheckpointer
    | ChooseAll => ck = AllCheckpointer
    | ChooseRevolve _ _ => ck = PyrevolveCheckpointer (fst sc) (snd sc)
    end.
Proof.
  unfold construct_and_setup; intros H.
  pose proof (check_iff (u_controllers u)) as K.
  destruct (check_error_controller (u_controllers u)) as [x|e]; [|discriminate].
  assert (F : Forall (fun f => f_args f = []) (u_controllers u)) by (apply K; eauto).
  destruct (setup_error_controller (u_bt u) (u_args u) (u_config u) (u_controllers u)) as [[c g]|e] eqn:E; [|discriminate].
  destruct (setup_controller_value _ _ _ _ _ _ F E) as (B & f & fs & D1 & D2).
  destruct (setup_checkpointing u size who h sc) as [h1 [ck|e]] eqn:EC; [|discriminate]; injection H as <- <- <-.
  exists f, fs, c, g, ck; rewrite <- D1; repeat split; auto.
  unfold setup_checkpointing in EC; destruct (u_ckpt u); [congruence|congruence|].
  destruct (post_init _ _ _ _ _ _) as [h2 [rc|e]]; congruence.
Qed.

Lemma setup_error (u : user_options T) size who h sc h' e :
  construct_and_setup u size who h sc = (h', Err e) ->
  h' = h /\ (e = TypeError \/ e = AttributeError).
Proof.
  unfold construct_and_setup; intros H.
  pose proof (check_iff (u_controllers u)) as K.
  destruct (check_error_controller (u_controllers u)) as [x|e1] eqn:E0.
  2:{ injection H as <- <-; rewrite (check_err _ _ E0); auto. }
  assert (F : Forall (fun f => f_args f = []) (u_controllers u)) by (apply K; eauto).
  destruct (setup_error_controller (u_bt u) (u_args u) (u_config u) (u_controllers u)) as [[c g]|e1] eqn:E.
  2:{ injection H as <- <-; destruct (setup_controller_err _ _ _ _ _ F E) as [[-> _]| ->]; auto. }
  destruct (setup_checkpointing u size who h sc) as [h1 [ck|e1]] eqn:EC; [discriminate|]; injection H as <- <-.
  unfold setup_checkpointing in EC; destruct (u_ckpt u); [discriminate|discriminate|].
  destruct (post_init _ _ _ _ _ _) as [h2 [rc|e2]] eqn:EP; [discriminate|]; injection EC as <- <-.
  destruct (post_init_err _ _ _ _ _ _ _ _ EP) as (-> & [(-> & _)|(-> & _)]); auto.
Qed.
End Component.

(** ** A shared dictionary *)
Lemma shared_steps {T} {N : Num T} {C} (opA opB : options T C) n fs rs i wA wB p out :
  stateless opB (ctl wB) -> valid_schedule n fs rs -> Forall forward_action fs ->
  shared_compute opA opB fs i (wA, wB) = (p, Ok out) ->
  exists a l, starts_at opA i a /\ trajectory opB a l /\ length l = S n /\
    time_final out = final_time (disc (last l a)) /\ final out = final_state (disc (last l a)).
Proof.
  intros HS (s & s' & V1 & V2 & _) HF H; unfold shared_compute in H.
  rewrite compute_preparation_eq in H; unfold shared_iterate_forward, on_b in H.
  set (w0 := w_live _ (w_slots [] wB)) in H.
  destruct (forward_operator opB 1 0 w0) as [w1 [[]|e]] eqn:E1; [|discriminate].
  apply (forward_operator_log opB (ctl wB) HS) in E1 as (l1 & A1 & A2 & A3 & A4 & A5); [|reflexivity].
  cbn [fst snd] in H.
  destruct (run_actions opB fs w1) as [w2 [[]|e]] eqn:E2; [|discriminate].
  apply (forward_actions_log opB (ctl wB) HS n fs HF _ _ _ _ A5 V1) in E2 as (l2 & D1 & D2 & D3 & D4 & D5).
  injection H as <- <-; cbn [pos start_of] in D1.
  exists (live w0), (l1 ++ l2).
  split; [repeat split; reflexivity|].
  split; [apply (steps_trajectory opB (ctl wB)), (steps_app opB (ctl wB)); [exact A2|rewrite <- A4; exact D2]|].
  split; [rewrite app_length; lia|].
  rewrite last_app, <- A4, <- D4; split; reflexivity.
Qed.

(** Two set-ups with one dictionary: the library gets the objects of the second. *)
Lemma shared_options {T} {N : Num T} h t a size size' who who' n n' h' rc h'' rc' : dict_wf (h a) ->
  post_init h t a size who (PredefinedNumberOfSteps n : criterion T) = (h', Ok rc) ->
  post_init h' t a size' who' (PredefinedNumberOfSteps n' : criterion T) = (h'', Ok rc') ->
  revolver_arguments h'' rc = revolver_arguments h'' rc' /\
  let d := snd (revolver_arguments h'' rc) in
  dget "checkpoint" d = Some (VCheckpoint who') /\ dget "n_timesteps" d = Some (VInt (Z.of_nat n' - 1)) /\
  dget "fwd_operator" d = Some (VForward who') /\ dget "rev_operator" d = Some (VReverse who').
Proof.
  intros W H1 H2.
  assert (W' : dict_wf (h' a)).
  { pose proof (post_init_wf h t a size who (PredefinedNumberOfSteps n : criterion T) a W) as G; rewrite H1 in G; exact G. }
  destruct (post_init_get _ _ _ _ _ _ _ _ W H1) as (A1 & A2 & _ & _).
  destruct (post_init_get _ _ _ _ _ _ _ _ W' H2) as (B1 & B2 & _ & G2).
  unfold revolver_arguments; cbn [snd]; rewrite A1, B1; split; [congruence|].
  rewrite !G2; repeat split.
Qed.

(** The number of checkpoints chosen for the first run is kept. *)
Lemma stale_checkpoints {T} {N : Num T} h t a size size' who who' n n' h' rc h'' rc' : dict_wf (h a) ->
  t <> "MultiLevel"%string -> t <> "Base"%string -> dget "n_checkpoints" (h a) = None ->
  post_init h t a size who (PredefinedNumberOfSteps n : criterion T) = (h', Ok rc) ->
  post_init h' t a size' who' (PredefinedNumberOfSteps n' : criterion T) = (h'', Ok rc') ->
  dget "n_checkpoints" (h'' a) = Some (if Nat.eqb n 1 then VInt 1 else VNone).
Proof.
  intros W T1 T2 HN H1 H2.
  assert (W' : dict_wf (h' a)).
  { pose proof (post_init_wf h t a size who (PredefinedNumberOfSteps n : criterion T) a W) as G; rewrite H1 in G; exact G. }
  destruct (post_init_get _ _ _ _ _ _ _ _ W H1) as (_ & _ & _ & G1).
  destruct (post_init_get _ _ _ _ _ _ _ _ W' H2) as (_ & _ & _ & G2).
  apply String.eqb_neq in T1; apply String.eqb_neq in T2.
  assert (E : dget "n_checkpoints" (h' a) = Some (if Nat.eqb n 1 then VInt 1 else VNone)).
  { rewrite G1; unfold to_library; rewrite HN, T1, T2; reflexivity. }
  rewrite G2; unfold to_library; rewrite E, T1; destruct (Nat.eqb n 1); reflexivity.
Qed.

(** A second set-up of the multi-level revolver with storages. *)
Lemma multi_level_twice {T} {N : Num T} h a size size' who who' n n' h' rc sts : dict_wf (h a) ->
  dget "storage_list" (h a) = Some (VDict sts) ->
  post_init h "MultiLevel" a size who (PredefinedNumberOfSteps n : criterion T) = (h', Ok rc) ->
  post_init h' "MultiLevel" a size' who' (PredefinedNumberOfSteps n' : criterion T) = (h', Err AttributeError).
Proof.
  intros W HS H1.
  assert (W' : dict_wf (h' a)).
  { pose proof (post_init_wf h "MultiLevel" a size who (PredefinedNumberOfSteps n : criterion T) a W) as G;
      rewrite H1 in G; exact G. }
  destruct (post_init_get _ _ _ _ _ _ _ _ W H1) as (_ & _ & _ & G1).
  pose proof (G1 "storage_list"%string) as E; unfold to_library in E; rewrite HS in E; cbn in E.
  destruct (post_init h' "MultiLevel" a size' who' (PredefinedNumberOfSteps n' : criterion T)) as [h2 [rc'|e]] eqn:H2.
  - destruct (proj1 (post_init_iff h' "MultiLevel" a size' who' (PredefinedNumberOfSteps n' : criterion T) W'))
      as (_ & _ & Z); [rewrite H2; cbn; eauto|].
    destruct (Z eq_refl _ E) as (? & ?); discriminate.
  - destruct (post_init_err _ _ _ _ _ _ _ _ H2) as (-> & [(-> & [Q|(? & Q)])|(-> & _)]); [|discriminate|reflexivity].
    exfalso; apply Q; cbn; auto.
Qed.

(** A listed controller with further arguments. *)
Lemma general_fails {T} {N : Num T} {I : NumInf T} (u : user_options T) size who h sc :
  Exists (fun f => f_args f <> []) (u_controllers u) ->
  construct_and_setup u size who h sc = (h, Err TypeError).
Proof.
  intros HE; unfold construct_and_setup.
  pose proof (check_iff (u_controllers u)) as K.
  destruct (check_error_controller (u_controllers u)) as [x|e] eqn:E; [|rewrite (check_err _ _ E); reflexivity].
  exfalso; apply Exists_exists in HE as (f & H1 & H2).
  assert (G : Forall (fun f => f_args f = []) (u_controllers u)) by (apply K; eauto).
  rewrite Forall_forall in G; exact (H2 (G f H1)).
Qed.

(** ** Orders of tableaux *)
Section Orders.
Context {T : Type} {N : Num T}.

Lemma embedded_init_eq (A : mat T) b bh c p q name : mrows A = mcols A -> mrows A = length b ->
  length c = length b ->
  embedded_init A b bh (Some c) p q name =
  if Nat.eqb (length bh) (length b) then
    Ok ({| t_A := mdata A; t_b := b; t_c := c; t_stages := length b; t_p := p; t_name := name; t_hat := Some (bh, q) |},
        (if warn_weights b then [WeightsDoNotSum] else []) ++ (if warn_rows (mdata A) c then [RowSumsDiffer] else []))
  else Err AssertionError.
Proof.
  intros H1 H2 H3; unfold embedded_init, tableau_init, broadcastable.
  rewrite <- H1, H2, H3, !Nat.eqb_refl; cbn; rewrite H3, Nat.eqb_refl; cbn; destruct (Nat.eqb (length bh) (length b)); reflexivity.
Qed.

Lemma from_tableau (bt : tableau T) bh q name : tableau_wf bt ->
  match from_butchertableau bt bh q name with
  | Ok (e, ws) =>
      (exists p, t_p bt = Some p) /\ length bh = t_stages bt /\
      t_A e = t_A bt /\ t_b e = t_b bt /\ t_c e = t_c bt /\ t_stages e = t_stages bt /\ t_p e = t_p bt /\
      t_hat e = Some (bh, q) /\
      t_name e = match name with Some s => s | None => ("Adaptive " ++ t_name bt)%string end /\
      tableau_wf e
  | Err x => x = ValueError /\ t_p bt = None \/ x = AssertionError /\ length bh <> t_stages bt
  end.
Proof.
  intros W; unfold from_butchertableau, get_p; destruct (t_p bt) as [p|] eqn:Ep; cbn [bind]; [|auto].
  pose proof (tw_A _ W); pose proof (tw_b _ W); pose proof (tw_c _ W).
  rewrite embedded_init_eq by (cbn; congruence).
  destruct (Nat.eqb_spec (length bh) (length (t_b bt))) as [E|E]; [|right; split; congruence].
  cbn; repeat split; eauto; try congruence.
  all: cbn; rewrite ?H0; first [exact (tw_rows _ W) | congruence].
Qed.

(** The two methods of an embedded tableau. *)
Lemma methods_data (e : tableau T) bh q m wm em we : t_hat e = Some (bh, q) ->
  main_method e = Ok (m, wm) -> embedded_method e = Ok (em, we) ->
  t_A m = t_A e /\ t_b m = t_b e /\ t_c m = t_c e /\ t_p m = t_p e /\ t_hat m = None /\
  t_A em = t_A e /\ t_b em = bh /\ t_c em = t_c e /\ t_p em = q /\ t_hat em = None.
Proof.
  unfold main_method, embedded_method; intros -> Hm He.
  destruct (tableau_init_fields _ _ _ _ _ _ _ Hm) as (M1 & M2 & M3 & _ & M5 & _ & M7 & _).
  destruct (tableau_init_fields _ _ _ _ _ _ _ He) as (E1 & E2 & E3 & _ & E5 & _ & E7 & _).
  cbn in *; repeat split; auto.
Qed.

Lemma min_order_methods (e : tableau T) bh q m wm em we : t_hat e = Some (bh, q) ->
  main_method e = Ok (m, wm) -> embedded_method e = Ok (em, we) ->
  forall r, min_p_order e = Ok r <-> exists p p', get_p m = Ok p /\ get_p em = Ok p' /\ r = Some (Nat.min p p').
Proof.
  intros H Hm He r; destruct (methods_data _ _ _ _ _ _ _ H Hm He) as (_ & _ & _ & M & _ & _ & _ & _ & E & _).
  unfold min_p_order, get_p; rewrite H, M, E; destruct (t_p e) as [p|]; destruct q as [p'|]; split.
  all: try discriminate.
  all: try (intros (? & ? & A & B & D); congruence).
  - intros [= <-]; eauto.
Qed.
End Orders.

(** ** The shipped tableaux *)
Lemma shipped_orders x bt ws : shipped_init x = Ok (bt, ws) ->
  t_p bt = Some (s_p x) /\
  match s_hat x with
  | None => t_hat bt = None
  | Some (_, q) => exists bh, t_hat bt = Some (bh, Some q)
  end.
Proof.
  unfold shipped_init; destruct (s_hat x) as [[bh q]|]; intros H.
  - apply embedded_init_inv in H as (t0 & H & _ & ->).
    destruct (tableau_init_fields _ _ _ _ _ _ _ H) as (_ & _ & E & _); cbn; eauto.
  - destruct (tableau_init_fields _ _ _ _ _ _ _ H) as (_ & _ & E & _ & F & _); auto.
Qed.

Lemma shipped_accepted (I : NumInf R) x bt ws (u : user_options R) size who h sc :
  shipped_init x = Ok (bt, ws) -> u_bt u = bt -> u_controllers u <> [] ->
  incl (u_controllers u) plain_factories -> u_args u = [] ->
  (forall t a, u_ckpt u = ChooseRevolve t a -> dict_wf (h a)) ->
  (exists r, snd (construct_and_setup u size who h sc) = Ok r) <-> checkpointing_usable u h.
Proof.
  intros HX HB HN HI HA W; rewrite setup_iff by exact W; split; [tauto|]; intros HC.
  destruct (shipped_orders _ _ _ HX) as [P Q].
  split; [exact HN|]; split.
  { apply Forall_forall; intros f Hf; apply HI in Hf; unfold plain_factories in Hf.
    cbn in Hf; repeat destruct Hf as [<-|Hf]; try reflexivity; contradiction. }
  split; [exact HA|]; split; [|exact HC].
  unfold orders_known; rewrite HB, P; destruct (s_hat x) as [[? q]|]; [destruct Q as (bh & ->)|rewrite Q];
    [split; discriminate|left; discriminate].
Qed.

Lemma shipped_weaker x bt ws : shipped_init x = Ok (bt, ws) ->
  weaker_order bt = match s_hat x with None => s_p x | Some (_, q) => Nat.min (s_p x) q end.
Proof.
  intros H; destruct (shipped_orders _ _ _ H) as [P Q]; unfold weaker_order; rewrite P.
  destruct (s_hat x) as [[? q]|]; [destruct Q as (bh & ->)|rewrite Q; reflexivity].
  destruct (Nat.leb (s_p x) q) eqn:E; [apply Nat.leb_le in E|apply Nat.leb_gt in E]; lia.
Qed.

Lemma default_phat {T} {N : Num T} {I : NumInf T} (bt : tableau T) bh name e ws : tableau_wf bt ->
  from_butchertableau bt bh None name = Ok (e, ws) ->
  get_phat e = Err ValueError /\ min_p_order e = Err TypeError /\
  forall (u : user_options T) size who h sc r, u_bt u = e -> snd (construct_and_setup u size who h sc) <> Ok r.
Proof.
  intros W H; pose proof (from_tableau bt bh None name W) as G; rewrite H in G.
  destruct G as (_ & _ & _ & _ & _ & _ & _ & G & _).
  unfold get_phat, min_p_order; rewrite G; split; [reflexivity|]; split; [destruct (t_p e); reflexivity|].
  intros u size who h sc r E; unfold construct_and_setup.
  destruct (check_error_controller (u_controllers u)); [|discriminate].
  unfold setup_error_controller, min_p_order; rewrite E, G; destruct (t_p e); discriminate.
Qed.

Lemma options_handed_over {T} {N : Num T} h t a size who (crit : criterion T) : dict_wf (h a) ->
  ((exists rc, snd (post_init h t a size who crit) = Ok rc) <-> usable_options t crit (h a)) /\
  forall n h' rc, crit = PredefinedNumberOfSteps n -> post_init h t a size who crit = (h', Ok rc) ->
    In (t, fst (revolver_arguments h' rc)) revolvers /\
    (forall k, dget k (snd (revolver_arguments h' rc)) = to_library t size who n (h a) k) /\
    (forall b, b <> a -> h' b = h b) /\ dict_wf (h' a).
Proof.
  intros W; split; [apply post_init_iff; exact W|]; intros n h' rc -> H.
  destruct (post_init_get _ _ _ _ _ _ _ _ W H) as (A1 & A2 & A3 & A4).
  unfold revolver_arguments; cbn [fst snd]; rewrite A1; split; [exact (class_named _ _ A2)|]; split; [exact A4|]; split; [exact A3|].
  pose proof (post_init_wf h t a size who (PredefinedNumberOfSteps n : criterion T) a W) as G; rewrite H in G; exact G.
Qed.

Lemma general_have_arguments {T} {N : Num T} {I : NumInf T} : Forall (fun f : factory T => f_args f <> []) general_factories.
Proof. unfold general_factories; repeat apply Forall_cons; try apply Forall_nil; unfold f_args; discriminate. Qed.

Lemma general_refused {T} {N : Num T} {I : NumInf T} (u : user_options T) size who h sc g :
  In g general_factories -> In g (u_controllers u) ->
  construct_and_setup u size who h sc = (h, Err TypeError).
Proof.
  intros Hg Hu; apply general_fails, Exists_exists; exists g; split; [exact Hu|].
  exact (proj1 (Forall_forall _ _) general_have_arguments g Hg).
Qed.
