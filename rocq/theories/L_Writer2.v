(** Lemmas about the operations on the result file. *)
From Coq Require Import String.
From Coq Require Import List Bool Arith Lia.
From Verif Require Import Base M_State M_Metadata M_Writer SpecMetadata SpecWriter L_Metadata L_Heap L_Writer.
Import ListNotations.
Local Open Scope string_scope.
Local Open Scope nat_scope.
Local Open Scope list_scope.

Lemma lookup_app {A} k (l1 l2 : list (string * A)) : lookup k (l1 ++ l2) =
  match lookup k l1 with Some x => Some x | None => lookup k l2 end.
Proof. induction l1 as [|[k' x] l1 IH]; cbn; [reflexivity|]; destruct (String.eqb k' k); [reflexivity|exact IH]. Qed.
Lemma lookup_none {A} k (l : list (string * A)) : lookup k l = None <-> ~ In k (map fst l).
Proof.
  induction l as [|[k' x] l IH]; cbn; [tauto|]; destruct (String.eqb_spec k' k) as [->|D]; [|rewrite IH; tauto].
  split; [discriminate|]; intros H; exfalso; auto.
Qed.
Lemma lookup_in {A} k (l : list (string * A)) x : NoDup (map fst l) -> In (k, x) l -> lookup k l = Some x.
Proof.
  induction l as [|[k' y] l IH]; [contradiction|]; cbn [map fst lookup]; intros D I; inversion D as [|z zs N1 N2]; subst.
  destruct I as [I|I]; [injection I as -> ->; rewrite String.eqb_refl; reflexivity|].
  destruct (String.eqb_spec k' k) as [->|]; [|auto]; destruct N1; apply in_map_iff; exists (k, x); auto.
Qed.
Lemma lookup_some {A} k (l : list (string * A)) x : lookup k l = Some x -> In (k, x) l.
Proof.
  induction l as [|[k' y] l IH]; cbn; [discriminate|]; destruct (String.eqb_spec k' k) as [->|]; [intros [= ->]; auto|auto].
Qed.
Lemma change_app_fresh {A} k (x : A) l1 l2 : lookup k l1 = None -> change k x (l1 ++ l2) = l1 ++ change k x l2.
Proof.
  induction l1 as [|[k' y] l1 IH]; cbn; [reflexivity|]; destruct (String.eqb k' k); [discriminate|]; intros H; rewrite IH; auto.
Qed.
Lemma lookup_change {A} k k' (x : A) l : lookup k l <> None ->
  lookup k' (change k x l) = if String.eqb k k' then Some x else lookup k' l.
Proof.
  induction l as [|[k1 y] l IH]; cbn; [congruence|].
  destruct (String.eqb_spec k1 k) as [->|D]; intros H; cbn [lookup].
  - destruct (String.eqb k k'); reflexivity.
  - destruct (String.eqb_spec k1 k') as [->|]; [|exact (IH H)].
    destruct (String.eqb_spec k k'); [congruence|reflexivity].
Qed.
Lemma change_same {A B} (h : A -> B) k x y (l : list (string * A)) : lookup k l = Some x -> h y = h x ->
  map (fun p => (fst p, h (snd p))) (change k y l) = map (fun p => (fst p, h (snd p))) l.
Proof.
  induction l as [|[k1 z] l IH]; cbn; [discriminate|]; destruct (String.eqb_spec k1 k) as [->|D]; cbn.
  - intros [= ->] ->; reflexivity.
  - intros H1 H2; rewrite IH; auto.
Qed.

Section Files.
Context {T : Type} {N : Num T}.
Implicit Types (f : file T) (gr : group T) (d : dataset T).

Lemma run_ops_app (l1 l2 : list (fop T)) fs : run_ops (l1 ++ l2) fs = bind (run_ops l1 fs) (run_ops l2).
Proof.
  revert fs; induction l1 as [|o l1 IH]; intros fs; [reflexivity|]; cbn [app run_ops].
  destruct (run_op o fs); [cbn; apply IH|reflexivity].
Qed.

(** *** Creating groups *)
Definition zeros_of (sh : list nat) : dataset T := {| d_shape := sh; d_data := vzeros (prod sh) |}.

Lemma make_data g l : forall f gr, lookup g f = None -> NoDup (map fst gr ++ map fst l) ->
  run_ops (map (fun p => MakeData g (fst p) (snd p)) l) (Some (f ++ [(g, gr)])) =
  Ok (Some (f ++ [(g, gr ++ map (fun p => (fst p, zeros_of (snd p))) l)])).
Proof.
  induction l as [|[n sh] l IH]; intros f gr Hg D; cbn [map]; [rewrite app_nil_r; reflexivity|].
  cbn [run_ops run_op fst snd]; rewrite lookup_app, Hg; cbn [lookup]; rewrite String.eqb_refl.
  cbn [map fst] in D; pose proof (NoDup_remove_2 _ _ _ D) as D2.
  rewrite (proj2 (lookup_none n gr)) by (intros I; apply D2, in_or_app; auto).
  rewrite change_app_fresh by exact Hg; cbn [change]; rewrite String.eqb_refl; cbn [bind].
  rewrite IH, <- app_assoc; [reflexivity|exact Hg|].
  rewrite map_app, <- app_assoc; exact D.
Qed.

Definition blank (md : metadata) (emb : bool) : group T :=
  ("time", zeros_of [1]) ::
  map (fun q => (q_name q, zeros_of (global_shape (q_array q)))) (time_integration_quantities md) ++
  (if emb then [("error_measure", zeros_of [1])] else []).

Lemma make_step_ok md emb g f : lookup g f = None -> names_ok (map q_name (time_integration_quantities md)) emb ->
  run_ops (make_step md emb g) (Some f) = Ok (Some (f ++ [(g, blank md emb)])).
Proof.
  intros Hg D.
  pose (l := ("time", [1]) :: map (fun q => (q_name q, global_shape (q_array q))) (time_integration_quantities md) ++
    (if emb then [("error_measure", [1])] else [])).
  replace (make_step md emb g) with (MakeGroup (T := T) g :: map (fun p => MakeData g (fst p) (snd p)) l).
  2:{ unfold make_step, l; cbn [map app fst snd]; rewrite map_app, map_map; destruct emb; reflexivity. }
  cbn [run_ops run_op]; rewrite Hg; cbn [bind].
  rewrite make_data; [|exact Hg|].
  - cbn [app]; do 4 f_equal; unfold l, blank; cbn [map fst snd]; f_equal; f_equal.
    rewrite map_app, map_map; destruct emb; reflexivity.
  - cbn [map app]; unfold l; cbn [map fst]; rewrite map_app, map_map; cbn [fst].
    destruct emb; exact D.
Qed.

(** *** Writing into groups *)
Definition get (g n : string) f : option (dataset T) := match lookup g f with Some gr => lookup n gr | None => None end.
Definition skeleton_of gr := map (fun p => (fst p, d_shape (snd p))) gr.
Definition skeleton f := map (fun p => (fst p, skeleton_of (snd p))) f.

(** Right so far: same groups and datasets, and where [C] holds the entries are
    right. *)
Record towards (C : string -> string -> nat -> Prop) f tf : Prop := {
  tw_skeleton : skeleton f = skeleton tf;
  tw_data : forall g n d d', get g n f = Some d -> get g n tf = Some d' ->
    length (d_data d) = length (d_data d') /\
    forall k, k < length (d_data d') -> C g n k -> nth k (d_data d) n0 = nth k (d_data d') n0
}.

Definition good tf (o : fop T) : Prop :=
  match o with
  | OpenOld => True
  | Put g n sel sh x => exists d, get g n tf = Some d /\ sel_shape sel = sh /\ length (d_data d) = prod (d_shape d) /\
      forall k, k < prod (d_shape d) -> selected sel (unravel k (d_shape d)) = true ->
        nth (ravel sh (inside sel (unravel k (d_shape d)))) x n0 = nth k (d_data d) n0
  | _ => False
  end.
Definition covers tf (o : fop T) (g n : string) (k : nat) : Prop :=
  exists sel sh x d, o = Put g n sel sh x /\ get g n tf = Some d /\ selected sel (unravel k (d_shape d)) = true.

Lemma skeleton_lookup g f tf : skeleton f = skeleton tf ->
  option_map skeleton_of (lookup g f) = option_map skeleton_of (lookup g tf).
Proof.
  revert tf; induction f as [|[g1 gr] f IH]; intros [|[g2 gr'] tf]; cbn; try discriminate; [reflexivity|].
  intros [= -> E1 E2]; destruct (String.eqb g2 g); [cbn; unfold skeleton_of; rewrite E1; reflexivity|auto].
Qed.
Lemma skeleton_lookup_in n gr gr' : skeleton_of gr = skeleton_of gr' ->
  option_map d_shape (lookup n gr) = option_map d_shape (lookup n gr').
Proof.
  revert gr'; induction gr as [|[n1 d] gr IH]; intros [|[n2 d'] gr']; cbn; try discriminate; [reflexivity|].
  intros [= -> E1 E2]; destruct (String.eqb n2 n); [cbn; rewrite E1; reflexivity|auto].
Qed.
Lemma skeleton_get g n f tf : skeleton f = skeleton tf -> option_map d_shape (get g n f) = option_map d_shape (get g n tf).
Proof.
  intros E; pose proof (skeleton_lookup g _ _ E) as L; unfold get.
  destruct (lookup g f) as [gr|], (lookup g tf) as [gr'|]; try discriminate; [|reflexivity].
  injection L as L; apply skeleton_lookup_in, L.
Qed.

Lemma put_op C f tf g n sel sh x : towards C f tf -> good tf (Put g n sel sh x) ->
  exists f', run_op (Put g n sel sh x) (Some f) = Ok (Some f') /\
    towards (fun g' n' k => C g' n' k \/ covers tf (Put g n sel sh x) g' n' k) f' tf.
Proof.
  intros [Sk Da] (dt & G & Es & Ld & V).
  pose proof (skeleton_get g n _ _ Sk) as E; rewrite G in E; cbn in E.
  destruct (get g n f) as [d|] eqn:Gf; [|discriminate]; injection E as E.
  unfold get in Gf; destruct (lookup g f) as [gr|] eqn:Lg; [|discriminate].
  cbn [run_op]; rewrite Lg, Gf.
  destruct (put sel sh x d) as [d'|e] eqn:P.
  2:{ unfold put in P; rewrite Es, (proj2 (shape_eqb_iff _ _) eq_refl) in P; discriminate. }
  destruct (put_length _ _ _ _ _ P) as [P1 P2].
  cbn [bind]; eexists; split; [reflexivity|].
  assert (GG : forall g' n', get g' n' (change g (change n d' gr) f) =
    if String.eqb g g' && String.eqb n n' then Some d' else get g' n' f).
  { intros g' n'; unfold get; rewrite lookup_change by congruence.
    destruct (String.eqb_spec g g') as [<-|]; [|reflexivity]; cbn [andb].
    rewrite lookup_change by congruence; destruct (String.eqb n n'); [reflexivity|]; rewrite Lg; reflexivity. }
  split.
  - rewrite <- Sk; unfold skeleton; apply change_same with (x := gr); [exact Lg|].
    unfold skeleton_of; apply change_same with (x := d); assumption.
  - intros g' n' d1 d2 H1 H2; rewrite GG in H1.
    destruct (String.eqb_spec g g') as [<-|Dg]; [destruct (String.eqb_spec n n') as [<-|Dn]|]; cbn [andb] in H1.
    + injection H1 as <-; rewrite G in H2; injection H2 as <-.
      rewrite P2, E; split; [congruence|]; intros k Lk Hk.
      rewrite Ld in Lk; rewrite (put_nth _ _ _ _ _ _ P), E by (rewrite E; exact Lk).
      destruct (selected sel (unravel k (d_shape dt))) eqn:Q; [apply V; assumption|].
      destruct Hk as [Hk|(sel' & sh' & x' & dd & Eo & Gd & Q')].
      * apply (Da g n d dt); [unfold get; rewrite Lg; exact Gf|exact G|lia|exact Hk].
      * injection Eo as <- <- <-; rewrite G in Gd; injection Gd as <-; congruence.
    + destruct (Da g n' d1 d2 H1 H2) as [D1 D2]; split; [exact D1|]; intros k Lk [Hk|(? & ? & ? & ? & Eo & _)]; [auto|].
      injection Eo; congruence.
    + destruct (Da g' n' d1 d2 H1 H2) as [D1 D2]; split; [exact D1|]; intros k Lk [Hk|(? & ? & ? & ? & Eo & _)]; [auto|].
      injection Eo; congruence.
Qed.

Lemma towards_weaken (C C' : string -> string -> nat -> Prop) f tf :
  (forall g n k, C' g n k -> C g n k) -> towards C f tf -> towards C' f tf.
Proof.
  intros H [A B]; split; [exact A|]; intros g n d d' H1 H2; destruct (B g n d d' H1 H2) as [B1 B2]; split; auto.
Qed.

Lemma put_ops tf l : forall C f, towards C f tf -> Forall (good tf) l ->
  exists f', run_ops l (Some f) = Ok (Some f') /\
    towards (fun g n k => C g n k \/ exists o, In o l /\ covers tf o g n k) f' tf.
Proof.
  induction l as [|o l IH]; intros C f Tw G.
  - eexists; split; [reflexivity|]; eapply towards_weaken; [|exact Tw]; intros g n k [H|(o & [] & _)]; exact H.
  - inversion G as [|? ? Go Gl]; subst.
    assert (S1 : exists f1, run_op o (Some f) = Ok (Some f1) /\
       towards (fun g n k => C g n k \/ covers tf o g n k) f1 tf).
    { destruct o; try contradiction.
      - eexists; split; [reflexivity|]; eapply towards_weaken; [|exact Tw].
        intros g n k [H|(? & ? & ? & ? & E & _)]; [exact H|discriminate].
      - apply put_op; assumption. }
    destruct S1 as (f1 & R1 & T1); destruct (IH _ _ T1 Gl) as (f2 & R2 & T2).
    exists f2; split; [cbn [run_ops]; rewrite R1; exact R2|].
    eapply towards_weaken; [|exact T2]; intros g n k [H|(o' & [<-|I] & Cv)]; [tauto|tauto|].
    right; exists o'; auto.
Qed.

(** A file that is right everywhere is the right one. *)
Lemma data_equal d d' : d_shape d = d_shape d' -> length (d_data d) = length (d_data d') ->
  (forall k, k < length (d_data d') -> nth k (d_data d) n0 = nth k (d_data d') n0) -> d = d'.
Proof.
  destruct d as [s1 x], d' as [s2 y]; cbn; intros -> L H; f_equal; apply (nth_ext _ _ n0 n0 L); intros k Lk; apply H; lia.
Qed.
Lemma group_equal gr : forall gr', skeleton_of gr = skeleton_of gr' -> NoDup (map fst gr') ->
  (forall n, lookup n gr = lookup n gr') -> gr = gr'.
Proof.
  induction gr as [|[n d] gr IH]; intros [|[n' d'] gr']; try discriminate; [reflexivity|].
  cbn [skeleton_of map fst snd]; intros [= <- E1 E2] D H; inversion D as [|? ? D1 D2]; subst.
  pose proof (H n) as Hn; cbn in Hn; rewrite String.eqb_refl in Hn; injection Hn as <-; f_equal.
  apply IH; [exact E2|exact D2|]; intros m; specialize (H m); cbn in H.
  destruct (String.eqb_spec n m) as [Em|]; [subst m; clear H|exact H].
  rewrite !(proj2 (lookup_none _ _)); [reflexivity|exact D1|].
  replace (map fst gr) with (map fst gr'); [exact D1|].
  apply (f_equal (map fst)) in E2; rewrite !map_map in E2; cbn in E2; symmetry; exact E2.
Qed.
Lemma file_equal f : forall tf, skeleton f = skeleton tf -> NoDup (map fst tf) ->
  Forall (fun p => NoDup (map fst (snd p))) tf -> (forall g n, get g n f = get g n tf) -> f = tf.
Proof.
  induction f as [|[g gr] f IH]; intros [|[g' gr'] tf]; try discriminate; [reflexivity|].
  cbn [skeleton map fst snd]; intros [= <- E1 E2] D F H.
  inversion D as [|? ? D1 D2]; subst; inversion F as [|? ? F1 F2]; subst; cbn in F1.
  assert (E : gr = gr').
  { apply group_equal; [exact E1|exact F1|]; intros n; specialize (H g n); unfold get in H; cbn in H.
    rewrite String.eqb_refl in H; exact H. }
  rewrite E; f_equal; apply IH; [exact E2|exact D2|exact F2|]; intros g1 n; specialize (H g1 n); unfold get in H; cbn in H.
  destruct (String.eqb_spec g g1) as [Em|]; [subst g1; clear H|exact H].
  unfold get; rewrite !(proj2 (lookup_none _ _)); [reflexivity|exact D1|].
  replace (map fst f) with (map fst tf); [exact D1|].
  apply (f_equal (map fst)) in E2; rewrite !map_map in E2; cbn in E2; symmetry; exact E2.
Qed.
Lemma towards_all C f tf : towards C f tf -> NoDup (map fst tf) -> Forall (fun p => NoDup (map fst (snd p))) tf ->
  (forall g n d k, get g n tf = Some d -> k < length (d_data d) -> C g n k) -> f = tf.
Proof.
  intros [Sk Da] D F H; apply file_equal; [exact Sk|exact D|exact F|]; intros g n.
  pose proof (skeleton_get g n _ _ Sk) as E.
  destruct (get g n f) as [d|] eqn:G1, (get g n tf) as [d'|] eqn:G2; try discriminate; [|reflexivity].
  injection E as E; destruct (Da g n d d' G1 G2) as [L V]; f_equal; apply data_equal; [exact E|exact L|].
  intros k Lk; apply V; [exact Lk|]; eapply H; eassumption.
Qed.
End Files.
