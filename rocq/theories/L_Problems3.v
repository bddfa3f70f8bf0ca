(** Files of a study: paths, tolerance, directories. *)
From Coq Require Import String Ascii.
From Coq Require Import List Bool Arith ZArith QArith Qreals Reals Lia Lra.
From Verif Require Import Base Ext M_Heap M_Metadata M_Writer M_Problems SpecWriter SpecProblems L_Writer8 L_Problems L_Problems2.
Import ListNotations.
Local Open Scope list_scope.
Local Open Scope string_scope.
Local Open Scope list_scope.

(** ** Paths *)
Lemma path_is folder a t nm p : get_file_path folder a t = Ok (nm, p) ->
  exists kind, p = in_folder folder kind nm /\
    (t = Named kind /\ (kind = "adaptive" \/ kind = "avg_homogeneous") /\ nm = normal a \/
     exists x, t = Step x /\ kind = "homogeneous" /\ nm = normal ("data_" ++ format_0E x ++ "_" ++ a)%string).
Proof.
  destruct t as [s|x|]; cbn; intros E; [| |discriminate].
  - destruct (String.eqb_spec s "adaptive") as [E1|_], (String.eqb_spec s "avg_homogeneous") as [E2|_]; cbn in E; try discriminate;
      injection E as <- <-; exists s; (split; [reflexivity|]); left; auto.
  - injection E as <- <-. eexists. split; [reflexivity|]. right. eauto.
Qed.
Lemma in_folder_inj f k k' a b : In k ["adaptive"; "avg_homogeneous"; "homogeneous"] -> In k' ["adaptive"; "avg_homogeneous"; "homogeneous"] ->
  in_folder f k a = in_folder f k' b -> k = k' /\ a = b.
Proof.
  unfold in_folder. intros K K' E. apply app_inj_left in E. cbn [append] in E.
  assert (Q : k = k').
  { cbn in K, K'. destruct K as [<-|[<-|[<-|[]]]], K' as [<-|[<-|[<-|[]]]]; try reflexivity; discriminate E. }
  subst k'. split; [reflexivity|]. injection E as E. apply app_inj_left in E. injection E as E. now apply app_inj_right in E.
Qed.
Lemma step_name_same x y a b : 0 < x -> 0 < y ->
  (normal ("data_" ++ format_0E x ++ "_" ++ a) = normal ("data_" ++ format_0E y ++ "_" ++ b) <-> same_name a b /\ same_digit x y)%Q.
Proof.
  intros Hx Hy. rewrite !normal_app. change (normal "data_") with "data_". change (normal "_") with "_".
  rewrite <- normal_iff, <- (format_same x y Hx Hy). split.
  - intros E. apply app_inj_left in E. cbn [append] in E.
    apply split_at in E as (E1 & E2); auto using format_free.
  - intros (-> & ->). reflexivity.
Qed.
Lemma c70_same_file folder a b t u na p nb q :
  positive_step t -> positive_step u ->
  get_file_path folder a t = Ok (na, p) -> get_file_path folder b u = Ok (nb, q) ->
  (p = q <-> same_name a b /\ same_run t u).
Proof.
  intros Pt Pu E F. destruct (path_is _ _ _ _ _ E) as (k & -> & D), (path_is _ _ _ _ _ F) as (k' & -> & D').
  assert (K : In k ["adaptive"; "avg_homogeneous"; "homogeneous"]) by (cbn; destruct D as [(_ & [->| ->] & _)|(x & _ & -> & _)]; auto).
  assert (K' : In k' ["adaptive"; "avg_homogeneous"; "homogeneous"]) by (cbn; destruct D' as [(_ & [->| ->] & _)|(x & _ & -> & _)]; auto).
  split.
  - intros Q. apply in_folder_inj in Q as (-> & ->); auto.
    destruct D as [(-> & O & N1)|(x & -> & -> & N1)], D' as [(-> & O' & N2)|(y & -> & O' & N2)].
    + split; [|reflexivity]. apply normal_iff. congruence.
    + subst. destruct O; discriminate.
    + destruct O'; discriminate.
    + cbn. apply step_name_same; auto. congruence.
  - intros (S & R). destruct D as [(-> & O & ->)|(x & -> & -> & ->)], D' as [(-> & O' & ->)|(y & -> & -> & ->)]; cbn in R; try contradiction.
    + subst. apply normal_iff in S. now rewrite S.
    + f_equal. now apply step_name_same.
Qed.
Lemma c70_name folder a t nm p : get_file_path folder a t = Ok (nm, p) ->
  (exists kind, In kind ["adaptive"; "avg_homogeneous"; "homogeneous"] /\ p = (folder ++ "/" ++ kind ++ "/" ++ nm ++ ".h5")%string) /\
  forall c, In c (list_ascii_of_string nm) -> c <> " "%char /\ c <> ","%char /\ ~ (65 <= nat_of_ascii c <= 90)%nat.
Proof.
  intros E. destruct (path_is _ _ _ _ _ E) as (k & -> & D). split.
  - exists k. split; [|reflexivity]. cbn. destruct D as [(_ & [->| ->] & _)|(x & _ & -> & _)]; auto.
  - assert (Q : exists s, nm = normal s) by (destruct D as [(_ & _ & ->)|(x & _ & _ & ->)]; eauto). destruct Q as (s & ->).
    pose proof (normal_plain s) as F. rewrite Forall_forall in F. intros c Hc. specialize (F c Hc). unfold plain in F.
    rewrite !andb_true_iff, !negb_true_iff in F. destruct F as ((F1 & F2) & F3). repeat split.
    + intros ->. discriminate.
    + intros ->. discriminate.
    + intros (A & B). apply Nat.leb_le in A, B. rewrite A, B in F3. discriminate.
Qed.
Lemma c70_accepts folder a t : (exists nm p, get_file_path folder a t = Ok (nm, p)) <->
  t = Named "adaptive" \/ t = Named "avg_homogeneous" \/ exists x, t = Step x.
Proof.
  split.
  - intros (nm & p & E). destruct (path_is _ _ _ _ _ E) as (k & _ & [(-> & [->| ->] & _)|(x & -> & _)]); eauto.
  - intros [->|[->|(x & ->)]]; cbn; eauto.
Qed.
Lemma c70_factor x y : (2 * y <= x \/ 2 * x <= y)%Q -> ~ same_digit x y.
Proof.
  intros H (m & e & A & B). pose proof (shows_factor _ _ _ _ A B) as L1. pose proof (shows_factor _ _ _ _ B A) as L2.
  destruct H as [H|H]; [apply Qlt_not_le in L1|apply Qlt_not_le in L2]; contradiction.
Qed.
Lemma c70_digits x y m e m' e' : (1 <= m <= 9)%Z -> (1 <= m' <= 9)%Z ->
  (20 * Qabs.Qabs (x - inject_Z m * 10 ^ e) < 10 ^ e)%Q -> (20 * Qabs.Qabs (y - inject_Z m' * 10 ^ e') < 10 ^ e')%Q ->
  same_digit x y -> m = m' /\ e = e'.
Proof.
  intros M M' Nx Ny (m0 & e0 & A & B).
  destruct (shows_unique _ _ _ _ _ A (near_shows _ _ _ M Nx)), (shows_unique _ _ _ _ _ B (near_shows _ _ _ M' Ny)). split; congruence.
Qed.

(** ** Tolerance *)
Lemma read_end {T} (f : file T) e : ends_with f e -> read_last_local_error (Some f) = Ok e.
Proof.
  intros (names & shapes & period & emb & start & rs & m & H1 & H2 & H3 & H4 & H5 & H6 & H7 & -> & E).
  rewrite (c54 names shapes period emb start rs m H1 H2 H3 H4 H5 H6 H7), E. reflexivity.
Qed.
Lemma last_errors_all {T} (fs : files T) folder name steps es :
  Forall2 (fun h e => exists nm p, get_file_path folder name (Step h) = Ok (nm, p) /\ read_last_local_error (fs p) = Ok e) steps es ->
  last_errors fs folder name steps = Ok es.
Proof.
  induction 1 as [|h e steps es (nm & p & E & R) _ IH]; [reflexivity|].
  cbn [last_errors]. rewrite E. cbn [bind snd]. rewrite R. cbn [bind]. now rewrite IH.
Qed.
Lemma last_errors_missing {T} (fs : files T) folder name steps :
  (forall h nm p, In h steps -> get_file_path folder name (Step h) = Ok (nm, p) ->
     fs p = None \/ exists f e, fs p = Some f /\ ends_with f e) ->
  (exists h nm p, In h steps /\ get_file_path folder name (Step h) = Ok (nm, p) /\ fs p = None) ->
  last_errors fs folder name steps = Err FileError.
Proof.
  induction steps as [|h steps IH]; intros A (h0 & nm0 & p0 & I & E0 & M); [destruct I|].
  cbn [last_errors]. destruct (proj2 (c70_accepts folder name (Step h))) as (nm & p & E); [eauto|]. rewrite E. cbn [bind snd].
  destruct (A h nm p (or_introl eq_refl) E) as [N|(f & e & F & W)]; [rewrite N; reflexivity|].
  rewrite F, (read_end _ _ W). cbn [bind]. rewrite IH; [reflexivity| |].
  - intros h1 nm1 p1 H1. apply A. now right.
  - destruct I as [->|I]; [rewrite E in E0; injection E0 as <- <-; congruence|]. eauto 6.
Qed.
Lemma fold_sum l : forall a, fold_left Rplus l a = (a + fold_right Rplus 0 l)%R.
Proof. induction l as [|x l IH]; intros a; cbn; [ring|]. rewrite IH. ring. Qed.
Lemma lit_nat n : Q2R (inject_Z (Z.of_nat n)) = INR n.
Proof. unfold Q2R. cbn. rewrite Rinv_1, Rmult_1_r. symmetry. apply INR_IZR_INZ. Qed.
Lemma tolerance_mean (fs : files R) folder name steps es : steps <> [] ->
  Forall2 (fun h e => exists nm p, get_file_path folder name (Step h) = Ok (nm, p) /\ read_last_local_error (fs p) = Ok e) steps es ->
  exists m, compute_tolerance fs folder name steps = Ok m /\ mean es m.
Proof.
  intros N F. unfold compute_tolerance. rewrite (last_errors_all _ _ _ _ _ F). eexists. split; [reflexivity|].
  unfold mean. cbn. rewrite lit_nat. change (fold_left Rplus es 0%R) with (fold_left Rplus es 0%R). rewrite fold_sum.
  assert (L : INR (length es) <> 0%R).
  { apply not_0_INR. destruct F; [contradiction|discriminate]. }
  field. exact L.
Qed.
Lemma c71_missing (fs : files R) folder name steps :
  (forall h nm p, In h steps -> get_file_path folder name (Step h) = Ok (nm, p) ->
     fs p = None \/ exists f e, fs p = Some f /\ ends_with f e) ->
  (exists h nm p, In h steps /\ get_file_path folder name (Step h) = Ok (nm, p) /\ fs p = None) ->
  exists x, compute_tolerance fs folder name steps = Ok x /\ (x * 1000000 = 1)%R.
Proof.
  intros A B. unfold compute_tolerance. rewrite (last_errors_missing _ _ _ _ A B). eexists. split; [reflexivity|].
  cbn. unfold Q2R. cbn. field.
Qed.

Lemma homogeneous_other {T} folder name (run : Q -> file T) q steps : forall fs,
  (forall h nm p, In h steps -> get_file_path folder name (Step h) = Ok (nm, p) -> p <> q) ->
  homogeneous folder name run steps fs q = fs q.
Proof.
  induction steps as [|h steps IH]; intros fs H; [reflexivity|]. cbn [homogeneous]. rewrite IH.
  - destruct (get_file_path folder name (Step h)) as [(nm, p)|e] eqn:E; [|reflexivity]. cbn [snd].
    destruct (String.eqb_spec q p) as [->|N]; [|reflexivity]. exfalso. exact (H h nm p (or_introl eq_refl) E eq_refl).
  - intros h1 nm1 p1 H1. apply H. now right.
Qed.
Lemma pairwise_tail {A} (P : A -> A -> Prop) x l : pairwise P (x :: l) -> pairwise P l /\ forall y, In y l -> P x y.
Proof.
  intros H. split.
  - intros i j y z L E F. apply (H (S i) (S j)); [lia|exact E|exact F].
  - intros y I. apply In_nth_error in I as (j & E). apply (H 0%nat (S j)); [lia|reflexivity|exact E].
Qed.
Lemma homogeneous_files {T} folder name (run : Q -> file T) steps : forall fs,
  (forall h, In h steps -> (0 < h)%Q) -> pairwise (fun h k => ~ same_digit h k) steps ->
  forall h nm p, In h steps -> get_file_path folder name (Step h) = Ok (nm, p) ->
  homogeneous folder name run steps fs p = Some (run h).
Proof.
  induction steps as [|h0 steps IH]; intros fs Pos D h nm p I E; [destruct I|].
  destruct (pairwise_tail _ _ _ D) as (D' & D0). cbn [homogeneous]. destruct I as [<-|I].
  - rewrite homogeneous_other.
    + rewrite E. cbn [snd]. now rewrite String.eqb_refl.
    + intros h1 nm1 p1 I1 E1 <-. apply (D0 h1 I1).
      refine (proj2 (proj1 (c70_same_file folder name name (Step h0) (Step h1) _ _ _ _ _ _ E E1) eq_refl)); cbn; apply Pos; [now left|now right].
  - apply (IH _ (fun x Hx => Pos x (or_intror Hx)) D' h nm p I E).
Qed.
Lemma c71_study (fs : files R) folder name (run : Q -> file R) (err : Q -> R) steps : steps <> [] ->
  (forall h, In h steps -> (0 < h)%Q /\ ends_with (run h) (err h)) -> pairwise (fun h k => ~ same_digit h k) steps ->
  exists m, compute_tolerance (homogeneous folder name run steps fs) folder name steps = Ok m /\ mean (map err steps) m.
Proof.
  intros N A D. apply tolerance_mean; [exact N|].
  assert (G : forall h, In h steps -> exists nm p, get_file_path folder name (Step h) = Ok (nm, p) /\
    read_last_local_error (homogeneous folder name run steps fs p) = Ok (err h)).
  { intros h I. destruct (proj2 (c70_accepts folder name (Step h))) as (nm & p & E); [eauto|]. exists nm, p. split; [exact E|].
    rewrite (homogeneous_files folder name run steps fs (fun x Hx => proj1 (A x Hx)) D h nm p I E). apply read_end, A, I. }
  revert G. generalize (homogeneous folder name run steps fs). intros g G. clear - G.
  induction steps as [|h steps IH]; [constructor|]. constructor; [apply G; now left|]. apply IH. intros k Hk. apply G. now right.
Qed.
Lemma mean_between l m lo hi : l <> [] -> mean l m -> (forall x, In x l -> lo <= x <= hi)%R -> (lo <= m <= hi)%R.
Proof.
  unfold mean. intros N M B.
  assert (S : (lo * INR (length l) <= fold_right Rplus 0 l <= hi * INR (length l))%R).
  { clear N M. induction l as [|x l IH]; [cbn; lra|]. change (length (x :: l)) with (S (length l)). rewrite S_INR. cbn [fold_right].
    pose proof (B x (or_introl eq_refl)). specialize (IH (fun y Hy => B y (or_intror Hy))). lra. }
  assert (L : (0 < INR (length l))%R) by (apply lt_0_INR; destruct l; [contradiction|cbn; lia]).
  rewrite <- M in S. split; apply (Rmult_le_reg_r (INR (length l))); lra.
Qed.

(** ** Directories *)
Lemma directory_spec s : (directory s = "" /\ ~ In "/"%char (list_ascii_of_string s)) \/ directory_of s (directory s).
Proof.
  induction s as [|c s IH]; [left; auto|]. cbn [directory]. destruct IH as [(E & N)|(a & b & E & D & N)].
  - rewrite E. destruct (Ascii.eqb_spec c "/") as [->|H].
    + right. exists "", s. auto.
    + left. split; [reflexivity|]. cbn. intros [C|C]; auto.
  - right. rewrite D, E. exists (String c a), b. split; [reflexivity|]. split; [|exact N].
    destruct a; reflexivity.
Qed.
Lemma there_in d ds : there d ds = true <-> In d ds.
Proof.
  unfold there. rewrite existsb_exists. split; [intros (x & I & E); apply String.eqb_eq in E; now subst|].
  intros I. exists d. split; [exact I|apply String.eqb_refl].
Qed.
Lemma app_chars a b : list_ascii_of_string (a ++ b) = list_ascii_of_string a ++ list_ascii_of_string b.
Proof. induction a as [|c a IH]; cbn; [reflexivity|]. now rewrite IH. Qed.
Lemma last_slash_unique (a b a' b' : string) : (a ++ "/" ++ b)%string = (a' ++ "/" ++ b')%string ->
  ~ In "/"%char (list_ascii_of_string b) -> ~ In "/"%char (list_ascii_of_string b') -> a = a'.
Proof.
  revert a'. induction a as [|c a IH]; intros [|c' a'] E N N'; cbn in E; auto.
  - injection E as _ E. subst b. exfalso. apply N. rewrite app_chars. apply in_or_app. right. now left.
  - injection E as _ E. subst b'. exfalso. apply N'. rewrite app_chars. apply in_or_app. right. now left.
  - injection E as -> E. f_equal. apply IH; auto.
Qed.
Lemma directory_of_unique s d d' : directory_of s d -> directory_of s d' -> d = d'.
Proof. intros (a & b & E & -> & N) (a' & b' & E' & -> & N'). rewrite E in E'. now rewrite (last_slash_unique _ _ _ _ E' N N'). Qed.
Lemma directory_is s d : directory_of s d -> directory s = d /\ d <> "".
Proof.
  intros H. split.
  - destruct (directory_spec s) as [(_ & N)|D]; [|eapply directory_of_unique; eauto].
    destruct H as (a & b & -> & _). exfalso. apply N. rewrite app_chars. apply in_or_app. right. now left.
  - destruct H as (a & b & _ & -> & _). destruct a; discriminate.
Qed.
Lemma c72_paved path d ds : directory_of path d ->
  exists ds', generate_path path ds = (ds', Ok path) /\ incl ds ds' /\ (forall x, In x ds' -> In x ds \/ x = d) /\
    (is_output path = true -> In d ds').
Proof.
  intros H. destruct (directory_is _ _ H) as (E & N). unfold generate_path, makedirs. rewrite E.
  destruct (is_output path).
  - destruct (there d ds) eqn:T.
    + exists ds. split; [reflexivity|]. split; [apply incl_refl|]. split; [auto|]. intros _. now apply there_in.
    + destruct (String.eqb_spec d ""); [contradiction|]. cbn [orb]. exists (d :: ds). split; [reflexivity|].
      split; [apply incl_tl, incl_refl|]. split; [intros x [<-|I]; auto|]. intros _. now left.
  - exists ds. split; [reflexivity|]. split; [apply incl_refl|]. split; [auto|]. discriminate.
Qed.
Lemma c72_bare path ds : is_output path = true -> ~ In "/"%char (list_ascii_of_string path) -> ~ In "" ds ->
  generate_path path ds = (ds, Err FileError).
Proof.
  intros O N D. unfold generate_path. rewrite O.
  destruct (directory_spec path) as [(E & _)|(a & b & -> & _)].
  - rewrite E. destruct (there "" ds) eqn:T; [apply there_in in T; contradiction|]. reflexivity.
  - exfalso. apply N. rewrite app_chars. apply in_or_app. right. now left.
Qed.
Definition calm (s : stage) : Prop := s = Start \/ s = Done (Ok tt).
Lemma set_nth_calm k s ps : calm s -> Forall calm ps -> Forall calm (set_nth k s ps).
Proof.
  intros H. revert k. induction ps as [|p ps IH]; intros k F; destruct k; cbn; auto; inversion F; subst; constructor; auto.
Qed.
Lemma moves_calm path order : forall ds ps, In (directory path) ds -> Forall calm ps -> Forall calm (snd (moves path order ds ps)).
Proof.
  induction order as [|k order IH]; intros ds ps D F; [exact F|]. cbn [moves].
  destruct (nth_error ps k) as [s|] eqn:E; [|apply IH; assumption].
  assert (C : calm s) by (rewrite Forall_forall in F; apply F; eapply nth_error_In; eauto).
  assert (Q : exists s', one_move path ds s = (ds, s') /\ calm s').
  { destruct C as [->| ->]; cbn; [|exists (Done (Ok tt)); split; [reflexivity|now right]].
    apply there_in in D. rewrite D. destruct (is_output path); exists (Done (Ok tt)); (split; [reflexivity|now right]). }
  destruct Q as (s' & -> & C'). apply IH; [exact D|]. now apply set_nth_calm.
Qed.
Lemma c72_parallel path d order ds n : directory_of path d -> In d ds ->
  forall r, In (Done r) (snd (moves path order ds (repeat Start n))) -> r = Ok tt.
Proof.
  intros H D r I. destruct (directory_is _ _ H) as (E & _).
  assert (F : Forall calm (snd (moves path order ds (repeat Start n)))).
  { apply moves_calm; [now rewrite E|]. clear. induction n; constructor; auto. now left. }
  rewrite Forall_forall in F. destruct (F _ I) as [C|C]; [discriminate|congruence].
Qed.

(** ** Number of groups *)
Lemma c73_count {T} (fs : files T) folder name T0 nm p names shapes start rs {N : Num T} :
  get_file_path folder name (Named "adaptive") = Ok (nm, p) -> fs p = Some (result_file names shapes 1 start rs) ->
  average_steps fs folder name T0 = Ok (S (length rs), ndiv T0 (nlit (inject_Z (Z.of_nat (S (length rs)))))).
Proof.
  intros E F. unfold average_steps. rewrite E. cbn [bind snd]. unfold count_keys. rewrite F. cbn [bind].
  assert (L : length (result_file names shapes 1 start rs) = S (length rs)).
  { unfold result_file. cbn [length]. f_equal. rewrite map_length. unfold written.
    assert (G : forall k m, length (filter (fun i => Nat.eqb (Nat.modulo i 1) 0) (seq m k)) = k).
    { induction k as [|k IH]; intros m; [reflexivity|]. cbn [seq filter]. rewrite Nat.mod_1_r. cbn. now rewrite IH. }
    apply G. }
  now rewrite L.
Qed.
