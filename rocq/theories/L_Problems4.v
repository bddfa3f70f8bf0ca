(** Files of the shipped studies. *)
From Coq Require Import String Ascii.
From Coq Require Import List Bool Arith ZArith QArith Qabs Qreals Reals Lia Lra Lqa.
From Verif Require Import Base Ext Float64 M_Heap M_Metadata M_Writer M_Tableaux M_Problems SpecWriter SpecProblems L_Problems L_Problems2 L_Problems3.
Import ListNotations.
Local Open Scope list_scope.
Local Open Scope string_scope.
Local Open Scope list_scope.

Lemma names_differ x y : In x all_tableaux -> In y all_tableaux -> same_name (s_name x) (s_name y) -> s_name x = s_name y.
Proof.
  intros Hx Hy S. apply normal_iff in S.
  assert (F : forallb (fun a => forallb (fun b => negb (String.eqb (normal a) (normal b)) || String.eqb a b) (map s_name all_tableaux))
    (map s_name all_tableaux) = true) by (vm_compute; reflexivity).
  rewrite forallb_forall in F. specialize (F _ (in_map s_name _ _ Hx)). rewrite forallb_forall in F. specialize (F _ (in_map s_name _ _ Hy)).
  rewrite S, String.eqb_refl in F. cbn in F. now apply String.eqb_eq.
Qed.

Definition decimals : list (Z * Z) := [(1, -3); (2, -3); (4, -3); (5, -3); (1, -2); (2, -2); (4, -2); (5, -2); (1, -1)]%Z.
Lemma decimal h : In h (prothero_steps ++ kaps_steps) -> exists m e, In (m, e) decimals /\ (h == inject_Z m * 10 ^ e)%Q.
Proof.
  cbn. intros [<-|[<-|[<-|[<-|[<-|[<-|[<-|[<-|[<-|[<-|[]]]]]]]]]]];
  [exists 1%Z, (-3)%Z|exists 2%Z, (-3)%Z|exists 4%Z, (-3)%Z|exists 5%Z, (-3)%Z|exists 1%Z, (-2)%Z|
   exists 1%Z, (-2)%Z|exists 2%Z, (-2)%Z|exists 4%Z, (-2)%Z|exists 5%Z, (-2)%Z|exists 1%Z, (-1)%Z]; (split; [cbn; tauto|reflexivity]).
Qed.
Lemma decimal_range m e : In (m, e) decimals -> (1 <= m <= 9)%Z.
Proof. cbn. intuition (match goal with H : (_, _) = _ |- _ => injection H as <- <- end; lia). Qed.
Lemma close_digit x h m e : In (m, e) decimals -> (h == inject_Z m * 10 ^ e)%Q -> (1000 * Qabs (x - h) <= h)%Q ->
  (20 * Qabs (x - inject_Z m * 10 ^ e) < 10 ^ e)%Q.
Proof.
  intros D H B. rewrite H in B. pose proof (ten_pos e) as P0. pose proof (decimal_range _ _ D) as R.
  assert (A : (inject_Z m <= inject_Z 9)%Q) by (rewrite <- Zle_Qle; lia).
  assert (A' : (inject_Z m * 10 ^ e <= inject_Z 9 * 10 ^ e)%Q) by (apply Qmult_le_compat_r; [assumption|lra]).
  change (inject_Z 9) with 9%Q in *. lra.
Qed.
Lemma steps_differ x y h k : In h (prothero_steps ++ kaps_steps) -> In k (prothero_steps ++ kaps_steps) ->
  (1000 * Qabs (x - h) <= h)%Q -> (1000 * Qabs (y - k) <= k)%Q -> same_digit x y -> (h == k)%Q.
Proof.
  intros Hh Hk Bx By S. destruct (decimal h Hh) as (m & e & D & E), (decimal k Hk) as (m' & e' & D' & E').
  destruct (c70_digits x y m e m' e' (decimal_range _ _ D) (decimal_range _ _ D')
    (close_digit _ _ _ _ D E Bx) (close_digit _ _ _ _ D' E' By) S) as (-> & ->). now rewrite E, E'.
Qed.
Lemma step_positive x h : In h (prothero_steps ++ kaps_steps) -> (1000 * Qabs (x - h) <= h)%Q -> (0 < x)%Q.
Proof.
  intros Hh B. assert (P : (0 < h)%Q). { cbn in Hh. intuition (subst; reflexivity). }
  pose proof (Qle_Qabs (- (x - h))) as H0. rewrite Qabs_opp in H0. lra.
Qed.
Lemma c70_shipped_named folder x y s s' na p nb q : In x all_tableaux -> In y all_tableaux ->
  get_file_path folder (s_name x) (Named s) = Ok (na, p) -> get_file_path folder (s_name y) (Named s') = Ok (nb, q) ->
  p = q -> s_name x = s_name y /\ s = s'.
Proof.
  intros Hx Hy E F Q. destruct (proj1 (c70_same_file _ _ _ (Named s) (Named s') _ _ _ _ I I E F) Q) as (S & R).
  split; [now apply names_differ|exact R].
Qed.
Lemma c70_shipped_steps folder x y h k h' k' na p nb q : In x all_tableaux -> In y all_tableaux ->
  In h (prothero_steps ++ kaps_steps) -> In k (prothero_steps ++ kaps_steps) ->
  (1000 * Qabs (h' - h) <= h)%Q -> (1000 * Qabs (k' - k) <= k)%Q ->
  get_file_path folder (s_name x) (Step h') = Ok (na, p) -> get_file_path folder (s_name y) (Step k') = Ok (nb, q) ->
  p = q -> s_name x = s_name y /\ (h == k)%Q.
Proof.
  intros Hx Hy Hh Hk Bh Bk E F Q.
  destruct (proj1 (c70_same_file _ _ _ (Step h') (Step k') _ _ _ _ (step_positive _ _ Hh Bh) (step_positive _ _ Hk Bk) E F) Q) as (S & R).
  split; [now apply names_differ|]. exact (steps_differ _ _ _ _ Hh Hk Bh Bk R).
Qed.
Lemma twelve_fourteen : same_digit (12 # 10000) (14 # 10000).
Proof.
  exists 1%Z, (-3)%Z. split; (split; [lia|]); cbn [Z.eqb Pos.eqb]; (split; [discriminate|]); (split; [discriminate|]);
    intros C; exfalso; revert C; unfold Qeq; cbn; discriminate.
Qed.

(** Files with one recorded step. *)
Definition one_step (e : R) : file R :=
  result_file ["x"] [[1%nat]] 1 {| i_time := 0%R; i_values := [[0%R]]; i_error := Some 0%R |}
    [{| i_time := 1%R; i_values := [[1%R]]; i_error := Some e |}].
Lemma one_step_ends e : ends_with (one_step e) e.
Proof.
  exists ["x"], [[1%nat]], 1%nat, true, {| i_time := 0%R; i_values := [[0%R]]; i_error := Some 0%R |},
    [{| i_time := 1%R; i_values := [[1%R]]; i_error := Some e |}], 1%nat.
  split; [repeat constructor; cbn; intuition discriminate|]. split; [reflexivity|]. split; [repeat constructor|].
  split; [repeat constructor|]. split; [reflexivity|]. split; [cbn; intuition discriminate|].
  split; [split; [exists 1%nat; reflexivity|cbn; lia]|]. split; reflexivity.
Qed.
Definition runs (h : Q) : file R := one_step (if Qeq_bool h (12 # 10000) then 1 else 3).
Lemma c71_refuted :
  ~ (forall (fs : files R) folder name (run : Q -> file R) (err : Q -> R) steps, steps <> [] -> NoDup steps ->
     (forall h, In h steps -> (0 < h)%Q /\ ends_with (run h) (err h)) ->
     exists m, compute_tolerance (homogeneous folder name run steps fs) folder name steps = Ok m /\ mean (map err steps) m).
Proof.
  intros H. destruct (H (fun _ => None) "data" "RK" runs (fun h => if Qeq_bool h (12 # 10000) then 1 else 3)%R [12 # 10000; 14 # 10000]%Q) as (m & E & M).
  - discriminate.
  - constructor; [intros [C|[]]; discriminate|]. constructor; [intros []|constructor].
  - intros h [<-|[<-|[]]]; (split; [reflexivity|]); apply one_step_ends.
  - unfold mean in M. cbn in M.
    destruct (tolerance_mean (homogeneous "data" "RK" runs [12 # 10000; 14 # 10000]%Q (fun _ => None)) "data" "RK" [12 # 10000; 14 # 10000]%Q [3; 3]%R) as (m' & E' & M').
    + discriminate.
    + repeat constructor; (eexists; eexists; split; [reflexivity|]); cbn [homogeneous get_file_path snd];
        match goal with |- context [String.eqb ?a ?b] => replace (String.eqb a b) with true by (vm_compute; reflexivity) end;
        unfold runs; cbn [Qeq_bool]; apply read_end, one_step_ends.
    + rewrite E in E'. injection E' as <-. unfold mean in M'. cbn in M'. Lra.lra.
Qed.

Definition study_pairs : list (Q * Q) := map (pair prothero_end) prothero_steps ++ map (pair kaps_end) kaps_steps.
Lemma c74_shipped T h : In (T, h) study_pairs -> exists n, number_of_steps (flit T) (flit h) = Ok n /\ (inject_Z n * h == T)%Q.
Proof.
  unfold study_pairs. cbn.
  intros [E|[E|[E|[E|[E|[E|[E|[E|[E|[E|[]]]]]]]]]]]; injection E as <- <-;
  [exists 10000%Z|exists 5000%Z|exists 2500%Z|exists 2000%Z|exists 1000%Z|exists 100%Z|exists 50%Z|exists 25%Z|exists 20%Z|exists 10%Z];
  (split; [vm_compute; reflexivity|reflexivity]).
Qed.
Lemma c74_refuted : ~ (forall T h n, (0 < h)%Q -> (inject_Z n * h == T)%Q -> number_of_steps (flit T) (flit h) = Ok n).
Proof.
  intros H. specialize (H (3 # 10)%Q (1 # 10)%Q 3%Z eq_refl eq_refl).
  assert (E : number_of_steps (flit (3 # 10)) (flit (1 # 10)) = Ok 2%Z) by (vm_compute; reflexivity). congruence.
Qed.
