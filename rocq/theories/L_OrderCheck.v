(** Checking the order conditions of the shipped tableaux by computation.
    L_Order.v proves what the checks mean. *)
From Coq Require Import List QArith Bool ZArith.
From Verif Require Import M_Tableaux SpecTree L_Fields.
Import ListNotations.
Local Open Scope nat_scope.
Local Open Scope list_scope.

Section Conditions.
Context {K : Type} (zero one : K) (add mul : K -> K -> K).
(** |x - q| <= e and |x - q| >= e. *)
Context (near far : K -> Q -> Q -> bool).

Fixpoint kdot (r w : list K) : K :=
  match r, w with x :: r', y :: w' => add (mul x y) (kdot r' w') | _, _ => zero end.
Definition kapply (A : list (list K)) (w : list K) : list K := map (fun r => kdot r w) A.
Fixpoint kprod (x y : list K) : list K :=
  match x, y with a :: x', b :: y' => mul a b :: kprod x' y' | _, _ => [] end.
Definition kones (A : list (list K)) : list K := map (fun _ => one) A.
Fixpoint kpow (x : K) (n : nat) : K := match n with O => one | S n' => mul x (kpow x n') end.

(** For a forest: [A w], the product [w] of its weights, and of its densities. *)
Definition row : Type := list K * (list K * Q).
Definition dens (k : nat) (d : Q) : Q := (inject_Z (Z.of_nat (S k)) * d)%Q.
Definition extend (A : list (list K)) (q : list K * Q) : row := (kapply A (fst q), q).

(** The forests with [n + 1] vertices, from those with up to [n]. *)
Definition next (T : list (list row)) (n : nat) : list (list K * Q) :=
  flat_map (fun k =>
    flat_map (fun u => map (fun v => (kprod (fst u) (fst (snd v)), (dens k (snd (snd u)) * snd (snd v))%Q))
                           (nth (n - k) T []))
             (nth k T [])) (seq 0 (S n)).
Fixpoint table (A : list (list K)) (n : nat) : list (list row) :=
  match n with
  | O => [[extend A (kones A, 1%Q)]]
  | S n' => let T := table A n' in T ++ [map (extend A) (next T n')]
  end.

(** Weights of a single tree. *)
Fixpoint kweights (A : list (list K)) (t : tree) : list K :=
  match t with
  | Node ts => fold_right (fun u x => kprod (kapply A (kweights A u)) x) (kones A) ts
  end.
Fixpoint densityQ (t : tree) : Q :=
  match t with
  | Node ts => (inject_Z (Z.of_nat (order t)) * fold_right (fun u x => densityQ u * x) 1 ts)%Q
  end.

Definition sharp_bound : Q := 1 # 1000.

(** The order conditions up to order [p], the quadrature conditions, and a tree
    of order [p + 1] whose condition is missed. *)
Definition conditions (A : list (list K)) (b c : list K) (p : nat) (e : Q) (t : tree) : bool :=
  let T := table A (p - 1) in
  forallb (fun n => forallb (fun u : row => near (kdot b (fst (snd u))) (/ dens n (snd (snd u))) e) (nth n T []))
          (seq 0 p) &&
  forallb (fun k => near (kdot b (map (fun x => kpow x k) c)) (1 # Pos.of_nat (S k)) e) (seq 0 p) &&
  Nat.eqb (order t) (S p) && far (kdot b (kweights A t)) (/ densityQ t) sharp_bound.
End Conditions.

Definition f0 : fld := fofQ 0.
Definition fnear (x : fld) (q e : Q) : bool := fsmall (fsub x (fofQ q)) e.
Definition ffar (x : fld) (q e : Q) : bool := flarge (fsub x (fofQ q)) e.
Definition b0 : ball := (0, 0)%Z.
Definition bone : ball := (unit, 0)%Z.
Definition bnear (x : ball) (q e : Q) : bool := bsmall (badd x (qfloor (- q), 1%Z)) e.
Definition bfar (x : ball) (q e : Q) : bool := blarge (badd x (qfloor (- q), 1%Z)) e.

Fixpoint omap {A B} (f : A -> option B) (l : list A) : option (list B) :=
  match l with
  | [] => Some []
  | x :: l' => obind (f x) (fun y => obind (omap f l') (fun ys => Some (y :: ys)))
  end.
Definition common (l : list fld) : positive := fold_right fden 1%positive l.
Definition rescale_vec (l : list fld) : list fld := map (frescale (common l)) l.
Definition rescale_mat (l : list (list fld)) : list (list fld) :=
  let d := common (concat l) in map (map (frescale d)) l.

(** In exact arithmetic if the bound is 0, in rounded arithmetic otherwise. *)
Definition check_weights (A : list (list expr)) (b c : list expr) (p : nat) (e : Q) (t : tree) : bool :=
  if Qle_bool e 0 then
    match omap (omap evalF) A, omap evalF b, omap evalF c with
    | Some A', Some b', Some c' =>
        conditions f0 f1 fadd fmul fnear ffar (rescale_mat A') (rescale_vec b') (rescale_vec c') p e t
    | _, _, _ => false
    end
  else
    match omap (omap evalB) A, omap evalB b, omap evalB c with
    | Some A', Some b', Some c' => conditions b0 bone badd bmul bnear bfar A' b' c' p e t
    | _, _, _ => false
    end.

Definition is_zero (x : expr) : bool :=
  match evalF x with Some a => feqb a f0 | None => false end.
Definition check_shape (x : shipped) : bool :=
  let s := length (s_b x) in
  Nat.ltb 0 s && Nat.eqb (length (s_A x)) s && forallb (fun r => Nat.eqb (length r) s) (s_A x) &&
  Nat.eqb (length (s_c x)) s && Nat.ltb 0 (s_p x) &&
  match omap evalF (nth 0 (s_A x) []), evalF (nth 0 (s_c x) (Lit 0)) with
  | Some r, Some c => feqb (fold_right fadd f0 r) c
  | _, _ => false
  end &&
  forallb (fun i => forallb (fun j => is_zero (nth j (nth i (s_A x) []) (Lit 0))) (seq (S i) (s - S i))) (seq 0 s).

Definition check (x : shipped) (e eh : Q) (t th : tree) : bool :=
  check_shape x && Qle_bool e (1 # 100000) &&
  check_weights (s_A x) (s_b x) (s_c x) (s_p x) e t &&
  match s_hat x with
  | None => true
  | Some (bh, ph) => Nat.eqb (length bh) (length (s_b x)) && check_weights (s_A x) bh (s_c x) ph eh th
  end.

(** Trees of the next order whose conditions are missed (main and embedded
    weights), in the order of [precision]. *)
Definition missed : list (tree * tree) := [
  (Node [Node []], Node []);
  (Node [Node []], Node []);
  (Node [Node [Node []]], Node []);
  (Node [Node [Node [Node []]]], Node []);
  (Node [Node [Node []]; Node [Node []]], Node []);
  (Node [Node [Node []; Node []]; Node []; Node []], Node []);
  (Node [Node [Node []]], Node [Node []]);
  (Node [Node [Node []]], Node [Node []]);
  (Node [Node []; Node []], Node [Node []]);
  (Node [Node []; Node []; Node []], Node [Node [Node []]]);
  (Node [Node [Node [Node []]]], Node [Node [Node []]]);
  (Node [Node [Node []; Node []]], Node [Node []; Node []]);
  (Node [Node []; Node []; Node []], Node [Node []; Node []]);
  (Node [Node [Node []; Node []]], Node [Node []; Node []]);
  (Node [Node []; Node []; Node []], Node [Node []; Node []]);
  (Node [Node [Node []; Node []]], Node [Node []; Node []]);
  (Node [Node [Node []; Node []]], Node [Node []; Node []]);
  (Node [Node [Node []]; Node [Node []]], Node [Node [Node [Node []]]]);
  (Node [Node [Node []; Node []]; Node []], Node [Node [Node []; Node []]]);
  (Node [Node [Node []; Node []; Node []]], Node [Node [Node []; Node []]]);
  (Node [Node [Node []; Node []; Node []]], Node [Node [Node []; Node []]]);
  (Node [Node [Node [Node []]; Node []]], Node [Node []; Node []; Node []]);
  (Node [Node []; Node []; Node []; Node []; Node []], Node [Node [Node [Node [Node []]]]]);
  (Node [Node [Node []; Node []; Node []]; Node []], Node [Node [Node []; Node []]; Node []])].


Lemma all_checked :
  forallb (fun q => let '((x, (e, eh)), (t, th)) := q in check x e eh t th) (combine precision missed) = true.
Proof. vm_compute; reflexivity. Qed.
