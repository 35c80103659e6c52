(** Specification side: what a decision tree is, what it predicts, what it costs and which
    trees a user's limits allow.  Nothing here mentions the search.  The data is a list of
    instances per label, as in Model_Data.v; [has f x] says that binary feature [f] of
    instance [x] is 1. *)
From Coq Require Import List Arith Bool Lia ZArith.
From Verif Require Import Model_FeatureVector Model_Data Model_Terminal.
Import ListNotations.

(** The label a tree predicts: feature present means right. *)
Fixpoint predict (t : tree) (x : inst) : nat :=
  match t with
  | Leaf l => l
  | Split f l r => if has f x then predict r x else predict l x
  end.

(** Depth and number of branching nodes. *)
Fixpoint depth (t : tree) : nat :=
  match t with Leaf _ => 0 | Split _ l r => S (Nat.max (depth l) (depth r)) end.
Fixpoint nodes (t : tree) : nat :=
  match t with Leaf _ => 0 | Split _ l r => S (nodes l + nodes r) end.

(** The tree only tests features accepted by [ok_f] and only predicts labels below [nl]. *)
Fixpoint fits (ok_f : nat -> Prop) (nl : nat) (t : tree) : Prop :=
  match t with
  | Leaf l => l < nl
  | Split f l r => ok_f f /\ fits ok_f nl l /\ fits ok_f nl r
  end.

(** Every leaf receives at least [m] of the instances [xs]. *)
Fixpoint leaves_ok (m : nat) (xs : list inst) (t : tree) : Prop :=
  match t with
  | Leaf _ => m <= length xs
  | Split f l r => leaves_ok m (filter (fun x => negb (has f x)) xs) l
                   /\ leaves_ok m (filter (fun x => has f x) xs) r
  end.

(** The trees a user's limits allow: at most [d] levels, at most [n] branching nodes, at
    least [m] training instances per leaf. *)
Definition allowed (ok_f : nat -> Prop) (m d n : nat) (v : view) (t : tree) : Prop :=
  fits ok_f (length v) t /\ leaves_ok m (concat v) t /\ depth t <= d /\ nodes t <= n.

(** The number of misclassified instances. *)
Fixpoint wrong_from (k : nat) (v : view) (t : tree) : nat :=
  match v with
  | [] => 0
  | xs :: r => length (filter (fun x => negb (predict t x =? k)) xs) + wrong_from (S k) r t
  end.
Definition misclassified (v : view) (t : tree) : nat := wrong_from 0 v t.

(** General additive costs: [c x k l] is the cost of giving label [l] to instance [x] whose
    own label is [k]. *)
Fixpoint cost_from (c : inst -> nat -> nat -> Z) (k : nat) (v : view) (t : tree) : Z :=
  match v with
  | [] => 0%Z
  | xs :: r => (fold_right (fun x a => c x k (predict t x) + a) 0 xs + cost_from c (S k) r t)%Z
  end.
Definition tree_cost (c : inst -> nat -> nat -> Z) (v : view) (t : tree) : Z := cost_from c 0 v t.

(** [z] is the smallest cost of an allowed tree. *)
Definition optimum (c : inst -> nat -> nat -> Z) (ok_f : nat -> Prop) (m d n : nat) (v : view) (z : Z) : Prop :=
  (exists t, allowed ok_f m d n v t /\ tree_cost c v t = z)
  /\ (forall t, allowed ok_f m d n v t -> (z <= tree_cost c v t)%Z).
