(** Specification side: parts of the data of a user, and the price of a regression tree. *)
From Coq Require Import List Arith Bool ZArith QArith.
From Verif Require Import Base_Q Model_Regression Spec_Reg.
Import ListNotations.
Local Open Scope nat_scope.

(** A path from the root: tested features, and whether they are present. *)
Notation path := (list (nat * bool)).
Definition on_path (p : path) (r : rrow) : bool := forallb (fun c => Bool.eqb (negb (nth (fst c) (fst r) 0 =? 0)) (snd c)) p.
(** The rows that follow a path. *)
Definition rows_at (p : path) (rows : list rrow) : list rrow := filter (on_path p) rows.
(** Squared errors plus a price for every branching node. *)
Definition priced (price : Q) (rows : list rrow) (t : rtree) : Q := (row_sse rows t + price * qn (rnodes t))%Q.
(** A solution that is described by its root feature, its value and the numbers of branching nodes
    left and right is the best one with depth at most two and at most [n] branching nodes: it
    belongs to such a tree, and no such tree, with whatever numbers at its leaves, is cheaper. *)
Definition describes (feature : option nat) (left right : nat) (t : rtree) : Prop :=
  match t with
  | RLeaf _ => feature = None /\ left = 0 /\ right = 0
  | RSplit f l r => feature = Some f /\ left = rnodes l /\ right = rnodes r
  end.
Definition best_of (price : Q) (nf n : nat) (rows : list rrow) (feature : option nat) (value : Q) (left right : nat) : Prop :=
  (exists t, reg_allowed nf 1 2 n rows t /\ (value == priced price rows t)%Q /\ describes feature left right t)
  /\ forall t, reg_allowed nf 1 2 n rows t -> (value <= priced price rows t)%Q.
(** For a minimum leaf size [m]: the solution belongs to a tree within the limits. *)
Definition of_tree (price : Q) (nf m n : nat) (rows : list rrow) (feature : option nat) (value : Q) (left right : nat) : Prop :=
  exists t, reg_allowed nf m 2 n rows t /\ (value == priced price rows t)%Q /\ describes feature left right t.
