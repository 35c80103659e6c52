(** Specification side: survival trees of depth two on the rows of a user. *)
From Coq Require Import List Arith Bool ZArith QArith Qminmax.
From Verif Require Import Base_Q Model_Regression.
Import ListNotations.
Local Open Scope nat_scope.

(** A row: binary features, baseline hazard, event. *)
Notation hrow := (list nat * (Q * bool))%type.
Notation path := (list (nat * bool)).
Definition hrows_at (p : path) (rows : list hrow) : list hrow :=
  filter (fun r : hrow => forallb (fun c => Bool.eqb (negb (nth (fst c) (fst r) 0 =? 0)) (snd c)) p) rows.
Definition events (rows : list hrow) : nat := length (filter (fun r : hrow => snd (snd r)) rows).
Definition hazard_of (rows : list hrow) : Q := sumQ (fun r : hrow => fst (snd r)) rows.
(** The risk factor of a leaf, at least half an event. *)
Definition risk (rows : list hrow) : Q := (Qmax (1 # 2) (qn (events rows)) / hazard_of rows)%Q.
(** The loss of a leaf on its own, with the logarithm [lg]: over the events, minus the logarithm of
    the hazard times the risk factor; never below zero. *)
Definition leaf_loss (lg : Q -> Q) (rows : list hrow) : Q :=
  Qmax 0 (sumQ (fun r : hrow => if snd (snd r) then - lg (fst (snd r)) else 0) rows - qn (events rows) * lg (risk rows))%Q.
Definition hleft (f : nat) (rows : list hrow) : list hrow := filter (fun r : hrow => nth f (fst r) 0 =? 0) rows.
Definition hright (f : nat) (rows : list hrow) : list hrow := filter (fun r : hrow => negb (nth f (fst r) 0 =? 0)) rows.
(** The loss of a tree: its numbers do not matter, every leaf has the loss of its rows. *)
Fixpoint shape_loss (lg : Q -> Q) (rows : list hrow) (t : rtree) : Q :=
  match t with
  | RLeaf _ => leaf_loss lg rows
  | RSplit f l r => (shape_loss lg (hleft f rows) l + shape_loss lg (hright f rows) r)%Q
  end.
Fixpoint hdepth (t : rtree) : nat := match t with RLeaf _ => 0 | RSplit _ l r => S (Nat.max (hdepth l) (hdepth r)) end.
Fixpoint hnodes (t : rtree) : nat := match t with RLeaf _ => 0 | RSplit _ l r => S (hnodes l + hnodes r) end.
(** Existing features, and [m] rows at every leaf. *)
Fixpoint hok (nf m : nat) (rows : list hrow) (t : rtree) : Prop :=
  match t with
  | RLeaf _ => m <= length rows
  | RSplit f l r => f < nf /\ hok nf m (hleft f rows) l /\ hok nf m (hright f rows) r
  end.
Definition surv_allowed (nf m n : nat) (rows : list hrow) (t : rtree) : Prop := hok nf m rows t /\ hdepth t <= 2 /\ hnodes t <= n.
(** Every leaf carries the risk factor of its rows. *)
Fixpoint risks (rows : list hrow) (t : rtree) : Prop :=
  match t with
  | RLeaf q => (q == risk rows)%Q
  | RSplit f l r => risks (hleft f rows) l /\ risks (hright f rows) r
  end.
(** A solution that is described by its root feature, its value and the numbers of branching nodes
    left and right is the best one with depth at most two and at most [n] branching nodes. *)
Definition hdescribes (feature : option nat) (left right : nat) (t : rtree) : Prop :=
  match t with
  | RLeaf _ => feature = None /\ left = 0 /\ right = 0
  | RSplit f l r => feature = Some f /\ left = hnodes l /\ right = hnodes r
  end.
Definition best_surv (lg : Q -> Q) (nf n : nat) (rows : list hrow) (feature : option nat) (value : Q) (left right : nat) : Prop :=
  (exists t, surv_allowed nf 1 n rows t /\ (value == shape_loss lg rows t)%Q /\ hdescribes feature left right t)
  /\ forall t, surv_allowed nf 1 n rows t -> (value <= shape_loss lg rows t)%Q.
(** For a minimum leaf size [m]: the solution belongs to a tree within the limits. *)
Definition of_surv_tree (lg : Q -> Q) (nf m n : nat) (rows : list hrow) (feature : option nat) (value : Q) (left right : nat) : Prop :=
  exists t, surv_allowed nf m n rows t /\ (value == shape_loss lg rows t)%Q /\ hdescribes feature left right t.
