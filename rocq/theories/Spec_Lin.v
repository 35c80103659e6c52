(** Specification side: regression trees with a line in every leaf, on the rows of a user. *)
From Coq Require Import List Arith Bool ZArith QArith.
From Verif Require Import Base_Q Model_SimpleLinear Model_LinFit.
Import ListNotations.
Local Open Scope nat_scope.

Definition bit (f : nat) (r : urow) : bool := negb (nth f (fst r) 0 =? 0).
Definition goal (r : urow) : Q := fst (snd r).
Definition column (j : nat) (r : urow) : Q := nth j (snd (snd r)) 0%Q.
(** What a tree predicts for a row: feature absent goes left; a leaf has an intercept and one
    coefficient for every column. *)
Fixpoint lin_value (t : ltree) (r : urow) : Q :=
  match t with
  | LLeaf m => (lm_b0 m + sumQ (fun j => nth j (lm_b m) 0 * column j r) (seq 0 (length (lm_b m))))%Q
  | LSplit f l r' => if bit f r then lin_value r' r else lin_value l r
  end.
Definition lin_sse (rows : list urow) (t : ltree) : Q := sumQ (fun r => (goal r - lin_value t r) * (goal r - lin_value t r))%Q rows.
(** Mean and variance of something over the rows. *)
Definition mean (g : urow -> Q) (rows : list urow) : Q := (sumQ g rows / qn (length rows))%Q.
Definition variance (g : urow -> Q) (rows : list urow) : Q := mean (fun r => (g r - mean g rows) * (g r - mean g rows))%Q rows.
(** The ridge penalty: [pen] times the variance of the column times the squared coefficient, for
    every leaf and column. *)
Fixpoint lin_ridge (pen : Q) (var : nat -> Q) (t : ltree) : Q :=
  match t with
  | LLeaf m => sumQ (fun j => pen * var j * (nth j (lm_b m) 0 * nth j (lm_b m) 0))%Q (seq 0 (length (lm_b m)))
  | LSplit _ l r => (lin_ridge pen var l + lin_ridge pen var r)%Q
  end.
Fixpoint lnodes (t : ltree) : nat := match t with LLeaf _ => 0 | LSplit _ l r => S (lnodes l + lnodes r) end.
Fixpoint ldepth (t : ltree) : nat := match t with LLeaf _ => 0 | LSplit _ l r => S (Nat.max (ldepth l) (ldepth r)) end.
(** Squared errors, penalties, and for every node [ccp] times the squared errors around the mean. *)
Definition lin_total (ccp pen : Q) (rows : list urow) (t : ltree) : Q :=
  (lin_sse rows t + lin_ridge pen (fun j => variance (column j) rows) t + ccp * (qn (length rows) * variance goal rows) * qn (lnodes t))%Q.
(** Leaves with at most one coefficient that is not zero. *)
Fixpoint lines (ncols : nat) (t : ltree) : Prop :=
  match t with
  | LLeaf m => length (lm_b m) = ncols /\ exists j, forall k, k <> j -> (nth k (lm_b m) 0 == 0)%Q
  | LSplit _ l r => lines ncols l /\ lines ncols r
  end.
Fixpoint lfits (nf : nat) (t : ltree) : Prop := match t with LLeaf _ => True | LSplit f l r => f < nf /\ lfits nf l /\ lfits nf r end.
(** Every leaf receives at least [m] rows. *)
Fixpoint lleaves (m : nat) (rows : list urow) (t : ltree) : Prop :=
  match t with
  | LLeaf _ => m <= length rows
  | LSplit f l r => lleaves m (filter (fun p => negb (bit f p)) rows) l /\ lleaves m (filter (bit f) rows) r
  end.
Definition lin_allowed (nf m d n : nat) (rows : list urow) (t : ltree) : Prop := lfits nf t /\ lleaves m rows t /\ ldepth t <= d /\ lnodes t <= n.
(** Lines only over columns whose values are apart in the leaf: n^2 times the variance there (plus
    the penalty) is at least 1/1000. *)
Fixpoint apart (pen : Q) (var : nat -> Q) (rows : list urow) (t : ltree) : Prop :=
  match t with
  | LLeaf m => forall j, ~ (nth j (lm_b m) 0 == 0)%Q -> (1 # 1000 <= qn (length rows) * (qn (length rows) * variance (column j) rows + pen * var j))%Q
  | LSplit f l r => apart pen var (filter (fun p => negb (bit f p)) rows) l /\ apart pen var (filter (bit f) rows) r
  end.
