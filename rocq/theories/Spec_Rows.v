(** Specification side: the training data as a user passes it, and trees on such data.
    Nothing here mentions the search or the solver's data structures. *)
From Coq Require Import List Arith Bool Sorted.
From Verif Require Import Model_FeatureVector Model_Data Model_Terminal Spec_Tree Spec_Examples.
Import ListNotations.

(** A user's rows: every row has [nf] binary features (0 is absent, anything else present)
    and one of the [nl] labels. *)
Definition good_rows (nf nl : nat) (rows : list (list nat * nat)) : Prop :=
  Forall (fun p => length (fst p) = nf /\ snd p < nl) rows.

(** The label a tree gives to a row: feature absent goes left. *)
Fixpoint row_predict (t : tree) (bits : list nat) : nat :=
  match t with
  | Leaf l => l
  | Split f l r => if nth f bits 0 =? 0 then row_predict l bits else row_predict r bits
  end.

(** The number of rows whose predicted label is not their own. *)
Definition row_errors (rows : list (list nat * nat)) (t : tree) : nat :=
  length (filter (fun p => negb (row_predict t (fst p) =? snd p)) rows).

(** Every leaf receives at least [m] rows. *)
Fixpoint row_leaves (m : nat) (rows : list (list nat * nat)) (t : tree) : Prop :=
  match t with
  | Leaf _ => m <= length rows
  | Split f l r => row_leaves m (filter (fun p => nth f (fst p) 0 =? 0) rows) l
                   /\ row_leaves m (filter (fun p => negb (nth f (fst p) 0 =? 0)) rows) r
  end.

(** The trees a user's limits allow: features below [nf], labels below [nl], at most [d]
    levels, at most [n] branching nodes and at least [m] rows in every leaf. *)
Definition row_allowed (nf nl m d n : nat) (rows : list (list nat * nat)) (t : tree) : Prop :=
  fits (fun f => f < nf) nl t /\ row_leaves m rows t /\ depth t <= d /\ nodes t <= n.

(** Data as the solver receives it: [nf] binary features per instance, distinct instance
    numbers below the number of instances, increasing inside every label. *)
Record loaded (nf : nat) (v : view) : Prop := Loaded {
  ld_bits : forall x, In x (concat v) -> exists bits, length bits = nf /\ ifv x = fv_make bits;
  ld_ids : NoDup (map iid (concat v));
  ld_lt : forall x, In x (concat v) -> iid x < vsize v;
  ld_order : Forall (StronglySorted (fun x y => iid x < iid y)) v }.

(** The number of tests a row goes through. *)
Fixpoint row_tests (t : tree) (bits : list nat) : nat :=
  match t with
  | Leaf _ => 0
  | Split f l r => S (if nth f bits 0 =? 0 then row_tests l bits else row_tests r bits)
  end.
