(** Specification side: what a tree costs on the rows of a user, for the tasks with costs. *)
From Coq Require Import List Arith Bool ZArith QArith String.
From Verif Require Import Model_Terminal Model_CostSensitive Model_Policy Model_Tasks Spec_Tree Spec_Rows.
Import ListNotations.
Local Open Scope nat_scope.

Definition total {A} (f : A -> Z) (l : list A) : Z := fold_right (fun x a => (f x + a)%Z) 0%Z l.
(** The number of labels of a data set: one more than the largest label. *)
Definition label_count (labels : list nat) : nat := fold_right (fun l a => Nat.max (S l) a) 0 labels.

(** Instance costs: every row pays the cost that it states for the label it is given. *)
Definition ics_total (rows : list crow) (t : tree) : Z :=
  total (fun r => nth (row_predict t (cr_bits r)) (cr_costs r) 0%Z) rows.
(** The most that the rows can pay. *)
Definition ics_most (rows : list crow) : Z := total (fun r => fold_right Z.max 0%Z (cr_costs r)) rows.

(** Misclassification costs: every row pays the entry for its label and the label it is given. *)
Definition mis_total (M : list (list Z)) (rows : list (list nat * nat)) (t : tree) : Z :=
  total (fun p => nth (row_predict t (fst p)) (nth (snd p) M []) 0%Z) rows.

(** The features a row is tested on. *)
Fixpoint row_path (t : tree) (bits : list nat) : list nat :=
  match t with
  | Leaf _ => []
  | Split f l r => f :: (if nth f bits 0 =? 0 then row_path l bits else row_path r bits)
  end.
(** Test costs without groups and with one binary feature for each original one: every tested
    feature is paid once. *)
Fixpoint fees (fee : nat -> Z) (paid path : list nat) : Z :=
  match path with
  | [] => 0%Z
  | f :: p => if existsb (Nat.eqb f) paid then fees fee paid p else (fee f + fees fee (f :: paid) p)%Z
  end.
Definition cost_total (M : list (list Z)) (fee : nat -> Z) (rows : list (list nat * nat)) (t : tree) : Z :=
  (mis_total M rows t + total (fun p => fees fee [] (row_path t (fst p))) rows)%Z.
(** The same with several binary features for one original feature ([orig f] is the original
    feature of [f]): every original feature is paid once. *)
Definition orig_total (M : list (list Z)) (orig : nat -> nat) (fee : nat -> Z) (rows : list (list nat * nat)) (t : tree) : Z :=
  (mis_total M rows t + total (fun p => fees fee [] (map orig (row_path t (fst p)))) rows)%Z.

(** [a] is at most (10001/10000)^e times [b]. *)
Definition at_most (e : nat) (a b : Z) : Prop := (a * 10000 ^ Z.of_nat e <= b * 10001 ^ Z.of_nat e)%Z.
(** The exponent for trees of depth [d]. *)
Definition slack (d : nat) : nat := (d + 1) * (d + 2) / 2.
