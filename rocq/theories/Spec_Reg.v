(** Specification side: regression trees on the rows of a user. *)
From Coq Require Import List Arith Bool ZArith QArith.
From Verif Require Import Base_Q Model_Regression.
Import ListNotations.
Local Open Scope nat_scope.

(** A row has binary features and a target. *)
Notation rrow := (list nat * Z)%type.
(** The number a tree predicts for a row: feature absent goes left. *)
Fixpoint row_value (t : rtree) (bits : list nat) : Q :=
  match t with
  | RLeaf c => c
  | RSplit f l r => if nth f bits 0 =? 0 then row_value l bits else row_value r bits
  end.
(** The sum of squared errors. *)
Definition row_sse (rows : list rrow) (t : rtree) : Q :=
  sumQ (fun r => (inject_Z (snd r) - row_value t (fst r)) * (inject_Z (snd r) - row_value t (fst r)))%Q rows.
(** The mean of the targets. *)
Definition row_mean (rows : list rrow) : Q := (sumQ (fun r => inject_Z (snd r)) rows / qn (length rows))%Q.
Fixpoint rdepth (t : rtree) : nat := match t with RLeaf _ => 0 | RSplit _ l r => S (Nat.max (rdepth l) (rdepth r)) end.
Fixpoint rnodes (t : rtree) : nat := match t with RLeaf _ => 0 | RSplit _ l r => S (rnodes l + rnodes r) end.
Fixpoint rfits (nf : nat) (t : rtree) : Prop := match t with RLeaf _ => True | RSplit f l r => f < nf /\ rfits nf l /\ rfits nf r end.
(** Every leaf receives at least [m] rows. *)
Fixpoint rleaves (m : nat) (rows : list rrow) (t : rtree) : Prop :=
  match t with
  | RLeaf _ => m <= length rows
  | RSplit f l r => rleaves m (filter (fun p => nth f (fst p) 0 =? 0) rows) l /\ rleaves m (filter (fun p => negb (nth f (fst p) 0 =? 0)) rows) r
  end.
(** The trees a user's limits allow, with any numbers at the leaves. *)
Definition reg_allowed (nf m d n : nat) (rows : list rrow) (t : rtree) : Prop :=
  rfits nf t /\ rleaves m rows t /\ rdepth t <= d /\ rnodes t <= n.
(** Squared errors plus a price for every node: [lam] times the squared errors around the mean. *)
Definition reg_total (lam : Q) (rows : list rrow) (t : rtree) : Q :=
  (row_sse rows t + lam * row_sse rows (RLeaf (row_mean rows)) * qn (rnodes t))%Q.
(** [a] is at most (10001/10000)^e times [b]. *)
Definition q_at_most (e : nat) (a b : Q) : Prop := (a * inject_Z (10000 ^ Z.of_nat e) <= b * inject_Z (10001 ^ Z.of_nat e))%Q.
(** At least the squared errors of any leaf: the number of rows times the sum of the squared targets. *)
Definition reg_top (rows : list rrow) : Z := (Z.of_nat (length rows) * fold_right (fun r a => snd r * snd r + a) 0 rows)%Z.
