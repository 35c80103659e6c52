(** Model of predict_proba.
    Source: /repo/pystreed/classification.py:122-170.  Rows are lists of integers as in the
    code (dtype intc, base.py:208), so that [~] is the complement of an integer; frequencies
    are rationals instead of doubles.  [None]: an assertion fails or an index is out of range. *)
From Coq Require Import List ZArith QArith Bool Arith.
From Verif Require Import Model_Terminal.
Import ListNotations.

Definition int_row := list Z.
Definition cell (f : nat) (r : int_row) : Z := nth f r 0%Z.

(** classification.py:156-160: the counts of the labels divided by the number of rows;
    all_counts[label] raises when the label is not below the number of classes. *)
Definition leaf_probs (k : nat) (ys : list nat) : option (list Q) :=
  if forallb (fun y => y <? k) ys
  then Some (map (fun j => (inject_Z (Z.of_nat (count_occ Nat.eq_dec ys j)) / inject_Z (Z.of_nat (length ys)))%Q) (seq 0 k))
  else None.
Definition qmax (l : list Q) : Q := fold_right (fun a b => if Qle_bool a b then b else a) 0 l.
(** classification.py:161 *)
Definition assign (P : list (list Q)) (ix : list nat) (p : list Q) : list (list Q) :=
  map (fun i => if existsb (Nat.eqb i) ix then p else nth i P []) (seq 0 (length P)).

(** classification.py:150-170.  np.argwhere(~c) keeps the rows whose complement is not zero;
    np.intersect1d of two ascending index lists is their common part. *)
Fixpoint rec_proba (k : nat) (X : list int_row) (t : tree) (P : list (list Q)) (ix : list nat) (train : list (int_row * nat)) : option (list (list Q)) :=
  match t with
  | Leaf l =>
    if length train =? 0 then None else
    match leaf_probs k (map snd train) with
    | None => None
    | Some p =>
      if negb (l <? k) then None
      else if Qle_bool (qmax p - (1 # 100000)) (nth l p 0) then Some (assign P ix p) else None
    end
  | Split f l r =>
    let left := filter (fun i => negb (Z.lnot (cell f (nth i X [])) =? 0)%Z) ix in
    let right := filter (fun i => negb (cell f (nth i X []) =? 0)%Z) ix in
    let go_right := fun p : int_row * nat => negb (cell f (fst p) =? 0)%Z in
    match rec_proba k X l P left (filter (fun p => negb (go_right p)) train) with
    | None => None
    | Some P1 => rec_proba k X r P1 right (filter go_right train)
    end
  end.

(** classification.py:122: the number of classes seen by fit. *)
Definition n_classes (train : list (int_row * nat)) : nat := length (nodup Nat.eq_dec (map snd train)).
(** classification.py:143-148 *)
Definition predict_proba (k : nat) (t : tree) (train : list (int_row * nat)) (X : list int_row) : option (list (list Q)) :=
  match rec_proba k X t (map (fun _ => map (fun _ => 0%Q) (seq 0 k)) X) (seq 0 (length X)) train with
  | None => None
  | Some P => if forallb (fun p => Qle_bool (1 - (1 # 10000)) (fold_right Qplus 0 p)) P then Some P else None
  end.
