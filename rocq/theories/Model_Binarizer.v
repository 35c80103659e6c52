(** Model of the binarizer.
    Source: /repo/pystreed/binarizer.py.  Numbers are rationals instead of doubles (so midpoints
    and quantiles are exact); values of a categorical column are numbers that are only compared
    for equality.  The strategy "tree" takes its thresholds from scikit-learn and enters as a
    sorted list. *)
From Coq Require Import List ZArith QArith Qround Bool Arith.
Import ListNotations.

(** np.unique: ascending without repetition. *)
Fixpoint uinsert (x : Q) (l : list Q) : list Q :=
  match l with
  | [] => [x]
  | y :: l' => if Qeq_bool x y then l else if Qle_bool x y then x :: l else y :: uinsert x l'
  end.
Definition unique (l : list Q) : list Q := fold_right uinsert [] l.
(** Ascending, for np.quantile. *)
Fixpoint insert (x : Q) (l : list Q) : list Q :=
  match l with [] => [x] | y :: l' => if Qle_bool x y then x :: l else y :: insert x l' end.
Definition sort (l : list Q) : list Q := fold_right insert [] l.

Definition midpoint (a b : Q) : Q := (a + b) / 2.
(** binarizer.py:281,284: the midpoints of neighbours. *)
Fixpoint midpoints (l : list Q) : list Q :=
  match l with a :: (b :: _) as l' => midpoint a b :: midpoints l' | _ => [] end.
(** np.linspace(lo, hi, n + 1) *)
Definition linspace (lo hi : Q) (n : nat) : list Q := map (fun i => lo + inject_Z (Z.of_nat i) * ((hi - lo) / inject_Z (Z.of_nat n)))%Q (seq 0 (S n)).
(** np.quantile with linear interpolation. *)
Definition quantile (col : list Q) (q : Q) : Q :=
  let s := sort col in
  let h := (q * inject_Z (Z.of_nat (length col) - 1))%Q in
  let lo := Qfloor h in
  let a := nth (Z.to_nat lo) s 0 in
  let b := nth (Nat.min (S (Z.to_nat lo)) (length s - 1)) s 0 in
  (a + (h - inject_Z lo) * (b - a))%Q.

Inductive strategy := Quantile | Uniform | Given (cuts : list Q).

(** binarizer.py:272-296: the thresholds of one column. *)
Definition col_min (u : list Q) : Q := hd 0 u.
Definition col_max (u : list Q) : Q := last u 0.
Definition thresholds (st : strategy) (n : nat) (col : list Q) : list Q :=
  let u := unique col in
  if (n =? 0) || Qeq_bool (col_min u) (col_max u) then []
  else match st with
       | Given cuts => cuts
       | _ =>
         if length u <=? n + 1 then midpoints u
         else match st with
              | Uniform => unique (midpoints (linspace (col_min u) (col_max u) n))
              | _ => unique (map (fun i => quantile col (inject_Z (Z.of_nat i) / inject_Z (Z.of_nat (n + 1)))) (seq 1 n))
              end
       end.
(** binarizer.py:313-316 *)
Definition threshold_bits (cuts : list Q) (x : Q) : list bool := map (fun c => Qle_bool x c) cuts.

(** collections.Counter: the values in the order of their first appearance. *)
Fixpoint distinct (seen : list Q) (col : list Q) : list Q :=
  match col with
  | [] => []
  | x :: col' => if existsb (Qeq_bool x) seen then distinct seen col' else x :: distinct (x :: seen) col'
  end.
Definition occurrences (col : list Q) (x : Q) : nat := length (filter (Qeq_bool x) col).
(** Counter.most_common: by descending count, stable. *)
Fixpoint cinsert (c : Q -> nat) (x : Q) (l : list Q) : list Q :=
  match l with [] => [x] | y :: l' => if c y <=? c x then x :: l else y :: cinsert c x l' end.
Definition most_common (col : list Q) : list Q := fold_right (cinsert (occurrences col)) [] (distinct [] col).
(** binarizer.py:162-180: the groups of values of one column. *)
Definition categories (n : nat) (col : list Q) : list (list Q) :=
  let vs := distinct [] col in
  if (n <=? 1) || (length vs <=? 1) then []
  else if (n =? 2) || (length vs =? 2) then [[nth 1 (most_common col) 0]]
  else if n <? length vs then map (fun v => [v]) (firstn (n - 1) vs) ++ [skipn (n - 1) vs]
  else map (fun v => [v]) vs.
(** binarizer.py:209-217 *)
Definition category_bits (groups : list (list Q)) (x : Q) : list bool := map (fun g => existsb (Qeq_bool x) g) groups.

(** binarizer.py:16-31 for an array: binary columns, continuous columns. *)
Definition column (j : nat) (rows : list (list Q)) : list Q := map (fun r => nth j r 0) rows.
Definition binary_column (rows : list (list Q)) (j : nat) : bool := forallb (fun x => Qeq_bool x 0 || Qeq_bool x 1) (column j rows).
Record binarizer := Binarizer { b_bin : list nat; b_cat : list (nat * list (list Q)); b_cont : list (nat * list Q) }.
Definition fit_binarizer (st : strategy) (nt nc width : nat) (cats : list nat) (rows : list (list Q)) : binarizer :=
  Binarizer (filter (binary_column rows) (seq 0 width))
            (map (fun j => (j, categories nc (column j rows))) cats)
            (map (fun j => (j, thresholds st nt (column j rows))) (filter (fun j => negb (existsb (Nat.eqb j) cats) && negb (binary_column rows j)) (seq 0 width))).
(** binarizer.py:87-123: one row of the result: the binary columns as they are, then the
    indicators of the categories and of the thresholds. *)
Definition bit (b : bool) : Q := if b then 1 else 0.
Definition transform (B : binarizer) (r : list Q) : list Q :=
  map (fun j => nth j r 0) (b_bin B)
  ++ flat_map (fun p => map bit (category_bits (snd p) (nth (fst p) r 0))) (b_cat B)
  ++ flat_map (fun p => map bit (threshold_bits (snd p) (nth (fst p) r 0))) (b_cont B).
