(** Specification side: the F1-score of a tree on a user's rows with labels 0 and 1. *)
From Coq Require Import List Arith Bool ZArith QArith.
From Verif Require Import Model_Terminal Spec_Rows.
Import ListNotations.

(** The number of rows with label [k] that the tree gives label [l]. *)
Definition row_count (rows : list (list nat * nat)) (t : tree) (k l : nat) : Z :=
  Z.of_nat (length (filter (fun p => (snd p =? k) && (row_predict t (fst p) =? l)) rows)).

(** F1 = 2 tp / (2 tp + fp + fn). *)
Definition row_f1 (rows : list (list nat * nat)) (t : tree) : Q :=
  let tp := row_count rows t 1 1 in
  let fp := row_count rows t 0 1 in
  let fn := row_count rows t 1 0 in
  (inject_Z (2 * tp) / inject_Z (2 * tp + fp + fn))%Q.

(** What is used of double-precision rounding: it is monotone and moves a number between 0
    and 1 by at most 2^-53. *)
Definition double_rounding (rnd : Q -> Q) : Prop :=
  (forall a b, a <= b -> rnd a <= rnd b)%Q
  /\ (forall q, 0 <= q -> q <= 1 -> q - (1 # 2 ^ 53) <= rnd q /\ rnd q <= q + (1 # 2 ^ 53))%Q.
