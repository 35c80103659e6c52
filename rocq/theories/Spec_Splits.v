(** Specification side of the data splits.  A data set is given by the instance numbers of
    every label group; [lab] is the label of an instance. *)
From Coq Require Import List Arith.
Import ListNotations.

(** Every instance is in the group of its label. *)
Definition labelled (lab : nat -> nat) (v : list (list nat)) : Prop := forall k i, In i (nth k v []) -> lab i = k.
(** [c] is [a / b] of [n], rounded to the nearest integer (halves upwards). *)
Definition nearest (a b n c : nat) : Prop := 2 * a * n < 2 * b * c + b /\ 2 * b * c <= 2 * a * n + b.
(** A classification data set, or a regression data set (all instances in one group). *)
Definition input_ok (reg : bool) (lab : nat -> nat) (v : list (list nat)) : Prop :=
  if reg then length v = 1 else labelled lab v.
