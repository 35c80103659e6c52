(** Specification side for paths, views and differences. *)
From Coq Require Import List Arith Bool.
Import ListNotations.

(** [merge a b c]: [c] is obtained by interleaving [a] and [b], keeping the order of each. *)
Inductive merge {A : Type} : list A -> list A -> list A -> Prop :=
| merge_nil : merge [] [] []
| merge_l x a b c : merge a b c -> merge (x :: a) b (x :: c)
| merge_r x a b c : merge a b c -> merge a (x :: b) (x :: c).

(** A path: the decisions from the root, a feature and its direction (true: present). *)
Definition path := list (nat * bool).
