(** Specification side: discrimination of a tree on a user's rows with labels 0 and 1.  The
    groups are the two values of column 0.  With [eo = false] (demographic parity) all rows
    count, with [eo = true] (equality of opportunity) only the rows with label 1. *)
From Coq Require Import List Arith Bool ZArith QArith Qabs.
From Verif Require Import Model_Terminal Spec_Tree Spec_Rows.
Import ListNotations.
Local Open Scope nat_scope.

(** The rows of a group ([g = true]: column 0 is present) that count. *)
Definition members (eo g : bool) (rows : list (list nat * nat)) : list (list nat * nat) :=
  filter (fun p => Bool.eqb (negb (nth 0 (fst p) 0 =? 0)) g && (negb eo || (snd p =? 1))) rows.

(** The number of them that are given label 1. *)
Definition positives (eo g : bool) (rows : list (list nat * nat)) (t : tree) : nat :=
  length (filter (fun p => row_predict t (fst p) =? 1) (members eo g rows)).

(** The share of them that is given label 1. *)
Definition rate (eo g : bool) (rows : list (list nat * nat)) (t : tree) : Q :=
  (inject_Z (Z.of_nat (positives eo g rows t)) / inject_Z (Z.of_nat (length (members eo g rows))))%Q.

(** The difference between the groups. *)
Definition disc (eo : bool) (rows : list (list nat * nat)) (t : tree) : Q :=
  Qabs (rate eo false rows t - rate eo true rows t).

(** The tree does not test column 0. *)
Definition blind (t : tree) : Prop := fits (fun f => 0 < f) (S (S 0)) t.

(** Column [f] does not tell the groups of the rows apart: it is neither equal nor opposite to
    column 0. *)
Definition no_proxy (nf : nat) (rows : list (list nat * nat)) : Prop :=
  forall f, 0 < f < nf ->
    (exists p, In p rows /\ (nth f (fst p) 0 =? 0) <> (nth 0 (fst p) 0 =? 0))
    /\ (exists p, In p rows /\ (nth f (fst p) 0 =? 0) = (nth 0 (fst p) 0 =? 0)).

(** The share of the rows whose label is predicted. *)
Definition accuracy (rows : list (list nat * nat)) (t : tree) : Q :=
  (inject_Z (Z.of_nat (length rows) - Z.of_nat (row_errors rows t)) / inject_Z (Z.of_nat (length rows)))%Q.
