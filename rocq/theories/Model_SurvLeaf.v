(** Model of the leaves of survival analysis, with real numbers for doubles.
    Source: /repo/src/tasks/survival_analysis.cpp:107-192. *)
From Coq Require Import List Reals.
Import ListNotations.
Local Open Scope R_scope.

(** A row of a leaf: the event and the hazard value (SAData, survival_analysis.h:14-37). *)
Definition hrow := (bool * R)%type.
(** survival_analysis.h:40-44: D2SASol. *)
Record d2sa := D2SA { d_haz : R; d_ev : Z; d_nlh : R }.
(** survival_analysis.cpp:109-126 and 142-158: the three sums, in the order of the rows. *)
Definition sa_sums (rows : list hrow) : d2sa :=
  fold_left (fun (s : d2sa) (r : hrow) => if fst r then D2SA (d_haz s + snd r) (d_ev s + 1) (d_nlh s + - ln (snd r)) else D2SA (d_haz s + snd r) (d_ev s) (d_nlh s)) rows (D2SA 0 0 0).
(** survival_analysis.cpp:128-135: theta. *)
Definition sa_theta (rows : list hrow) : R := let s := sa_sums rows in if (d_ev s =? 0)%Z then (1 / 2) / d_haz s else IZR (d_ev s) / d_haz s.
(** survival_analysis.cpp:136: the loss before it is cut at zero. *)
Definition sa_error (rows : list hrow) : R := let s := sa_sums rows in d_nlh s - IZR (d_ev s) * ln (sa_theta rows).
(** survival_analysis.cpp:137-138: the leaf; [None]: the assertion fails. *)
Definition sa_leaf (rows : list hrow) : option (R * R) :=
  if Rle_dec (- (1 / 1000000)) (sa_error rows) then Some (sa_theta rows, Rmax 0 (sa_error rows)) else None.
(** survival_analysis.cpp:160-163: GetLeafCosts. *)
Definition sa_costs (rows : list hrow) (theta : R) : option R :=
  let s := sa_sums rows in
  let e := d_nlh s - IZR (d_ev s) * (ln theta + 1) + theta * d_haz s in
  if Rle_dec (- (1 / 1000000)) e then Some (Rmax 0 e) else None.
(** survival_analysis.cpp:167-181 and survival_analysis.h:46-58: the counters of the depth-two
    solver: rows with the multipliers they were added with (1) or taken away with (-1). *)
Definition d2_row (r : hrow) (m : Z) : d2sa :=
  if fst r then D2SA (snd r * IZR m) m (- ln (snd r) * IZR m) else D2SA (snd r * IZR m) 0 0.
Definition d2_add (a b : d2sa) : d2sa := D2SA (d_haz a + d_haz b) (d_ev a + d_ev b) (d_nlh a + d_nlh b).
Definition d2_count (ops : list (hrow * Z)) : d2sa := fold_left (fun (s : d2sa) (o : hrow * Z) => d2_add s (d2_row (fst o) (snd o))) ops (D2SA 0 0 0).
(** survival_analysis.cpp:184-192: the loss and the label from the counters. *)
Definition d2_costs (s : d2sa) : R := Rmax 0 (d_nlh s - IZR (d_ev s) * ln (Rmax (1 / 2) (IZR (d_ev s)) / d_haz s)).
Definition d2_label (s : d2sa) : R := Rmax (1 / 2) (IZR (d_ev s)) / d_haz s.
(** Trees with a risk factor in every leaf (tree.h:18-40 with a double as label). *)
Inductive stree := SLeaf (theta : R) | SNode (f : nat) (l r : stree).
