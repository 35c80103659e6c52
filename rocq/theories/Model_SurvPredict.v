(** Model of the predictions of survival trees.
    Source: /repo/pystreed/survival_analysis.py:113-121 and 173-346, with real numbers for doubles.
    The tree only enters through the risk factor that it gives to a row. *)
From Coq Require Import List Arith Bool QArith Qreals Reals.
From Verif Require Import Base_Q Model_Survival.
Import ListNotations.
Local Open Scope R_scope.

(** survival_analysis.py:117 (get_unique_times of sksurv): the distinct times of the rows in
    increasing order, each with the flag that an event was seen at it.  Library code, modelled
    by its documentation. *)
Definition unique_times (rows : list srow) : list (Q * bool) :=
  map (fun e => (fst e, (0 <? snd (snd e))%nat)) (time_sort (tally rows)).
(** survival_analysis.py:276-281: one row of predict_cumulative_hazard_function. *)
Definition chf (rows : list srow) (theta : R) : list R := map (fun e => theta * Q2R (py_hazard rows (fst e))) (unique_times rows).
(** survival_analysis.py:341-346: one row of predict_survival_function. *)
Definition survival (rows : list srow) (theta : R) : list R := map (fun e => exp (- theta * Q2R (py_hazard rows (fst e)))) (unique_times rows).
(** survival_analysis.py:173-174: predict: the sum over the event times. *)
Definition masked_sum (ms : list (Q * bool)) (xs : list R) : R :=
  fold_right (fun (p : (Q * bool) * R) a => if snd (fst p) then snd p + a else a) 0 (combine ms xs).
Definition risk_score (rows : list srow) (theta : R) : R := masked_sum (unique_times rows) (chf rows theta).

(** survival_analysis.py:113-121 and base.py:237-286: the object: the rows of the baseline
    and, once a fit came through, the tree as a function from rows [X] to risk factors. *)
Record sobj (X : Type) := SObj { so_rows : list srow; so_tree : option (X -> R) }.
Arguments SObj {X}. Arguments so_rows {X}. Arguments so_tree {X}.
(** A fit on [rows]: [Some tree] when the search comes through, [None] when a check of base.py
    (settings, data) raises; baseline and times are replaced before these checks. *)
Definition so_fit {X} (o : sobj X) (rows : list srow) (r : option (X -> R)) : sobj X :=
  SObj rows (match r with Some t => Some t | None => so_tree o end).
(** survival_analysis.py:276-281 on one row; [None]: not fitted. *)
Definition so_chf {X} (o : sobj X) (x : X) : option (list R) := option_map (fun t => chf (so_rows o) (t x)) (so_tree o).
