(** Model of cost-complex accuracy as a task of the solver.
    Sources: /repo/include/tasks/accuracy/cost_complex_accuracy.h,
    /repo/src/tasks/accuracy/cost_complex_accuracy.cpp,
    /repo/include/solver/optimization_utils.h:190-290, /repo/include/solver/solver.h:110-111. *)
From Coq Require Import List Arith Bool ZArith.
From Verif Require Import Model_FeatureVector Model_Data Model_Node Model_Terminal Model_Solver Model_EquivPoints.
Import ListNotations.
Local Open Scope nat_scope.

(** optimization_utils.h:193-218, 277-283 for values of type double, with DBL_DIFF = 1e-4:
    left * (1 + 1e-4) < right, left * (1 + 1e-4) <= right or |left - right| <= 1e-4 * left,
    |left - right| <= 1e-4 * left.  Simplification: the values are integers (a cost per node
    that is a whole number of instances) and the arithmetic is exact. *)
Definition t_sdom (a b : Z) : bool := (a * 10001 <? b * 10000)%Z.
Definition t_eq (a b : Z) : bool := (Z.abs (a - b) * 10000 <=? a)%Z.
Definition t_dom (a b : Z) : bool := ((a * 10001 <=? b * 10000)%Z || t_eq a b).

(** cost_complex_accuracy.cpp:18-29: the id of the feature vector of every instance, as given
    by the preprocessing of the instances [xs]. *)
Definition uid_table (xs : list inst) (i : nat) : nat := nth i (map snd (cca_preprocess xs)) 0.

(** cost_complex_accuracy.cpp:50-151: ComputeLowerBound, without the memo (within one search
    a branch stands for one data view, see property C34). *)
Definition cca_bound (uid : nat -> nat) (v : view) : Z :=
  match equiv_points_bound (map (map (fun x => (iid x, uid (iid x)))) v) with
  | Some z => Z.of_nat z | None => 0%Z end.

(** cost_complex_accuracy.h:12-65: the task.  [bc] is cost_complexity_parameter times the
    size of the training data (GetBranchingCosts). *)
Definition cca (uid : nat -> nat) (bc : Z) : task := {|
  tk_worst := int32_max; tk_leaf := acc_leaf;
  tk_inst := fun _ org l => if Nat.eqb org l then 0%Z else 1%Z;
  tk_zero_true := true; tk_mindiff := 0; tk_wpl := fun _ => 1%Z; tk_may := fun _ => true;
  tk_sdom := t_sdom; tk_dom := t_dom; tk_eq := t_eq;
  tk_bc := Some (fun _ _ _ => bc); tk_sparse := true; tk_lb := Some (fun v _ _ _ => cca_bound uid v);
  tk_huge := fun _ => false; tk_sim := None |}.
