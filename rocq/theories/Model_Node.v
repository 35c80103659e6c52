(** Model of solution nodes and of the operations on them, for totally ordered tasks.
    Sources: /repo/include/model/node.h, /repo/include/solver/optimization_utils.h,
    /repo/include/tasks/optimization_task.h, /repo/include/tasks/accuracy/accuracy.h,
    /repo/src/tasks/accuracy/accuracy.cpp. *)
From Coq Require Import List Arith Bool Lia ZArith.
From Verif Require Import Model_FeatureVector Model_Data.
Import ListNotations.
Local Open Scope Z_scope.

(** node.h:48-59: the fields of Node.  [None] stands for the sentinels
    feature = INT32_MAX and label = worst_label.  Simplification: the child node counts
    of a node without a feature are never read by the modelled code (NumNodes is 0), so
    the sentinel INT32_MAX in them is replaced by 0. *)
Record node := Node {
  nd_feat : option nat; nd_lab : option nat; nd_sol : Z; nd_l : nat; nd_r : nat }.

(** node.h:14-17: the node without feature and label that only carries a value. *)
Definition value_node (v : Z) : node := Node None None v 0 0.

(** node.h:20-21: a leaf. *)
Definition leaf_node (l : nat) (v : Z) : node := Node None (Some l) v 0 0.

(** node.h:24-26: a branching node. *)
Definition branch_node (f : nat) (v : Z) (l r : nat) : node := Node (Some f) None v l r.

(** node.h:34: NumNodes. *)
Definition num_nodes (x : node) : nat :=
  match nd_feat x with None => 0%nat | Some _ => (nd_l x + nd_r x + 1)%nat end.

(** optimization_utils.h:70-77: CheckEmptySol, total order. *)
Definition is_empty (x : node) : bool :=
  match nd_feat x, nd_lab x with None, None => true | _, _ => false end.

(** node.h:43-46: operator==. *)
Definition opt_nat_eqb (a b : option nat) : bool :=
  match a, b with
  | None, None => true | Some x, Some y => Nat.eqb x y | _, _ => false end.
Definition node_eqb (a b : node) : bool :=
  opt_nat_eqb (nd_feat a) (nd_feat b) && opt_nat_eqb (nd_lab a) (nd_lab b)
  && (nd_sol a =? nd_sol b) && Nat.eqb (nd_l a) (nd_l b) && Nat.eqb (nd_r a) (nd_r b).

(** optimization_utils.h:92-145: AddSol / AddSols, total order: replace when strictly
    smaller. *)
Definition add_sol (container sol : node) : node :=
  if nd_sol sol <? nd_sol container then sol else container.

(** optimization_utils.h:151-158: AddSolsInv, total order: replace when strictly larger. *)
Definition add_sol_inv (container sol : node) : node :=
  if nd_sol container <? nd_sol sol then sol else container.

(** A totally ordered optimization task whose solution values are modelled by [Z].
    The fields are the parts of the task class the solver calls:
    - [tk_worst]: OT::worst; OT::best is 0 for every task modelled through this record;
    - [tk_leaf v l]: GetLeafCosts; [tk_inst x k l]: GetInstanceLeafD2Costs with
      multiplier 1 (ComputeD2Costs is the identity for these tasks);
    - [tk_zero_true]: terminal_zero_costs_true_label (optimization_task.h:39);
    - [tk_mindiff]: minimum_difference; [tk_wpl]: GetWorstPerLabel;
    - [tk_may]: MayBranchOnFeature;
    - [tk_sdom], [tk_dom], [tk_eq]: LeftStrictDominatesRight, LeftDominatesRight and
      SolutionsEqual on values (optimization_utils.h:193-218, 277-283);
    - [tk_bc]: branching costs when has_branching_costs, as a function of the number of
      instances, the branch and the feature;
    - [tk_sparse]: Solver::sparse_objective (solver.h:110-111);
    - [tk_lb]: ComputeLowerBound of the task when custom_lower_bound;
    - [tk_huge]: the test UB >= 0.9 * DBL_MAX of solver.cpp:889;
    - [tk_sim]: for a task with custom_similarity_lb, the worst cost of an instance
      (InstanceCostSensitiveData::GetWorst, instance_cost_sensitive.h:27). *)
Record task := Task {
  tk_worst : Z;
  tk_leaf : view -> nat -> Z;
  tk_inst : inst -> nat -> nat -> Z;
  tk_zero_true : bool;
  tk_mindiff : Z;
  tk_wpl : nat -> Z;
  tk_may : nat -> bool;
  tk_sdom : Z -> Z -> bool;
  tk_dom : Z -> Z -> bool;
  tk_eq : Z -> Z -> bool;
  tk_bc : option (nat -> branch -> nat -> Z);
  tk_sparse : bool;
  tk_lb : option (view -> branch -> nat -> nat -> Z);
  tk_huge : Z -> bool;
  tk_sim : option (inst -> Z) }.

(** optimization_task.h:80-83: Subtract clamps at zero. *)
Definition zsub (a b : Z) : Z := Z.max 0 (a - b).

(** optimization_utils.h:181-188: CombineSols. *)
Definition combine_sols (T : task) (f : nat) (l r : node) (bc : Z) : node :=
  branch_node f (match tk_bc T with Some _ => bc + (nd_sol l + nd_sol r) | None => nd_sol l + nd_sol r end)
              (num_nodes l) (num_nodes r).

(** optimization_utils.h:21-31: InitializeSol() and InitializeLB(). *)
Definition init_sol (T : task) : node := value_node (tk_worst T).
Definition init_lb : node := value_node 0.

(** accuracy.cpp:5-12: GetLeafCosts: the number of instances of the other labels. *)
Fixpoint acc_leaf_from (k : nat) (v : view) (l : nat) : Z :=
  match v with
  | [] => 0
  | xs :: r => (if Nat.eqb k l then 0 else Z.of_nat (length xs)) + acc_leaf_from (S k) r l
  end.
Definition acc_leaf (v : view) (l : nat) : Z := acc_leaf_from 0 v l.

(** accuracy.h:14: OT::worst = INT32_MAX. *)
Definition int32_max : Z := 2147483647.

(** accuracy.h:6-48: the task Accuracy.  SolType is int, so the comparisons are exact. *)
Definition acc : task := {|
  tk_worst := int32_max;
  tk_leaf := acc_leaf;
  tk_inst := fun _ org l => if Nat.eqb org l then 0 else 1;   (* accuracy.h:29 *)
  tk_zero_true := true;                                       (* optimization_task.h:39 *)
  tk_mindiff := 1;                                            (* accuracy.h:16 *)
  tk_wpl := fun _ => 1;                                       (* accuracy.h:38 *)
  tk_may := fun _ => true;                                    (* optimization_task.h:65 *)
  tk_sdom := Z.ltb; tk_dom := Z.leb; tk_eq := Z.eqb;
  tk_bc := None; tk_sparse := false; tk_lb := None;
  tk_huge := fun _ => false; tk_sim := None |}.
