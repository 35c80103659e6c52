(** Model of fits of piecewise constant regression trees, with and without node costs, as tasks
    of the solver.
    Sources: /repo/src/tasks/regression/regression.cpp, /repo/include/tasks/regression/regression.h,
    /repo/src/tasks/regression/cost_complex_regression.cpp, /repo/include/tasks/regression/cost_complex_regression.h,
    /repo/src/solver/solver.cpp, /repo/src/bindings.cpp.
    Simplifications: targets are whole numbers (they are counted in units of the smallest
    difference that occurs), and the arithmetic is exact.  The search of the model works with
    integers: every value is counted in units of [1/S], where [S] is a factorial times the
    denominator of the cost-complexity parameter, which makes all values whole.  The comparisons
    are relative (optimization_utils.h), so that units make no difference. *)
From Coq Require Import List Arith Bool ZArith QArith Qround.
From Verif Require Import Base_Q Model_FeatureVector Model_Data Model_Node Model_Terminal Model_Heap Model_Solver Model_Preproc Model_CostComplex
  Model_Regression Model_Tasks.
Import ListNotations.
Local Open Scope nat_scope.

(** bindings.cpp:52-86: the instances of the rows, numbered in the order of the rows; all are in
    the label group 0. *)
Definition reg_rows (rows : list (list nat * Z)) : list (inst * Q) :=
  map (fun p => (Inst (fst p) (fv_make (map (fun k => negb (k =? 0)) (fst (snd p)))), inject_Z (snd (snd p)))) (combine (seq 0 (length rows)) rows).
(** The items of the regression task: every row with weight one (regression.cpp:5-16 adds the
    targets and the squared targets and counts the rows). *)
Definition plain_items (rows : list (list nat * Z)) : list ritem :=
  map (fun r => RI (fst r) 0 (snd r) (snd r * snd r)%Q 1) (reg_rows rows).
(** cost_complex_regression.cpp:10-51, 53-142: the items of the cost-complex task: rows with
    equal features are put together.  Without rows instances[0] does not exist. *)
Definition ccr_items (rows : list (list nat * Z)) : list ritem :=
  match cc_merge (reg_preprocess (reg_rows rows)) with Some xs => xs | None => [] end.

(** regression.cpp:5-16, cost_complex_regression.cpp:181-196: the label and the error of a leaf.
    The error is never negative for the sums that occur, so that max(0, .) is left out. *)
Definition item_mean (xs : list ritem) : Q := let '(y, q, w) := cc_sums xs in (y / qn w)%Q.
Definition item_err (xs : list ritem) : Q := let '(y, q, w) := cc_sums xs in (q - y * y / qn w)%Q.
(** The items of a view, by number. *)
Definition no_item : ritem := RI (Inst 0 (fv_make [])) 0 0 0 1.
Definition view_items (xs : list ritem) (v : view) : list ritem := map (fun x => nth (iid x) xs no_item) (concat v).

(** regression.h:20-53, cost_complex_regression.h:30-131: [bc] is the cost of a node
    (GetBranchingCosts), [None] for a task without branching costs; [S] units make one.
    solver.cpp:603-608: SolveLeafNode with a custom leaf gives one candidate, like the loop over
    the labels of a task with one label.  regression.h:43: the similarity bound subtracts DBL_MAX
    for every row that is missing (a multiple of it is infinite in the code; both are below 0 and
    not used).  Simplification: the bounds of the cost-complex task are left out; they are only
    read by searches with lower bounds.  The search counts items; solver.cpp:1140-1152
    counts weights for the cost-complex task, which is the same for a minimum leaf size of 1. *)
Definition reg_task (S : Z) (xs : list ritem) (bc : option Z) : task := {|
  tk_worst := (S * dbl_max)%Z;
  tk_leaf := fun v _ => Qfloor (inject_Z S * item_err (view_items xs v));
  tk_inst := fun _ _ _ => 0%Z;
  tk_zero_true := false; tk_mindiff := 0; tk_wpl := fun _ => (S * dbl_max)%Z; tk_may := fun _ => true;
  tk_sdom := t_sdom; tk_dom := t_dom; tk_eq := t_eq;
  tk_bc := option_map (fun z _ _ _ => z) bc;
  tk_sparse := match bc with Some _ => true | None => false end;
  tk_lb := None; tk_huge := fun _ => false; tk_sim := None |}.

Fixpoint zfact (n : nat) : Z := match n with 0 => 1%Z | S m => (Z.of_nat n * zfact m)%Z end.
(** The training data.  Simplification: items are numbered by their places; in the code an item
    keeps the number of its first row, which is increasing, too. *)
Definition item_view (xs : list ritem) : view :=
  [map (fun p => Inst (fst p) (ifv (r_x (snd p)))) (combine (seq 0 (length xs)) xs)].
(** solver.cpp:92-97: the default INT32_MAX stands for DBL_MAX.  Simplification: the bound is a
    whole number, so that only INT32_MAX itself is less than one away from it. *)
Definition upper_bound (ub : Z) : Z := if (ub =? int32_max)%Z then dbl_max else ub.

(** The labels of the leaves: every leaf gets the mean of its items (the label is computed with
    the node, regression.cpp:12, cost_complex_regression.cpp:191). *)
Fixpoint fill (xs : list ritem) (t : tree) : rtree :=
  match t with
  | Leaf _ => RLeaf (item_mean xs)
  | Split f l r => RSplit f (fill (filter (fun i => negb (has f (r_x i))) xs) l) (fill (filter (fun i => has f (r_x i)) xs) r)
  end.

(** optimization_task.h:52, tree.h:73: the label INT32_MAX stands for "no label". *)
Definition no_label (c : Q) : bool := Qeq_bool c (inject_Z int32_max).
(** tree.h:76-97: ComputeTrainScore goes to the children of a node whose label is "no label"; a
    leaf has none (null pointers are read; the assertion in tree.h:30 is empty in releases).
    Prediction (tree.h:99-165) takes the same way. *)
Fixpoint walks (t : rtree) : bool :=
  match t with RLeaf c => negb (no_label c) | RSplit _ l r => walks l && walks r end.

(** What a fit returns: the tree, the training score, whether it is proven optimal, and whether
    the walk through the tree reads no null pointer. *)
Record reg_result := RegResult { rg_tree : option rtree; rg_score : option Q; rg_proven : bool; rg_walks : bool }.
(** solver.cpp:80-221.  The training score is the test value of the tree on the training data
    divided by the weight (result.h:42-53, regression.h:46, cost_complex_regression.h:101): the sum
    of the leaf costs at the labels (tree.h:76-95); the test cost of a node is 0
    (cost_complex_regression.h:74).  The leaf costs of both tasks agree (C39_costs).
    Simplification: also the
    search takes a leaf with the label INT32_MAX for "no solution" (optimization_utils.h:71-74),
    which is not represented. *)
Definition fit_items (S : Z) (bc : option Z) (xs : list ritem) (W : switches) (P : params) (nf : nat) (clk : nat -> bool) : reg_result :=
  let R := fit (reg_task S xs bc) W (Params (p_depth P) (p_nodes P) (p_all P) (S * upper_bound (p_ub P))) nf clk (item_view xs) in
  RegResult (option_map (fill xs) (fr_tree R))
            (option_map (fun t => cc_tree_cost xs (fill xs t) / qn (snd (cc_sums xs)))%Q (fr_tree R))
            (fr_proven R)
            (match fr_tree R with Some t => walks (fill xs t) | None => true end).
(** The task "regression". *)
Definition fit_reg (W : switches) (P : params) (nf : nat) (clk : nat -> bool) (rows : list (list nat * Z)) : reg_result :=
  fit_items (zfact (length rows)) None (plain_items rows) W P nf clk.
(** The task "cost-complex-regression"; [lam] is the cost-complexity parameter.
    cost_complex_regression.cpp:62-85: the cost of a node is computed before rows are put
    together. *)
Definition fit_ccr (lam : Q) (W : switches) (P : params) (nf : nat) (clk : nat -> bool) (rows : list (list nat * Z)) : reg_result :=
  let S := (zfact (length rows) * Zpos (Qden lam))%Z in
  fit_items S (Some (Qfloor (inject_Z S * (lam * item_err (reg_preprocess (reg_rows rows))))%Q)) (ccr_items rows) W P nf clk.
