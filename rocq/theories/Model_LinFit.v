(** Model of fits of simple piecewise linear regression trees (one continuous feature per leaf) as
    a task of the solver.
    Sources: /repo/src/tasks/regression/piecewise_simple_linear_regression.cpp,
    /repo/include/tasks/regression/piecewise_simple_linear_regression.h, /repo/src/solver/solver.cpp,
    /repo/pystreed/regression.py.
    Simplifications: the arithmetic is exact, and the rows with equal binary features are not put
    together: the code adds them up (C70_merge: that does not change the cost of a tree) and
    counts the rows behind an item (solver.cpp:1140-1152).  The search of the model works with
    integers: every value is counted in units of [1/S]; the comparisons are relative
    (optimization_utils.h), so that units make no difference. *)
From Coq Require Import List Arith Bool ZArith QArith Qround.
From Verif Require Import Base_Q Model_FeatureVector Model_Data Model_Node Model_Terminal Model_Heap Model_Solver Model_Preproc Model_CostComplex Model_Tasks Model_SimpleLinear Model_RegFit.
Import ListNotations.
Local Open Scope nat_scope.

(** A task with its own leaf function and a constant cost of nodes or none: solver.cpp:603-608
    (SolveLeafNode with a custom leaf gives one candidate, like the loop over the labels of a
    task with one label), piecewise_simple_linear_regression.h:46-58, survival_analysis.h:76-90.
    [cost] is the cost of the leaf of some instances, [obc] the cost of a node in units of [1/S].  Simplification: the bounds of the
    task are left out; they are only read by searches with lower bounds. *)
Definition custom_task (S : Z) (cost : list inst -> Q) (obc : option Z) : task := {|
  tk_worst := (S * dbl_max)%Z;
  tk_leaf := fun v _ => Qfloor (inject_Z S * cost (concat v));
  tk_inst := fun _ _ _ => 0%Z;
  tk_zero_true := false; tk_mindiff := 0; tk_wpl := fun _ => 0%Z; tk_may := fun _ => true;
  tk_sdom := t_sdom; tk_dom := t_dom; tk_eq := t_eq;
  tk_bc := option_map (fun bc _ _ _ => bc) obc;
  tk_sparse := match obc with Some _ => true | None => false end;
  tk_lb := None; tk_huge := fun _ => false; tk_sim := None |}.

(** The rows of the user: binary features, target, continuous features.  bindings.cpp:52-86: the
    instances are numbered in the order of the rows. *)
Definition urow : Type := list nat * (Q * list Q).
Definition lin_rows (rows : list urow) : list lrow :=
  map (fun p => (Inst (fst p) (fv_make (map (fun k => negb (k =? 0)) (fst (snd p)))), snd (snd p))) (combine (seq 0 (length rows)) rows).
Definition no_lrow : lrow := (Inst 0 (fv_make []), (0%Q, [])).

(** regression.py:184-193: the minimum leaf size that is passed on. *)
Definition lin_min_leaf (simple : bool) (ncols m : nat) : nat := Nat.max m (5 * (if simple then 1 else ncols)).
(** piecewise_simple_linear_regression.h:66-70: UpdateParameters reads the ridge penalty from the
    parameter of the lasso penalty; the parameter ridge_penalty is not read. *)
Definition simple_penalty (lasso ridge : Q) : Q := lasso.

Section FIT.
  (** Number of continuous features, penalty of the task, minimum leaf size. *)
  Variables (ncols : nat) (pen : Q) (mls : nat).
  Variable rows : list lrow.
  (** The items of all rows, for the variances (cpp:256-277) and the cost of a node (cpp:151-177). *)
  Definition all_items : list litem := map (row_item 0) rows.
  Definition lin_var : nat -> Q := sl_variance all_items.
  (** cpp:296-355: the leaf of some rows.  Below the minimum leaf size it is the worst solution;
      the solver does not ask for such leaves (solver.cpp:599-601), and 0 stands for their cost. *)
  Definition lin_leaf (rs : list lrow) : option (linmodel * Q) := sl_leaf ncols pen mls lin_var (map (row_item 0) rs).
  Definition lin_cost (rs : list lrow) : Q := match lin_leaf rs with Some (_, e) => e | None => 0%Q end.
  Definition lin_model (rs : list lrow) : linmodel := match lin_leaf rs with Some (m, _) => m | None => LM [] 0 end.
  (** The rows of instances, by number. *)
  Definition rows_at (L : list inst) : list lrow := map (fun x => nth (iid x) rows no_lrow) L.
  (** The models of the leaves are computed with the nodes. *)
  Fixpoint lin_fill (rs : list lrow) (t : tree) : ltree :=
    match t with
    | Leaf _ => LLeaf (lin_model rs)
    | Split f l r => LSplit f (lin_fill (filter (fun x => negb (has f (fst x))) rs) l) (lin_fill (filter (fun x => has f (fst x)) rs) r)
    end.
  (** tree.h:76-95 with the test costs: GetLeafCosts at the models of the leaves; the test cost of
      a node is 0 (h:81). *)
  Fixpoint lin_test (rs : list lrow) (t : ltree) : Q :=
    match t with
    | LLeaf m => sl_leaf_costs ncols pen lin_var (map (row_item 0) rs) m
    | LSplit f l r => (lin_test (filter (fun x => negb (has f (fst x))) rs) l + lin_test (filter (fun x => has f (fst x)) rs) r)%Q
    end.
End FIT.

(** What a fit returns: the tree, the training score, whether it is proven optimal. *)
Record lin_result := LinResult { ln_tree : option ltree; ln_score : option Q; ln_proven : bool }.
(** regression.py:199-260 and solver.cpp:80-221: a fit of STreeDPiecewiseLinearRegressor with
    simple = True; [ccp] is the parameter cost_complexity, [lasso] and [ridge] are the penalties,
    [w_mls W] is min_leaf_node_size as given by the user.  The training score is the test value of
    the tree on the training data divided by the number of rows (result.h:42-53, h:103). *)
Definition fit_lin (S : Z) (ccp lasso ridge : Q) (W : switches) (P : params) (nf ncols : nat) (clk : nat -> bool) (urows : list urow) : lin_result :=
  let rows := lin_rows urows in
  let m := lin_min_leaf true ncols (w_mls W) in
  let pen := simple_penalty lasso ridge in
  let bc := Qfloor (inject_Z S * sl_branching ccp (all_items rows))%Q in
  let W' := Switches (w_ub W) (w_lb W) (w_tlb W) (w_term W) (w_sim W) (w_branch W) (w_data W) (w_gini W) m in
  let R := fit (custom_task S (fun L => lin_cost ncols pen m rows (rows_at rows L)) (Some bc)) W' (Params (p_depth P) (p_nodes P) (p_all P) (S * upper_bound (p_ub P))) nf clk [map fst rows] in
  LinResult (option_map (lin_fill ncols pen m rows rows) (fr_tree R))
            (option_map (fun t => lin_test ncols pen rows rows (lin_fill ncols pen m rows rows t) / qn (length rows))%Q (fr_tree R))
            (fr_proven R).
