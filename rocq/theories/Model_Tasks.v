(** Model of four tasks as tasks of the solver: instance-cost-sensitive classification,
    cost-sensitive classification, cost-complex accuracy and prescriptive policies.
    Sources: /repo/src/tasks/instance_cost_sensitive.cpp, /repo/include/tasks/instance_cost_sensitive.h,
    /repo/pystreed/instance_cost_sensitive_classification.py, /repo/src/tasks/cost_sensitive.cpp,
    /repo/include/tasks/cost_sensitive.h, /repo/pystreed/cost_sensitive_classification.py,
    /repo/src/tasks/prescriptive_policy.cpp, /repo/include/tasks/prescriptive_policy.h.
    All four compare values with the tolerance of optimization_utils.h (t_sdom, t_dom, t_eq
    of Model_CostComplex.v). *)
From Coq Require Import List Arith Bool ZArith QArith Qround.
From Verif Require Import Model_FeatureVector Model_Data Model_Node Model_Terminal Model_Heap Model_Solver Model_Preproc Model_CostComplex
  Model_CostSensitive Model_Policy Model_Predict Model_EquivPoints.
Import ListNotations.
Local Open Scope nat_scope.

(** ** Instance-cost-sensitive classification *)
(** The value DBL_MAX (instance_cost_sensitive.h:50). *)
Definition dbl_max : Z := (2 ^ 1024 - 2 ^ 971)%Z.
(** instance_cost_sensitive.h:16-18: the largest cost of an instance. *)
Definition worst_cost (costs : list Z) : Z := match costs with [] => 0%Z | c :: r => fold_left Z.max r c end.
(** instance_cost_sensitive.h:23: GetLabelCost; [table] holds the costs by instance id.
    Simplification: costs.at throws when the label is out of range, the model gives 0. *)
Definition label_cost (table : list (list Z)) (x : inst) (l : nat) : Z := nth l (nth (iid x) table []) 0%Z.
(** instance_cost_sensitive.h:38-108.  Simplification: the costs are integers (the number of
    units of the smallest difference that occurs) instead of doubles.  GetWorstPerLabel is not
    read, because the task has its own similarity bound. *)
Definition ics (table : list (list Z)) : task := {|
  tk_worst := dbl_max; tk_leaf := ics_leaf (label_cost table);
  tk_inst := fun x _ l => label_cost table x l;
  tk_zero_true := false; tk_mindiff := 0; tk_wpl := fun _ => 0%Z; tk_may := fun _ => true;
  tk_sdom := t_sdom; tk_dom := t_dom; tk_eq := t_eq;
  tk_bc := None; tk_sparse := false; tk_lb := None; tk_huge := fun _ => false;
  tk_sim := Some (fun x => worst_cost (nth (iid x) table [])) |}.
(** A row with its label and its costs. *)
Record crow := CRow { cr_bits : list nat; cr_label : nat; cr_costs : list Z }.
Definition cr_row (r : crow) : list nat * nat := (cr_bits r, cr_label r).
(** instance_cost_sensitive.cpp:6-8: PreprocessTrainData makes room for [n] labels; [n] is the
    parameter num-extra-cols. *)
Definition resize (n : nat) (v : view) : view := v ++ repeat [] (n - length v).
(** Fitting this task: the label groups are extended after loading. *)
Definition fit_ics (W : switches) (P : params) (nf extra : nat) (clk : nat -> bool) (rows : list crow) : fit_result :=
  fit (ics (map cr_costs rows)) W P nf clk (resize extra (load (map cr_row rows))).
(** instance_cost_sensitive_classification.py:99-103: np.argmin is the first smallest cost. *)
Fixpoint argmin_from (k best : nat) (bc : Z) (cs : list Z) : nat :=
  match cs with
  | [] => best
  | c :: r => if (c <? bc)%Z then argmin_from (S k) k c r else argmin_from (S k) best bc r
  end.
Definition argmin (cs : list Z) : nat := match cs with [] => 0 | c :: r => argmin_from 1 0 c r end.
(** instance_cost_sensitive_classification.py:81-131: fit; the Python layer never sets
    num-extra-cols, so it has its default 0 (define_parameters.cpp:108-114). *)
Definition fit_ics_py (W : switches) (P : params) (nf : nat) (clk : nat -> bool) (data : list (list nat * list Z)) : fit_result :=
  fit_ics W P nf 0 clk (map (fun p => CRow (fst p) (argmin (snd p)) (snd p)) data).

(** ** Cost-sensitive classification *)
(** cost_sensitive.h:38-87.  [M]: the misclassification costs, [t]: the tables of the test
    costs.  [low] of [max_instance_costs] stands for -DBL_MAX; here it is 0, which makes no
    difference for non-negative costs. *)
Definition cost_sensitive (M : list (list Z)) (t : tables) : task := {|
  tk_worst := int32_max; tk_leaf := leaf_costs M;
  tk_inst := fun _ k l => mis M k l;
  tk_zero_true := false; tk_mindiff := 0; tk_wpl := fun _ => max_instance_costs 0 M t; tk_may := fun _ => true;
  tk_sdom := t_sdom; tk_dom := t_dom; tk_eq := t_eq;
  tk_bc := Some (fun n b f => (Z.of_nat n * charge t b f)%Z); tk_sparse := false; tk_lb := None; tk_huge := fun _ => false;
  tk_sim := None |}.
Definition fit_cost_sensitive (M : list (list Z)) (specs : list fcs) (W : switches) (P : params) (nf : nat) (clk : nat -> bool)
  (rows : list (list nat * nat)) : fit_result :=
  fit (cost_sensitive M (initialize specs)) W P nf clk (load rows).

(** ** Cost-complex accuracy *)
(** bindings.cpp:48-83: the instances of the rows, numbered in the order of the rows. *)
Definition row_insts (rows : list (list nat * nat)) : list inst :=
  map (fun p => Inst (fst p) (fv_make (map (fun k => negb (k =? 0)%nat) (fst (snd p))))) (combine (seq 0 (length rows)) rows).
(** cost_complex_accuracy.cpp:5-38: the rows in the order of PreprocessData; every instance gets
    its place in that order as its number, and PreprocessTrainData sorts the instances of every
    label by number, so that the training data are the rows loaded in that order. *)
Definition cca_rows (rows : list (list nat * nat)) : list (list nat * nat) :=
  map (fun x => nth (iid x) rows ([], 0%nat)) (cca_sort (row_insts rows)).
(** bindings.cpp (fit of a solver for cost-complex accuracy).  [bc] is the cost of a node:
    the cost-complexity parameter times the number of rows.  Simplification: a whole number. *)
Definition fit_cca (bc : Z) (W : switches) (P : params) (nf : nat) (clk : nat -> bool) (rows : list (list nat * nat)) : fit_result :=
  fit (cca (uid_table (row_insts rows)) bc) W P nf clk (load (cca_rows rows)).
(** tree.h:76-95 with the test costs [leaf] of leaves, for tasks whose test cost of a node is 0
    (cost_complex_accuracy.h:49, classification tasks without costs of nodes). *)
Fixpoint test_value (leaf : view -> nat -> Z) (v : view) (t : tree) : Z :=
  match t with
  | Leaf l => leaf v l
  | Split f l r => (test_value leaf (split_left f v) l + test_value leaf (split_right f v) r)%Z
  end.
(** result.h:42-53 and cost_complex_accuracy.h:45-47, 67: the reported training score.  Simplification:
    the walk goes over the tree and the data as they are handed out, not over the preprocessed
    ones, where the children of flipped features are exchanged on both sides. *)
Definition cca_score (bc : Z) (W : switches) (P : params) (nf : nat) (clk : nat -> bool) (rows : list (list nat * nat)) : option Q :=
  let n := Z.of_nat (length rows) in
  option_map (fun t => inject_Z (n - test_value (tk_leaf (cca (uid_table (row_insts rows)) bc)) (load (cca_rows rows)) t) / inject_Z n)%Q
             (fr_tree (fit_cca bc W P nf clk rows)).

(** ** Prescriptive policies *)
(** A row with its extra data; its label is the historic treatment
    (prescriptive_policy_generation.py:117-124). *)
Record prow := PRow { pr_bits : list nat; pr_e : ppg }.
Definition pr_row (r : prow) : list nat * nat := (pr_bits r, p_hist (pr_e r)).
(** The view of the rows with their extra data: the groups of [load], every instance with the
    data of its row. *)
Definition policy_data (rows : list prow) : pview :=
  map (map (fun x => PI x (nth (iid x) (map pr_e rows) (PPG 0 0 0 [])))) (load (map pr_row rows)).
(** The number of units [1/D] in a value (the values used are multiples of the unit). *)
Definition units (D : positive) (q : Q) : Z := Qfloor (inject_Z (Zpos D) * q).
(** prescriptive_policy.h:36-79, all values counted in units of [1/D].  [d] is the training
    data.  Simplification: worst_per_label of a treatment without instances is negative; it is
    only multiplied by a number of removed instances of the treatment, that is by 0, and the
    model has 0 instead.  The vector is that of a first training. *)
Definition policy (D : positive) (m : teacher) (d : pview) : task :=
  let table := cost_table m (length d) d in {|
  tk_worst := (Zpos D * int32_max)%Z;
  tk_leaf := ics_leaf (fun x l => units D (table_get table (iid x) l));
  tk_inst := fun x _ l => units D (table_get table (iid x) l);
  tk_zero_true := false; tk_mindiff := 0;
  tk_wpl := (fun k => Z.max 0 (units D (nth k (worst_history m [d]) 0%Q))); tk_may := fun _ => true;
  tk_sdom := t_sdom; tk_dom := t_dom; tk_eq := t_eq;
  tk_bc := None; tk_sparse := false; tk_lb := None; tk_huge := fun _ => false; tk_sim := None |}.
Definition fit_policy (D : positive) (m : teacher) (W : switches) (P : params) (nf : nat) (clk : nat -> bool) (rows : list prow) : fit_result :=
  fit (policy D m (policy_data rows)) W P nf clk (load (map pr_row rows)).
(** result.h:42-53, prescriptive_policy.h:59 and prescriptive_policy.cpp:104-115: the reported
    training score; [opt] holds the optimal treatments of the rows (k_opt; 0 for tables without
    them, prescriptive_policy.h:14-15).  Simplification: the walk is over the tree as handed out,
    see [cca_score]. *)
Definition policy_score (opt : list nat) (D : positive) (m : teacher) (W : switches) (P : params) (nf : nat) (clk : nat -> bool) (rows : list prow) : option Q :=
  let n := Z.of_nat (length rows) in
  option_map (fun t => inject_Z (n - test_value (ics_leaf (fun x l => if (nth (iid x) opt 0%nat =? l)%nat then 0%Z else 1%Z)) (load (map pr_row rows)) t) / inject_Z n)%Q
             (fr_tree (fit_policy D m W P nf clk rows)).
