(** Model of the end of tuning: the last fit after the phases, and the cost of a node in it.
    Sources: /repo/src/solver/solver.cpp, /repo/src/model/data.cpp,
    /repo/src/tasks/regression/piecewise_linear_regression.cpp,
    /repo/src/tasks/regression/piecewise_simple_linear_regression.cpp,
    /repo/src/tasks/regression/cost_complex_regression.cpp,
    /repo/include/tasks/accuracy/cost_complex_accuracy.h. *)
From Coq Require Import List Arith Bool ZArith QArith Qround.
From Verif Require Import Base_Q Model_FeatureVector Model_Data Model_Preproc Model_Solver Model_Regression Model_RegFit Model_SimpleLinear.
Import ListNotations.
Local Open Scope nat_scope.

(** data.cpp:333-358: operator== of views: empty views are not equal, otherwise the identifiers
    are compared in their order (regression has one list of instances).  Simplification: hashes
    are left out, they are equal when the identifiers are. *)
Fixpoint same_ids (a b : list nat) : bool :=
  match a, b with [], [] => true | x :: a', y :: b' => (x =? y) && same_ids a' b' | _, _ => false end.
Definition same_view (a b : list nat) : bool := (0 <? length a) && (0 <? length b) && same_ids a b.

Section State.
  Context {D : Type}.                 (* an instance *)
  Variable ident : D -> nat.          (* its identifier *)
  Variable prep : list D -> list D.   (* PreprocessTrainData of the task *)
  Variable cost : Q -> list D -> Q.   (* the cost of a node from the parameter and the given data *)
  (** solver.h: org_train_data and train_data; and branching_cost of the task. *)
  Record state := St { s_org : list D; s_train : list D; s_cost : Q }.
  Definition fresh : state := St [] [] 0.
  (** solver.cpp:212-242: InitializeSolver with the parameter [cc]: the same data as before are not
      prepared again.  The parameters of the task are updated in any case (line 217); the cost of a
      node is computed when the data are prepared (cost_complex_regression.cpp:83-86,
      piecewise_simple_linear_regression.cpp:171-172, piecewise_linear_regression.cpp:183-185). *)
  Definition initialize (cc : Q) (reset : bool) (v : list D) (s : state) : state :=
    if negb reset && same_view (map ident (s_org s)) (map ident v) then s else St v (prep v) (cost cc v).
  (** solver.cpp:905-910, 985-989: HyperSolve with the parameter [cc0] of the user and the tuned
      one [cc1].  The phases in between use solvers of their own (932-936) and leave this state. *)
  Definition tuned (cc0 cc1 : Q) (v : list D) : state :=
    let s := initialize cc0 false v fresh in initialize cc1 false (s_train s) s.
  (** bindings.cpp:119, solver.cpp:80-221: Solve without tuning. *)
  Definition untuned (cc : Q) (v : list D) : state := initialize cc false v fresh.
End State.
Arguments state : clear implicits.

(** * Piecewise linear regression *)
(** An instance: identifier, target, continuous features. *)
Definition gitem : Type := nat * (Q * list Q).
(** piecewise_linear_regression.cpp:79-129: the continuous features are normalized with [norm];
    the order, the identifiers and the targets stay (y_mu is 0, y_std is 1). *)
Definition g_prep (norm : list gitem -> list Q -> list Q) (v : list gitem) : list gitem :=
  map (fun i => (fst i, (fst (snd i), norm v (snd (snd i))))) v.
(** piecewise_linear_regression.cpp:165-185: all weights are 1. *)
Definition g_node_cost (cc : Q) (v : list gitem) : Q :=
  let y := fold_left (fun a i => a + fst (snd i))%Q v 0%Q in
  let q := fold_left (fun a i => a + fst (snd i) * fst (snd i))%Q v 0%Q in
  (cc * (q - y * y / qn (length v)))%Q.
Definition g_tuned norm := tuned (@fst nat (Q * list Q)) (g_prep norm) g_node_cost.

(** * Cost-complex regression *)
(** cost_complex_regression.cpp:53-142. *)
Definition cc_prep (v : list ritem) : list ritem := match cc_merge v with Some xs => xs | None => [] end.
(** cost_complex_regression.cpp:62-86: before rows are put together. *)
Definition cc_node_cost (cc : Q) (v : list ritem) : Q := (cc * item_err (id_sort v))%Q.
Definition cc_tuned := tuned (fun i => iid (r_x i)) cc_prep cc_node_cost.
Definition cc_untuned := untuned (fun i => iid (r_x i)) cc_prep cc_node_cost.
(** bindings.cpp:115-120: the view keeps the order of the rows, while PreprocessData
    (cost_complex_regression.cpp:10-51) sorts the instances of the data set and numbers them. *)
Fixpoint place (k : nat) (l : list nat) : nat := match l with [] => 0 | x :: l' => if x =? k then 0 else S (place k l') end.
Definition row_view (rows : list (inst * Q)) : list ritem :=
  map (fun r => nth (place (iid (fst r)) (map (fun p => iid (fst p)) (reg_sort rows))) (reg_preprocess rows) no_item) rows.
(** solver.cpp:80-221 for the state: the search on the prepared items with the cost of a node. *)
Definition state_fit (S : Z) (s : state ritem) (W : switches) (P : params) (nf : nat) (clk : nat -> bool) : reg_result :=
  fit_items S (Some (Qfloor (inject_Z S * s_cost s))) (s_train s) W P nf clk.

(** * Simple piecewise linear regression *)
(** piecewise_simple_linear_regression.cpp:142-254. *)
Definition sl_prep (v : list litem) : list litem := match sl_merge v with Some xs => xs | None => [] end.
(** piecewise_simple_linear_regression.cpp:151-172. *)
Definition sl_node_cost (cc : Q) (v : list litem) : Q := sl_branching cc (lid_sort v).
Definition sl_tuned := tuned (fun i => iid (li_x i)) sl_prep sl_node_cost.

(** * Cost-complex accuracy *)
(** cost_complex_accuracy.h:38-50: the cost of a node is computed from the current parameter at
    every use; the data are not changed (optimization_task.h).  State: the identifiers. *)
Definition cca_tuned_cost (cc0 cc1 : Q) (v : list nat) : Q :=
  (cc1 * qn (length (s_train (tuned (fun i => i) (fun l => l) (fun _ _ => 0%Q) cc0 cc1 v))))%Q.
