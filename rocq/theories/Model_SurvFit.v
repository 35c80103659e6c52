(** Model of fits of survival trees.
    Sources: /repo/src/tasks/survival_analysis.cpp, /repo/include/tasks/survival_analysis.h,
    /repo/src/solver/solver.cpp, /repo/pystreed/survival_analysis.py.
    The loss of a leaf contains logarithms.  The search sees doubles, which are rational numbers:
    [calc ids] is the number that the program computes for the loss of the leaf with the
    instances [ids]; how far it is from the exact loss is a hypothesis of the theorems.  As in
    Model_LinFit the search counts in units of [1/S].  Simplification: the assertion that the loss
    is at least -1e-6 (C59: it holds for the exact loss) and the reading of a risk factor
    2147483647 as "no label" (see C89; every hazard is at least 1/(n+1), so that n would have to be
    that large) are not represented. *)
From Coq Require Import List Arith Bool ZArith QArith Qminmax Qreals Reals.
From Verif Require Import Base_Q Model_FeatureVector Model_Data Model_Node Model_Terminal Model_Heap Model_Solver Model_Preproc Model_Tasks Model_Survival Model_SurvLeaf Model_RegFit Model_LinFit.
Import ListNotations.
Local Open Scope nat_scope.

(** The rows of the user: binary features, time and event (survival_analysis.py:84-121). *)
Definition surow : Type := list nat * srow.
(** survival_analysis.cpp:14-33: the baseline hazard of the training rows is computed and put into
    copies of the instances: event and hazard value. *)
Definition sv_row : Type := inst * (bool * Q).
Definition sv_data (rows : list surow) : list sv_row :=
  map (fun p => (Inst (fst p) (fv_make (map (fun k => negb (k =? 0)) (fst (snd p)))), (snd (snd (snd p)), hazard (map snd rows) (fst (snd (snd p))))))
      (combine (seq 0 (length rows)) rows).
Definition sv_hrow (r : sv_row) : hrow := (fst (snd r), Q2R (snd (snd r))).
(** Numbers of instances in their order: what the views of the solver hold. *)
Fixpoint ascending (lo : nat) (n : nat) (ids : list nat) : bool :=
  match ids with [] => true | i :: r => (lo <=? i) && (i <? n) && ascending (S i) n r end.
(** survival_analysis.cpp:107-139: the loss of a leaf as the search gets it, cut at zero.  The solver asks
    only for leaves with instances of the data (solver.cpp:599-601); 0 stands for the others. *)
Definition sv_cost (n : nat) (calc : list nat -> Q) (L : list inst) : Q :=
  match L with
  | [] => 0%Q
  | _ => if ascending 0 n (map iid L) then Qmax 0 (calc (map iid L)) else 0%Q
  end.
(** The risk factors are computed with the nodes: survival_analysis.cpp:128-135. *)
Fixpoint sv_fill (rs : list sv_row) (t : tree) : stree :=
  match t with
  | Leaf _ => SLeaf (sa_theta (map sv_hrow rs))
  | Split f l r => SNode f (sv_fill (filter (fun x => negb (has f (fst x))) rs) l) (sv_fill (filter (fun x => has f (fst x)) rs) r)
  end.
(** tree.h:76-95: the test value on the training data: GetLeafCosts at the risk factors
    (survival_analysis.cpp:142-164), here without rounding; a failing assertion counts as 0. *)
Fixpoint sv_test (rs : list sv_row) (t : stree) : R :=
  match t with
  | SLeaf th => match sa_costs (map sv_hrow rs) th with Some e => e | None => 0%R end
  | SNode f l r => (sv_test (filter (fun x => negb (has f (fst x))) rs) l + sv_test (filter (fun x => has f (fst x)) rs) r)%R
  end.
(** What a fit returns: the tree, the training score, whether it is proven optimal. *)
Record sv_result := SvResult { sv_tree : option stree; sv_score : option R; sv_proven : bool }.
(** survival_analysis.py:92-121 and solver.cpp:80-221: a fit of STreeDSurvivalAnalysis; the
    training score is the test value divided by the number of rows (result.h:42-53, h:133). *)
Definition fit_surv (S : Z) (calc : list nat -> Q) (W : switches) (P : params) (nf : nat) (clk : nat -> bool) (rows : list surow) : sv_result :=
  let data := sv_data rows in
  let R := fit (custom_task S (sv_cost (length rows) calc) None) W (Params (p_depth P) (p_nodes P) (p_all P) (S * upper_bound (p_ub P))) nf clk [map fst data] in
  SvResult (option_map (sv_fill data) (fr_tree R))
           (option_map (fun t => sv_test data (sv_fill data t) / INR (length rows))%R (fr_tree R))
           (fr_proven R).
