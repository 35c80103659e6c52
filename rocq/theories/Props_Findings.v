(** Findings: claims that are false of the code as written, each with a concrete data set.
    [beaten W P nf v]: the fit reports a proven optimal result, but a tree within the user's
    limits has fewer training errors than the returned tree. *)
From Coq Require Import List Arith Bool Lia ZArith.
From Verif Require Import Model_FeatureVector Model_Data Model_Node Model_Cache Model_Terminal Model_Solver
  Model_Heap Model_Preproc Spec_Tree Spec_Examples.
Import ListNotations.

Definition beaten (W : switches) (P : params) (nf : nat) (v : view) : Prop :=
  exists t better,
    fr_tree (fit acc W P nf no_limit v) = Some t
    /\ fr_proven (fit acc W P nf no_limit v) = true
    /\ allowed (fun f => f < nf) (w_mls W) (p_depth P) (p_nodes P) v better
    /\ misclassified v better < misclassified v t.

Ltac beat t b :=
  exists t, b; split; [vm_compute; reflexivity|]; split; [vm_compute; reflexivity|];
  split; [repeat split; vm_compute; lia|vm_compute; lia].

(** C06 is false: with a minimum leaf size of 2 the depth-two search skips a feature it
    needs (terminal_solver.cpp:59-60 tests the counts of both features of a pair). *)
Definition c06_rows := [([1;1],1); ([0;1],0); ([1;1],1); ([1;0],0); ([0;1],0); ([0;0],0)].
Theorem C06_depth_two_leaf_size_refuted :
  exists W P nf v, w_mls W = 2 /\ p_depth P = 2 /\ p_nodes P = 3 /\ beaten W P nf v.
Proof.
  exists (Switches true true true true false false true false 2), (Params 2 3 false no_bound), 2, (mk_view 2 c06_rows).
  repeat split; try reflexivity. beat (Split 0 (Leaf 0) (Leaf 1)) (Split 1 (Leaf 0) (Split 0 (Leaf 0) (Leaf 1))).
Qed.
Print Assumptions C06_depth_two_leaf_size_refuted.

(** C07 is false: in all-trees mode the terminal solver called with one node stores lower
    bounds for the budgets two and three that it has not searched (solver.cpp:565-581). *)
Theorem C07_all_trees_refuted :
  exists P nf v, p_all P = true /\ p_depth P = 2 /\ p_nodes P = 3 /\ beaten (defaults false 1) P nf v.
Proof.
  exists (Params 2 3 true no_bound), 2, (mk_view 2 xor_rows). repeat split; try reflexivity.
  beat (Leaf 0) (Split 0 (Split 1 (Leaf 0) (Leaf 1)) (Split 1 (Leaf 1) (Leaf 0))).
Qed.
Print Assumptions C07_all_trees_refuted.

(** C46 is false: with at most two branching nodes the depth-two search stops as soon as a
    perfect tree with three nodes is known (terminal_solver.cpp:70). *)
Definition c46_rows := [([0;0;1;0],0); ([1;1;1;1],0); ([0;1;0;0],1); ([1;1;1;0],1)].
Theorem C46_two_nodes_refuted :
  exists P nf v, p_all P = false /\ p_depth P = 2 /\ p_nodes P = 2 /\ beaten (defaults false 1) P nf v.
Proof.
  exists (Params 2 2 false no_bound), 4, (mk_view 2 c46_rows). repeat split; try reflexivity.
  beat (Split 0 (Split 1 (Leaf 0) (Leaf 1)) (Leaf 0)) (Split 3 (Split 1 (Leaf 0) (Leaf 1)) (Leaf 0)).
Qed.
Print Assumptions C46_two_nodes_refuted.

(** C47 is false: with a minimum leaf size of 2 the similarity bound prunes the optimum (a
    tree that is allowed on the new data may have too small leaves on the old data). *)
Definition c47_rows := [([1;0;1],1); ([1;0;1],1); ([0;0;0],0); ([0;1;0],0); ([0;1;1],0); ([1;0;0],0); ([1;0;1],1)].
Theorem C47_similarity_leaf_size_refuted :
  exists W P nf v, w_mls W = 2 /\ w_sim W = true /\ w_term W = false /\ p_depth P = 2 /\ p_nodes P = 3 /\ beaten W P nf v
    /\ ~ beaten (Switches (w_ub W) (w_lb W) (w_tlb W) false false (w_branch W) (w_data W) (w_gini W) 2) P nf v.
Proof.
  exists (Switches true true true false true false true false 2), (Params 2 3 false no_bound), 3, (mk_view 2 c47_rows).
  repeat split; try reflexivity.
  - beat (Split 0 (Leaf 0) (Leaf 1)) (Split 1 (Split 2 (Leaf 0) (Leaf 1)) (Leaf 0)).
  - intros (t & b & Ht & _ & _ & Hlt). vm_compute in Ht. injection Ht as <-. vm_compute in Hlt. lia.
Qed.
Print Assumptions C47_similarity_leaf_size_refuted.

(** C48 is false: with the default settings (Gini order, data set cache, terminal solver)
    and depth 4 the search finds the optimal value 0, but the rebuilt tree has an error. *)
Definition c48_rows := [([1;1;1;0;0],0); ([1;1;0;0;1],0); ([1;1;1;1;0],1); ([0;1;0;1;0],0); ([0;0;0;1;1],1);
  ([0;1;0;1;1],1); ([1;0;0;0;1],2); ([1;0;1;0;0],0); ([0;0;1;0;1],2); ([0;1;1;0;1],0); ([0;1;0;0;1],2); ([1;1;0;1;0],0)].
Theorem C48_depth_four_rebuild_refuted :
  exists P nf v, p_all P = false /\ p_depth P = 4 /\ p_nodes P = 15
    /\ nd_sol (fr_value (fit acc (defaults true 1) P nf no_limit v)) = 0%Z
    /\ beaten (defaults true 1) P nf v.
Proof.
  exists (Params 4 15 false no_bound), 5, (mk_view 3 c48_rows).
  repeat split; try reflexivity.
  beat (Split 3 (Split 1 (Split 4 (Leaf 0) (Leaf 2)) (Split 0 (Split 2 (Leaf 2) (Leaf 0)) (Leaf 0)))
                (Split 0 (Split 4 (Leaf 0) (Leaf 1)) (Leaf 0)))
       (Split 3 (Split 1 (Split 4 (Leaf 0) (Leaf 2)) (Split 0 (Split 2 (Leaf 2) (Leaf 0)) (Leaf 0)))
                (Split 4 (Split 2 (Leaf 0) (Leaf 1)) (Leaf 1))).
Qed.
Print Assumptions C48_depth_four_rebuild_refuted.

(** C45 is false: on data of a single class the first call returns the leaf without caching
    it; the second call starts from the upper bound 0 - 1 and returns no tree at all. *)
Theorem C45_second_solve_refuted :
  exists P nf v t, fr_tree (fit acc (defaults false 1) P nf no_limit v) = Some t
    /\ misclassified v t = 0
    /\ fr_tree (fit_again acc (defaults false 1) P nf no_limit v) = None
    /\ fr_proven (fit_again acc (defaults false 1) P nf no_limit v) = true.
Proof.
  exists (Params 2 3 false no_bound), 2, (mk_view 2 [([0;1],0); ([1;0],0); ([1;1],0)]), (Leaf 0).
  repeat split; vm_compute; reflexivity.
Qed.
Print Assumptions C45_second_solve_refuted.
