(** C76-C80: the F1-score and the fairness tasks in the configurations in which they are used:
    bounds, caches and the depth-two solver on. *)
From Coq Require Import List Arith Bool ZArith QArith Lia.
From Verif Require Import Model_FeatureVector Model_Data Model_Node Model_Terminal Model_Heap Model_Solver Model_Preproc Model_Container Model_Pareto Model_Fairness Model_Front.
From Verif Require Import Spec_Tree Spec_Examples Spec_Rows Spec_F1 Spec_Fair Props_Pareto Props_Fairness.
Import ListNotations.
Local Open Scope nat_scope.

(** The defaults of the Python classes (base.py:38-57): bounds, similarity bound, depth-two
    solver and data set cache on, branch cache off, Gini order, minimum leaf size 1. *)
Definition fdefaults : fswitches := FSwitches true true true true false true true 1.
Definition without_terminal : fswitches := FSwitches true true false true false true true 1.
Definition without_upper : fswitches := FSwitches false true true true false true true 1.

(** Without rounding; [double_rounding] holds (rnd53_ok). *)
Definition no_rounding (q : Q) : Q := q.
Lemma no_rounding_ok : double_rounding no_rounding.
Proof. exact (proj2 rnd53_ok). Qed.

(** * C76.  The returned tree has the best F1-score.  Refuted with the default switches and a
    node budget below the full one: the depth-two solver stops at a perfect tree with three
    nodes and leaves its result for two nodes incomplete. *)
Definition c76_rows : list (list nat * nat) := [([1;1;0],1); ([0;0;0],0); ([1;0;0],0); ([0;0;1],1)].
Theorem C76_refuted : exists rows x t t', f1_rows 1 3 rows
  /\ f1_ffit no_rounding fdefaults 3 2 2 false (mk_view 2 rows) = [(x, Some t)]
  /\ row_allowed 3 2 1 2 2 rows t /\ row_allowed 3 2 1 2 2 rows t' /\ (row_f1 rows t < row_f1 rows t')%Q.
Proof.
  exists c76_rows. do 2 eexists. exists (Split 1 (Split 2 (Leaf 0) (Leaf 1)) (Leaf 1)). split.
  - split; [repeat constructor|exists ([1;1;0],1); split; [left; reflexivity|reflexivity]|cbn; lia].
  - split; [vm_compute; reflexivity|]. split; [vm_compute; repeat split; repeat constructor|].
    split; [vm_compute; repeat split; repeat constructor|]. reflexivity.
Qed.
Print Assumptions C76_refuted.

(** * C77.  A tree for a fairness task does not test the sensitive column.  Refuted with the
    default switches, for both tasks: the depth-two solver rebuilds its tree from the value
    without asking whether a feature may be used. *)
Definition c77_rows : list (list nat * nat) := [([1;0;0],1); ([1;1;1],0); ([0;1;0],0); ([0;0;1],1)].
Definition c77_rows_eo : list (list nat * nat) := [([1;1;1],1); ([0;0;1],0); ([0;1;0],1)].
Lemma ex_rows eo nf rows : forallb (fun p => (length (fst p) =? nf) && (snd p <? 2)) rows = true ->
  (match members eo false rows, members eo true rows with _ :: _, _ :: _ => true | _, _ => false end) = true ->
  1 <= length rows -> fair_rows eo 1 nf rows.
Proof.
  intros H1 H2 H3. split; [|intros []; intro E; rewrite E in H2|exact H3].
  - apply Forall_forall. intros p Hp. rewrite forallb_forall in H1. specialize (H1 p Hp). apply andb_true_iff in H1.
    rewrite Nat.eqb_eq, Nat.ltb_lt in H1. exact H1.
  - destruct (members eo false rows); discriminate.
  - discriminate.
Qed.
Lemma ex_proxy nf rows : forallb (fun f => existsb (fun p => negb (Bool.eqb (nth f (fst p) 0 =? 0) (nth 0 (fst p) 0 =? 0))) rows
    && existsb (fun p => Bool.eqb (nth f (fst p) 0 =? 0) (nth 0 (fst p) 0 =? 0)) rows) (seq 1 (nf - 1)) = true -> no_proxy nf rows.
Proof.
  intros H f Hf. rewrite forallb_forall in H. specialize (H f). rewrite in_seq in H. specialize (H ltac:(lia)). apply andb_true_iff in H.
  rewrite !existsb_exists in H. destruct H as [(p & P1 & P2) (q & Q1 & Q2)].
  split; [exists p|exists q]; (split; [assumption|]).
  - intro E. rewrite E, Bool.eqb_reflx in P2. discriminate.
  - apply Bool.eqb_prop. exact Q2.
Qed.
Theorem C77_refuted : forall eo, exists rows x t, fair_rows eo 1 3 rows /\ no_proxy 3 rows
  /\ fair_ffit eo (1 # 100) fdefaults 3 2 3 false (mk_view 2 rows) = [(x, Some t)] /\ ~ blind t.
Proof.
  intros []; [exists c77_rows_eo|exists c77_rows]; do 2 eexists;
    (split; [apply ex_rows; [reflexivity|reflexivity|cbn; lia]|]); (split; [apply ex_proxy; reflexivity|]);
    (split; [vm_compute; reflexivity|]); unfold blind; cbn; lia.
Qed.
Print Assumptions C77_refuted.

(** * C78.  Every leaf of the returned tree has a label.  Refuted for the fairness tasks with the
    default switches: the stored solutions of a subtree were filtered by a bound found
    later, and no pair of them has the value of the result. *)
Definition c78_rows : list (list nat * nat) := [([0;0;1],1); ([1;1;1],0); ([0;1;0],1); ([0;0;0],0); ([1;0;0],0)].
Definition c78_rows_eo : list (list nat * nat) := [([1;0;0],1); ([1;1;1],0); ([1;1;1],0); ([1;1;0],0); ([0;1;1],1); ([0;0;0],1)].
Theorem C78_refuted : forall eo, exists rows x, fair_rows eo 1 3 rows /\ no_proxy 3 rows
  /\ fair_ffit eo (3 # 10) fdefaults 3 3 7 false (mk_view 2 rows) = [(x, None)].
Proof.
  intros []; [exists c78_rows_eo|exists c78_rows]; eexists;
    (split; [apply ex_rows; [reflexivity|reflexivity|cbn; lia]|]); (split; [apply ex_proxy; reflexivity|]);
    vm_compute; reflexivity.
Qed.
Print Assumptions C78_refuted.
(** For the F1-score with the depth-two solver off and all sizes tried. *)
Definition c78_rows_f1 : list (list nat * nat) := [([1;0],1); ([0;1],1); ([0;0],0); ([0;1],0); ([1;0],0); ([1;0],0)].
Theorem C78_f1_refuted : exists rows x, f1_rows 1 2 rows
  /\ f1_ffit no_rounding without_terminal 2 3 7 true (mk_view 2 rows) = [(x, None)].
Proof.
  exists c78_rows_f1. eexists. split.
  - split; [repeat constructor|exists ([1;0],1); split; [left; reflexivity|reflexivity]|cbn; lia].
  - vm_compute. reflexivity.
Qed.
Print Assumptions C78_f1_refuted.

(** * C79.  No tree within the limits and the discrimination limit makes fewer errors than is
    reported.  Refuted with the default switches at depth three for both tasks, and at
    depth two when upper bounds are switched off. *)
Definition c79_rows : list (list nat * nat) := [([1;1;1;0],0); ([1;1;0;1],0); ([1;0;0;0],0); ([1;1;0;0],1); ([0;1;1;1],0)].
Definition c79_rows_eo : list (list nat * nat) := [([1;0;1;1],1); ([0;0;0;0],1); ([0;1;0;1],1); ([0;1;1;1],1); ([1;0;0;1],0)].
Theorem C79_refuted : forall eo, exists rows lim x t t', fair_rows eo 1 4 rows /\ no_proxy 4 rows /\ (0 <= lim)%Q
  /\ fair_ffit eo lim fdefaults 4 3 7 false (mk_view 2 rows) = [(x, Some t)]
  /\ row_allowed 4 2 1 3 7 rows t' /\ blind t' /\ (disc eo rows t' <= lim)%Q /\ row_errors rows t' < row_errors rows t.
Proof.
  intros [].
  - exists c79_rows_eo, (1 # 100). do 2 eexists. exists (Split 1 (Split 2 (Split 3 (Leaf 1) (Leaf 0)) (Leaf 1)) (Leaf 1)).
    split; [apply ex_rows; [reflexivity|reflexivity|cbn; lia]|]. split; [apply ex_proxy; reflexivity|]. split; [discriminate|].
    split; [vm_compute; reflexivity|]. split; [vm_compute; repeat split; repeat constructor|]. split; [cbn; lia|].
    split; [vm_compute; discriminate|]. vm_compute. constructor.
  - exists c79_rows, (3 # 10). do 2 eexists. exists (Split 1 (Leaf 0) (Split 2 (Split 3 (Leaf 1) (Leaf 0)) (Leaf 0))).
    split; [apply ex_rows; [reflexivity|reflexivity|cbn; lia]|]. split; [apply ex_proxy; reflexivity|]. split; [discriminate|].
    split; [vm_compute; reflexivity|]. split; [vm_compute; repeat split; repeat constructor|]. split; [cbn; lia|].
    split; [vm_compute; discriminate|]. vm_compute. constructor.
Qed.
Print Assumptions C79_refuted.
Definition c79_rows_nub : list (list nat * nat) := [([0;0;1],1); ([0;1;1],0); ([1;1;1],0); ([1;1;0],1)].
Definition c79_rows_nub_eo : list (list nat * nat) := [([1;1;0],1); ([0;1;0],1); ([1;0;1],1); ([1;0;0],0)].
Theorem C79_no_upper_bound_refuted : forall eo, exists rows x t t', fair_rows eo 1 3 rows /\ no_proxy 3 rows
  /\ fair_ffit eo (1 # 100) without_upper 3 2 3 false (mk_view 2 rows) = [(x, Some t)]
  /\ row_allowed 3 2 1 2 3 rows t' /\ blind t' /\ (disc eo rows t' <= 1 # 100)%Q /\ row_errors rows t' < row_errors rows t.
Proof.
  intros [].
  - exists c79_rows_nub_eo. do 2 eexists. exists (Split 1 (Split 2 (Leaf 0) (Leaf 1)) (Leaf 1)).
    split; [apply ex_rows; [reflexivity|reflexivity|cbn; lia]|]. split; [apply ex_proxy; reflexivity|].
    split; [vm_compute; reflexivity|]. split; [vm_compute; repeat split; repeat constructor|]. split; [cbn; lia|].
    split; [vm_compute; discriminate|]. vm_compute. repeat constructor.
  - exists c79_rows_nub. do 2 eexists. exists (Split 1 (Leaf 1) (Split 2 (Leaf 1) (Leaf 0))).
    split; [apply ex_rows; [reflexivity|reflexivity|cbn; lia]|]. split; [apply ex_proxy; reflexivity|].
    split; [vm_compute; reflexivity|]. split; [vm_compute; repeat split; repeat constructor|]. split; [cbn; lia|].
    split; [vm_compute; discriminate|]. vm_compute. repeat constructor.
Qed.
Print Assumptions C79_no_upper_bound_refuted.
