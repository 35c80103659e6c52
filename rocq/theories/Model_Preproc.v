(** Model of the preprocessing of the training data and of the flip that undoes it.
    Sources: /repo/src/solver/solver.cpp:1156-1290, /repo/include/solver/tree.h:162-167. *)
From Coq Require Import List Arith Bool Lia ZArith.
From Verif Require Import Model_FeatureVector Model_Data Model_Node Model_Terminal Model_Heap Model_Solver.
Import ListNotations.
Local Open Scope nat_scope.

Section WithTask.
  Context (T : task).

  (** solver.cpp:1167-1172: positive_count. *)
  Definition pos_count (xs : list inst) (f : nat) : nat := length (filter (has f) xs).

  (** solver.cpp:1173: features with more than half of the instances are flipped. *)
  Definition flipped (xs : list inst) (f : nat) : bool :=
    tk_may T f && (length xs / 2 <? pos_count xs f).

  (** solver.cpp:1181-1184: too few instances on one side. *)
  Definition too_rare (mls : nat) (xs : list inst) (f : nat) : bool :=
    tk_may T f && ((pos_count xs f <? mls) || (Z.of_nat (length xs) - Z.of_nat mls <? Z.of_nat (pos_count xs f))%Z).

  (** solver.cpp:1174-1180: flip one feature of one instance. *)
  Definition on_fv (g : fvec -> fvec) (x : inst) : inst := Inst (iid x) (g (ifv x)).
  Definition flip_feature (f : nat) (x : inst) : inst := on_fv (fun w => fv_flip w f) x.

  (** solver.cpp:1164-1185: the first loop, for one instance: flip the flagged features in
      index order. *)
  Definition flip_all (fl : nat -> bool) (nf : nat) (x : inst) : inst :=
    fold_left (fun x f => if fl f then flip_feature f x else x) (seq 0 nf) x.

  (** solver.cpp:1186-1203: the loop over pairs that marks duplicate features; [xs] are the
      flipped instances and [red] the marks so far. *)
  Definition same_feature (xs : list inst) (f1 f2 : nat) : bool :=
    forallb (fun x => Bool.eqb (has f1 x) (has f2 x)) xs.
  Definition dup_step (nf : nat) (xs : list inst) (red : nat -> bool) (f1 : nat) : nat -> bool :=
    if red f1 then red
    else fun f2 => red f2 || ((f1 <? f2) && (f2 <? nf) && same_feature xs f1 f2).
  Definition mark_dups (nf : nat) (xs : list inst) (red : nat -> bool) : nat -> bool :=
    fold_left (dup_step nf xs) (seq 0 (nf - 1)) red.

  (** solver.cpp:1204-1216: switch the redundant features off, then compute the pair
      indices. *)
  Definition disable_all (red : nat -> bool) (nf : nat) (x : inst) : inst :=
    fold_left (fun x f => if red f then on_fv (fun w => fv_disable w f) x else x) (seq 0 nf) x.
  Definition finish (x : inst) : inst := on_fv fv_compute_pairs x.

  (** solver.cpp:1156-1217: PreprocessData for the training data: the flipped features, the
      redundant features and the new view.  [nf] is the number of features and [mls] the
      minimum leaf node size.  The counts are over all instances of the view. *)
  Definition preprocess (mls nf : nat) (v : view) : (nat -> bool) * (nat -> bool) * view :=
    let xs := concat v in
    let fl := flipped xs in
    let rare f := (f <? nf) && too_rare mls xs f in
    let v1 := map (map (flip_all fl nf)) v in
    let red := mark_dups nf (concat v1) rare in
    (fl, red, map (map (fun x => finish (disable_all red nf x))) v1).

  (** solver.cpp:1218-1228: PreprocessData for test data: only the flips. *)
  Definition preprocess_test (fl : nat -> bool) (nf : nat) (v : view) : view :=
    map (map (flip_all fl nf)) v.

  (** tree.h:162-167: FlipFlippedFeatures exchanges the children of flipped features. *)
  Fixpoint unflip (fl : nat -> bool) (t : tree) : tree :=
    match t with
    | Leaf l => Leaf l
    | Split f l r => if fl f then Split f (unflip fl r) (unflip fl l) else Split f (unflip fl l) (unflip fl r)
    end.

  (** tree.h:76-95: ComputeTrainScore: the sum of the leaf and branching costs and the sum
      of the data sizes at all nodes (for the average path length). *)
  Fixpoint train_score (v : view) (b : branch) (t : tree) : Z * nat :=
    match t with
    | Leaf l => (tk_leaf T v l, vsize v)
    | Split f l r =>
      let '(zl, pl) := train_score (split_left f v) (br_left b f) l in
      let '(zr, pr) := train_score (split_right f v) (br_right b f) r in
      ((get_bc T v b f + zl + zr)%Z, vsize v + pl + pr)
    end.
End WithTask.

(** The switches a user sets (solver.cpp:9-18 and define_parameters.cpp:116-230). *)
Record switches := Switches {
  w_ub : bool; w_lb : bool; w_tlb : bool; w_term : bool; w_sim : bool;
  w_branch : bool; w_data : bool; w_gini : bool; w_mls : nat }.

(** Solve on a fresh solver, from the user's data to the returned tree (solver.cpp:79-244).
    [nf] is the number of features, [clk] the clock. *)
Definition mk_cfg (W : switches) (nf : nat) (red : nat -> bool) (clk : nat -> bool) : cfg :=
  Cfg (w_ub W) (w_lb W) (w_tlb W) (w_term W) (w_sim W) (w_mls W) nf red
      (if w_gini W then order_gini nf else order_in nf) clk.

(** What a fit hands out: the value found by the search, the tree, the flag is_proven_optimal,
    and the sums over the tree (result.h:42-53): the training value, with the costs of the nodes,
    and the sum from which the question length is computed.  The reported score is computed from
    the test value on the training data; for the tasks with test costs equal to the training
    costs that is the training value. *)
Record fit_result := FitResult { fr_value : node; fr_tree : option tree; fr_proven : bool; fr_train : option (Z * nat) }.
Definition mk_result (T : task) (fl : nat -> bool) (v' : view) (a : answer) : fit_result :=
  FitResult (a_sol a) (match a_tree a with Some t => Some (unflip fl t) | None => None end) (a_proven a)
            (match a_tree a with Some t => Some (train_score T v' [] t) | None => None end).

Definition fit (T : task) (W : switches) (P : params) (nf : nat) (clk : nat -> bool) (v : view) : fit_result :=
  let '(fl, red, v') := preprocess T (w_mls W) nf v in
  let G := mk_cfg W nf red clk in
  let a := solve T G P v' (init_sol T) (init_state G (w_branch W) (w_data W) (vsize v')) in
  mk_result T fl v' a.

(** solver.cpp:208-221: a second Solve on the same training data: InitializeSolver returns
    early, so the caches, the archive and global_UB of the first call are kept. *)
Definition fit_again (T : task) (W : switches) (P : params) (nf : nat) (clk : nat -> bool) (v : view) : fit_result :=
  let '(fl, red, v') := preprocess T (w_mls W) nf v in
  let G := mk_cfg W nf red clk in
  let a1 := solve T G P v' (init_sol T) (init_state G (w_branch W) (w_data W) (vsize v')) in
  let a := solve T G P v' (a_ub a1) (a_st a1) in
  mk_result T fl v' a.
