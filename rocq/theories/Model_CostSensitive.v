(** Model of cost-sensitive classification: cost tables, test costs, leaf costs.
    Sources: /repo/src/tasks/cost_sensitive.cpp, /repo/include/tasks/cost_sensitive.h,
    /repo/src/solver/cost_combiner.cpp (branching costs), /repo/src/tasks/instance_cost_sensitive.cpp.
    Costs are integers instead of doubles.  The cost file is read in Model_CostFile. *)
From Coq Require Import List Arith Bool ZArith String.
From Verif Require Import Model_FeatureVector Model_Data Model_Terminal.
Import ListNotations.
Local Open Scope list_scope.
Local Open Scope nat_scope.

(** cost_sensitive.h:6-15: FeatureCostSpecifier: the binary features [fc_lo .. fc_hi] of one
    original feature. *)
Record fcs := FCS { fc_cost : Z; fc_disc : Z; fc_group : string; fc_lo : nat; fc_hi : nat }.
(** The loop variable range binary_begin .. binary_end. *)
Definition range (s : fcs) : list nat := seq (fc_lo s) (S (fc_hi s) - fc_lo s).

(** cost_sensitive.h:28-35: the fields of CostSpecifier that Initialize fills. *)
Record tables := Tables { tb_cost : list Z; tb_disc : list Z; tb_group : list bool; tb_bin : list bool }.

(** cost_sensitive.cpp:59-62 (binary_begin <= binary_end is asserted in debug builds only; a
    range that is empty counts 0 here). *)
Definition num_binary (specs : list fcs) : nat := fold_right (fun s a => List.length (range s) + a) 0 specs.

(** cost_sensitive.cpp:69-71, 81: the map from group names to features. *)
Definition gmap := list (string * list nat).
Fixpoint gm_get (g : string) (m : gmap) : list nat :=
  match m with [] => [] | (h, l) :: m' => if String.eqb g h then l else gm_get g m' end.
Fixpoint gm_push (g : string) (f : nat) (m : gmap) : gmap :=
  match m with
  | [] => [(g, [f])]
  | (h, l) :: m' => if String.eqb g h then (h, l ++ [f]) :: m' else (h, l) :: gm_push g f m'
  end.

(** cost_sensitive.cpp:78-79, 84-85: set a cell and its mirror image. *)
Definition mark (n f : nat) (m : list bool) (f2 : nat) : list bool :=
  set_nth (f2 * n + f) true (set_nth (f * n + f2) true m).

(** cost_sensitive.cpp:73-87: one binary feature. *)
Definition init_feature (n : nat) (s : fcs) (st : tables * gmap) (f : nat) : tables * gmap :=
  if n <=? f then st else
  let '(t, m) := st in
  (Tables (set_nth f (fc_cost s) (tb_cost t)) (set_nth f (fc_disc s) (tb_disc t))
          (fold_left (mark n f) (gm_get (fc_group s) m) (tb_group t))
          (fold_left (fun b f2 => if n <=? f2 then b else mark n f b f2) (range s) (tb_bin t)),
   gm_push (fc_group s) f m).
(** cost_sensitive.cpp:58-88: Initialize. *)
Definition init_spec (n : nat) (st : tables * gmap) (s : fcs) : tables * gmap := fold_left (init_feature n s) (range s) st.
Definition initialize (specs : list fcs) : tables :=
  let n := num_binary specs in
  fst (fold_left (init_spec n) specs (Tables (repeat 0%Z n) (repeat 0%Z n) (repeat false (n * n)) (repeat false (n * n)), [])).

Definition num_features (t : tables) : nat := List.length (tb_cost t).
Definition same_bin (t : tables) (f g : nat) : bool := nth (f * num_features t + g) (tb_bin t) false.
Definition same_group (t : tables) (f g : nat) : bool := nth (f * num_features t + g) (tb_group t) false.

(** cost_sensitive.cpp:94-116: ComputeTotalTestCosts: features from [f] on. *)
Definition done_step (t : tables) (rel : tables -> nat -> nat -> bool) (f : nat) (done : list bool) : list bool :=
  fold_left (fun d g => if rel t f g then set_nth g true d else d) (seq (S f) (num_features t - S f)) done.
Fixpoint total_from (t : tables) (k f : nat) (bdone gdone : list bool) : Z :=
  match k with
  | 0 => 0%Z
  | S k' =>
    if nth f bdone false then total_from t k' (S f) bdone gdone
    else ((if nth f gdone false then nth f (tb_disc t) 0 else nth f (tb_cost t) 0)
          + total_from t k' (S f) (done_step t same_bin f bdone) (done_step t same_group f gdone))%Z
  end.
Definition total_test_costs (t : tables) : Z :=
  total_from t (num_features t) 0 (repeat false (num_features t)) (repeat false (num_features t)).

(** cost_sensitive.cpp:149-161: GetBranchingCosts per instance. *)
Definition charge (t : tables) (b : branch) (feature : nat) : Z :=
  if existsb (fun c => same_bin t (c / 2) feature) b then 0%Z
  else if existsb (fun c => same_group t (c / 2) feature) b then nth feature (tb_disc t) 0%Z
  else nth feature (tb_cost t) 0%Z.

(** misclassification_costs[k][l]. *)
Definition mis (M : list (list Z)) (k l : nat) : Z := nth l (nth k M []) 0%Z.

(** cost_sensitive.cpp:140-147: GetLeafCosts. *)
Fixpoint leaf_costs_from (M : list (list Z)) (label k : nat) (v : view) : Z :=
  match v with
  | [] => 0%Z
  | xs :: r => ((if (k =? label)%nat then 0 else Z.of_nat (List.length xs) * mis M k label) + leaf_costs_from M label (S k) r)%Z
  end.
Definition leaf_costs (M : list (list Z)) (v : view) (label : nat) : Z := leaf_costs_from M label 0 v.

(** cost_sensitive.cpp:136-138 and cost_combiner.cpp (UpdateCosts): the cost of a label in the
    depth-two counters: the sum of GetInstanceLeafD2Costs over the instances; ComputeD2Costs
    (cost_sensitive.h:75) returns it unchanged. *)
Fixpoint d2_costs_from (M : list (list Z)) (label k : nat) (v : view) : Z :=
  match v with
  | [] => 0%Z
  | xs :: r => (fold_right (fun _ a => 1 * mis M k label + a) 0 xs + d2_costs_from M label (S k) r)%Z
  end.
Definition d2_costs (M : list (list Z)) (v : view) (label : nat) : Z := d2_costs_from M label 0 v.

(** cost_combiner.cpp:211-228: UpdateBranchingCosts: the table of the depth-two solver; the
    entry (f1, f2) is the cost of testing f2 below f1, on the diagonal that of the root. *)
Definition d2_branching (t : tables) (b : branch) (f1 f2 : nat) : Z :=
  if f1 =? f2 then charge t b f1 else charge t (br_left b f1) f2.

(** cost_sensitive.h:69-70, solver.cpp:409, 1097 and CombineSols: the costs of a tree as the
    general search adds them up. *)
Fixpoint search_cost (M : list (list Z)) (t : tables) (v : view) (b : branch) (T : tree) : Z :=
  match T with
  | Leaf l => leaf_costs M v l
  | Split f l r => (Z.of_nat (vsize v) * charge t b f
                    + search_cost M t (split_left f v) (br_left b f) l
                    + search_cost M t (split_right f v) (br_right b f) r)%Z
  end.

(** terminal_solver.cpp:85-145, 193-198, 297-330 with cost_combiner.cpp:242-267: the costs of a
    tree of depth at most two from the counters (ComputeD2BranchingCosts, cost_sensitive.h:72). *)
Definition d2_child (M : list (list Z)) (t : tables) (b : branch) (f1 : nat) (v : view) (T : tree) : Z :=
  match T with
  | Leaf l => d2_costs M v l
  | Split f2 l r => match l, r with
      | Leaf a, Leaf c => (d2_costs M (split_left f2 v) a + d2_costs M (split_right f2 v) c + d2_branching t b f1 f2 * Z.of_nat (vsize v))%Z
      | _, _ => 0%Z end
  end.
Definition d2_tree_cost (M : list (list Z)) (t : tables) (v : view) (b : branch) (T : tree) : Z :=
  match T with
  | Leaf l => d2_costs M v l
  | Split f1 l r => (d2_child M t b f1 (split_left f1 v) l + d2_child M t b f1 (split_right f1 v) r
                     + d2_branching t b f1 f1 * Z.of_nat (vsize v))%Z
  end.

(** cost_sensitive.cpp:118-128, 91: the largest misclassification cost, the worst instance
    (max_instance_costs, used by GetWorstPerLabel).  [low] stands for -DBL_MAX. *)
Definition max_mis (low : Z) (M : list (list Z)) : Z := fold_left (fun m c => if (m <? c)%Z then c else m) (List.concat M) low.
Definition max_instance_costs (low : Z) (M : list (list Z)) (t : tables) : Z := (total_test_costs t + max_mis low M)%Z.

(** instance_cost_sensitive.cpp:14-24 GetLeafCosts, 31-38
    GetInstanceLeafD2Costs and ComputeD2Costs.  [w x l]: the cost of label [l] for instance [x]. *)
Definition ics_leaf (w : inst -> nat -> Z) (v : view) (l : nat) : Z :=
  fold_left (fun a xs => fold_left (fun a x => (a + w x l)%Z) xs a) v 0%Z.
Definition ics_d2 (w : inst -> nat -> Z) (v : view) (l : nat) : Z :=
  let c := fold_right (fun x a => (1 * w x l + a)%Z) 0%Z (List.concat v) in if (c <? 0)%Z then 0%Z else c.
