(** Model of the search for partially ordered tasks (F1-score): the recursion on fronts of
    solutions, the merging of fronts, the reconstruction of a tree and the outer loop.
    Sources: /repo/src/solver/solver.cpp, /repo/include/solver/optimization_utils.h,
    /repo/include/tasks/f1score.h, /repo/src/tasks/f1score.cpp.
    Modelled configuration: use-upper-bound, use-lower-bound, use-branch-caching,
    use-dataset-caching and use-terminal-solver are all false, there are no branching costs
    and the time limit is not reached.  The bounds, the caches and the
    terminal solver of this class of tasks are not modelled. *)
From Coq Require Import List Arith Bool ZArith QArith.
From Verif Require Import Model_FeatureVector Model_Data Model_Node Model_Terminal Model_Heap Model_Solver Model_Preproc Model_Container.
Import ListNotations.
Local Open Scope nat_scope.

(** The operations of a partially ordered task: operator==, Dominates, DominatesD0, best,
    Add, GetLeafCosts, MayBranchOnFeature, check_unique and SatisfiesConstraint (which accepts
    everything when has_constraint is false, solver.cpp:871-877). *)
Record ptask := PTask {
  pt_S : Type;
  pt_eqb : pt_S -> pt_S -> bool;
  pt_dom : pt_S -> pt_S -> bool;
  pt_d0 : pt_S -> pt_S -> bool;
  pt_best : pt_S;
  pt_add : pt_S -> pt_S -> pt_S;
  pt_leaf : view -> nat -> pt_S;
  pt_may : nat -> bool;
  pt_unique : bool;
  pt_ok : pt_S -> bool }.

(** node.h: the feature, the label and the numbers of nodes of the two children. *)
Record ptag := PTag { pg_feat : option nat; pg_lab : option nat; pg_l : nat; pg_r : nat }.

(** The parameters read by the search: minimum leaf size, redundant features (found by the
    preprocessing), order of the features. *)
Record pcfg := PCfg { pc_mls : nat; pc_redundant : nat -> bool; pc_order : view -> list nat }.

Section Search.
  Context (T : ptask) (G : pcfg).
  Notation V := (pt_S T).
  Notation sol := (csol V ptag).
  Notation front := (cont V ptag).

  (** node.h:19-36: the constructors of leaf and branching nodes. *)
  Definition p_leaf (l : nat) (s : V) : sol := Csol s 0 (PTag None (Some l) 0 0).
  Definition p_branch (f : nat) (s : V) (l r : nat) : sol := Csol s (l + r + 1) (PTag (Some f) None l r).

  (** optimization_utils.h:106-116: AddSol at a depth; the root uses the root comparator. *)
  Definition p_add (b : branch) (c : front) (x : sol) : front :=
    if br_depth b =? 0 then ct_add (pt_eqb T) (pt_d0 T) true c x
    else ct_add (pt_eqb T) (pt_dom T) (pt_unique T) c x.

  (** solver.cpp:615-617, 719-721: a solution that violates the constraint is skipped. *)
  Definition p_try (b : branch) (c : front) (x : sol) : front := if pt_ok T (cs_val x) then p_add b c x else c.

  (** solver.cpp:1139-1154: SatisfiesMinimumLeafNodeSize. *)
  Definition p_mls (v : view) (mult : nat) : bool := pc_mls G * mult <=? vsize v.

  (** solver.cpp:598-622: SolveLeafNode (no custom leaf, no upper bound). *)
  Definition p_solve_leaf (v : view) (b : branch) : front :=
    if p_mls v 1
    then fold_left (fun c l => p_try b c (p_leaf l (pt_leaf T v l))) (seq 0 (num_labels v)) ct_new
    else ct_new.

  (** optimization_utils.h:182-188: CombineSols without branching costs. *)
  Definition p_combine (f : nat) (l r : sol) : sol :=
    p_branch f (pt_add T (cs_val l) (cs_val r)) (cs_nodes l) (cs_nodes r).

  (** solver.cpp:702-730: Merge: all pairs of a left and a right solution are tried. *)
  Definition p_merge (b : branch) (f : nat) (l r c : front) : front :=
    fold_left (fun c p => p_try b c (p_combine f (fst p) (snd p))) (list_prod (ct_sols l) (ct_sols r)) c.

  (** optimization_utils.h:285-289: SolutionsEqual of the lower bound, which is the best value
      when lower bounds are off (solver.cpp:684-688), and the solutions. *)
  Definition p_is_best (c : front) : bool :=
    match ct_sols c with [x] => pt_eqb T (pt_best T) (cs_val x) | _ => false end.

  (** solver.cpp:348-349: the range of subtree sizes. *)
  Definition p_max_size (d n : nat) : nat := Nat.min (2 ^ (d - 1) - 1) (n - 1).
  Definition p_min_size (d n : nat) : nat := n - 1 - p_max_size d n.

  (** solver.cpp:441-503: one distribution of the nodes: [k] nodes for the first child. *)
  Definition p_size_step (rec : view -> branch -> nat -> nat -> front) (b : branch) (d n f : nat)
             (swap : bool) (v1 : view) (b1 : branch) (v2 : view) (b2 : branch) (c : front) (k : nat) : front :=
    let k2 := n - k - 1 in
    if p_is_best c then c
    else
      let s1 := rec v1 b1 (Nat.min (d - 1) k) k in
      match ct_sols s1 with
      | [] => c
      | _ =>
        let s2 := rec v2 b2 (Nat.min (d - 1) k2) k2 in
        match ct_sols s2 with
        | [] => c
        | _ => if swap then p_merge b f s2 s1 c else p_merge b f s1 s2 c
        end
      end.

  (** solver.cpp:404-505: one feature; the child with more data is solved first. *)
  Definition p_feature_step (rec : view -> branch -> nat -> nat -> front) (v : view) (b : branch) (d n : nat)
             (c : front) (f : nat) : front :=
    if br_has b f || negb (pt_may T f) || pc_redundant G f then c
    else
      let lv := split_left f v in
      let rv := split_right f v in
      if negb (p_mls lv 1) || negb (p_mls rv 1) then c
      else
        let sizes := seq (p_min_size d n) (S (p_max_size d n) - p_min_size d n) in
        if vsize lv <? vsize rv
        then fold_left (p_size_step rec b d n f true rv (br_right b f) lv (br_left b f)) sizes c
        else fold_left (p_size_step rec b d n f false lv (br_left b f) rv (br_right b f)) sizes c.

  (** solver.cpp:340-531: SolveSubTreeGeneralCase. *)
  Definition p_general (rec : view -> branch -> nat -> nat -> front) (v : view) (b : branch) (d n : nat) : front :=
    let c := p_solve_leaf v b in
    if negb (p_mls v 2) then c
    else fold_left (p_feature_step rec v b d n) (pc_order G v) c.

  (** solver.cpp:277-338: SolveSubTree.  [fuel] bounds the depth of the recursion: every call
      has [d <= fuel], so the answer at [fuel = 0] is the one for [d = 0]. *)
  Fixpoint p_search (fuel : nat) (v : view) (b : branch) (d n : nat) : front :=
    match fuel with
    | 0 => p_solve_leaf v b
    | S k => if (d =? 0) || (n =? 0) then p_solve_leaf v b else p_general (p_search k) v b d n
    end.

  (** solver.cpp:102-175: the outer loop of Solve: the leaf solutions of the root, then one
      search per depth, or one per number of nodes when at most one node is allowed or all
      sizes are asked for. *)
  Definition p_budgets (depth nodes : nat) (all : bool) : list (nat * nat) :=
    if (if all then 1 else nodes) =? 1
    then map (fun n => (Nat.min depth n, n)) (seq 1 nodes)
    else let md := Nat.min depth nodes in
         map (fun d => (d, Nat.min nodes (2 ^ d - 1))) (seq (Nat.min 2 md) (S md - Nat.min 2 md)).
  Definition p_solve (v : view) (depth nodes : nat) (all : bool) : front :=
    fold_left (fun c p => fold_left (p_add []) (ct_sols (p_search (fst p) v [] (fst p) (snd p))) c)
              (p_budgets depth nodes all) (p_solve_leaf v []).

  (** optimization_utils.h:297-312 and solver.cpp:715-717: the first pair of solutions whose
      sum is the value that is looked for. *)
  Definition p_find_pair (s : V) (l r : front) : option (sol * sol) :=
    find (fun p => pt_eqb T s (pt_add T (cs_val (fst p)) (cs_val (snd p)))) (list_prod (ct_sols l) (ct_sols r)).

  (** solver.cpp:993-1114: ConstructOptimalTree.  [None]: a runtime assertion fails, or a
      leaf or a feature is missing. *)
  Fixpoint p_construct (fuel : nat) (x : sol) (v : view) (b : branch) (d0 n0 : nat) : option tree :=
    let d := Nat.min d0 n0 in
    let n := Nat.min n0 (2 ^ d - 1) in
    if (d =? 0) || (n =? 0) || (cs_nodes x =? 0)
    then match pg_lab (cs_tag x) with Some l => Some (Leaf l) | None => None end
    else
      match fuel, pg_feat (cs_tag x) with
      | S fuel, Some f =>
        let a := pg_l (cs_tag x) in
        let e := pg_r (cs_tag x) in
        let lv := split_left f v in
        let rv := split_right f v in
        if negb (p_mls lv 1) || negb (p_mls rv 1) then None
        else
          let ld := Nat.min (d - 1) a in
          let rd := Nat.min (d - 1) e in
          let ls := ct_filter a (p_search ld lv (br_left b f) ld a) in
          let rs := ct_filter e (p_search rd rv (br_right b f) rd e) in
          match p_find_pair (cs_val x) ls rs with
          | None => None
          | Some (l, r) =>
            match p_construct fuel l lv (br_left b f) ld a, p_construct fuel r rv (br_right b f) rd e with
            | Some lt, Some rt => Some (Split f lt rt)
            | _, _ => None
            end
          end
      | _, _ => None
      end.

  (** solver.cpp:196-204: one tree per solution of the result.  [max_depth_searched] is the
      depth of the last search. *)
  Definition p_trees (v : view) (depth nodes : nat) (all : bool) : list (sol * option tree) :=
    let c := p_solve v depth nodes all in
    let mds := fst (last (p_budgets depth nodes all) (depth, 0)) in
    map (fun x => (x, p_construct mds x v [] mds nodes)) (ct_sols c).
End Search.

(** f1score.h:8-26: a solution of the F1-score task. *)
Record f1 := F1 { f1_fn : Z; f1_fp : Z }.

(** f1score.h:13-16, 61-68, 75-81: operator==, Add, Dominates, DominatesInv.  The int values
    are integers without overflow. *)
Definition f1_eqb (a b : f1) : bool := (f1_fn a =? f1_fn b)%Z && (f1_fp a =? f1_fp b)%Z.
Definition f1_add (a b : f1) : f1 := F1 (f1_fn a + f1_fn b) (f1_fp a + f1_fp b).
Definition f1_dom (a b : f1) : bool := (f1_fn a <=? f1_fn b)%Z && (f1_fp a <=? f1_fp b)%Z.
Definition f1_dom_inv (a b : f1) : bool := (f1_fn b <=? f1_fn a)%Z && (f1_fp b <=? f1_fp a)%Z.

(** f1score.h:96-112: CalcDiff, Merge, MergeInv. *)
Definition f1_diff (a b : f1) : Z :=
  ((f1_fn a - f1_fn b) * (f1_fn a - f1_fn b) + (f1_fp a - f1_fp b) * (f1_fp a - f1_fp b))%Z.
Definition f1_merge (a b : f1) : f1 := F1 (Z.min (f1_fn a) (f1_fn b)) (Z.min (f1_fp a) (f1_fp b)).
Definition f1_merge_inv (a b : f1) : f1 := F1 (Z.max (f1_fn a) (f1_fn b)) (Z.max (f1_fp a) (f1_fp b)).

(** f1score.cpp:5-11: GetLeafCosts. *)
Definition f1_leaf (v : view) (l : nat) : f1 :=
  let c := Z.of_nat (vsize v - length (nth l v [])) in
  if l =? 0 then F1 c 0 else F1 0 c.

(** f1score.cpp:14-22: ComputeTrainScore with [pos] positive instances, before rounding. *)
Definition f1_score (pos : Z) (s : f1) : Q :=
  let tp := (pos - f1_fn s)%Z in
  (inject_Z tp / (inject_Z tp + (1 # 2) * inject_Z (f1_fp s + f1_fn s)))%Q.

(** f1score.h:88-90: DominatesD0 compares doubles; [rnd] is the rounding of the quotient (the
    numerator and the denominator are exact in double precision). *)
Definition f1_d0 (rnd : Q -> Q) (pos : Z) (a b : f1) : bool :=
  Qle_bool (rnd (f1_score pos b)) (rnd (f1_score pos a)).

(** f1score.h:28-116: the F1-score task; every feature may be used. *)
Definition f1_task (rnd : Q -> Q) (pos : Z) : ptask :=
  PTask f1 f1_eqb f1_dom (f1_d0 rnd pos) (F1 0 0) f1_add f1_leaf (fun _ => true) false (fun _ => true).

(** Solve on a fresh solver for the F1-score task (solver.cpp:79-204), from the loaded data
    to the returned solutions with their trees: preprocess, search, rebuild, undo the flips
    (tree.h:162-167).  The number of positives is the one of the summary of the data
    (f1score.cpp:18).  [gini] is the switch of the feature order. *)
Definition f1_fit (rnd : Q -> Q) (mls nf depth nodes : nat) (all gini : bool) (v : view) : list (csol f1 ptag * option tree) :=
  let '(fl, red, v') := preprocess acc mls nf v in
  let G := PCfg mls red (if gini then order_gini nf else order_in nf) in
  map (fun p => (fst p, option_map (unflip fl) (snd p)))
      (p_trees (f1_task rnd (Z.of_nat (length (nth 1 v' [])))) G v' depth nodes all).
