(** Model of the tasks group fairness (demographic parity) and equality of opportunity.
    Sources: /repo/include/tasks/group_fairness.h, /repo/src/tasks/group_fairness.cpp,
    /repo/include/tasks/eq_opp.h, /repo/src/tasks/eq_opp.cpp.
    The two tasks differ only in the instances that are counted for the group scores, so one
    model with the switch [eo] (true: equality of opportunity) serves both.
    A group score is a sum of a/G0 and b/G1 where G0, G1 are the sizes of the groups; it is
    represented by its integer numerator over G0*G1, so the rounding of the doubles is not
    modelled.  Division by zero (an empty group) is modelled separately at the end. *)
From Coq Require Import List Arith Bool ZArith QArith.
From Verif Require Import Model_FeatureVector Model_Data Model_Node Model_Terminal Model_Heap Model_Solver Model_Preproc Model_Container Model_Pareto.
Import ListNotations.
Local Open Scope nat_scope.

(** group_fairness.h:6-15, eq_opp.h:6-15: a solution: misclassifications, group0_score and
    group1_score (numerators), root_solution. *)
Record fsol := FSol { fs_mis : Z; fs_g0 : Z; fs_g1 : Z; fs_root : bool }.

(** group_fairness.cpp:8-15, 35-39: all instances count; eq_opp.cpp:11-15, 36-38: only those
    with label 1. *)
Definition counted (eo : bool) (v : view) : list inst := if eo then nth 1 v [] else concat v.

(** group_fairness.cpp:5-16, eq_opp.cpp:5-17: the sizes of the groups of the training data.
    Group 1 are the instances with feature 0. *)
Definition group1_size (eo : bool) (v : view) : Z := Z.of_nat (length (filter (has 0) (counted eo v))).
Definition group0_size (eo : bool) (v : view) : Z := Z.of_nat (length (filter (fun x => negb (has 0 x)) (counted eo v))).

Section Task.
  (** [n]: the number of training instances; [G0], [G1]: the group sizes; [lim]: the limit. *)
  Context (eo : bool) (n G0 G1 : Z) (lim : Q).

  (** group_fairness.h:17-22, eq_opp.h:17-22: operator==, with the tolerance 1e-4. *)
  Definition fs_eqb (a b : fsol) : bool :=
    (fs_mis b =? fs_mis a)%Z
    && (10000 * Z.abs (fs_g0 b - fs_g0 a) <=? G0 * G1)%Z
    && (10000 * Z.abs (fs_g1 b - fs_g1 a) <=? G0 * G1)%Z
    && Bool.eqb (fs_root a) (fs_root b).

  (** group_fairness.h:26-32, eq_opp.h:26-32: addition; the sum is no root solution. *)
  Definition fs_add (a b : fsol) : fsol :=
    FSol (fs_mis a + fs_mis b) (fs_g0 a + fs_g0 b) (fs_g1 a + fs_g1 b) false.

  (** group_fairness.h:110-116, eq_opp.h:110-116: Dominates. *)
  Definition fs_dom (a b : fsol) : bool :=
    if fs_root b && negb (fs_root a) then false
    else if fs_root a && (fs_mis a <=? fs_mis b)%Z then true
    else (fs_mis a <=? fs_mis b)%Z
         && (10000 * fs_g0 a <=? 10000 * fs_g0 b + G0 * G1)%Z
         && (10000 * fs_g1 a <=? 10000 * fs_g1 b + G0 * G1)%Z.

  (** group_fairness.h:160-163, eq_opp.h:160-163: SatisfiesConstraint. *)
  Definition fs_ok (s : fsol) : bool :=
    Qle_bool (inject_Z (Z.max (fs_g0 s) (fs_g1 s) - G0 * G1)) (lim * inject_Z (G0 * G1)).

  (** group_fairness.cpp:70-77, eq_opp.cpp:71-78: ComputeTrainScore, times [n]. *)
  Definition fs_score (s : fsol) : Z := if fs_ok s then (n - fs_mis s)%Z else 0%Z.
  (** group_fairness.h:128-130, eq_opp.h:128-130: DominatesD0.  Dividing both scores by [n]
      keeps their order in double precision for [n] below 2^53. *)
  Definition fs_d0 (a b : fsol) : bool := (fs_score b <=? fs_score a)%Z.

  (** group_fairness.cpp:33-52, eq_opp.cpp:33-50: GetLeafCosts for two labels. *)
  Definition fs_leaf (v : view) (l : nat) : fsol :=
    let g0 := Z.of_nat (length (filter (fun x => negb (has 0 x)) (counted eo v))) in
    let g1 := (Z.of_nat (length (counted eo v)) - g0)%Z in
    if l =? 0 then FSol (Z.of_nat (length (nth 1 v []))) (g1 * G0) (g0 * G1) false
    else FSol (Z.of_nat (length (nth 0 v []))) (g0 * G1) (g1 * G0) false.

  (** group_fairness.h:62-70, 167 and eq_opp.h:62-70, 167: the task; best is marked as a root
      solution and feature 0 may not be used. *)
  Definition fair_task : ptask :=
    PTask fsol fs_eqb fs_dom fs_d0 (FSol 0 0 0 true) fs_add fs_leaf (fun f => 0 <? f) true fs_ok.

  (** tree.h:97-119 with group_fairness.h:80-82, eq_opp.h:80-82: ComputeTestScore: the sum of
      the costs of the leaves on flipped test data; the group sizes are those of the training
      data. *)
  Fixpoint fair_test_value (fl : nat -> bool) (v : view) (t : tree) : fsol :=
    match t with
    | Leaf l => fs_leaf v l
    | Split f l r => fs_add (fair_test_value fl (split_left f v) (if fl f then r else l))
                            (fair_test_value fl (split_right f v) (if fl f then l else r))
    end.

  (** group_fairness.cpp:83-92, eq_opp.cpp:84-93: ComputeTestTestScore with [m] test instances. *)
  Definition fair_test_score (fl : nat -> bool) (m : Z) (v : view) (t : tree) : Q :=
    let s := fair_test_value fl v t in
    if fs_ok s then inject_Z (m - fs_mis s) / inject_Z m else 0.
End Task.

(** solver.cpp:1156-1217 reads of the task only MayBranchOnFeature: the task record for the
    preprocessing. *)
Definition fair_pre : task :=
  {| tk_worst := tk_worst acc; tk_leaf := tk_leaf acc; tk_inst := tk_inst acc; tk_zero_true := false; tk_mindiff := 0; tk_wpl := tk_wpl acc;
     tk_may := fun f => 0 <? f; tk_sdom := Z.ltb; tk_dom := Z.leb; tk_eq := Z.eqb; tk_bc := None; tk_sparse := false; tk_lb := None;
     tk_huge := fun _ => false; tk_sim := None |}.

(** Solve on a fresh solver (solver.cpp:79-221), as f1_fit in Model_Pareto.v. *)
Definition fair_fit (eo : bool) (lim : Q) (mls nf depth nodes : nat) (all gini : bool) (v : view) : list (csol fsol ptag * option tree) :=
  let '(fl, red, v') := preprocess fair_pre mls nf v in
  let G := PCfg mls red (if gini then order_gini nf else order_in nf) in
  let T := fair_task eo (Z.of_nat (vsize v')) (group0_size eo v') (group1_size eo v') lim in
  map (fun p => (fst p, option_map (unflip fl) (snd p))) (p_trees T G v' depth nodes all).

(** bindings.cpp:139-152, solver.cpp:246-275: score of a returned tree on test data after a
    fit on the training data [v]. *)
Definition fair_score (eo : bool) (lim : Q) (mls nf : nat) (v : view) (test : view) (t : tree) : Q :=
  let '(fl, _, v') := preprocess fair_pre mls nf v in
  let w := preprocess_test fl nf test in
  fair_test_score eo (group0_size eo v') (group1_size eo v') lim fl (Z.of_nat (vsize w)) w t.

(** ** Empty groups.  A double that is a number or NaN ([None]).  Infinity does not arise on
    training data: the numerator counts members of the group by which is divided. *)
Definition dbl := option Q.
Definition d_div (a b : Z) : dbl := if (b =? 0)%Z then None else Some (inject_Z a / inject_Z b)%Q.
Definition d_add (a b : dbl) : dbl := match a, b with Some x, Some y => Some (x + y)%Q | _, _ => None end.
(** A comparison with NaN is false. *)
Definition d_lt (a b : dbl) : bool := match a, b with Some x, Some y => negb (Qle_bool y x) | _, _ => false end.
Definition d_le (a b : dbl) : bool := match a, b with Some x, Some y => Qle_bool x y | _, _ => false end.
(** std::max(a, b) is [a < b ? b : a]. *)
Definition d_max (a b : dbl) : dbl := if d_lt a b then b else a.

(** group_fairness.cpp:33-52, eq_opp.cpp:33-50: the group scores of a leaf. *)
Definition dn_leaf (eo : bool) (G0 G1 : Z) (v : view) (l : nat) : dbl * dbl :=
  let g0 := Z.of_nat (length (filter (fun x => negb (has 0 x)) (counted eo v))) in
  let g1 := (Z.of_nat (length (counted eo v)) - g0)%Z in
  if l =? 0 then (d_div g1 G1, d_div g0 G0) else (d_div g0 G0, d_div g1 G1).
(** The group scores of a tree: sums over the leaves (group_fairness.h:26-32). *)
Fixpoint dn_value (eo : bool) (G0 G1 : Z) (v : view) (t : tree) : dbl * dbl :=
  match t with
  | Leaf l => dn_leaf eo G0 G1 v l
  | Split f l r =>
    let a := dn_value eo G0 G1 (split_left f v) l in
    let b := dn_value eo G0 G1 (split_right f v) r in
    (d_add (fst a) (fst b), d_add (snd a) (snd b))
  end.
(** group_fairness.h:160-163: SatisfiesConstraint on them. *)
Definition dn_ok (lim : Q) (s : dbl * dbl) : bool := d_le (d_add (d_max (fst s) (snd s)) (Some (-(1)))%Q) (Some lim).
(** solver.cpp:615, 719, 871-876 (SatisfiesConstraint before a solution is kept) with the
    scores of the training data: whether a tree on the preprocessed data passes at the root. *)
Definition fair_accepts (eo : bool) (lim : Q) (mls nf : nat) (v : view) (t : tree) : bool :=
  let '(_, _, v') := preprocess fair_pre mls nf v in
  dn_ok lim (dn_value eo (group0_size eo v') (group1_size eo v') v' t).
