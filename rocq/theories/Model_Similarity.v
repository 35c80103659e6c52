(** Model of the similarity bounds that some tasks provide themselves.
    Sources: /repo/src/tasks/instance_cost_sensitive.cpp:59-95,
    /repo/src/tasks/regression/cost_complex_regression.cpp:349-394,
    /repo/include/tasks/regression/cost_complex_regression.h:82-87,
    /repo/include/tasks/instance_cost_sensitive.h:11-15.
    The bound for the other tasks is sim_subtract and sim_loop in Model_Solver.v. *)
From Coq Require Import List Arith Bool QArith.
From Verif Require Import Model_FeatureVector Model_Data Base_Q Model_Regression.
Import ListNotations.
Local Open Scope nat_scope.

(** ComputeSimilarityLowerBound, one label: the two id-sorted lists are walked together;
    what only the new data has counts as a difference, what only the old data has counts as
    a difference and adds its worst contribution.  [idf], [worst], [count]: the id, the worst
    contribution and the weight of an instance.  Result: (subtract, total_difference). *)
Fixpoint custom_diff {A : Type} (idf : A -> nat) (worst : A -> Q) (count : A -> nat) (new old : list A) {struct new} : Q * nat :=
  let fix go (old : list A) {struct old} : Q * nat :=
    match old with
    | [] => (0%Q, fold_right (fun x a => count x + a) 0 new)
    | y :: old' =>
      match new with
      | [] => let r := go old' in ((worst y + fst r)%Q, count y + snd r)
      | x :: new' =>
        if idf x <? idf y then let r := custom_diff idf worst count new' old in (fst r, count x + snd r)
        else if idf y <? idf x then let r := go old' in ((worst y + fst r)%Q, count y + snd r)
        else custom_diff idf worst count new' old'
      end
    end in
  go old.

(** instance_cost_sensitive.h:11-15: the worst cost of an instance is the largest one. *)
Definition ics_worst (costs : list Q) : Q :=
  match costs with [] => 0%Q | c :: r => fold_left (fun m k => if Qle_bool k m then m else k) r c end.

(** cost_complex_regression.h:82-87: GetWorstPerLabel, and cost_complex_regression.cpp:371:
    the worst contribution of a group of [r_w] instances with sum of labels [r_y]. *)
Definition worst_dist (lo hi label : Q) : Q :=
  let a := (label - lo)%Q in let b := (hi - label)%Q in
  if Qle_bool a b then (b * b)%Q else (a * a)%Q.
Definition cc_worst (lo hi : Q) (i : ritem) : Q := (qn (r_w i) * worst_dist lo hi (r_y i / qn (r_w i)))%Q.
Definition cc_sim (lo hi : Q) (old new : list ritem) : Q * nat :=
  custom_diff (fun i => iid (r_x i)) (cc_worst lo hi) r_w new old.
