(** Model of data views, splits and branches.
    Sources: /repo/include/model/data.h, /repo/src/model/data.cpp,
    /repo/include/model/branch.h, /repo/src/model/branch.cpp,
    /repo/src/solver/difference_computer.cpp. *)
From Coq Require Import List Arith Bool Lia ZArith.
From Verif Require Import Model_FeatureVector.
Import ListNotations.

(** data.h:17-69: AInstance.  Only the id and the feature vector are modelled here.
    The label of an instance is the index of the list it is stored in.  Weights are 1
    (only CostComplexRegression uses others) and the extra data is left out. *)
Record inst := Inst { iid : nat; ifv : fvec }.

(** data.h:35: AInstance::IsFeaturePresent. *)
Definition has (f : nat) (x : inst) : bool := fv_has (ifv x) f.

(** data.h:181-231: ADataView: one list of instances per label. *)
Definition view := list (list inst).

(** data.h:196 NumLabels, data.h:190 Size (kept in a field that every constructor and
    SplitData sets to the sum of the list lengths). *)
Definition num_labels (v : view) : nat := length v.
Definition vsize (v : view) : nat := length (concat v).

(** data.cpp:29-53: SplitData.  Instances without the feature go left, with it right;
    the order inside every label list is kept. *)
Definition split_left (f : nat) (v : view) : view := map (filter (fun x => negb (has f x))) v.
Definition split_right (f : nat) (v : view) : view := map (filter (has f)) v.

(** branch.h:44: the sorted vector of branching codes. *)
Definition branch := list nat.

(** branch.h:40: GetCode. *)
Definition br_code (f : nat) (present : bool) : nat := 2 * f + (if present then 1 else 0).

(** branch.cpp:12-17, 55-57: AddFeatureBranch pushes the code and calls std::sort.
    Simplification: std::sort is modelled by insertion sort of the whole vector. *)
Fixpoint insert_sorted (x : nat) (l : list nat) : list nat :=
  match l with
  | [] => [x]
  | y :: r => if x <=? y then x :: l else y :: insert_sorted x r
  end.
Fixpoint sort_nat (l : list nat) : list nat :=
  match l with [] => [] | x :: r => insert_sorted x (sort_nat r) end.
Definition br_add (b : branch) (f : nat) (present : bool) : branch :=
  sort_nat (b ++ [br_code f present]).

(** branch.cpp:20-31 and optimization_task.cpp (GetLeftContext / GetRightContext):
    the branches of the two children. *)
Definition br_left (b : branch) (f : nat) : branch := br_add b f false.
Definition br_right (b : branch) (f : nat) : branch := br_add b f true.

(** branch.h:18: Depth. *)
Definition br_depth (b : branch) : nat := length b.

(** branch.cpp:60-67: HasBranchedOnFeature. *)
Definition br_has (b : branch) (f : nat) : bool :=
  existsb (fun c => (c =? br_code f true) || (c =? br_code f false)) b.

(** branch.cpp:46-52 and branch.h:63-71: equality of branches. *)
Definition br_eqb : branch -> branch -> bool := list_nat_eqb.

(** data.cpp:360-366 and dataset_cache.cpp: the key of a view in the dataset cache is
    the bit set of the ids it holds, over the [n] instances of the data set
    (dynamic_bitset.h; the bit level model is in Model_Bitset.v). *)
Definition dkey (n : nat) (v : view) : list bool :=
  map (fun i => existsb (fun x => iid x =? i) (concat v)) (seq 0 n).

(** Equality of two bit sets (dynamic_bitset.h:40-46). *)
Fixpoint bits_eqb (a b : list bool) : bool :=
  match a, b with
  | [], [] => true
  | x :: a', y :: b' => Bool.eqb x y && bits_eqb a' b'
  | _, _ => false
  end.

(** difference_computer.cpp:26-46 (one label): the merge walk.  The result is
    (number of new instances missing in the old list, number of old instances missing
    in the new list).  C++ adds both to [total_difference] and the second to
    [num_removals]. *)
Fixpoint diff_counts (new old : list inst) {struct new} : nat * nat :=
  let fix go (old : list inst) {struct old} : nat * nat :=
    match new with
    | [] => (0, length old)
    | x :: new' =>
      match old with
      | [] => (length new, 0)
      | y :: old' =>
        if iid x <? iid y then let (a, r) := diff_counts new' old in (S a, r)
        else if iid y <? iid x then let (a, r) := go old' in (a, S r)
        else diff_counts new' old'
      end
    end in
  go old.

(** difference_computer.cpp:18-51: ComputeDifferenceMetrics: for every label of the new
    data the pair (additions, removals). *)
Definition diff_metrics (old new : view) : list (nat * nat) :=
  map (fun p => diff_counts (fst p) (snd p)) (combine new old).

(** difference_computer.h: total_difference. *)
Definition total_difference (m : list (nat * nat)) : nat :=
  fold_right (fun p acc => fst p + snd p + acc) 0 m.

(** difference_computer.cpp:10-16: GetNumRemovals. *)
Definition num_removals (m : list (nat * nat)) : nat :=
  fold_right (fun p acc => snd p + acc) 0 m.

(** difference_computer.cpp:53-92 (one label): the two difference lists
    (instances to add, instances to remove). *)
Fixpoint diff_lists (new old : list inst) {struct new} : list inst * list inst :=
  let fix go (old : list inst) {struct old} : list inst * list inst :=
    match new with
    | [] => ([], old)
    | x :: new' =>
      match old with
      | [] => (new, [])
      | y :: old' =>
        if iid x <? iid y then let (a, r) := diff_lists new' old in (x :: a, r)
        else if iid y <? iid x then let (a, r) := go old' in (a, y :: r)
        else diff_lists new' old'
      end
    end in
  go old.

(** difference_computer.cpp:53-92: ComputeDifference on whole views. *)
Definition diff_add (old new : view) : view :=
  map (fun p => fst (diff_lists (fst p) (snd p))) (combine new old).
Definition diff_remove (old new : view) : view :=
  map (fun p => snd (diff_lists (fst p) (snd p))) (combine new old).
