(** Model of the train/test split and the k-fold split.
    Source: /repo/src/model/data.cpp:56-309. *)
From Coq Require Import List Arith Bool.
From Verif Require Import Model_Data.
Import ListNotations.

(** A view is represented here by the instance numbers of every label group
    (data.h:181-231).  [lab] is the label stored in an instance (data.h:107-109,
    GetInstanceLabel); for regression every instance is in group 0.
    GetData()->GetInstance(i) is the instance with number i: the numbers are sequential
    (data.h:147-150, file_reader.cpp), so instances are represented by their numbers. *)
Definition groups := list (list nat).

(** data.cpp:110-120 etc.: std::shuffle with the seeded engine.  Simplification: the
    [s]-th call of shuffle is an arbitrary function [shuf s] (a permutation, in the
    theorems); std::sort on the regression labels is an arbitrary function [by_label]. *)

(** data.cpp:111, 214: int(std::round(p * n)) with p = a / b: half is rounded up.
    Simplification: exact rational arithmetic instead of double. *)
Definition round_frac (a b n : nat) : nat := (2 * a * n + b) / (2 * b).

(** data.cpp:72, 138, 158: vectors of [n] empty lists. *)
Definition empties (n : nat) : groups := repeat [] n.
(** push_back / insert at the end of group [k]. *)
Fixpoint push_to (k : nat) (xs : list nat) (g : groups) : groups :=
  match g, k with
  | [], _ => []
  | y :: g', O => (y ++ xs) :: g'
  | y :: g', S k' => y :: push_to k' xs g'
  end.

(** data.cpp:99-106, 128-135, 224-231, 246-251: distribute numbers over groups by label. *)
Definition by_labels (lab : nat -> nat) (n : nat) (xs : list nat) : groups :=
  fold_left (fun g i => push_to (lab i) [i] g) xs (empties n).

(** data.cpp:81-85, 200-204: the regression bins.  The bin of the [i]-th largest label is
    min (i / bin_size) 9.  [None]: division by zero when there are fewer than 10
    instances (bin_size = 0) and at least one. *)
Definition bins (sorted : list nat) : option groups :=
  let bin_size := length sorted / 10 in
  if (bin_size =? 0) && negb (length sorted =? 0) then None
  else Some (fold_left (fun g p => push_to (Nat.min (fst p / bin_size) 9) [snd p] g)
                       (combine (seq 0 (length sorted)) sorted) (empties 10)).

Section Split.
  Context (lab : nat -> nat) (shuf : nat -> list nat -> list nat) (by_label : list nat -> list nat).

  (** data.cpp:87-99, 108-121: each bin or label [y] is shuffled and cut; [dest y] is the
      group its parts go to ([0] for regression, [y] otherwise). *)
  Definition cut_parts (a b : nat) (dest : nat -> nat) (parts : groups) (n : nat) : groups * groups :=
    fold_left (fun tt p =>
      let xs := shuf (fst p) (snd p) in
      let c := round_frac a b (length xs) in
      (push_to (dest (fst p)) (skipn c xs) (fst tt), push_to (dest (fst p)) (firstn c xs) (snd tt)))
      (combine (seq 0 (length parts)) parts) (empties n, empties n).

  (** data.cpp:56-175: TrainTestSplitData; [a / b] is the test percentage, [reg] says that
      the label type is double.  The result is (train, test). *)
  Definition train_test (reg strat : bool) (a b : nat) (v : groups) : option (groups * groups) :=
    let n := length v in
    let r :=
      if strat then
        if reg then
          match bins (by_label (nth 0 v [])) with
          | None => None
          | Some parts => Some (cut_parts a b (fun _ => 0) parts n)
          end
        else Some (cut_parts a b (fun y => y) (by_labels lab n (concat v)) n)
      else
        let xs := shuf 0 (concat v) in
        let c := round_frac a b (length xs) in
        if reg then Some (push_to 0 (skipn c xs) (empties n), push_to 0 (firstn c xs) (empties n))
        else Some (by_labels lab n (skipn c xs), by_labels lab n (firstn c xs)) in
    match r with
    | None => None
    | Some (tr, te) => Some (map sort_nat tr, map sort_nat te)   (* data.cpp:161-173 *)
    end.

  (** data.cpp:211-219, 236-244, 258-266: the [k] folds of a shuffled list:
      [begin, end) with end = round ((fold + 1) / k * n), the last fold up to the end. *)
  Definition fold_of (k : nat) (xs : list nat) (f : nat) : list nat :=
    let n := length xs in
    let b := if f =? 0 then 0 else round_frac f k n in
    let e := if f =? k - 1 then n else round_frac (S f) k n in
    firstn (e - b) (skipn b xs).

  (** data.cpp:177-281: fold_label_indices[fold][label].  Stratified classification
      (data.cpp:222-247) also inserts into group 0. *)
  Definition fold_groups (reg strat : bool) (k : nat) (v : groups) : option (list groups) :=
    let n := length v in
    let cut_all (parts : groups) :=
      map (fun f => fold_left (fun g p => push_to 0 (fold_of k (shuf (fst p) (snd p)) f) g)
                              (combine (seq 0 (length parts)) parts) (empties n)) (seq 0 k) in
    if strat then
      if reg then
        match bins (by_label (nth 0 v [])) with
        | None => None
        | Some parts => Some (cut_all parts)
        end
      else Some (cut_all (by_labels lab n (concat v)))
    else
      let xs := shuf 0 (concat v) in
      if reg then Some (map (fun f => push_to 0 (fold_of k xs f) (empties n)) (seq 0 k))
      else Some (map (fun f => by_labels lab n (fold_of k xs f)) (seq 0 k)).

  (** data.cpp:285-309: test fold [f] is fold [f]; the train fold is the rest, label by
      label, sorted. *)
  Definition others (fgs : list groups) (f j : nat) : list nat :=
    concat (map (fun p => if fst p =? f then [] else nth j (snd p) []) (combine (seq 0 (length fgs)) fgs)).
  Definition kfold (reg strat : bool) (k : nat) (v : groups) : option (list (groups * groups)) :=
    match fold_groups reg strat k v with
    | None => None
    | Some fgs =>
        Some (map (fun f => (map (fun j => sort_nat (others fgs f j)) (seq 0 (length v)),
                             map (fun j => sort_nat (nth j (nth f fgs []) [])) (seq 0 (length v))))
                  (seq 0 k))
    end.
End Split.
