(** Model of the feature vectors of the instances.
    Sources: /repo/include/model/feature_vector.h, /repo/src/model/feature_vector.cpp,
    and the two copies of the symmetric-matrix index (counter.cpp, cost_storage.cpp). *)
From Coq Require Import List Arith Bool Lia.
Import ListNotations.

(** feature_vector.h:57-63: the private fields.  [fv_bits] is the array
    [is_feature_present_] (its length is [num_features]); [fv_present] is the first
    [num_present_features] cells of [present_features_] (the cells behind them are
    never read); [fv_pairs] is [present_feature_pair_indices_].
    Simplification: the field [id] lives in the instance (Model_Data.v). *)
Record fvec := FVec { fv_bits : list bool; fv_present : list nat; fv_pairs : list nat }.

(** feature_vector.cpp:11-23: the constructor.  [present_features_] receives the
    indices of the [true] cells in ascending order; the pair indices are empty. *)
Definition fv_make (bits : list bool) : fvec :=
  FVec bits (filter (fun f => nth f bits false) (seq 0 (length bits))) [].

(** feature_vector.h:19: NumTotalFeatures. *)
Definition fv_num (v : fvec) : nat := length (fv_bits v).

(** feature_vector.h:16: IsFeaturePresent.  Reading past the end is undefined in
    C++; the model returns [false] and every theorem asks for [f < fv_num v]. *)
Definition fv_has (v : fvec) (f : nat) : bool := nth f (fv_bits v) false.

(** Helper: write one cell of an array (C array store; no effect out of range). *)
Fixpoint set_nth {A : Type} (k : nat) (x : A) (l : list A) : list A :=
  match l, k with
  | [], _ => []
  | _ :: r, 0 => x :: r
  | y :: r, S k' => y :: set_nth k' x r
  end.

(** feature_vector.cpp:54-64: the insertion loop of FlipFeature.  The loop walks from
    the last present feature downwards, shifting cells right, and writes [f] behind the
    first cell that is smaller than [f].  Written here on the reversed list. *)
Fixpoint insert_from_back (f : nat) (rev_present : list nat) : list nat :=
  match rev_present with
  | [] => [f]
  | g :: r => if g <? f then f :: rev_present else g :: insert_from_back f r
  end.

(** feature_vector.cpp:48-68: FlipFeature.  [std::remove] keeps the cells that differ
    from [f] in order.  The pair indices are not touched. *)
Definition fv_flip (v : fvec) (f : nat) : fvec :=
  let bits' := set_nth f (negb (fv_has v f)) (fv_bits v) in
  if fv_has v f
  then FVec bits' (filter (fun g => negb (g =? f)) (fv_present v)) (fv_pairs v)
  else FVec bits' (rev (insert_from_back f (rev (fv_present v)))) (fv_pairs v).

(** feature_vector.cpp:93-97: DisableFeature. *)
Definition fv_disable (v : fvec) (f : nat) : fvec :=
  if fv_has v f then fv_flip v f else v.

(** feature_vector.cpp:107, counter.cpp:36-39 (IndexSymmetricMatrix),
    cost_storage.cpp:55-58 and cost_combiner.cpp:64-66: the 1D index of a cell of the
    upper triangle, for [f1 <= f2]. *)
Definition pair_index (nf f1 f2 : nat) : nat := nf * f1 + f2 - f1 * (f1 + 1) / 2.

(** counter.cpp:32-34, cost_storage.cpp:50-52: NumElements. *)
Definition num_elements (nf : nat) : nat := nf * (nf + 1) / 2.

(** feature_vector.cpp:103-111: the double loop over [i <= j] present features. *)
Fixpoint pairs_of (nf : nat) (present : list nat) : list nat :=
  match present with
  | [] => []
  | f :: r => map (pair_index nf f) (f :: r) ++ pairs_of nf r
  end.

(** feature_vector.cpp:99-112: ComputeFeaturePairIndices. *)
Definition fv_compute_pairs (v : fvec) : fvec :=
  FVec (fv_bits v) (fv_present v) (pairs_of (fv_num v) (fv_present v)).

(** feature_vector.h:32-40: HasEqualFeatures (compares the present features). *)
Fixpoint list_nat_eqb (a b : list nat) : bool :=
  match a, b with
  | [], [] => true
  | x :: a', y :: b' => (x =? y) && list_nat_eqb a' b'
  | _, _ => false
  end.
Definition fv_equal (v w : fvec) : bool := list_nat_eqb (fv_present v) (fv_present w).

(** feature_vector.h:42-55: operator>.  Only called on vectors of equal length
    (shorter [w] would read past its end; the model stops). *)
Fixpoint bits_gt (a b : list bool) : bool :=
  match a, b with
  | x :: a', y :: b' => if x && negb y then true else if negb x && y then false else bits_gt a' b'
  | _, _ => false
  end.
Definition fv_gt (v w : fvec) : bool := bits_gt (fv_bits v) (fv_bits w).
