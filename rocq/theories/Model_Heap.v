(** Model of the key-value heap and of the two feature selectors.
    Sources: /repo/include/utils/key_value_heap.h, /repo/src/utils/key_value_heap.cpp,
    /repo/include/solver/feature_selector.h, /repo/src/solver/feature_selector_gini.cpp.
    Simplification: double values are exact rationals. *)
From Coq Require Import List Arith Bool Lia QArith ZArith.
From Verif Require Import Model_FeatureVector Model_Data.
Import ListNotations.
Local Open Scope nat_scope.

(** key_value_heap.h:44-47: the private fields. *)
Record heap := Heap { h_val : list Q; h_k2p : list nat; h_p2k : list nat; h_end : nat }.

Definition qget (l : list Q) (i : nat) : Q := nth i l 0%Q.
Definition nget (l : list nat) (i : nat) : nat := nth i l 0.
Definition Qlt_bool (a b : Q) : bool := negb (Qle_bool b a).

(** key_value_heap.cpp:9-15: the constructor. *)
Definition heap_new (n : nat) : heap := Heap (repeat 0%Q n) (seq 0 n) (seq 0 n) n.

(** key_value_heap.cpp:102-108: SwapPositions. *)
Definition swap_list {A : Type} (d : A) (l : list A) (i j : nat) : list A :=
  set_nth j (nth i l d) (set_nth i (nth j l d) l).
Definition heap_swap (h : heap) (i j : nat) : heap :=
  let ki := nget (h_p2k h) i in
  let kj := nget (h_p2k h) j in
  Heap (swap_list 0%Q (h_val h) i j) (swap_list 0 (h_k2p h) ki kj) (swap_list 0 (h_p2k h) i j) (h_end h).

(** key_value_heap.cpp:110-118 (SiftUp) and 130-135 (GetParent).  The recursion goes to
    (i-1)/2 < i, so [i] units of fuel are enough. *)
Fixpoint sift_up (fuel : nat) (h : heap) (i : nat) : heap :=
  match fuel with
  | 0 => h
  | S fuel =>
    if i =? 0 then h
    else let p := (i - 1) / 2 in
         if Qle_bool (qget (h_val h) i) (qget (h_val h) p) then h
         else sift_up fuel (heap_swap h i p) p
  end.

(** key_value_heap.cpp:137-150 (children), 188-203 (local heap tests). *)
Definition is_leaf (h : heap) (i : nat) : bool := h_end h <=? 2 * i + 1.
Definition has_right (h : heap) (i : nat) : bool := 2 * i + 2 <? h_end h.
Definition heap_locally (h : heap) (i : nat) : bool :=
  if is_leaf h i then true
  else negb (Qlt_bool (qget (h_val h) i) (qget (h_val h) (2 * i + 1))
             || (has_right h i && Qlt_bool (qget (h_val h) i) (qget (h_val h) (2 * i + 2)))).
(** key_value_heap.cpp:152-161: GetLargestChild. *)
Definition largest_child (h : heap) (i : nat) : nat :=
  if has_right h i && Qlt_bool (qget (h_val h) (2 * i + 1)) (qget (h_val h) (2 * i + 2))
  then 2 * i + 2 else 2 * i + 1.

(** key_value_heap.cpp:120-128: SiftDown.  The position grows, so [h_end h] units of fuel
    are enough. *)
Fixpoint sift_down (fuel : nat) (h : heap) (i : nat) : heap :=
  match fuel with
  | 0 => h
  | S fuel => if heap_locally h i then h
              else let c := largest_child h i in sift_down fuel (heap_swap h i c) c
  end.

(** key_value_heap.cpp:17-23: Increment. *)
Definition heap_increment (h : heap) (k : nat) (z : Q) : heap :=
  let i := nget (h_k2p h) k in
  let h := Heap (set_nth i (qget (h_val h) i + z)%Q (h_val h)) (h_k2p h) (h_p2k h) (h_end h) in
  if i <? h_end h then sift_up i h i else h.

(** key_value_heap.cpp:34-46: Remove. *)
Definition heap_remove (h : heap) (k : nat) : heap :=
  let i := nget (h_k2p h) k in
  let h := heap_swap h i (h_end h - 1) in
  let h := Heap (h_val h) (h_k2p h) (h_p2k h) (h_end h - 1) in
  if (1 <? h_end h) && (i <? h_end h) then sift_down (h_end h) h i else h.

(** key_value_heap.cpp:25-32: PopMax. *)
Definition heap_pop (h : heap) : nat * heap :=
  let k := nget (h_p2k h) 0 in (k, heap_remove h k).

(** key_value_heap.cpp:48-57: Readd. *)
Definition heap_readd (h : heap) (k : nat) : heap :=
  let i := nget (h_k2p h) k in
  let h := heap_swap h i (h_end h) in
  let h := Heap (h_val h) (h_k2p h) (h_p2k h) (S (h_end h)) in
  sift_up (h_end h - 1) h (h_end h - 1).

(** feature_selector.h:23-26: PopAllFeatures, as a list. *)
Fixpoint heap_pop_all (n : nat) (h : heap) : list nat :=
  match n with
  | 0 => []
  | S n => let (k, h) := heap_pop h in k :: heap_pop_all n h
  end.

(** feature_selector_gini.cpp:66: empty the heap. *)
Fixpoint heap_clear (n : nat) (h : heap) : heap :=
  match n with 0 => h | S n => heap_clear n (snd (heap_pop h)) end.

(** feature_selector_gini.cpp:36-40, 44-56: the impurity of a set of instances, given the
    number per label; 1 when the set is empty. *)
Definition gini_of (counts : list nat) : Q :=
  let n := fold_right Nat.add 0 counts in
  if n =? 0 then 1%Q
  else (1 - fold_right (fun c a => (inject_Z (Z.of_nat c) / inject_Z (Z.of_nat n)) ^ 2 + a) 0 counts)%Q.

(** feature_selector_gini.cpp:57-58: the value of a feature.  The size of the data is
    positive when the selector is used. *)
Definition gini_value (v : view) (f : nat) : Q :=
  let l := map (@length inst) (split_left f v) in
  let r := map (@length inst) (split_right f v) in
  let q n := inject_Z (Z.of_nat n) in
  Qred (gini_of (map (@length inst) v)
   - q (vsize (split_left f v)) / q (vsize v) * gini_of l
   - q (vsize (split_right f v)) / q (vsize v) * gini_of r)%Q.

(** feature_selector_gini.cpp:64-72: the heap after Initialize. *)
Definition gini_heap (nf : nat) (v : view) : heap :=
  fold_left (fun h f => heap_increment (heap_readd h f) f (gini_value v f))
            (seq 0 nf) (heap_clear nf (heap_new nf)).

(** feature_selector.h:52-69, 36-50: the orders in which the selectors pop the features. *)
Definition order_gini (nf : nat) (v : view) : list nat := heap_pop_all nf (gini_heap nf v).
Definition order_in (nf : nat) (v : view) : list nat := seq 0 nf.
