(** Model of the dynamic bit set and of the bit-set view of a data view.
    Sources: /repo/include/utils/dynamic_bitset.h, /repo/src/model/data.cpp:360-366,
    /repo/include/model/data.h:158-178. *)
From Coq Require Import List Arith Bool NArith.
From Verif Require Import Model_FeatureVector Model_Data.
Import ListNotations.

(** dynamic_bitset.h:5-9: the elements; an [unsigned long] is a number below 2^(8 w), where
    [w] is sizeof(BaseType) (4 or 8).  Shifts by less than [w] bits never leave that range,
    so the range is not modelled. *)
Definition bitset := list N.

(** dynamic_bitset.h:11-15: (size - 1) / sizeof(BaseType) + 1 elements, all 0.
    [None]: size 0, where size - 1 wraps around and the allocation fails. *)
Definition bs_make (w size : nat) : option bitset :=
  if size =? 0 then None else Some (repeat 0%N ((size - 1) / w + 1)).

(** An update of element [e]; an element outside the array is out of bounds: [None]
    (the check in the code is a runtime_assert, which release builds drop). *)
Fixpoint bs_upd (g : N -> N) (e : nat) (b : bitset) : option bitset :=
  match b, e with
  | [], _ => None
  | x :: r, O => Some (g x :: r)
  | x :: r, S e' => match bs_upd g e' r with Some r' => Some (x :: r') | None => None end
  end.

(** dynamic_bitset.h:52-57: SetBit; 59-64: ClearBit ([&= 1 << bit], as written);
    66-71: ToggleBit. *)
Definition bs_mask (w i : nat) : N := N.shiftl 1 (N.of_nat (i mod w)).
Definition bs_set (w i : nat) (b : bitset) : option bitset := bs_upd (fun x => N.lor x (bs_mask w i)) (i / w) b.
Definition bs_clear (w i : nat) (b : bitset) : option bitset := bs_upd (fun x => N.land x (bs_mask w i)) (i / w) b.
Definition bs_toggle (w i : nat) (b : bitset) : option bitset := bs_upd (fun x => N.lxor x (bs_mask w i)) (i / w) b.

(** dynamic_bitset.h:40-46: operator==.  [None]: the other array is shorter and is read
    beyond its end. *)
Fixpoint bs_eq (a b : bitset) : option bool :=
  match a, b with
  | [], _ => Some true
  | _ :: _, [] => None
  | x :: a', y :: b' => if (x =? y)%N then bs_eq a' b' else Some false
  end.

(** Position [i] is in the set (the code has no function for it). *)
Definition bs_mem (w : nat) (b : bitset) (i : nat) : bool := N.testbit (nth (i / w) b 0%N) (N.of_nat (i mod w)).

(** data.cpp:360-366: ADataViewBitSet: the number of instances and the bit set of their
    numbers; [n] is the size of the whole data. *)
Fixpoint bs_set_all (w : nat) (ids : list nat) (b : bitset) : option bitset :=
  match ids with
  | [] => Some b
  | i :: r => match bs_set w i b with Some b' => bs_set_all w r b' | None => None end
  end.
Definition vb_make (w n : nat) (v : view) : option (nat * bitset) :=
  match bs_make w n with
  | None => None
  | Some b => match bs_set_all w (map iid (concat v)) b with Some b' => Some (vsize v, b') | None => None end
  end.

(** data.h:169: operator==. *)
Definition vb_eq (a b : nat * bitset) : option bool :=
  if fst a =? fst b then bs_eq (snd a) (snd b) else Some false.
