(** Model of the iterator memo in front of the dataset cache.
    Source: /repo/src/solver/dataset_cache.cpp, /repo/include/solver/dataset_cache.h:38-55. *)
From Coq Require Import List Arith Bool.
From Verif Require Import Model_FeatureVector Model_Data Model_Node Model_Cache.
Import ListNotations.

(** dataset_cache.h:38-42: a remembered iterator: its branch, the element it points to
    ([None] is end()) and the generation of the map in which it was obtained.  An insertion
    may rehash the map and invalidate all its iterators, so it starts a new generation;
    using an iterator of an older generation is undefined. *)
Record memo_entry := Memo { mm_branch : branch; mm_iter : option (list bool); mm_gen : nat }.

(** dataset_cache.h:49-53: cache[i] and stored_iterators[i] for one data set size. *)
Record slot := Slot { sl_map : list (list bool * list entry); sl_gen : nat; sl_memo : list memo_entry }.
Definition slots := nat -> slot.
(** dataset_cache.cpp:9-14: all empty. *)
Definition no_slots : slots := fun _ => Slot [] 0 [].
Definition set_slot (s : nat) (x : slot) (st : slots) : slots := fun k => if k =? s then x else st k.

(** dataset_cache.cpp:207-227: FindIterator: the remembered iterators are compared by
    branch only; otherwise look up and remember, keeping at most two.  [None]: a stale
    iterator is used. *)
Definition find_iter (x : slot) (key : list bool) (b : branch) : option (option (list bool) * slot) :=
  match find (fun m => br_eqb (mm_branch m) b) (sl_memo x) with
  | Some m => if mm_gen m =? sl_gen x then Some (mm_iter m, x) else None
  | None =>
      let it := match alookup bits_eqb key (sl_map x) with Some _ => Some key | None => None end in
      Some (it, Slot (sl_map x) (sl_gen x) (Memo b it (sl_gen x) :: firstn 1 (sl_memo x)))
  end.

(** dataset_cache.cpp:57-58, 145-146: insert does nothing when the key is present;
    InvalidateStoredIterators (202-204) clears the memo of this size. *)
Definition insert_slot (x : slot) (key : list bool) (es : list entry) : slot :=
  match alookup bits_eqb key (sl_map x) with
  | Some _ => Slot (sl_map x) (S (sl_gen x)) []
  | None => Slot (aset bits_eqb key es (sl_map x)) (S (sl_gen x)) []
  end.

(** The five operations on the cache, each with its arguments. *)
Inductive dc_op :=
| IsOptimal (d n : nat)
| Store (sol : node) (d n : nat)
| Retrieve (d n : nat)
| UpdateLB (lb : node) (d n : nat)
| RetrieveLB (d n : nat).
Inductive dc_out := OBool (b : bool) | ONode (x : node) | OUnit.

(** What an operation answers and how it changes the entries of its key (see Model_Cache). *)
Definition op_out (T : task) (es : option (list entry)) (o : dc_op) : dc_out :=
  match o, es with
  | IsOptimal d n, Some es => OBool (es_is_optimal es d n)
  | IsOptimal d n, None => OBool false
  | Retrieve d n, Some es => ONode (es_retrieve T es d n)
  | Retrieve d n, None => ONode (init_sol T)
  | RetrieveLB d n, Some es => ONode (es_lb es d n)
  | RetrieveLB d n, None => ONode init_lb
  | _, _ => OUnit
  end.
Definition op_write (T : task) (es : list entry) (o : dc_op) : option (list entry) :=
  match o with
  | Store sol d n => Some (es_store es sol (Nat.min d (num_nodes sol)) (num_nodes sol) d n)
  | UpdateLB lb d n => Some (es_upd_lb T false es lb d n)
  | _ => None
  end.

(** dataset_cache.cpp:17-193: each operation finds the iterator, and reads or writes the
    element it points to; a write without element inserts the key of the data. *)
Definition dc_step (T : task) (n : nat) (v : view) (b : branch) (o : dc_op) (st : slots) : option (dc_out * slots) :=
  let s := vsize v in
  match find_iter (st s) (dkey n v) b with
  | None => None
  | Some (it, x) =>
      match it with
      | Some k =>
          let es := aget bits_eqb k (sl_map x) in
          let x' := match op_write T es o with
                    | Some es' => Slot (aset bits_eqb k es' (sl_map x)) (sl_gen x) (sl_memo x)
                    | None => x
                    end in
          Some (op_out T (Some es) o, set_slot s x' st)
      | None =>
          let x' := match op_write T [] o with Some es' => insert_slot x (dkey n v) es' | None => x end in
          Some (op_out T None o, set_slot s x' st)
      end
  end.
Fixpoint dc_run (T : task) (n : nat) (calls : list (view * branch * dc_op)) (st : slots) : option (list dc_out) :=
  match calls with
  | [] => Some []
  | (v, b, o) :: r =>
      match dc_step T n v b o st with
      | None => None
      | Some (out, st') => match dc_run T n r st' with Some outs => Some (out :: outs) | None => None end
      end
  end.

(** The plain map of Model_Cache, without memo and without sizes. *)
Definition plain_step (T : task) (n : nat) (v : view) (o : dc_op) (m : list (list bool * list entry)) : dc_out * list (list bool * list entry) :=
  (op_out T (alookup bits_eqb (dkey n v) m) o,
   match op_write T (aget bits_eqb (dkey n v) m) o with Some es => aset bits_eqb (dkey n v) es m | None => m end).
Fixpoint plain_run (T : task) (n : nat) (calls : list (view * branch * dc_op)) (m : list (list bool * list entry)) : list dc_out :=
  match calls with
  | [] => []
  | (v, _, o) :: r => fst (plain_step T n v o m) :: plain_run T n r (snd (plain_step T n v o m))
  end.
