(** Small data sets used in the examples and in the refutations.  [mk_view nl rows] numbers
    the rows from 0 and groups them by label, as the file reader and the Python bindings do. *)
From Coq Require Import List Arith Bool ZArith.
From Verif Require Import Model_FeatureVector Model_Data Model_Solver Model_Preproc.
Import ListNotations.

Definition bits_of (b : list nat) : list bool := map (fun k => negb (k =? 0)) b.
Definition mk_inst (i : nat) (b : list nat) : inst := Inst i (fv_make (bits_of b)).
Definition mk_view (nl : nat) (rows : list (list nat * nat)) : view :=
  map (fun k => flat_map (fun p => if snd (snd p) =? k then [mk_inst (fst p) (fst (snd p))] else [])
                         (combine (seq 0 (length rows)) rows)) (seq 0 nl).

(** A clock that never reaches the limit. *)
Definition no_limit : nat -> bool := fun _ => true.

(** The default upper bound of the objective (INT32_MAX) for accuracy. *)
Definition no_bound : Z := 2147483647.

(** The default switches: upper and lower bounds, terminal solver, similarity bound and
    data set cache on, branch cache off; [g]: Gini order, [m]: minimum leaf size. *)
Definition defaults (g : bool) (m : nat) : switches := Switches true true true true true false true g m.

(** Exclusive or of two features. *)
Definition xor_rows : list (list nat * nat) :=
  [([0;0],0); ([0;1],1); ([1;0],1); ([1;1],0)].

(** Six rows, three features. *)
Definition six_rows : list (list nat * nat) :=
  [([1;0;1],1); ([0;1;1],0); ([1;1;0],1); ([0;0;1],0); ([1;0;0],0); ([0;1;0],1)].
