(** Model of the text forms of a tree.
    Sources: /repo/include/solver/tree.h:63-71,144-160, /repo/pystreed/base.py:362-367,383-406,439-470.
    Labels and features are natural numbers here; labels that are doubles or linear models are
    printed with six decimals by the code and are left out. *)
From Coq Require Import List String Ascii Arith Decimal DecimalString.
From Verif Require Import Model_Terminal.
Import ListNotations.
Local Open Scope string_scope.

(** tree.h:63-71 and base.py:362-367: Depth, NumNodes and get_n_leaves. *)
Fixpoint t_depth (t : tree) : nat := match t with Leaf _ => 0 | Split _ l r => 1 + Nat.max (t_depth l) (t_depth r) end.
Fixpoint t_nodes (t : tree) : nat := match t with Leaf _ => 0 | Split _ l r => 1 + t_nodes l + t_nodes r end.
Definition n_leaves (t : tree) : nat := t_nodes t + 1.

(** std::to_string, operator<< and Python's str of a natural number. *)
Definition dec (n : nat) : string := NilEmpty.string_of_uint (Nat.to_uint n).

(** tree.h:150-160 *)
Fixpoint tree_string (t : tree) : string :=
  match t with
  | Leaf l => "[" ++ dec l ++ "]"
  | Split f l r => "[" ++ dec f ++ "," ++ tree_string l ++ "," ++ tree_string r ++ "]"
  end.

(** base.py:397-406, [pname] being _get_predicate_str and [lname] _get_label_str. *)
Definition newline : string := String "010"%char "".
Fixpoint print_tree (pname lname : nat -> string) (ind : string) (t : tree) : string :=
  match t with
  | Leaf l => ind ++ "Label: " ++ lname l ++ newline
  | Split f l r => ind ++ pname f ++ " not satisfied" ++ newline ++ print_tree pname lname (ind ++ "|   ") l
                   ++ ind ++ pname f ++ " satisfied" ++ newline ++ print_tree pname lname (ind ++ "|   ") r
  end.
(** base.py:383-388: the names when none are given. *)
Definition default_pname (f : nat) : string := "Feature " ++ dec f.
Definition default_lname (l : nat) : string := dec l.

(** base.py:446-470: the statements written, without colours and layout. *)
Inductive dot_line := DLeaf (id label : nat) | DSplit (id feature : nat) | DEdge (parent child : nat) (satisfied : bool).
Definition dot_edge (id : nat) : list dot_line :=
  (if 0 <? id then [DEdge ((id - 1) / 2) id (id mod 2 =? 0)] else [])%nat%list.
Fixpoint export_dot (t : tree) (id : nat) : list dot_line :=
  match t with
  | Leaf l => DLeaf id l :: dot_edge id
  | Split f l r => DSplit id f :: (dot_edge id ++ export_dot l (id * 2 + 1)%nat ++ export_dot r (id * 2 + 2)%nat)%list
  end.
