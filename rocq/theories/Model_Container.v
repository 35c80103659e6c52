(** Model of the container of solutions of partially ordered tasks.
    Source: /repo/include/model/container.h. *)
From Coq Require Import List Arith Bool ZArith.
Import ListNotations.
Local Open Scope nat_scope.

(** node.h: a solution with its value and its number of branching nodes.  Simplification:
    the feature, the label and the two child sizes of the node are one payload [cs_tag], the
    container only reads the value and the number of nodes. *)
Record csol (S P : Type) := Csol { cs_val : S; cs_nodes : nat; cs_tag : P }.
Arguments Csol {S P}. Arguments cs_val {S P}. Arguments cs_nodes {S P}. Arguments cs_tag {S P}.

(** container.h:357-366: the solutions and the map from values to node counts ([ct_uniq], an
    association list with at most one pair per value).  max_num_nodes and max_depth are not
    read anywhere and left out. *)
Record cont (S P : Type) := Cont { ct_sols : list (csol S P); ct_uniq : list (S * nat) }.
Arguments Cont {S P}. Arguments ct_sols {S P}. Arguments ct_uniq {S P}.

(** container.h:17: the default constructor. *)
Definition ct_new {S P} : cont S P := Cont [] [].

(** container.h:18 (the copy constructor does not copy the map) and 149 (RemoveTempData). *)
Definition ct_clear {S P} (c : cont S P) : cont S P := Cont (ct_sols c) [].

(** container.h:78-83: FilterOnNumberOfNodes; the map is left as it is. *)
Definition ct_filter {S P} (n : nat) (c : cont S P) : cont S P :=
  Cont (filter (fun x => negb (n <? cs_nodes x)) (ct_sols c)) (ct_uniq c).

Section Add.
  (** [seqb]: OT::SolType::operator==; [dom]: OT::Dominates, OT::DominatesInv (the [inv]
      variants), task->DominatesD0 or task->DominatesD0Inv.  The two-argument calls in
      InternalAdd compare values only: the values are converted to nodes without children, so
      both node counts are 0 (container.h:118-130, 179-199). *)
  Context {S P : Type} (seqb : S -> S -> bool) (dom : S -> S -> bool).

  (** unordered_map::find and the two ways of writing it (container.h:171-174). *)
  Fixpoint u_find (s : S) (m : list (S * nat)) : option nat :=
    match m with
    | [] => None
    | (t, k) :: m' => if seqb t s then Some k else u_find s m'
    end.
  Fixpoint u_set (s : S) (n : nat) (m : list (S * nat)) : list (S * nat) :=
    match m with
    | [] => [(s, n)]
    | (t, k) :: m' => if seqb t s then (t, n) :: m' else (t, k) :: u_set s n m'
    end.

  (** container.h:170-175, 254-257, 292-295: the test on the map: [None] is the early return. *)
  Definition u_test (check : bool) (m : list (S * nat)) (x : csol S P) : option (list (S * nat)) :=
    if check
    then match u_find (cs_val x) m with
         | Some k => if k <=? cs_nodes x then None else Some (u_set (cs_val x) (cs_nodes x) m)
         | None => Some (u_set (cs_val x) (cs_nodes x) m)
         end
    else Some m.

  (** container.h:158-202 (InternalAdd, the branch of [if constexpr (true)]) with [check]
      being OT::check_unique, and container.h:245-281 (InternalAddD0) with [check = true]. *)
  Definition ct_add (check : bool) (c : cont S P) (x : csol S P) : cont S P :=
    match ct_sols c with
    | [] => Cont [x] (if check then u_set (cs_val x) (cs_nodes x) (ct_uniq c) else ct_uniq c)
    | _ =>
        match u_test check (ct_uniq c) x with
        | None => c
        | Some m =>
            if existsb (fun y => dom (cs_val y) (cs_val x)) (ct_sols c) then Cont (ct_sols c) m
            else Cont (filter (fun y => negb (dom (cs_val x) (cs_val y))) (ct_sols c) ++ [x]) m
        end
    end.

  (** container.h:44-50: adding all solutions of another container. *)
  Definition ct_add_all (check : bool) (c : cont S P) (xs : list (csol S P)) : cont S P :=
    fold_left (ct_add check) xs c.

  (** The merging variants.  [diff] is OT::CalcDiff (an integer for all tasks with integer
      values), [merge] is OT::Merge or OT::MergeInv. *)
  Context (diff : S -> S -> Z) (merge : S -> S -> S).

  (** container.h:324-333: index of the first solution with the least difference.
      Simplification: no difference reaches DBL_MAX, the start value of the minimum. *)
  Fixpoint most_similar_from (i : nat) (x : S) (best : option (nat * Z)) (l : list (csol S P)) : nat :=
    match l with
    | [] => match best with Some (j, _) => j | None => 0 end
    | y :: l' =>
        let d := diff (cs_val y) x in
        let better := match best with Some (_, m) => (d <? m)%Z | None => true end in
        most_similar_from (1 + i) x (if better then Some (i, d) else best) l'
    end.
  Definition most_similar (x : S) (l : list (csol S P)) : nat := most_similar_from 0 x None l.

  Fixpoint upd_nth {A} (i : nat) (a : A) (l : list A) {struct l} : list A :=
    match l, i with
    | [], _ => []
    | _ :: l', 0 => a :: l'
    | y :: l', Datatypes.S i' => y :: upd_nth i' a l'
    end.

  (** container.h:283-355: InternalAddOrMerge.  [None]: solutions[0] of an empty vector is
      read, which only happens with max_size = 0. *)
  Definition ct_add_or_merge (max_size : nat) (c : cont S P) (x : csol S P) : option (cont S P) :=
    match ct_sols c with
    | [] => Some (Cont [x] (u_set (cs_val x) (cs_nodes x) (ct_uniq c)))
    | _ =>
        match u_test true (ct_uniq c) x with
        | None => Some c
        | Some m =>
            if existsb (fun y => dom (cs_val y) (cs_val x)) (ct_sols c) then Some (Cont (ct_sols c) m)
            else
              let l := filter (fun y => negb (dom (cs_val x) (cs_val y))) (ct_sols c) in
              if length l <? max_size then Some (Cont (l ++ [x]) m)
              else
                let i := most_similar (cs_val x) l in
                match nth_error l i with
                | None => None
                | Some y =>
                    let y' := Csol (merge (cs_val x) (cs_val y)) (cs_nodes y) (cs_tag y) in
                    Some (Cont (filter (fun z => negb (negb (seqb (cs_val x) (cs_val z)) && dom (cs_val x) (cs_val z)))
                                       (upd_nth i y' l)) m)
                end
        end
    end.

  Fixpoint ct_merge_all (max_size : nat) (c : cont S P) (xs : list (csol S P)) : option (cont S P) :=
    match xs with
    | [] => Some c
    | x :: xs' => match ct_add_or_merge max_size c x with
                  | None => None
                  | Some c' => ct_merge_all max_size c' xs'
                  end
    end.

  (** container.h:86-116 (Dominates, StrictDominates and their inverses on a whole
      container), without and with the comparison of the number of nodes. *)
  Definition ct_dominates (c : cont S P) (x : csol S P) (node_compare : bool) : bool :=
    existsb (fun y => dom (cs_val y) (cs_val x)
                      && (negb node_compare || negb (seqb (cs_val y) (cs_val x))
                          || (cs_nodes y <=? cs_nodes x))) (ct_sols c).
  Definition ct_sdominates (c : cont S P) (x : csol S P) : bool :=
    existsb (fun y => negb (seqb (cs_val y) (cs_val x)) && dom (cs_val y) (cs_val x)) (ct_sols c).
End Add.

(** A history of calls: additions, copying or clearing the temporary data. *)
Inductive ct_call (S P : Type) := CAdd (x : csol S P) | CClear.
Arguments CAdd {S P}. Arguments CClear {S P}.
Definition ct_step {S P} (seqb dom : S -> S -> bool) (check : bool) (c : cont S P) (o : ct_call S P) : cont S P :=
  match o with CAdd x => ct_add seqb dom check c x | CClear => ct_clear c end.
Definition ct_run {S P} (seqb dom : S -> S -> bool) (check : bool) (h : list (ct_call S P)) : cont S P :=
  fold_left (ct_step seqb dom check) h ct_new.
(** The solutions added in a history. *)
Definition ct_added {S P} (h : list (ct_call S P)) : list (csol S P) :=
  flat_map (fun o => match o with CAdd x => [x] | CClear => [] end) h.
