(** Model of the depth-two ("terminal") solver and of its frequency counts.
    Sources: /repo/src/solver/cost_combiner.cpp, /repo/src/solver/counter.cpp,
    /repo/src/solver/cost_storage.cpp, /repo/src/solver/terminal_solver.cpp,
    /repo/include/solver/tree.h. *)
From Coq Require Import List Arith Bool Lia ZArith.
From Verif Require Import Model_FeatureVector Model_Data Model_Node.
Import ListNotations.
Local Open Scope Z_scope.

(** tree.h:27-168: the decision tree that is returned: a label node or a feature node
    with two children.  Simplification: shared pointers become values and labels are
    class indices. *)
Inductive tree := Leaf (l : nat) | Split (f : nat) (l r : tree).

(** counter.h:48-51 and cost_storage.h:28-30: the frequency counts and the costs per
    label.  The vectors are modelled as functions of the index; that every index that is
    read or written is in range is property C15. *)
Record calc := Calc {
  k_cnt : nat -> Z; k_tot : Z;               (* Counter: counts, total_count *)
  k_cost : nat -> nat -> Z; k_ctot : nat -> Z (* CostStorage per label: data2d, total_costs *) }.

(** counter.cpp:18-21, cost_storage.cpp:23-27: ResetToZeros. *)
Definition calc_zero : calc := Calc (fun _ => 0) 0 (fun _ _ => 0) (fun _ => 0).

(** counter.h:29-32, cost_storage.h:17-18: add [z] at every listed index. *)
Definition add_at (z : Z) (m : nat -> Z) (i : nat) : nat -> Z :=
  fun j => if Nat.eqb j i then m j + z else m j.
Definition add_all (z : Z) (idxs : list nat) (m : nat -> Z) : nat -> Z :=
  fold_left (add_at z) idxs m.

(** cost_combiner.cpp:96-116: the indices an instance touches: the diagonal cells of its
    present features when [one] (num_nodes = 1), all its pair indices otherwise. *)
Definition touched (nf : nat) (one : bool) (x : inst) : list nat :=
  if one then map (fun f => pair_index nf f f) (fv_present (ifv x)) else fv_pairs (ifv x).

(** cost_combiner.cpp:79-118: UpdateCountCost (weights are 1). *)
Definition upd_count (nf : nat) (one : bool) (x : inst) (mult : Z) (k : calc) : calc :=
  Calc (add_all mult (touched nf one x) (k_cnt k)) (k_tot k) (k_cost k) (k_ctot k).
Definition upd_cost (nf : nat) (one : bool) (x : inst) (l : nat) (c : Z) (k : calc) : calc :=
  Calc (k_cnt k) (k_tot k)
       (fun l' => if Nat.eqb l' l then add_all c (touched nf one x) (k_cost k l') else k_cost k l')
       (fun l' => if Nat.eqb l' l then k_ctot k l' + c else k_ctot k l').

Section WithTask.
  Context (T : task) (nf : nat).

  (** cost_combiner.cpp:124-131: the labels that are visited for an instance of [org]. *)
  Definition cost_labels (nl org : nat) : list nat :=
    if (1 <? nl)%nat
    then filter (fun l => negb (tk_zero_true T) || negb (Nat.eqb l org)) (seq 0 nl)
    else [0%nat].

  (** cost_combiner.cpp:137-146: one instance and one label. *)
  Definition upd_label (one : bool) (x : inst) (org first : nat) (mult : Z) (k : calc) (l : nat) : calc :=
    let c := mult * tk_inst T x org l in
    if c =? 0 then (if (first <? l)%nat then k else upd_count nf one x mult k)
    else if (first <? l)%nat then upd_cost nf one x l c k
    else upd_count nf one x mult (upd_cost nf one x l c k).

  (** cost_combiner.cpp:133-151: one instance. *)
  Definition upd_inst (one : bool) (nl org : nat) (mult : Z) (k : calc) (x : inst) : calc :=
    let ls := cost_labels nl org in
    fold_left (upd_label one x org (hd 0%nat ls) mult) ls k.

  (** cost_combiner.cpp:125-154: all labels of the view. *)
  Fixpoint upd_view_from (one : bool) (nl org : nat) (mult : Z) (v : view) (k : calc) : calc :=
    match v with
    | [] => k
    | xs :: r => upd_view_from one nl (S org) mult r (fold_left (upd_inst one nl org mult) xs k)
    end.

  (** cost_combiner.cpp:120-158: UpdateCosts; the total count is added at the end. *)
  Definition update_costs (one : bool) (v : view) (mult : Z) (k : calc) : calc :=
    let k' := upd_view_from one (num_labels v) 0 mult v k in
    Calc (k_cnt k') (k_tot k' + Z.of_nat (vsize v) * mult) (k_cost k') (k_ctot k').

  (** cost_combiner.cpp:31-37: the counts computed from scratch. *)
  Definition calc_of (one : bool) (v : view) : calc := update_costs one v 1 calc_zero.

  (** cost_combiner.h: the part of CostCalculator that survives between calls: the data of
      the last call (None: not initialised), its node budget, and the counts. *)
  Record calc_state := CalcState { cs_data : option view; cs_nodes : option nat; cs_calc : calc }.

  (** cost_combiner.cpp:5-11: the constructor (num_nodes = -1 is [None]). *)
  Definition calc_state0 : calc_state := CalcState None None calc_zero.

  (** cost_combiner.cpp:13-41: Initialize.  Returns the flag changes_made.  Branching costs
      are recomputed from the context and are not part of this state.  OT::terminal_filter
      is false for the tasks modelled here, so the node budget does not force a refresh. *)
  Definition calc_init (st : calc_state) (v : view) (n : nat) : bool * calc_state :=
    let is_one (o : option nat) := match o with Some m => Nat.eqb m 1 | None => false end in
    let depth_same := Bool.eqb (Nat.eqb n 1) (is_one (cs_nodes st)) in
    let fresh := CalcState (Some v) (Some n) (calc_of (Nat.eqb n 1) v) in
    match cs_data st with
    | Some old =>
      if depth_same then
        let da := diff_add old v in
        let dr := diff_remove old v in
        if Nat.eqb (vsize da) 0 && Nat.eqb (vsize dr) 0 then (false, st)
        else if (vsize da + vsize dr <? vsize v)%nat
             then (true, CalcState (Some v) (Some n)
                     (update_costs (Nat.eqb n 1) dr (-1) (update_costs (Nat.eqb n 1) da 1 (cs_calc st))))
             else (true, fresh)
      else (true, fresh)
    | None => (true, fresh)
    end.

  (** cost_combiner.cpp:54-69: InitializeIndexInfos gives the three indices of a feature
      pair and a flag that says the pair was swapped. *)
  Definition ix11 (f1 f2 : nat) : nat :=
    if (f2 <? f1)%nat then pair_index nf f2 f1 else pair_index nf f1 f2.
  Definition ixd (f : nat) : nat := pair_index nf f f.

  (** cost_combiner.cpp:416-428 (GetCounts with index info): the four counts of a pair.
      With swap, f1 and f2 exchange roles in C++; the result below is in the caller's order. *)
  Definition count11 (k : calc) (f1 f2 : nat) : Z := k_cnt k (ix11 f1 f2).
  Definition count10 (k : calc) (f1 f2 : nat) : Z := k_cnt k (ixd f1) - k_cnt k (ix11 f1 f2).
  Definition count01 (k : calc) (f1 f2 : nat) : Z := k_cnt k (ixd f2) - k_cnt k (ix11 f1 f2).
  Definition count00 (k : calc) (f1 f2 : nat) : Z :=
    k_tot k - k_cnt k (ixd f1) - k_cnt k (ixd f2) + k_cnt k (ix11 f1 f2).

  (** cost_combiner.cpp:313-347 (CalcSols with index info; ComputeD2Costs is the identity),
      and CalcSols 282-311, GetCosts00/11 372-396: the four costs of a pair for a label. *)
  Definition sol11 (k : calc) (l f1 f2 : nat) : Z := k_cost k l (ix11 f1 f2).
  Definition sol10 (k : calc) (l f1 f2 : nat) : Z := k_cost k l (ixd f1) - k_cost k l (ix11 f1 f2).
  Definition sol01 (k : calc) (l f1 f2 : nat) : Z := k_cost k l (ixd f2) - k_cost k l (ix11 f1 f2).
  Definition sol00 (k : calc) (l f1 f2 : nat) : Z :=
    k_ctot k l - (k_cost k l (ixd f1) - k_cost k l (ix11 f1 f2)) - k_cost k l (ixd f2).

  (** The case f1 = f2 of the same functions (index.equal). *)
  Definition count0 (k : calc) (f : nat) : Z := k_tot k - k_cnt k (ixd f).
  Definition count1 (k : calc) (f : nat) : Z := k_cnt k (ixd f).
  Definition sol0 (k : calc) (l f : nat) : Z := k_ctot k l - k_cost k l (ixd f).
  Definition sol1 (k : calc) (l f : nat) : Z := k_cost k l (ixd f).

  (** cost_combiner.cpp:210-267: branching costs of the root feature and of a child
      feature.  Note 219-222: the context of the child is always the left one. *)
  Definition tbc_root (b : branch) (cnt : Z) (f : nat) : Z :=
    match tk_bc T with Some g => g (Z.to_nat cnt) b f | None => 0 end.
  Definition tbc_child (b : branch) (cnt : Z) (f1 f2 : nat) : Z :=
    match tk_bc T with Some g => g (Z.to_nat cnt) (br_left b f1) f2 | None => 0 end.

  (** terminal_solver.cpp:15-21: the label assignments (different labels, unless there is
      only one label). *)
  Definition label_assignments (nl : nat) : list (nat * nat) :=
    filter (fun p => negb ((1 <? nl)%nat && Nat.eqb (fst p) (snd p)))
           (list_prod (seq 0 nl) (seq 0 nl)).

  (** terminal_solver.h: TerminalResults. *)
  Record tres := TRes { r_one : node; r_two : node; r_three : node }.
  Definition tres_clear : tres := TRes (init_sol T) (init_sol T) (init_sol T).

  Context (mls : nat).
  Definition ge_mls (z : Z) : bool := Z.of_nat mls <=? z.

  (** terminal_solver.cpp:158-207: SolveOneNode (terminal_filter and has_constraint are
      false for these tasks; UB is only written, never read). *)
  Definition one_leaf (k : calc) (nl : nat) (res : node) : node :=
    fold_left (fun r l => add_sol r (leaf_node l (k_ctot k l))) (seq 0 nl) res.
  Definition one_split (k : calc) (b : branch) (nl : nat) (res : node) (f : nat) : node :=
    if tk_may T f && ge_mls (count0 k f) && ge_mls (count1 k f)
    then fold_left (fun r p =>
           add_sol r (branch_node f (sol0 k (fst p) f + sol1 k (snd p) f + tbc_root b (k_tot k) f) 0 0))
         (label_assignments nl) res
    else res.
  Definition solve_one (k : calc) (b : branch) (nl : nat) : node :=
    fold_left (one_split k b nl) (seq 0 nf) (one_leaf k nl (init_sol T)).

  (** terminal_solver.h: ChildrenInformation per root feature (best left and right child)
      together with the two- and three-node results. *)
  Record tstate := TState { ch_l : nat -> node; ch_r : nat -> node; ts_two : node; ts_three : node }.

  (** terminal_solver.cpp:221-241: UpdateBestLeftChild / UpdateBestRightChild for all label
      assignments; [g] is the feature in temp_branch_node. *)
  Definition best_child (g : nat) (nl : nat) (costl costr : nat -> Z) (bc : Z) (cur : node) : node :=
    fold_left (fun r p => add_sol r (branch_node g (costl (fst p) + costr (snd p) + bc) 0 0))
              (label_assignments nl) cur.
  Definition fset {A : Type} (m : nat -> A) (i : nat) (x : A) : nat -> A :=
    fun j => if Nat.eqb j i then x else m j.

  (** terminal_solver.cpp:73-144: one pair of features f1, f2 (f2 after f1).  The combined
      skip test of lines 78-83 is implied by the four single tests. *)
  Definition pair_step (k : calc) (b : branch) (nl f1 : nat) (s : tstate) (f2 : nat) : tstate :=
    let c00 := count00 k f1 f2 in let c01 := count01 k f1 f2 in
    let c10 := count10 k f1 f2 in let c11 := count11 k f1 f2 in
    let s := if ge_mls c00 && ge_mls c01
             then TState (fset (ch_l s) f1 (best_child f2 nl (fun l => sol00 k l f1 f2) (fun l => sol01 k l f1 f2)
                            (tbc_child b (c00 + c01) f1 f2) (ch_l s f1)))
                         (ch_r s) (ts_two s) (ts_three s) else s in
    let s := if ge_mls c10 && ge_mls c11
             then TState (ch_l s)
                         (fset (ch_r s) f1 (best_child f2 nl (fun l => sol10 k l f1 f2) (fun l => sol11 k l f1 f2)
                            (tbc_child b (c10 + c11) f1 f2) (ch_r s f1)))
                         (ts_two s) (ts_three s) else s in
    let s := if ge_mls c00 && ge_mls c10
             then TState (fset (ch_l s) f2 (best_child f1 nl (fun l => sol00 k l f1 f2) (fun l => sol10 k l f1 f2)
                            (tbc_child b (c00 + c10) f2 f1) (ch_l s f2)))
                         (ch_r s) (ts_two s) (ts_three s) else s in
    if ge_mls c01 && ge_mls c11
    then TState (ch_l s)
                (fset (ch_r s) f2 (best_child f1 nl (fun l => sol01 k l f1 f2) (fun l => sol11 k l f1 f2)
                   (tbc_child b (c01 + c11) f2 f1) (ch_r s f2)))
                (ts_two s) (ts_three s) else s.

  (** terminal_solver.cpp:264-287: the best leaves left and right of the root feature. *)
  Definition best_leaf (nl : nat) (cost : nat -> Z) : node :=
    fold_left (fun r l => add_sol r (leaf_node l (cost l))) (seq 0 nl) (init_sol T).

  (** terminal_solver.cpp:243-318: UpdateBestTwoNodeAssignment. *)
  Definition update_two (k : calc) (b : branch) (nl : nat) (s : tstate) (f : nat) : tstate :=
    let ll := if ge_mls (count0 k f) then best_leaf nl (fun l => sol0 k l f) else init_sol T in
    let rl := if ge_mls (count1 k f) then best_leaf nl (fun l => sol1 k l f) else init_sol T in
    let bc := tbc_root b (k_tot k) f in
    let two := if negb (is_empty (ch_l s f)) && negb (is_empty rl)
               then add_sol (ts_two s) (combine_sols T f (ch_l s f) rl bc) else ts_two s in
    let two := if negb (is_empty ll) && negb (is_empty (ch_r s f))
               then add_sol two (combine_sols T f ll (ch_r s f) bc) else two in
    TState (ch_l s) (ch_r s) two (ts_three s).

  (** terminal_solver.cpp:320-338: UpdateBestThreeNodeAssignment. *)
  Definition update_three (k : calc) (b : branch) (s : tstate) (f : nat) : tstate :=
    if negb (is_empty (ch_l s f)) && negb (is_empty (ch_r s f))
    then TState (ch_l s) (ch_r s) (ts_two s)
           (add_sol (ts_three s) (combine_sols T f (ch_l s f) (ch_r s f) (tbc_root b (k_tot k) f)))
    else s.

  (** terminal_solver.cpp:68-151: the loop over the root features, with the early exit of
      line 70 when a three-node solution of value 0 is known. *)
  Fixpoint pair_loop (k : calc) (b : branch) (nl : nat) (fs : list nat) (s : tstate) : tstate :=
    match fs with
    | [] => s
    | f1 :: r =>
      if tk_eq T 0 (nd_sol (ts_three s)) then s
      else pair_loop k b nl r
             (update_three k b (update_two k b nl (fold_left (pair_step k b nl f1) r s) f1) f1)
    end.

  (** terminal_solver.cpp:51-62: the features that take part in pairs. *)
  Definition pair_features (k : calc) (b : branch) : list nat :=
    filter (fun f => tk_may T f && negb (br_has b f)
                     && ge_mls (count0 k f) && ge_mls (count1 k f)
                     && negb ((count0 k f <? 2 * Z.of_nat mls) && (count1 k f <? 2 * Z.of_nat mls)))
           (seq 0 nf).

  (** terminal_solver.cpp:29-155: Solve, after the counts have been initialised. *)
  Definition term_results (k : calc) (b : branch) (nl n : nat) : tres :=
    if k_tot k <? Z.of_nat mls then tres_clear
    else
      let one := solve_one k b nl in
      if Nat.eqb n 1 then TRes one (init_sol T) (init_sol T)
      else if tk_eq T 0 (nd_sol one)
      then let two := add_sol (init_sol T) one in TRes one two (add_sol (init_sol T) two)
      else
        let s := pair_loop k b nl (pair_features k b)
                   (TState (fun _ => init_sol T) (fun _ => init_sol T) (init_sol T) (init_sol T)) in
        let two := add_sol (ts_two s) one in
        TRes one two (add_sol (ts_three s) two).

  (** terminal_solver.cpp:24-156: the stateful Solve: when the counts did not change the
      previous results are returned. *)
  Record term_state := TermState { tst_calc : calc_state; tst_res : tres }.
  Definition term_state0 : term_state := TermState calc_state0 tres_clear.
  Definition term_call (st : term_state) (v : view) (b : branch) (n : nat) : tres * term_state :=
    let (changed, cs) := calc_init (tst_calc st) v n in
    if changed
    then let r := term_results (cs_calc cs) b (num_labels v) n in (r, TermState cs r)
    else (tst_res st, st).

  (** The results of a call on a fresh terminal solver.  The general solver model uses this
      function; that the stateful solver returns the same results is property C14. *)
  Definition term_solve (v : view) (b : branch) (n : nat) : tres :=
    term_results (calc_of (Nat.eqb n 1) v) b (num_labels v) n.

  (** cost_combiner.cpp:160-208: UpdateCostsReconstruct: only the diagonal and the row of
      the root feature are filled, in the order of the C++ loops.  Cells outside the row and
      the diagonal keep old values in C++ (cost_storage.cpp:30-39); they are not read, and
      the model starts them at zero. *)
  Definition rec_indices (f : nat) (x : inst) : list nat :=
    map ixd (fv_present (ifv x))
    ++ (if has f x then map (ix11 f) (filter (fun g => negb (Nat.eqb g f)) (fv_present (ifv x))) else []).
  Definition rec_label (f : nat) (x : inst) (org : nat) (k : calc) (l : nat) : calc :=
    let c := tk_inst T x org l in
    let ctot := fun l' => if Nat.eqb l' l then k_ctot k l' + c else k_ctot k l' in
    if c =? 0 then Calc (k_cnt k) (k_tot k) (k_cost k) ctot
    else Calc (k_cnt k) (k_tot k)
              (fun l' => if Nat.eqb l' l then add_all c (rec_indices f x) (k_cost k l') else k_cost k l') ctot.
  Definition rec_inst (f nl org : nat) (k : calc) (x : inst) : calc :=
    let k := fold_left (rec_label f x org) (seq 0 nl) k in
    Calc (add_all 1 (rec_indices f x) (k_cnt k)) (k_tot k + 1) (k_cost k) (k_ctot k).
  Fixpoint rec_view_from (f nl org : nat) (v : view) (k : calc) : calc :=
    match v with
    | [] => k
    | xs :: r => rec_view_from f nl (S org) r (fold_left (rec_inst f nl org) xs k)
    end.
  Definition rec_calc (f : nat) (v : view) : calc := rec_view_from f (num_labels v) 0 v calc_zero.

  (** terminal_solver.cpp:379-380, 388-419: a candidate child of the root: its node and, for
      a split child, the labels of its two leaves (TreeNode). *)
  Record rchild := RChild { rc_node : node; rc_ll : nat; rc_rl : nat }.
  Definition rc0 : rchild := RChild (init_sol T) 0 0.

  (** terminal_solver.cpp:388-403 / 404-419: the best leaf child. *)
  Definition rec_leaf (sol : Z) (nl : nat) (cost : nat -> Z) (cur : rchild) : rchild :=
    fold_left (fun r l => if tk_sdom T sol (cost l) then r
                          else if cost l <? nd_sol (rc_node r) then RChild (leaf_node l (cost l)) 0 0 else r)
              (seq 0 nl) cur.
  (** terminal_solver.cpp:430-451 / 453-474: the best split child on feature [f2]. *)
  Definition rec_split (sol : Z) (nl f2 : nat) (costl costr : nat -> Z) (bc : Z) (cur : rchild) : rchild :=
    fold_left (fun r p =>
      let c := combine_sols T f2 (leaf_node (fst p) (costl (fst p))) (leaf_node (snd p) (costr (snd p))) bc in
      if tk_sdom T sol (nd_sol c) then r
      else if nd_sol c <? nd_sol (rc_node r) then RChild c (fst p) (snd p) else r)
      (list_prod (seq 0 nl) (seq 0 nl)) cur.

  (** tree.h:39-58: CreateD2TreeFromTreeNodes, one child. *)
  Definition rec_tree (r : rchild) : option tree :=
    match nd_feat (rc_node r), nd_lab (rc_node r) with
    | Some f, _ => Some (Split f (Leaf (rc_ll r)) (Leaf (rc_rl r)))
    | None, Some l => Some (Leaf l)
    | None, None => None
    end.

  (** terminal_solver.cpp:373-498: ConstructOptimalTree; [None] is the thrown exception. *)
  Definition term_construct (x : node) (v : view) (b : branch) : option tree :=
    match nd_feat x with
    | None => match nd_lab x with Some l => Some (Leaf l) | None => None end
    | Some f =>
      let k := rec_calc f v in
      let nl := num_labels v in
      let lc := if Nat.eqb (nd_l x) 0 then rec_leaf (nd_sol x) nl (fun l => sol0 k l f) rc0 else rc0 in
      let rc := if Nat.eqb (nd_r x) 0 then rec_leaf (nd_sol x) nl (fun l => sol1 k l f) rc0 else rc0 in
      let step (p : rchild * rchild) (f2 : nat) : rchild * rchild :=
        if Nat.eqb f2 f then p else
        let c00 := count00 k f f2 in let c01 := count01 k f f2 in
        let c10 := count10 k f f2 in let c11 := count11 k f f2 in
        let lc := if negb (Nat.eqb (nd_l x) 0) && ge_mls c00 && ge_mls c01
                  then rec_split (nd_sol x) nl f2 (fun l => sol00 k l f f2) (fun l => sol01 k l f f2)
                         (tbc_child b (c00 + c01) f f2) (fst p) else fst p in
        let rc := if negb (Nat.eqb (nd_r x) 0) && ge_mls c10 && ge_mls c11
                  then rec_split (nd_sol x) nl f2 (fun l => sol10 k l f f2) (fun l => sol11 k l f f2)
                         (tbc_child b (c10 + c11) f f2) (snd p) else snd p in
        (lc, rc) in
      let p := if negb (Nat.eqb (nd_l x) 0) || negb (Nat.eqb (nd_r x) 0)
               then fold_left step (seq 0 nf) (lc, rc) else (lc, rc) in
      if (nd_sol (rc_node (fst p)) =? tk_worst T) || (nd_sol (rc_node (snd p)) =? tk_worst T) then None
      else match rec_tree (fst p), rec_tree (snd p) with
           | Some l, Some r => Some (Split f l r) | _, _ => None end
    end.
End WithTask.
