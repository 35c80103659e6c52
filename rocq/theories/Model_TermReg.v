(** Model of the depth-two ("terminal") solver for the two piecewise constant regression tasks.
    Sources: /repo/src/solver/terminal_solver.cpp (cited as ts), /repo/src/solver/cost_combiner.cpp
    (cited as cc), /repo/src/solver/cost_storage.cpp, /repo/src/tasks/regression/regression.cpp,
    /repo/include/tasks/regression/regression.h, /repo/src/tasks/regression/cost_complex_regression.cpp,
    /repo/include/tasks/regression/cost_complex_regression.h.
    Doubles are modelled by rationals.  Both tasks have one label, so that the loops over labels
    and label assignments (ts:15-21) have one step. *)
From Coq Require Import List Arith Bool ZArith QArith Qabs.
From Verif Require Import Base_Q Model_FeatureVector Model_Data Model_Node Model_Terminal Model_Regression Model_SimpleLinear Model_Tasks Model_RegFit.
Import ListNotations.
Local Open Scope nat_scope.

(** regression.h:6-17, cost_complex_regression.h:12-28: D2RegressionSol and
    D2CostComplexRegressionSol: sums of targets, squared targets and weights.  The first of the two
    has no weight; the model keeps one and does not read it. *)
Record dsum := DS { s_y : Q; s_q : Q; s_w : Z }.
Definition ds_zero : dsum := DS 0 0 0.
Definition ds_add (a b : dsum) : dsum := DS (s_y a + s_y b) (s_q a + s_q b) (s_w a + s_w b).
Definition ds_sub (a b : dsum) : dsum := DS (s_y a - s_y b) (s_q a - s_q b) (s_w a - s_w b).

(** counter.h:48-51, cost_storage.h:28-30: the counts and the sums, per pair of features and in
    total, as functions of the index (as in Model_Terminal). *)
Record qcalc := QCalc { g_cnt : nat -> Z; g_tot : Z; g_cell : nat -> dsum; g_sum : dsum }.
Definition qcalc_zero : qcalc := QCalc (fun _ => 0%Z) 0%Z (fun _ => ds_zero) ds_zero.
(** cost_storage.h:17-18: add [d] at every listed index. *)
Definition ds_add_all (d : dsum) (idxs : list nat) (m : nat -> dsum) : nat -> dsum :=
  fold_left (fun m i j => if j =? i then ds_add (m j) d else m j) idxs m.

(** What the solver reads from the counts: the size and the leaf costs of the data, of the two
    parts of a feature and of the four parts of two features. *)
Record reads := Reads {
  rd_n : Z; rd_leaf : Q;
  rd_n1 : bool -> nat -> Z; rd_leaf1 : bool -> nat -> Q;
  rd_n2 : bool -> bool -> nat -> nat -> Z; rd_leaf2 : bool -> bool -> nat -> nat -> Q }.

(** node.h:48-59: a solution: the feature (none for a leaf), the value, the numbers of nodes of the
    children.  [None] below is the initial solution: worst value (DBL_MAX), neither feature nor
    label.  Simplifications: values are below DBL_MAX; a leaf always has a label (the label
    INT32_MAX counts as none in the code: C89_sentinel_refuted). *)
Record qnode := QN { n_feat : option nat; n_val : Q; n_l : nat; n_r : nat }.
Definition n_nodes (x : qnode) : nat := match n_feat x with None => 0 | Some _ => n_l x + n_r x + 1 end.
(** optimization_utils.h:92-145: AddSol, total order: replace when strictly smaller. *)
Definition qadd (c : option qnode) (x : qnode) : option qnode :=
  match c with None => Some x | Some y => if qlt (n_val x) (n_val y) then Some x else c end.
(** optimization_utils.h:104-145: AddSols. *)
Definition qadds (c d : option qnode) : option qnode := match d with None => c | Some x => qadd c x end.
(** optimization_utils.h:277-283: SolutionsEqual with the value 0 on the left: the tolerance is
    relative to the left value, so that only 0 (or less) is equal to 0. *)
Definition is_zero (c : option qnode) : bool := match c with None => false | Some x => Qle_bool (Qabs (0 - n_val x)) ((1 # 10000) * 0) end.

Section TASK.
  (** [cc]: the task is cost-complex-regression (otherwise regression); [it]: the stored instance
      of a data point (targets, squared targets, weight); [bc]: the price of a node
      (cost_complex_regression.h:73-76; 0 without branching costs); [nf] features; [mls]: the
      minimum leaf size. *)
  Variable cc : bool.
  Variable it : inst -> ritem.
  Variable bc : Q.
  Variable nf mls : nat.

  (** regression.cpp:27-31, cost_complex_regression.cpp:216-221: GetInstanceLeafD2Costs. *)
  Definition rt_inst (x : inst) (mult : Z) : dsum :=
    DS (inject_Z mult * r_y (it x)) (if cc then inject_Z mult * r_q (it x) else inject_Z mult * r_y (it x) * r_y (it x))
       (mult * Z.of_nat (r_w (it x))).
  (** regression.h:41, cost_complex_regression.h:79: IsD2ZeroCost. *)
  Definition rt_zero (d : dsum) : bool :=
    if cc then (s_w d =? 0)%Z
    else Qle_bool (s_y d) (1 # 1000000) && Qle_bool (s_q d) (1 # 1000000) && Qle_bool (- (1 # 1000000)) (s_y d) && Qle_bool (- (1 # 1000000)) (s_q d).
  (** cc:87-89, 147-149, 154-156: the number that is counted: the weight, or one. *)
  Definition rt_weight (x : inst) : Z := if cc then Z.of_nat (r_w (it x)) else 1%Z.
  (** regression.cpp:33-40, cost_complex_regression.cpp:223-230: ComputeD2Costs. *)
  Definition rt_cost (d : dsum) (count : Z) : Q :=
    if (count =? 0)%Z then (if cc then inject_Z dbl_max else 0)%Q
    else let c := (s_q d - s_y d * s_y d / inject_Z (if cc then s_w d else count))%Q in if qlt c 0 then 0%Q else c.

  (** cc:79-118, 120-158: UpdateCosts, one instance: the sums only when the costs are not zero. *)
  Definition qupd (one : bool) (mult : Z) (k : qcalc) (x : inst) : qcalc :=
    let d := rt_inst x mult in
    let idxs := touched nf one x in
    let cnt := add_all (mult * rt_weight x) idxs (g_cnt k) in
    let tot := (g_tot k + rt_weight x * mult)%Z in
    if rt_zero d then QCalc cnt tot (g_cell k) (g_sum k)
    else QCalc cnt tot (ds_add_all d idxs (g_cell k)) (ds_add (g_sum k) d).
  Definition qupdate (one : bool) (v : view) (mult : Z) (k : qcalc) : qcalc := fold_left (qupd one mult) (concat v) k.
  Definition qcalc_of (one : bool) (v : view) : qcalc := qupdate one v 1 qcalc_zero.

  (** cc:281-311, 313-347, 372-376, 393-396, 398-428: counts and sums of the parts.  The cases with
      swapped features give the same numbers in the order of the caller. *)
  Definition q_cnt1 (k : qcalc) (s : bool) (f : nat) : Z := if s then g_cnt k (ixd nf f) else (g_tot k - g_cnt k (ixd nf f))%Z.
  Definition q_sum1 (k : qcalc) (s : bool) (f : nat) : dsum := if s then g_cell k (ixd nf f) else ds_sub (g_sum k) (g_cell k (ixd nf f)).
  Definition q_cnt2 (k : qcalc) (s t : bool) (f g : nat) : Z :=
    match s, t with
    | true, true => g_cnt k (ix11 nf f g)
    | true, false => (g_cnt k (ixd nf f) - g_cnt k (ix11 nf f g))%Z
    | false, true => (g_cnt k (ixd nf g) - g_cnt k (ix11 nf f g))%Z
    | false, false => (g_tot k - g_cnt k (ixd nf f) - g_cnt k (ixd nf g) + g_cnt k (ix11 nf f g))%Z
    end.
  Definition q_sum2 (k : qcalc) (s t : bool) (f g : nat) : dsum :=
    match s, t with
    | true, true => g_cell k (ix11 nf f g)
    | true, false => ds_sub (g_cell k (ixd nf f)) (g_cell k (ix11 nf f g))
    | false, true => ds_sub (g_cell k (ixd nf g)) (g_cell k (ix11 nf f g))
    | false, false => ds_sub (ds_sub (g_sum k) (ds_sub (g_cell k (ixd nf f)) (g_cell k (ix11 nf f g)))) (g_cell k (ixd nf g))
    end.
  (** cc:268-279 (CalcLeafSol), 281-347 (CalcSols): the leaf costs of the parts. *)
  Definition reads_of (k : qcalc) : reads :=
    Reads (g_tot k) (rt_cost (g_sum k) (g_tot k))
          (q_cnt1 k) (fun s f => rt_cost (q_sum1 k s f) (q_cnt1 k s f))
          (q_cnt2 k) (fun s t f g => rt_cost (q_sum2 k s t f g) (q_cnt2 k s t f g)).

  Definition enough (z : Z) : bool := (Z.of_nat mls <=? z)%Z.

  (** ts:158-207: SolveOneNode. *)
  Definition q_one_split (R : reads) (c : option qnode) (f : nat) : option qnode :=
    if enough (rd_n1 R false f) && enough (rd_n1 R true f)
    then qadd c (QN (Some f) (rd_leaf1 R false f + rd_leaf1 R true f + bc)%Q 0 0) else c.
  Definition q_one (R : reads) : option qnode := fold_left (q_one_split R) (seq 0 nf) (qadd None (QN None (rd_leaf R) 0 0)).

  (** terminal_solver.h: the best children left and right of a root feature, and the results for two
      and three nodes. *)
  Record qstate := QState { q_ch : bool -> nat -> option qnode; q_two : option qnode; q_three : option qnode }.
  Definition ch_set (m : bool -> nat -> option qnode) (s : bool) (f : nat) (x : qnode) : bool -> nat -> option qnode :=
    fun s' f' => if Bool.eqb s s' && (f =? f') then qadd (m s' f') x else m s' f'.
  (** ts:85-91, 101-139: the child of root [f] at side [s] that tests [g], if the leaves are large
      enough; [a] and [b] are the costs of its leaves, [na] and [nb] their sizes. *)
  Definition q_child (s : bool) (f g : nat) (na nb : Z) (a b : Q) (st : qstate) : qstate :=
    if enough na && enough nb then QState (ch_set (q_ch st) s f (QN (Some g) (a + b + bc)%Q 0 0)) (q_two st) (q_three st) else st.
  (** ts:73-144: a pair of features. *)
  Definition q_pair (R : reads) (f1 : nat) (st : qstate) (f2 : nat) : qstate :=
    let n s t := rd_n2 R s t f1 f2 in
    let c s t := rd_leaf2 R s t f1 f2 in
    let st := q_child false f1 f2 (n false false) (n false true) (c false false) (c false true) st in
    let st := q_child true f1 f2 (n true false) (n true true) (c true false) (c true true) st in
    let st := q_child false f2 f1 (n false false) (n true false) (c false false) (c true false) st in
    q_child true f2 f1 (n false true) (n true true) (c false true) (c true true) st.
  (** optimization_utils.h:181-188: CombineSols. *)
  Definition q_combine (f : nat) (l r : qnode) : qnode := QN (Some f) (bc + (n_val l + n_val r))%Q (n_nodes l) (n_nodes r).
  (** ts:243-318: UpdateBestTwoNodeAssignment. *)
  Definition q_leaf (R : reads) (s : bool) (f : nat) : option qnode :=
    if enough (rd_n1 R s f) then qadd None (QN None (rd_leaf1 R s f) 0 0) else None.
  Definition q_both (f : nat) (l r : option qnode) (c : option qnode) : option qnode :=
    match l, r with Some x, Some y => qadd c (q_combine f x y) | _, _ => c end.
  Definition q_update2 (R : reads) (st : qstate) (f : nat) : qstate :=
    QState (q_ch st) (q_both f (q_leaf R false f) (q_ch st true f) (q_both f (q_ch st false f) (q_leaf R true f) (q_two st))) (q_three st).
  (** ts:320-338: UpdateBestThreeNodeAssignment. *)
  Definition q_update3 (st : qstate) (f : nat) : qstate :=
    QState (q_ch st) (q_two st) (q_both f (q_ch st false f) (q_ch st true f) (q_three st)).
  (** ts:68-150: the loop over the root features, with the early exit of ts:70. *)
  Fixpoint q_loop (R : reads) (fs : list nat) (st : qstate) : qstate :=
    match fs with
    | [] => st
    | f1 :: r => if is_zero (q_three st) then st else q_loop R r (q_update3 (q_update2 R (fold_left (q_pair R f1) r st) f1) f1)
    end.
  (** ts:51-62: the features that take part in pairs. *)
  Definition q_features (R : reads) (b : branch) : list nat :=
    filter (fun f => negb (br_has b f) && enough (rd_n1 R false f) && enough (rd_n1 R true f)
                     && negb ((rd_n1 R false f <? 2 * Z.of_nat mls)%Z && (rd_n1 R true f <? 2 * Z.of_nat mls)%Z))
           (seq 0 nf).
  (** ts:24-156: Solve, after the counts are initialised: the solutions with at most one, two and
      three nodes. *)
  Record qres := QRes { q_r1 : option qnode; q_r2 : option qnode; q_r3 : option qnode }.
  Definition q_results (R : reads) (b : branch) (n : nat) : qres :=
    if (rd_n R <? Z.of_nat mls)%Z then QRes None None None
    else
      let one := q_one R in
      if n =? 1 then QRes one None None
      else if is_zero one then QRes one (qadds None one) (qadds None (qadds None one))
      else
        let st := q_loop R (q_features R b) (QState (fun _ _ => None) None None) in
        let two := qadds (q_two st) one in
        QRes one two (qadds (q_three st) two).

  (** cc:13-41: Initialize, and ts:24-28: a call of the solver.  The state is the data of the last
      call, its node budget, the counts and the results. *)
  Record qterm := QTerm { qt_data : option view; qt_nodes : nat; qt_calc : qcalc; qt_res : qres }.
  Definition qterm0 : qterm := QTerm None 0 qcalc_zero (QRes None None None).
  Definition q_call (st : qterm) (v : view) (b : branch) (n : nat) : qterm :=
    let one := n =? 1 in
    let run k := QTerm (Some v) n k (q_results (reads_of k) b n) in
    match qt_data st with
    | Some old =>
      if Bool.eqb one (qt_nodes st =? 1) then
        let da := diff_add old v in
        let dr := diff_remove old v in
        if (vsize da =? 0) && (vsize dr =? 0) then st
        else if vsize da + vsize dr <? vsize v then run (qupdate one dr (-1) (qupdate one da 1 (qt_calc st)))
        else run (qcalc_of one v)
      else run (qcalc_of one v)
    | None => run (qcalc_of one v)
    end.

  (** regression.cpp:42-45, cost_complex_regression.cpp:232-235: GetLabel. *)
  Definition rt_label (d : dsum) (count : Z) : Q :=
    if (count =? 0)%Z then 0%Q else (s_y d / inject_Z (if cc then s_w d else count))%Q.
  (** cc:44-52, 160-208: InitializeReconstruct: only the diagonal and the row of the root feature
      are filled; the other cells, which are not read, start at zero here. *)
  Definition rec_qupd (f : nat) (k : qcalc) (x : inst) : qcalc :=
    let d := rt_inst x 1 in
    let idxs := rec_indices nf f x in
    let w := Z.of_nat (r_w (it x)) in
    QCalc (add_all w idxs (g_cnt k)) (g_tot k + w)%Z (if rt_zero d then g_cell k else ds_add_all d idxs (g_cell k)) (ds_add (g_sum k) d).
  Definition rec_qcalc (f : nat) (v : view) : qcalc := fold_left (rec_qupd f) (concat v) qcalc_zero.
  (** ts:390-402, 437-445: keep a child that is better than the one so far, unless the whole
      solution is better than the child (optimization_utils.h:209-218, with tolerance). *)
  Definition qc_add (limit : Q) (c : option (Q * rtree)) (q : Q) (t : rtree) : option (Q * rtree) :=
    if qlt (limit * (1 + (1 # 10000)))%Q q then c
    else match c with None => Some (q, t) | Some (q', _) => if qlt q q' then Some (q, t) else c end.
  (** ts:388-403, 404-419, 421-475: the child of root [f] at side [s] with [n] nodes: a leaf, or the
      best split. *)
  Definition q_split_child (x : qnode) (k : qcalc) (f : nat) (s : bool) (n : nat) (c : option (Q * rtree)) (g : nat) : option (Q * rtree) :=
    if g =? f then c
    else if negb (n =? 0) && enough (q_cnt2 k s false f g) && enough (q_cnt2 k s true f g)
    then qc_add (n_val x) c (rt_cost (q_sum2 k s false f g) (q_cnt2 k s false f g) + rt_cost (q_sum2 k s true f g) (q_cnt2 k s true f g) + bc)%Q
           (RSplit g (RLeaf (rt_label (q_sum2 k s false f g) (q_cnt2 k s false f g))) (RLeaf (rt_label (q_sum2 k s true f g) (q_cnt2 k s true f g))))
    else c.
  Definition q_best_child (x : qnode) (k : qcalc) (f : nat) (s : bool) (n : nat) : option (Q * rtree) :=
    fold_left (q_split_child x k f s n) (seq 0 nf)
      (if n =? 0 then qc_add (n_val x) None (rt_cost (q_sum1 k s f) (q_cnt1 k s f)) (RLeaf (rt_label (q_sum1 k s f) (q_cnt1 k s f))) else None).
  (** ts:374-486: ConstructOptimalTree; [None]: the error of line 481. *)
  Definition q_construct (x : qnode) (v : view) : option rtree :=
    match n_feat x with
    | None => None
    | Some f =>
      let k := rec_qcalc f v in
      match q_best_child x k f false (n_l x), q_best_child x k f true (n_r x) with
      | Some (_, l), Some (_, r) => Some (RSplit f l r)
      | _, _ => None
      end
    end.
  (** A use of the solver: a call on a part of the data, or the construction of a tree, after which
      the counts are not used any more (cc:51). *)
  Inductive quse := Solve (n : nat) | Build (x : qnode).
  Definition q_use (st : qterm) (v : view) (b : branch) (e : quse) : qterm :=
    match e with
    | Solve n => q_call st v b n
    | Build x => QTerm None (qt_nodes st) (match n_feat x with Some f => rec_qcalc f v | None => qt_calc st end) (qt_res st)
    end.
End TASK.

(** The items of a task: the rows (regression), or the merged rows (cost-complex). *)
Definition rt_items (cc : bool) (rows : list (list nat * Z)) : list ritem := if cc then ccr_items rows else plain_items rows.
(** The training data as the solver sees it: the items with their pair indices (solver.cpp:1213-1215,
    feature_vector.cpp:99-112).  Simplification: redundant features are not removed. *)
Definition rt_view (xs : list ritem) : view := map (map (fun x => Inst (iid x) (fv_compute_pairs (ifv x)))) (item_view xs).
(** The stored instance of a data point. *)
Definition rt_item (xs : list ritem) (x : inst) : ritem := nth (iid x) xs no_item.
