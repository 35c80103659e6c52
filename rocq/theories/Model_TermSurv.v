(** Model of the depth-two ("terminal") solver for survival analysis.
    Sources: /repo/src/tasks/survival_analysis.cpp (cited as sa), /repo/include/tasks/survival_analysis.h,
    /repo/src/solver/terminal_solver.cpp (cited as ts), /repo/src/solver/cost_combiner.cpp (cited as cc).
    The search itself (ts:24-338) does not depend on the task and is that of Model_TermReg, without
    a price of nodes.  Doubles are modelled by rationals; the logarithm is a parameter. *)
From Coq Require Import List Arith Bool ZArith QArith Qminmax.
From Verif Require Import Base_Q Model_FeatureVector Model_Data Model_Node Model_Terminal Model_Regression Model_SimpleLinear Model_TermReg.
Import ListNotations.
Local Open Scope nat_scope.

Section TASK.
  (** [lg]: the logarithm as it is computed; [hz] and [ev]: the hazard and the event of a data point
      (survival_analysis.h:10-36); [nf] features; [mls]: the minimum leaf size. *)
  Variable lg : Q -> Q.
  Variable hz : inst -> Q.
  Variable ev : inst -> bool.
  Variable nf mls : nat.

  (** sa:168-182: GetInstanceLeafD2Costs.  In D2SASol (survival_analysis.h:39-65): [s_y] is
      hazard_sum, [s_q] is negative_log_hazard_sum and [s_w] is event_sum. *)
  Definition su_inst (x : inst) (mult : Z) : dsum :=
    DS (hz x * inject_Z mult) (if ev x then - lg (hz x) * inject_Z mult else 0)%Q (if ev x then mult else 0%Z).
  (** sa:185-187: ComputeD2Costs. *)
  Definition su_cost (d : dsum) : Q :=
    Qmax 0 (s_q d - inject_Z (s_w d) * lg (Qmax (1 # 2) (inject_Z (s_w d)) / s_y d))%Q.
  (** cc:79-118, 120-158: UpdateCosts, one instance.  survival_analysis.h:115: no instance counts as
      zero; every instance has weight one. *)
  Definition su_upd (one : bool) (mult : Z) (k : qcalc) (x : inst) : qcalc :=
    let d := su_inst x mult in
    let idxs := touched nf one x in
    QCalc (add_all mult idxs (g_cnt k)) (g_tot k + mult)%Z (ds_add_all d idxs (g_cell k)) (ds_add (g_sum k) d).
  Definition su_update (one : bool) (v : view) (mult : Z) (k : qcalc) : qcalc := fold_left (su_upd one mult) (concat v) k.
  Definition su_calc (one : bool) (v : view) : qcalc := su_update one v 1 qcalc_zero.
  (** cc:268-347: the leaf costs of the parts. *)
  Definition su_reads (k : qcalc) : reads :=
    Reads (g_tot k) (su_cost (g_sum k)) (q_cnt1 nf k) (fun s f => su_cost (q_sum1 nf k s f))
          (q_cnt2 nf k) (fun s t f g => su_cost (q_sum2 nf k s t f g)).
  (** cc:13-41 and ts:24-28: a call, as in Model_TermReg. *)
  Definition su_call (st : qterm) (v : view) (b : branch) (n : nat) : qterm :=
    let one := n =? 1 in
    let run k := QTerm (Some v) n k (q_results 0 nf mls (su_reads k) b n) in
    match qt_data st with
    | Some old =>
      if Bool.eqb one (qt_nodes st =? 1) then
        let da := diff_add old v in
        let dr := diff_remove old v in
        if (vsize da =? 0) && (vsize dr =? 0) then st
        else if vsize da + vsize dr <? vsize v then run (su_update one dr (-1) (su_update one da 1 (qt_calc st)))
        else run (su_calc one v)
      else run (su_calc one v)
    | None => run (su_calc one v)
    end.

  (** sa:190-193: GetLabel: the risk factor.  Simplification: the assertion that the hazards are
      positive is not represented. *)
  Definition su_label (d : dsum) : Q := (Qmax (1 # 2) (inject_Z (s_w d)) / s_y d)%Q.
  (** cc:44-52, 160-208: InitializeReconstruct. *)
  Definition su_rec_upd (f : nat) (k : qcalc) (x : inst) : qcalc :=
    let d := su_inst x 1 in
    let idxs := rec_indices nf f x in
    QCalc (add_all 1 idxs (g_cnt k)) (g_tot k + 1)%Z (ds_add_all d idxs (g_cell k)) (ds_add (g_sum k) d).
  Definition su_rec (f : nat) (v : view) : qcalc := fold_left (su_rec_upd f) (concat v) qcalc_zero.
  (** ts:388-475: the child of root [f] at side [s] with [n] nodes. *)
  Definition su_split_child (x : qnode) (k : qcalc) (f : nat) (s : bool) (n : nat) (c : option (Q * rtree)) (g : nat) : option (Q * rtree) :=
    if g =? f then c
    else if negb (n =? 0) && enough mls (q_cnt2 nf k s false f g) && enough mls (q_cnt2 nf k s true f g)
    then qc_add (n_val x) c (su_cost (q_sum2 nf k s false f g) + su_cost (q_sum2 nf k s true f g))%Q
           (RSplit g (RLeaf (su_label (q_sum2 nf k s false f g))) (RLeaf (su_label (q_sum2 nf k s true f g))))
    else c.
  Definition su_best_child (x : qnode) (k : qcalc) (f : nat) (s : bool) (n : nat) : option (Q * rtree) :=
    fold_left (su_split_child x k f s n) (seq 0 nf)
      (if n =? 0 then qc_add (n_val x) None (su_cost (q_sum1 nf k s f)) (RLeaf (su_label (q_sum1 nf k s f))) else None).
  (** ts:374-486: ConstructOptimalTree; [None]: the error of line 481. *)
  Definition su_construct (x : qnode) (v : view) : option rtree :=
    match n_feat x with
    | None => None
    | Some f =>
      let k := su_rec f v in
      match su_best_child x k f false (n_l x), su_best_child x k f true (n_r x) with
      | Some (_, l), Some (_, r) => Some (RSplit f l r)
      | _, _ => None
      end
    end.
  (** A use of the solver, as in Model_TermReg. *)
  Definition su_use (st : qterm) (v : view) (b : branch) (e : quse) : qterm :=
    match e with
    | Solve n => su_call st v b n
    | Build x => QTerm None (qt_nodes st) (match n_feat x with Some f => su_rec f v | None => qt_calc st end) (qt_res st)
    end.
End TASK.

(** The training data as the solver sees it: features, hazard and event of every row
    (sa:14-33), with pair indices (solver.cpp:1213-1215).  Simplification: redundant features are
    not removed. *)
Definition hz_row := (list nat * (Q * bool))%type.
Definition su_view (rows : list hz_row) : view :=
  [map (fun p => Inst (fst p) (fv_compute_pairs (fv_make (map (fun k => negb (k =? 0)) (fst (snd p)))))) (combine (seq 0 (length rows)) rows)].
Definition su_hz (rows : list hz_row) (x : inst) : Q := fst (snd (nth (iid x) rows ([], (0%Q, false)))).
Definition su_ev (rows : list hz_row) (x : inst) : bool := snd (snd (nth (iid x) rows ([], (0%Q, false)))).
