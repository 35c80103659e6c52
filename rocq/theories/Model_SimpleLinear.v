(** Model of the simple piecewise linear regression task (one continuous feature per leaf).
    Source: /repo/src/tasks/regression/piecewise_simple_linear_regression.cpp (cited below by
    line), /repo/include/tasks/regression/piecewise_simple_linear_regression.h,
    /repo/src/tasks/regression/piecewise_linear_regression.cpp:50-56 (LinearModel::Predict).
    Doubles are modelled by rationals.  The three vectors x, xsq, yx of an instance, which
    always have the same size, are one list of triples. *)
From Coq Require Import List Arith Bool ZArith QArith Qabs Qminmax.
From Verif Require Import Base_Q Model_FeatureVector Model_Data Model_Similarity.
Import ListNotations.
Local Open Scope nat_scope.

Definition qlt (a b : Q) : bool := negb (Qle_bool b a).

(** h:10-19: SimpleLinRegExtraData: per continuous feature the (sum of) x, x*x and y*x. *)
Record mom := Mom { m_x : Q; m_xx : Q; m_yx : Q }.
Definition mom_add (a b : mom) : mom := Mom (m_x a + m_x b) (m_xx a + m_xx b) (m_yx a + m_yx b).
Definition mom_sub (a b : mom) : mom := Mom (m_x a - m_x b) (m_xx a - m_xx b) (m_yx a - m_yx b).
Definition mget (l : list mom) (f : nat) : mom := nth f l (Mom 0 0 0).
(** 38-62, 64-88: the element-wise sums; a shorter left operand is extended by zeros. *)
Fixpoint addv (a b : list mom) : list mom :=
  match a, b with
  | _, [] => a
  | [], y :: b' => mom_add (Mom 0 0 0) y :: addv [] b'
  | x :: a', y :: b' => mom_add x y :: addv a' b'
  end.
Fixpoint subv (a b : list mom) : list mom :=
  match a, b with
  | _, [] => a
  | [], y :: b' => mom_sub (Mom 0 0 0) y :: subv [] b'
  | x :: a', y :: b' => mom_sub x y :: subv a' b'
  end.

(** An instance: features and id, label (sum of the targets), ysq, weight, moments. *)
Record litem := LI { li_x : inst; li_y : Q; li_q : Q; li_w : nat; li_m : list mom }.
(** A row of the user: the binary features, the target, the continuous features. *)
Definition lrow : Type := inst * (Q * list Q).

(** 114-116: std::sort by the features, modelled by insertion sort. *)
Fixpoint row_insert (p : lrow) (l : list lrow) : list lrow :=
  match l with [] => [p] | y :: l' => if fv_gt (ifv (fst p)) (ifv (fst y)) then p :: l else y :: row_insert p l' end.
Definition row_sort (rows : list lrow) : list lrow := fold_right row_insert [] rows.
(** 118-139: the new ids, and ysq, xsq and yx of an instance. *)
Definition row_item (id : nat) (r : lrow) : litem :=
  LI (Inst id (ifv (fst r))) (fst (snd r)) (fst (snd r) * fst (snd r)) 1
     (map (fun v => Mom v (v * v) (fst (snd r) * v)) (snd (snd r))).
Fixpoint row_items (id : nat) (rows : list lrow) : list litem :=
  match rows with [] => [] | r :: rows' => row_item id r :: row_items (S id) rows' end.
(** 104-140: PreprocessData for training. *)
Definition sl_preprocess (rows : list lrow) : list litem := row_items 0 (row_sort rows).

(** 146-148: the sort by id. *)
Fixpoint lid_insert (x : litem) (l : list litem) : list litem :=
  match l with [] => [x] | y :: l' => if iid (li_x x) <? iid (li_x y) then x :: l else y :: lid_insert x l' end.
Definition lid_sort (xs : list litem) : list litem := fold_right lid_insert [] xs.
(** 179-252: instances with the same features are put together in a copy of the first of them
    ([cur]); a group of one instance is left alone.  [prev]: the features of the latest
    instance, [w]: its weight, [y], [q], [n], [m]: the sums of the group. *)
Definition sl_close (cur : litem) (y q : Q) (n w : nat) (m : list mom) : litem :=
  if w <? n then LI (li_x cur) y q n m else cur.
Fixpoint sl_group (cur : litem) (prev : inst) (y q : Q) (n w : nat) (m : list mom) (rest : list litem) : list litem :=
  match rest with
  | [] => [LI (li_x cur) y q n m]
  | c :: rest' =>
    if fv_equal (ifv prev) (ifv (li_x c))
    then sl_group cur (li_x c) (y + li_y c)%Q (q + li_q c)%Q (n + li_w c) (li_w c) (addv m (li_m c)) rest'
    else sl_close cur y q n w m :: sl_group c (li_x c) (0 + li_y c)%Q (0 + li_q c)%Q (li_w c) (li_w c) (addv (map (fun _ => Mom 0 0 0) m) (li_m c)) rest'
  end.
(** 142-254: PreprocessTrainData; [None]: no instances (instances[0] is read). *)
Definition sl_merge (xs : list litem) : option (list litem) :=
  match lid_sort xs with
  | [] => None
  | c :: rest => Some (sl_group c (li_x c) (li_y c) (li_q c) (li_w c) (li_w c) (li_m c) rest)
  end.

(** h:21-33: D2SimpleLinRegSol. *)
Record d2lin := D2L { d_y : Q; d_q : Q; d_w : Z; d_m : list mom }.
Definition d2_zero : d2lin := D2L 0 0 0 [].
Definition d2_add (a b : d2lin) : d2lin := D2L (d_y a + d_y b) (d_q a + d_q b) (d_w a + d_w b) (addv (d_m a) (d_m b)).
Definition d2_sub (a b : d2lin) : d2lin := D2L (d_y a - d_y b) (d_q a - d_q b) (d_w a - d_w b) (subv (d_m a) (d_m b)).
(** 385-406: GetInstanceLeafD2Costs. *)
Definition d2_inst (i : litem) (mult : Z) : d2lin :=
  D2L (inject_Z mult * li_y i) (inject_Z mult * li_q i) (mult * Z.of_nat (li_w i))
      (if (mult =? 1)%Z then li_m i
       else map (fun v => Mom (m_x v * inject_Z mult) (m_xx v * inject_Z mult) (m_yx v * inject_Z mult)) (li_m i)).

(** piecewise_linear_regression.h:25-31 and cpp:50-56: LinearModel and its prediction. *)
Record linmodel := LM { lm_b : list Q; lm_b0 : Q }.
Definition lm_one (nf f : nat) (a b0 : Q) : linmodel := LM (set_nth f a (repeat 0%Q nf)) b0.
Fixpoint dot (b x : list Q) : Q := match b, x with v :: b', w :: x' => (v * w + dot b' x')%Q | _, _ => 0%Q end.
Definition lm_predict (m : linmodel) (x : list Q) : Q := (lm_b0 m + dot (lm_b m) x)%Q.

Section TASK.
  (** The parameters of the task: number of continuous features, ridge penalty, minimum leaf
      size (h:66-70) and the feature variances. *)
  Variable nf : nat.
  Variable ridge : Q.
  Variable mls : nat.
  Variable var : nat -> Q.

  (** 335-348: slope, intercept and error for one continuous feature. *)
  Definition leaf_model (w y q : Q) (m : mom) (v : Q) : Q * Q * Q :=
    let divisor := (w * m_xx m - m_x m * m_x m + w * v * ridge)%Q in
    if qlt (Qabs divisor) (1 # 1000) then (0, y / w, q - y * y / w)%Q
    else let a := ((w * m_yx m - m_x m * y) / divisor)%Q in
         let b := ((y - a * m_x m) / w)%Q in
         (a, b, q - 2 * a * m_yx m - 2 * b * y + a * a * m_xx m + 2 * a * b * m_x m + w * b * b + ridge * a * a * v)%Q.
  (** 302-333: the sums over the instances. *)
  Definition leaf_sums (xs : list litem) : Q * Q * nat * list mom :=
    fold_left (fun a i => let '(y, q, w, m) := a in ((y + li_y i)%Q, (q + li_q i)%Q, w + li_w i, addv m (li_m i)))
              xs (0%Q, 0%Q, 0, repeat (Mom 0 0 0) nf).
  (** 336-353: the loop over the continuous features; [None] is the worst solution. *)
  Definition leaf_step (w y q : Q) (m : list mom) (best : option (linmodel * Q)) (f : nat) : option (linmodel * Q) :=
    let '(a, b, e) := leaf_model w y q (mget m f) (var f) in
    if match best with None => true | Some (_, s) => qlt e s end then Some (lm_one nf f a b, Qmax 0 e) else best.
  (** 296-355: SolveLeafNode.  The reuse of lines 298-300 is dead: last_solution is never set. *)
  Definition sl_leaf (xs : list litem) : option (linmodel * Q) :=
    match xs with
    | [] => None
    | _ => let '(y, q, w, m) := leaf_sums xs in
           if w <? mls then None else fold_left (leaf_step (qn w) y q m) (seq 0 nf) None
    end.
  (** 357-379: GetLeafCosts. *)
  Definition main_coef (m : linmodel) : nat :=
    fst (fold_left (fun a f => if qlt (snd a) (Qabs (nth f (lm_b m) 0%Q)) then (f, Qabs (nth f (lm_b m) 0%Q)) else a)
                   (seq 1 (nf - 1)) (0, 0%Q)).
  Definition sl_leaf_costs (xs : list litem) (m : linmodel) : Q :=
    let cf := main_coef m in
    let a := nth cf (lm_b m) 0%Q in
    let b := lm_b0 m in
    (fold_left (fun e i => e + (li_q i - 2 * a * m_yx (mget (li_m i) cf) - 2 * b * li_y i + a * a * m_xx (mget (li_m i) cf)
                                + 2 * a * b * m_x (mget (li_m i) cf) + qn (li_w i) * b * b)) xs 0
     + ridge * a * a * var cf)%Q.

  (** 408-427: GetSimpleModel. *)
  Definition d2_model (d : d2lin) (f : nat) (pen : Q) : Q * Q * Q :=
    let w := inject_Z (d_w d) in
    let m := mget (d_m d) f in
    let divisor := (w * m_xx m - m_x m * m_x m + w * pen)%Q in
    if qlt (Qabs divisor) (1 # 1000) then (0, d_y d / w, d_q d - d_y d * d_y d / w)%Q
    else let a := ((w * m_yx m - m_x m * d_y d) / divisor)%Q in
         let b := ((d_y d - a * m_x m) / w)%Q in
         (a, b, d_q d - 2 * a * m_yx m - 2 * b * d_y d + a * a * m_xx m + 2 * a * b * m_x m + w * b * b + pen * a * a)%Q.
  (** 429-446: ComputeD2Costs; [None] is DBL_MAX.  The features are walked downwards. *)
  Definition d2_step (d : d2lin) (best : option Q) (f : nat) : option Q :=
    let '(_, _, e) := d2_model d f (ridge * var f)%Q in
    if match best with None => true | Some s => qlt e s end then Some (Qmax 0 e) else best.
  Definition d2_costs (d : d2lin) : option Q :=
    if (d_w d <? Z.of_nat mls)%Z then None else fold_left (d2_step d) (rev (seq 0 nf)) None.
  (** 448-466: GetLabel; [None] is the worst label. *)
  Definition d2_lstep (d : d2lin) (best : option (nat * Q * Q * Q)) (f : nat) : option (nat * Q * Q * Q) :=
    let '(a, b, e) := d2_model d f (ridge * var f)%Q in
    if match best with None => true | Some (_, _, _, s) => qlt e s end then Some (f, a, b, e) else best.
  Definition d2_label (d : d2lin) : option linmodel :=
    if (d_w d <? Z.of_nat mls)%Z then None
    else match fold_left (d2_lstep d) (seq 0 nf) None with
         | None => Some (lm_one nf 0 0 0)
         | Some (f, a, b, _) => Some (lm_one nf f a b)
         end.
End TASK.

(** 256-277: InformTrainData: the variance of a continuous feature in the training data. *)
Definition total_weight (xs : list litem) : nat := fold_left (fun a i => a + li_w i) xs 0.
Definition sl_variance (xs : list litem) (f : nat) : Q :=
  let w := qn (total_weight xs) in
  let s := fold_left (fun a i => mom_add a (mget (li_m i) f)) xs (Mom 0 0 0) in
  ((m_xx s - m_x s * m_x s / w) / w)%Q.
(** 151-177: the cost of a branching node and the range of the labels. *)
Definition sl_branching (ccp : Q) (xs : list litem) : Q :=
  let y := fold_left (fun a i => a + li_y i)%Q xs 0%Q in
  let q := fold_left (fun a i => a + li_q i)%Q xs 0%Q in
  (ccp * (q - y * y / qn (total_weight xs)))%Q.
Definition sl_range (xs : list litem) : option (Q * Q) :=
  match xs with
  | [] => None
  | c :: _ => let l i := (li_y i / qn (li_w i))%Q in
              Some (fold_left (fun a i => (if qlt (l i) (fst a) then l i else fst a, if qlt (snd a) (l i) then l i else snd a)) xs (l c, l c))
  end.

(** A tree with linear models in its leaves, and tree.h:76-95: ComputeTrainScore (without
    branching costs). *)
Inductive ltree := LLeaf (m : linmodel) | LSplit (f : nat) (l r : ltree).
Fixpoint sl_tree_cost (nf : nat) (ridge : Q) (var : nat -> Q) (xs : list litem) (t : ltree) : Q :=
  match t with
  | LLeaf m => sl_leaf_costs nf ridge var xs m
  | LSplit f l r => (sl_tree_cost nf ridge var (filter (fun i => negb (has f (li_x i))) xs) l
                     + sl_tree_cost nf ridge var (filter (fun i => has f (li_x i)) xs) r)%Q
  end.

(** h:89-94 and 468-511: the similarity bound of the task. *)
Definition sl_sim (lo hi : Q) (old new : list litem) : Q * nat :=
  custom_diff (fun i => iid (li_x i)) (fun i => (qn (li_w i) * worst_dist lo hi (li_y i / qn (li_w i)))%Q) li_w new old.

(** 240-253: the last group is put together in the object of the data set itself, not in a
    copy.  The data set after a training on all of it: *)
Fixpoint sl_last (xs : list litem) (g : list litem) : list litem :=
  match xs with
  | [] => g
  | c :: xs' => match g with
                | [] => sl_last xs' [c]
                | d :: _ => if fv_equal (ifv (li_x d)) (ifv (li_x c)) then sl_last xs' (g ++ [c]) else sl_last xs' [c]
                end
  end.
Definition sl_store_after (nf : nat) (xs : list litem) : list litem :=
  match sl_last (lid_sort xs) [] with
  | [] => xs
  | c :: _ => let '(y, q, w, m) := leaf_sums nf (sl_last (lid_sort xs) []) in
              map (fun i => if iid (li_x i) =? iid (li_x c) then LI (li_x i) y q w m else i) xs
  end.
