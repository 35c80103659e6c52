(** Model of the leaves of the regression tasks.
    Source: /repo/src/tasks/regression/regression.cpp, /repo/include/tasks/regression/regression.h,
    /repo/src/tasks/regression/cost_complex_regression.cpp.  Doubles are modelled by rationals. *)
From Coq Require Import List Arith Bool QArith Qminmax.
From Verif Require Import Base_Q Model_FeatureVector Model_Data.
Import ListNotations.

(** * Piecewise constant regression *)
(** regression.cpp:5-16: SolveLeafNode: the label and the error. *)
Definition reg_leaf (ys : list Q) : Q * Q :=
  let '(ysq, y) := fold_left (fun a v => (fst a + v * v, snd a + v)%Q) ys (0%Q, 0%Q) in
  (y / qn (length ys), ysq - y * y / qn (length ys))%Q.
(** regression.cpp:18-25: GetLeafCosts. *)
Definition reg_leaf_costs (ys : list Q) (label : Q) : Q := fold_left (fun a v => a + (v - label) * (v - label))%Q ys 0%Q.
(** regression.h:6-17: D2RegressionSol and its sums. *)
Record reg_d2 := RD2 { rd_ys : Q; rd_yys : Q }.
Definition reg_add (a b : reg_d2) : reg_d2 := RD2 (rd_ys a + rd_ys b) (rd_yys a + rd_yys b).
Definition reg_sub (a b : reg_d2) : reg_d2 := RD2 (rd_ys a - rd_ys b) (rd_yys a - rd_yys b).
(** regression.cpp:27-31: GetInstanceLeafD2Costs. *)
Definition reg_inst (v : Q) (mult : Z) : reg_d2 := RD2 (inject_Z mult * v) (inject_Z mult * v * v).
(** regression.cpp:33-40: ComputeD2Costs. *)
Definition reg_d2_costs (d : reg_d2) (count : nat) : Q :=
  if count =? 0 then 0%Q else let c := (rd_yys d - rd_ys d * rd_ys d / qn count)%Q in if Qle_bool 0 c then c else 0%Q.
(** regression.cpp:42-45: GetLabel. *)
Definition reg_label (d : reg_d2) (count : nat) : Q := if count =? 0 then 0%Q else (rd_ys d / qn count)%Q.

(** * Cost-complex regression *)
(** An instance: features, id of its feature vector (RegExtraData), sum of the targets, sum of
    the squared targets, weight. *)
Record ritem := RI { r_x : inst; r_uid : nat; r_y : Q; r_q : Q; r_w : nat }.
(** cost_complex_regression.cpp:10-51: PreprocessData for training.  std::sort is modelled by
    insertion sort; normalize_scale is 1. *)
Fixpoint reg_insert (p : inst * Q) (l : list (inst * Q)) : list (inst * Q) :=
  match l with [] => [p] | y :: l' => if fv_gt (ifv (fst p)) (ifv (fst y)) then p :: l else y :: reg_insert p l' end.
Definition reg_sort (rows : list (inst * Q)) : list (inst * Q) := fold_right reg_insert [] rows.
Fixpoint reg_number (id uid : nat) (prev : option inst) (rows : list (inst * Q)) : list ritem :=
  match rows with
  | [] => []
  | (x, v) :: rows' =>
    match prev with
    | None => RI (Inst id (ifv x)) 0 v (v * v)%Q 1 :: reg_number (S id) 0 (Some x) rows'
    | Some p => if fv_equal (ifv p) (ifv x) then RI (Inst id (ifv x)) uid v (v * v)%Q 1 :: reg_number (S id) uid prev rows'
                else RI (Inst id (ifv x)) (S uid) v (v * v)%Q 1 :: reg_number (S id) (S uid) (Some x) rows'
    end
  end.
Definition reg_preprocess (rows : list (inst * Q)) : list ritem := reg_number 0 0 None (reg_sort rows).
(** cost_complex_regression.cpp:56-58: the sort by id. *)
Fixpoint id_insert (x : ritem) (l : list ritem) : list ritem :=
  match l with [] => [x] | y :: l' => if iid (r_x x) <? iid (r_x y) then x :: l else y :: id_insert x l' end.
Definition id_sort (xs : list ritem) : list ritem := fold_right id_insert [] xs.
(** cost_complex_regression.cpp:93-142: instances with the same features are put together in the
    first of them.  [w]: the weight of the latest instance. *)
Definition close_item (cur : ritem) (y q : Q) (n w : nat) : ritem := if w <? n then RI (r_x cur) (r_uid cur) y q n else cur.
Fixpoint cc_group (cur : ritem) (y q : Q) (n w : nat) (rest : list ritem) : list ritem :=
  match rest with
  | [] => [RI (r_x cur) (r_uid cur) y q n]
  | c :: rest' =>
    if r_uid cur =? r_uid c then cc_group cur (y + r_y c)%Q (q + r_q c)%Q (n + r_w c) (r_w c) rest'
    else close_item cur y q n w :: cc_group c (r_y c) (r_q c) (r_w c) (r_w c) rest'
  end.
(** [None]: no instances (instances[0] is read). *)
Definition cc_merge (xs : list ritem) : option (list ritem) :=
  match id_sort xs with [] => None | c :: rest => Some (cc_group c (r_y c) (r_q c) (r_w c) (r_w c) rest) end.
(** The sums over a view: cost_complex_regression.cpp:182-190, 200-208. *)
Definition cc_sums (xs : list ritem) : Q * Q * nat :=
  fold_left (fun a i => ((fst (fst a) + r_y i)%Q, (snd (fst a) + r_q i)%Q, (snd a + r_w i)%nat)) xs (0%Q, 0%Q, 0%nat).
(** cost_complex_regression.cpp:181-196: SolveLeafNode; [None]: no feasible leaf. *)
Definition cc_leaf (mls : nat) (xs : list ritem) : option (Q * Q) :=
  let '(y, q, w) := cc_sums xs in
  if w <? mls then None else Some (y / qn w, Qmax 0 (q - y * y / qn w))%Q.
(** cost_complex_regression.cpp:198-210: GetLeafCosts. *)
Definition cc_leaf_costs (xs : list ritem) (label : Q) : Q :=
  let '(y, q, w) := cc_sums xs in Qmax 0 (q - 2 * label * y + qn w * label * label)%Q.
(** cost_complex_regression.cpp:216-235: the counters of the depth-two solver. *)
Definition cc_d2_costs (y q : Q) (w : nat) : Q := let c := (q - y * y / qn w)%Q in if Qle_bool 0 c then c else 0%Q.
(** cost_complex_regression.cpp:237-347 without k-means: the equivalent-points bound. *)
Fixpoint cc_bound_loop (uid : nat) (y q : Q) (n : nat) (acc : Q) (rest : list ritem) : Q :=
  match rest with
  | [] => (acc + (q - y * y / qn n))%Q
  | c :: rest' =>
    if uid =? r_uid c then cc_bound_loop uid (y + r_y c)%Q (q + r_q c)%Q (n + r_w c) acc rest'
    else cc_bound_loop (r_uid c) (r_y c) (r_q c) (r_w c) (acc + (q - y * y / qn n))%Q rest'
  end.
Definition cc_bound (xs : list ritem) : option Q :=
  match xs with [] => None | c :: rest => Some (cc_bound_loop (r_uid c) (r_y c) (r_q c) (r_w c) 0%Q rest) end.

(** A regression tree and tree.h:76-95: ComputeTrainScore without branching costs. *)
Inductive rtree := RLeaf (c : Q) | RSplit (f : nat) (l r : rtree).
Fixpoint cc_tree_cost (xs : list ritem) (t : rtree) : Q :=
  match t with
  | RLeaf c => cc_leaf_costs xs c
  | RSplit f l r => (cc_tree_cost (filter (fun i => negb (has f (r_x i))) xs) l + cc_tree_cost (filter (fun i => has f (r_x i)) xs) r)%Q
  end.

(** cost_complex_regression.cpp:135-141: the last group is put together in the object of the
    data set itself, not in a copy.  The data set after a training on all of it: *)
Fixpoint last_group (xs : list ritem) (g : list ritem) : list ritem :=
  match xs with
  | [] => g
  | c :: xs' => match g with
                | [] => last_group xs' [c]
                | d :: _ => if r_uid d =? r_uid c then last_group xs' (g ++ [c]) else last_group xs' [c]
                end
  end.
Definition cc_store_after (xs : list ritem) : list ritem :=
  match last_group (id_sort xs) [] with
  | [] => xs
  | c :: _ => let '(y, q, w) := cc_sums (last_group (id_sort xs) []) in
              map (fun i => if iid (r_x i) =? iid (r_x c) then RI (r_x i) (r_uid i) y q w else i) xs
  end.
