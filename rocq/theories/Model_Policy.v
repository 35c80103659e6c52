(** Model of prescriptive policy generation.
    Source: /repo/src/tasks/prescriptive_policy.cpp, /repo/include/tasks/prescriptive_policy.h.
    Doubles are modelled by rationals. *)
From Coq Require Import List Arith Bool QArith Qminmax Qabs.
From Verif Require Import Model_FeatureVector Model_Data Model_Terminal.
Import ListNotations.

(** prescriptive_policy.h:7-33: PPGData: the historic treatment, its outcome, its propensity and
    the predicted outcome of every treatment.  The fields for testing are left out. *)
Record ppg := PPG { p_hist : nat; p_y : Q; p_mu : Q; p_yhat : list Q }.
(** prescriptive_policy.cpp:37-42: the teacher method. *)
Inductive teacher := DM | IPW | DR.
Definition yhat (e : ppg) (k : nat) : Q := nth k (p_yhat e) 0%Q.
(** std::abs(mu) <= 1e-6 *)
Definition tiny (e : ppg) : bool := Qle_bool (Qabs (p_mu e)) (1 # 1000000).
(** prescriptive_policy.cpp:24-34: ProcessData: the scores, negated. *)
Definition score (m : teacher) (e : ppg) (k : nat) : Q :=
  match m with
  | DM => - yhat e k
  | IPW => - (if tiny e then 0 else if k =? p_hist e then p_y e / p_mu e else 0)
  | DR => - (if tiny e then 0 else yhat e k + if k =? p_hist e then (p_y e - yhat e (p_hist e)) / p_mu e else 0)
  end%Q.

(** An instance with its extra data; the id is [iid] of its feature part. *)
Record pinst := PI { pi_x : inst; pi_e : ppg }.
Definition pid (i : pinst) : nat := iid (pi_x i).
(** A view: the instances of every label. *)
Definition pview := list (list pinst).
(** prescriptive_policy.cpp:49-66: the smallest score; it starts at 1. *)
Definition min_score (m : teacher) (nl : nat) (d : pview) : Q :=
  fold_left (fun a i => fold_left (fun a k => Qmin (score m (pi_e i) k) a) (seq 0 nl) a) (concat d) 1%Q.
(** prescriptive_policy.cpp:47,64: the size of the table. *)
Definition max_id (d : pview) : nat := fold_left (fun a i => Nat.max a (S (pid i))) (concat d) (length (concat d)).
(** prescriptive_policy.cpp:76-92: the cost of every instance and label, by id. *)
Definition cost_table (m : teacher) (nl : nat) (d : pview) : list (list Q) :=
  fold_left (fun T i => set_nth (pid i) (map (fun k => score m (pi_e i) k - min_score m nl d)%Q (seq 0 nl)) T)
    (concat d) (repeat (repeat 0%Q nl) (max_id d)).
Definition table_get (T : list (list Q)) (id label : nat) : Q := nth label (nth id T []) 0%Q.
(** prescriptive_policy.cpp:95-103: GetLeafCosts. *)
Definition policy_leaf (T : list (list Q)) (d : pview) (label : nat) : Q :=
  fold_left (fun a i => a + table_get T (pid i) label)%Q (concat d) 0%Q.
(** prescriptive_policy.cpp:119-123: GetInstanceLeafD2Costs. *)
Definition policy_d2 (T : list (list Q)) (i : pinst) (label : nat) (mult : Z) : Q := (inject_Z mult * table_get T (pid i) label)%Q.
(** tree.h:76-95: ComputeTrainScore for this task: the costs of the leaves, added up. *)
Fixpoint policy_cost (T : list (list Q)) (d : pview) (t : tree) : Q :=
  match t with
  | Leaf l => policy_leaf T d l
  | Split f l r =>
    (policy_cost T (map (filter (fun i => negb (has f (pi_x i)))) d) l + policy_cost T (map (filter (fun i => has f (pi_x i))) d) r)%Q
  end.

(** prescriptive_policy.cpp:51-73: worst_per_label.  The vector only grows: a training appends
    [nl] entries at the end and updates the first [nl]. *)
Definition worst_scan (m : teacher) (nl : nat) (l : list pinst) (w : Q) : Q :=
  fold_left (fun w i => fold_left (fun w k => if Qle_bool (score m (pi_e i) k) w then w else score m (pi_e i) k) (seq 0 nl) w) l w.
Definition int_min_q : Q := (-2147483647 # 1).
Fixpoint worst_pass (m : teacher) (nl k : nat) (d : pview) (w : list Q) : list Q :=
  match d with
  | [] => w
  | l :: d' => let w1 := w ++ [int_min_q] in worst_pass m nl (S k) d' (set_nth k (worst_scan m nl l (nth k w1 0%Q)) w1)
  end.
Definition worst_train (m : teacher) (w : list Q) (d : pview) : list Q :=
  let nl := length d in
  let w1 := worst_pass m nl 0 d w in
  map (fun p => if fst p <? nl then (snd p - min_score m nl d)%Q else snd p) (combine (seq 0 (length w1)) w1).
(** prescriptive_policy.h:64: GetWorstPerLabel after a sequence of trainings of one task. *)
Definition worst_history (m : teacher) (ds : list pview) : list Q := fold_left (worst_train m) ds [].
