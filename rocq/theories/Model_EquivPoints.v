(** Model of the equivalent-points bound of cost-complex accuracy.
    Source: /repo/src/tasks/accuracy/cost_complex_accuracy.cpp:5-151. *)
From Coq Require Import List Arith Bool.
From Verif Require Import Model_FeatureVector Model_Data.
Import ListNotations.

(** cost_complex_accuracy.cpp:14-16: the sort by [>] on feature vectors.  std::sort is
    modelled by insertion sort; the order of equal vectors is unspecified in the code. *)
Fixpoint cca_insert (x : inst) (l : list inst) : list inst :=
  match l with [] => [x] | y :: l' => if fv_gt (ifv x) (ifv y) then x :: l else y :: cca_insert x l' end.
Definition cca_sort (xs : list inst) : list inst := fold_right cca_insert [] xs.
(** cost_complex_accuracy.cpp:18-29: new ids and the ids of the distinct feature vectors.
    [prev]: the first instance of the running group, [None] before the first instance. *)
Fixpoint cca_number (id uid : nat) (prev : option inst) (xs : list inst) : list (inst * nat) :=
  match xs with
  | [] => []
  | x :: xs' =>
    match prev with
    | None => (Inst id (ifv x), 0) :: cca_number (S id) 0 (Some x) xs'
    | Some p => if fv_equal (ifv p) (ifv x) then (Inst id (ifv x), uid) :: cca_number (S id) uid prev xs'
                else (Inst id (ifv x), S uid) :: cca_number (S id) (S uid) (Some x) xs'
    end
  end.
Definition cca_preprocess (xs : list inst) : list (inst * nat) := cca_number 0 0 None (cca_sort xs).

(** An instance as the bound sees it: its id and the id of its feature vector. *)
Definition point := (nat * nat)%type.
Definition head_id (l : list point) : nat := match l with [] => 0 | x :: _ => fst x end.
(** cost_complex_accuracy.cpp:127-133: the current label is moved behind the labels whose next
    instance has a smaller id. *)
Fixpoint bubble (c : nat * list point) (l : list (nat * list point)) : list (nat * list point) :=
  match l with [] => [c] | y :: l' => if head_id (snd y) <? head_id (snd c) then y :: bubble c l' else c :: l end.
(** cost_complex_accuracy.cpp:65-87: the labels with instances, in order of the id of their
    first one. *)
Definition start_labels (v : list (list point)) : list (nat * list point) :=
  fold_right bubble [] (filter (fun p => negb (length (snd p) =? 0)) (combine (seq 0 (length v)) v)).
Definition count_one (k : nat) (counts : list nat) : list nat := set_nth k (S (nth k counts 0)) counts.
(** cost_complex_accuracy.cpp:107-117 and 138-148: the errors of one group. *)
Definition close_group (n : nat) (counts : list nat) : nat := if 1 <? n then n - fold_left Nat.max counts 0 else 0.
(** cost_complex_accuracy.cpp:99-134: the loop.  It ends at the first label that has no
    instances left at the front of the order. *)
Fixpoint eq_loop (fuel nl prev : nat) (counts : list nat) (n acc : nat) (labs : list (nat * list point)) : nat :=
  match fuel with
  | 0 => acc + close_group n counts
  | S fuel' =>
    match labs with
    | (k, x :: rest) :: others =>
      let same := prev =? snd x in
      let counts' := if same then count_one k counts else count_one k (repeat 0 nl) in
      let n' := if same then S n else 1 in
      let acc' := if same then acc else acc + close_group n counts in
      eq_loop fuel' nl (snd x) counts' n' acc' (match rest with [] => others | _ => bubble (k, rest) others end)
    | _ => acc + close_group n counts
    end
  end.
(** cost_complex_accuracy.cpp:90-96: the first instance is taken without moving its label.
    [None]: no instance at all (labels[-1] is read). *)
Definition equiv_points_bound (v : list (list point)) : option nat :=
  match start_labels v with
  | (k, x :: rest) :: others =>
    Some (eq_loop (length (concat v)) (length v) (snd x) (count_one k (repeat 0 (length v))) 1 0 ((k, rest) :: others))
  | _ => None
  end.

(** cost_complex_accuracy.cpp:55-60,149: the bounds are remembered by branch. *)
Definition lb_memo := list (branch * nat).
Fixpoint lb_find (b : branch) (m : lb_memo) : option nat :=
  match m with [] => None | (b', z) :: m' => if list_nat_eqb b b' then Some z else lb_find b m' end.
Definition lb_call (m : lb_memo) (b : branch) (v : list (list point)) : option nat * lb_memo :=
  match lb_find b m with
  | Some z => (Some z, m)
  | None => match equiv_points_bound v with Some z => (Some z, (b, z) :: m) | None => (None, m) end
  end.
Fixpoint lb_run (m : lb_memo) (calls : list (branch * list (list point))) : list (option nat) :=
  match calls with [] => [] | (b, v) :: cs => let r := lb_call m b v in fst r :: lb_run (snd r) cs end.
