(** Model of the k-means equivalent-points bound of cost-complex regression and of its memo.
    Source: /repo/src/tasks/regression/cost_complex_regression.cpp:237-347.
    Doubles are modelled by rationals.  num_nodes_left of the returned node is left out. *)
From Coq Require Import List Arith Bool QArith ZArith Qround.
From Verif Require Import Base_Q Model_FeatureVector Model_Data Model_Node Model_Terminal Model_Solver
  Model_Regression Model_Kmeans Model_CostComplex.
Import ListNotations.
Local Open Scope nat_scope.

(** cost_complex_regression.cpp:262-299, 304-306: weight_value_pairs, the mean and the weight of
    every group of instances with equal features. *)
Fixpoint cc_groups_loop (uid : nat) (y : Q) (n : nat) (rest : list ritem) : list (Q * nat) :=
  match rest with
  | [] => [((y / qn n)%Q, n)]
  | c :: rest' =>
    if uid =? r_uid c then cc_groups_loop uid (y + r_y c)%Q (n + r_w c) rest'
    else ((y / qn n)%Q, n) :: cc_groups_loop (r_uid c) (r_y c) (r_w c) rest'
  end.
Definition cc_groups (xs : list ritem) : list (Q * nat) :=
  match xs with [] => [] | c :: rest => cc_groups_loop (r_uid c) (r_y c) (r_w c) rest end.
(** cost_complex_regression.cpp:321-322: the sort by value; std::sort is modelled by insertion
    sort. *)
Fixpoint wv_insert (p : Q * nat) (l : list (Q * nat)) : list (Q * nat) :=
  match l with [] => [p] | y :: l' => if qlt (fst y) (fst p) then y :: wv_insert p l' else p :: l end.
Definition wv_sort (l : list (Q * nat)) : list (Q * nat) := fold_right wv_insert [] l.
(** cost_complex_regression.cpp:324-330: the call of fill_dp_matrix_dynamic_stop. *)
Definition km_call (gs : list (Q * nat)) (K : nat) (bc : Q) : Q * nat :=
  let s := wv_sort gs in
  dynamic_stop (fun i => qn (snd (nth i s (0%Q, 0%nat)))) (fun i => fst (nth i s (0%Q, 0%nat))) (length s) K bc.

(** The memo of one branch: [solutions], where 0 (OT::best) means not yet known. *)
Definition sols_resize (k : nat) (l : list Q) : list Q := l ++ repeat 0%Q (k - length l).
(** cost_complex_regression.cpp:336-338. *)
Definition sols_fill (lo hi : nat) (x : Q) (l : list Q) : list Q := fold_left (fun l i => set_nth i x l) (seq lo (hi - lo)) l.
(** cost_complex_regression.cpp:237-347: ComputeLowerBound for a view with the instances [xs]
    and at most [n] nodes: the bound and the new memo.  [None]: no instances (instances[0] is
    read). *)
Definition cc_lb_call (kmeans : bool) (bc : Q) (sols : list Q) (n : nat) (xs : list ritem) : option (Q * list Q) :=
  let hard := if kmeans then 50 else 1 in
  let idx := Nat.min hard (n + 1) - 1 in
  let sols := sols_resize (idx + 1) sols in
  let known := nth idx sols 0%Q in
  if negb (Qeq_bool known 0) then Some (known, sols)
  else match cc_bound xs with
  | None => None
  | Some base =>
    let gs := cc_groups xs in
    let N := length gs in
    if kmeans && negb (N =? 1) then
      let K := Nat.min (n + 1) N in
      let try := nth (Nat.min hard K - 1) sols 0%Q in
      if negb (Qeq_bool try 0) then Some (try, set_nth idx try sols)
      else if K <? hard then
        let b := km_call gs K bc in
        let lb := (base + fst b)%Q in
        Some (lb, set_nth idx lb (sols_fill (snd b) K lb sols))
      else Some (base, set_nth idx base sols)
    else Some (base, set_nth idx base sols)
  end.
(** A sequence of calls for one branch. *)
Fixpoint cc_lb_run (kmeans : bool) (bc : Q) (sols : list Q) (ns : list nat) (xs : list ritem) : list (option Q) :=
  match ns with
  | [] => []
  | n :: ns' => match cc_lb_call kmeans bc sols n xs with
                | None => None :: cc_lb_run kmeans bc sols ns' xs
                | Some (z, sols') => Some z :: cc_lb_run kmeans bc sols' ns' xs
                end
  end.

(** cost_complex_regression.h:30-90: cost-complex regression as a task of the solver, for the
    items [it].  Simplifications: values are rounded down to integers (exact when the costs are
    whole numbers); the terminal solver and the similarity bound are not covered (tk_inst,
    tk_wpl); the memo of the bound is left out. *)
Definition ccr_items (it : nat -> ritem) (v : view) : list ritem := map (fun x => it (iid x)) (nth 0 v []).
Definition ccr (it : nat -> ritem) (kmeans : bool) (bc : Z) : task := {|
  tk_worst := int32_max;
  tk_leaf := fun v _ => match cc_leaf 1 (ccr_items it v) with Some (_, e) => Qfloor e | None => int32_max end;
  tk_inst := fun _ _ _ => 0%Z;
  tk_zero_true := false; tk_mindiff := 0; tk_wpl := fun _ => 0%Z; tk_may := fun _ => true;
  tk_sdom := t_sdom; tk_dom := t_dom; tk_eq := t_eq;
  tk_bc := Some (fun _ _ _ => bc); tk_sparse := true;
  tk_lb := Some (fun v _ _ n => match cc_lb_call kmeans (inject_Z bc) [] n (ccr_items it v) with Some (z, _) => Qfloor z | None => 0%Z end);
  tk_huge := fun _ => false; tk_sim := None |}.
