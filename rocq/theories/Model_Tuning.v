(** Model of hyper-tuning and of result lists.
    Sources: /repo/src/tasks/optimization_task.cpp:21-39, /repo/include/solver/tuning.h,
    /repo/src/solver/solver.cpp:904-990, /repo/src/tasks/accuracy/cost_complex_accuracy.cpp:154-179,
    /repo/include/solver/result.h.  Scores are rationals (not-a-number is left out); solving and
    scoring one configuration on one fold is an input here (modelled in Model_Solver and
    Model_Predict). *)
From Coq Require Import List String ZArith QArith Bool Arith.
From Verif Require Import Model_Params Model_Terminal.
Import ListNotations.

(** optimization_task.cpp:21-39: the grid of (depth, nodes) pairs, in order. *)
Definition tune_grid (max_nodes max_depth : nat) : list (nat * nat) :=
  flat_map (fun d => map (fun i => (d, i)) (seq d (S (Nat.min max_nodes (2 ^ d - 1)) - d))) (seq 0 (S max_depth)).

(** cost_complex_accuracy.cpp:160-174: the costs tried, before sorting, for [n] instances.
    Rationals instead of doubles; the last loop runs while alpha < 0.01. *)
Fixpoint alpha_steps (fuel : nat) (a : Q) : list Q :=
  match fuel with O => [] | S f => if Qle_bool (1 # 100) a then [] else a :: alpha_steps f (a + (1 # 1000)) end.
Definition cca_alphas (n : positive) : list Q :=
  map (fun a => (1 # n) * (inject_Z (Z.of_nat a)))%Q (seq 1 9)
  ++ map (fun a => (1 # n) * (inject_Z (Z.of_nat (10 * a))))%Q (seq 1 10)
  ++ alpha_steps 11 (100 # n).
(** std::sort with std::greater. *)
Fixpoint ins_desc (q : Q) (l : list Q) : list Q :=
  match l with [] => [q] | r :: l' => if Qle_bool r q then q :: l else r :: ins_desc q l' end.
Definition cca_grid (n : positive) : list Q :=
  filter (fun a => Qle_bool a (1 # 10)) (fold_right ins_desc [] (cca_alphas n)).

(** What one configuration gives on one fold: still time at its start; the test score and
    the number of nodes of the tree if there is one; whether it is proven optimal. *)
Record run_out := RunOut { ro_time : bool; ro_tree : option (Q * nat); ro_opt : bool }.

(** solver.cpp:938-970: the scores of one fold, configuration by configuration.  [prev]: score
    of the configuration before.  [skipped]: the rest copies the previous score.  [None]: the
    number of nodes of a missing tree is read (GetBestNodeCount, result.cpp:10-12). *)
Fixpoint fold_scores (worst : Q) (skip : bool) (max_nodes : nat) (prev : option Q) (skipped : bool) (rs : list run_out) : option (list Q) :=
  match rs with
  | [] => Some []
  | r :: rs' =>
    let old := match prev with Some p => p | None => worst end in
    if skipped then option_map (cons old) (fold_scores worst skip max_nodes (Some old) true rs')
    else if negb (ro_time r) then option_map (cons worst) (fold_scores worst skip max_nodes (Some worst) false rs')
    else
      let s := match ro_tree r with Some (q, _) => if ro_opt r then q else old | None => old end in
      match ro_tree r with
      | None => if skip then None else option_map (cons s) (fold_scores worst skip max_nodes (Some s) false rs')
      | Some (_, n) => option_map (cons s) (fold_scores worst skip max_nodes (Some s) (skip && (n =? max_nodes)) rs')
      end
  end.

(** result.h:21-31: the average; [None]: the assertion fails on no scores. *)
Definition qsum (l : list Q) : Q := fold_left Qplus l 0.
Definition average (l : list Q) : option Q :=
  match l with [] => None | _ => Some (qsum l / inject_Z (Z.of_nat (List.length l))) end.

(** solver.cpp:973-980: the first pass over the averages. *)
Fixpoint select_from (better : Q -> Q -> bool) (c : nat) (best : option (nat * Q)) (avgs : list Q) : option (nat * Q) :=
  match avgs with
  | [] => best
  | a :: avgs' =>
    select_from better (S c) (match best with
                              | None => Some (c, a)
                              | Some (b, s) => if better a s then Some (c, a) else Some (b, s)
                              end) avgs'
  end.
(** [None]: best_config stays -1 and parameters[-1] is read (solver.cpp:985). *)
Definition select (better : Q -> Q -> bool) (avgs : list Q) : option nat := option_map fst (select_from better 0 None avgs).

(** The comparisons of the tasks: optimization_task.h:77; regression.h:48 and others;
    instance_cost_sensitive.h:92. *)
Definition larger (a b : Q) : bool := negb (Qle_bool a b).
Definition smaller (a b : Q) : bool := negb (Qle_bool b a).
Definition smaller_eq (a b : Q) : bool := Qle_bool (a - b) 0.

(** One phase: the table of scores (one list of run results per fold), the averages per
    configuration and the choice. *)
Definition phase (better : Q -> Q -> bool) (worst : Q) (skip : bool) (max_nodes n_configs : nat) (folds : list (list run_out)) : option nat :=
  match fold_right (fun rs acc => match fold_scores worst skip max_nodes None false rs, acc with Some l, Some ls => Some (l :: ls) | _, _ => None end) (Some []) folds with
  | None => None
  | Some table =>
    match fold_right (fun c acc => match average (map (fun l => nth c l worst) table), acc with Some a, Some l => Some (a :: l) | _, _ => None end) (Some []) (seq 0 n_configs) with
    | None => None
    | Some avgs => select better avgs
    end
  end.

(** solver.cpp:987-989: after the phases the rest of the time is set as the time limit. *)
Definition tune_end (h : handler) (time_left : Q) : out handler := set_flt h "time"%string (FNum time_left).

(** result.h:120-131: AddSolution: before the first entry with a greater score. *)
Section Result.
Context {T : Type}.
Fixpoint add_solution (l : list (T * Q)) (t : T) (s : Q) : list (T * Q) :=
  match l with
  | [] => [(t, s)]
  | (t', s') :: l' => if negb (Qle_bool s' s) then (t, s) :: l else (t', s') :: add_solution l' t s
  end.
Definition add_all (ts : list (T * Q)) : list (T * Q) := fold_left (fun l p => add_solution l (fst p) (snd p)) ts [].
(** result.h:113: best_index is 0. *)
Definition best_solution (l : list (T * Q)) : option (T * Q) := hd_error l.
End Result.
