(** Model of several calls of Solve with one solver on the same training data, as tuning makes them
    for the configurations of one fold (/repo/src/solver/solver.cpp:905-990).
    InitializeSolver (solver.cpp:211-221) returns early when the data are the same and no reset is
    asked for: the caches, the archive of the similarity bound and the global upper bound of the
    calls before are kept; only the limits (max-depth, max-num-nodes) are those of the new call.
    The switches belong to the solver (solver.cpp:9-18) and stay. *)
From Coq Require Import List Arith Bool ZArith.
From Verif Require Import Model_FeatureVector Model_Data Model_Node Model_Cache Model_Terminal Model_Heap Model_Solver Model_Preproc.
Import ListNotations.

(** solver.cpp:79-205, once per call.  A call comes with its limits and with whether the solver is
    reset before it (solver.cpp:221-243: new caches, empty upper bound; [s0] is the state of a new
    solver). *)
Fixpoint calls (T : task) (G : cfg) (s0 : st) (v : view) (gub : node) (s : st) (cs : list (bool * params)) : list answer :=
  match cs with
  | [] => []
  | (reset, P) :: r =>
    let a := if reset then solve T G P v (init_sol T) s0 else solve T G P v gub s in
    a :: calls T G s0 v (a_ub a) (a_st a) r
  end.

(** The calls on the user's data, starting with a new solver. *)
Definition session (T : task) (W : switches) (nf : nat) (clk : nat -> bool) (v : view) (cs : list (bool * params)) : list fit_result :=
  let '(fl, red, v') := preprocess T (w_mls W) nf v in
  let G := mk_cfg W nf red clk in
  let s0 := init_state G (w_branch W) (w_data W) (vsize v') in
  map (mk_result T fl v') (calls T G s0 v' (init_sol T) s0 cs).

(** solver.cpp:951-955: the calls of one fold in tuning, for the pairs of max-depth and max-num-nodes
    tried (optimization_task.cpp:21-39, [tune_grid]): the solver is reset when max-depth is larger
    than in the call before; [depth]: the max-depth the solver was made with.  Simplified: the data
    of the fold are preprocessed in [session] as for a fit (the code does that once for all folds,
    solver.cpp:1150-1230). *)
Fixpoint tune_calls (all : bool) (ub : Z) (depth : nat) (cs : list (nat * nat)) : list (bool * params) :=
  match cs with
  | [] => []
  | (d, n) :: r => (depth <? d, Params d n all ub) :: tune_calls all ub d r
  end.
