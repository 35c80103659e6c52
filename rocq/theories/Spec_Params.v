(** The parameters a user may set and the values each may take, and what it means for a
    handler to hold only such values. *)
From Coq Require Import List String ZArith QArith Bool.
From Verif Require Import Model_Params.
Import ListNotations.
Local Open Scope string_scope.

Definition int_ranges : list (string * (Z * Z)) :=
  [("max-depth", (0, 20)); ("max-num-nodes", (0, 2 ^ 31 - 1)); ("max-num-features", (1, 2 ^ 31 - 1));
   ("num-instances", (1, 2 ^ 31 - 1)); ("num-extra-cols", (0, 2 ^ 31 - 1)); ("min-leaf-node-size", (1, 2 ^ 31 - 1));
   ("random-seed", (-1, 2 ^ 31 - 1)); ("duplicate-factor", (1, 2 ^ 31 - 1))]%Z.
Definition flt_ranges : list (string * (Z * Z)) :=
  [("time", (0, 2 ^ 31 - 1)); ("train-test-split", (0, 1)); ("upper-bound", (0, (2 ^ 53 - 1) * 2 ^ 971));
   ("discrimination-limit", (0, 1)); ("cost-complexity", (0, 1)); ("lasso-penalty", (0, 10 ^ 12)); ("ridge-penalty", (0, 10 ^ 12))]%Z.
(** An empty list of values stands for all strings; the Boolean says whether "" is a value. *)
Definition str_values : list (string * (list string * bool)) :=
  [("task", (["accuracy"; "cost-complex-accuracy"; "f1-score"; "group-fairness"; "survival-analysis"; "regression";
     "cost-complex-regression"; "piecewise-linear-regression"; "simple-linear-regression"; "equality-of-opportunity";
     "cost-sensitive"; "prescriptive-policy"; "instance-cost-sensitive"], false));
   ("file", ([], false)); ("test-file", ([], true)); ("feature-ordering", (["in-order"; "gini"], false));
   ("cost-file", ([], true)); ("ppg-teacher-method", (["DM"; "IPW"; "DR"], true));
   ("regression-bound", (["equivalent"; "kmeans"], true))].
Definition bool_names : list string :=
  ["hyper-tune"; "verbose"; "all-trees"; "stratify"; "use-terminal-solver"; "use-similarity-lower-bound"; "use-upper-bound";
   "use-lower-bound"; "use-task-lower-bound"; "use-branch-caching"; "use-dataset-caching"].

(** A number between two integers. *)
Definition in_range (lo hi : Z) (v : flt) : Prop :=
  exists q, v = FNum q /\ (inject_Z lo <= q)%Q /\ (q <= inject_Z hi)%Q.

(** Every parameter reads back as a value of its declared range, floats possibly as
    not-a-number. *)
Definition well_set (h : handler) : Prop :=
  (forall n lo hi, In (n, (lo, hi)) int_ranges -> exists v, get_int h n = Ok v /\ (lo <= v <= hi)%Z)
  /\ (forall n lo hi, In (n, (lo, hi)) flt_ranges -> exists v, get_flt h n = Ok v /\ (v = FNan \/ in_range lo hi v))
  /\ (forall n vs opt, In (n, (vs, opt)) str_values ->
        exists v, get_str h n = Ok v /\ (vs = [] \/ In v vs \/ (opt = true /\ v = "")))
  /\ (forall n, In n bool_names -> exists v, get_bool h n = Ok v).

(** A name that is declared for no type. *)
Definition unknown_name (n : string) : Prop :=
  ~ In n (map fst int_ranges) /\ ~ In n (map fst flt_ranges) /\ ~ In n (map fst str_values) /\ ~ In n bool_names.

(** What a set call writes: the type, the name. *)
Inductive slot := SStr (n : string) | SInt (n : string) | SBool (n : string) | SFlt (n : string).
(** The two handlers agree on a slot. *)
Definition same_slot (s : slot) (h h' : handler) : Prop :=
  match s with
  | SStr n => get_str h' n = get_str h n | SInt n => get_int h' n = get_int h n
  | SBool n => get_bool h' n = get_bool h n | SFlt n => get_flt h' n = get_flt h n
  end.
