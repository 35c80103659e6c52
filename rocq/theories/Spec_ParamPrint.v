(** What the listing of changed parameters should say. *)
From Coq Require Import List String ZArith QArith.
From Verif Require Import Model_Params Model_ParamPrint.
Import ListNotations.
Local Open Scope string_scope.

(** A value of a parameter, and the documented defaults, by category. *)
Inductive pval := VS (s : string) | VI (z : Z) | VB (b : bool) | VF (f : flt).
Definition defaults : list (string * list (string * pval)) :=
  [ ("Main Parameters",
     [("task", VS "accuracy"); ("hyper-tune", VB false); ("file", VS ""); ("test-file", VS ""); ("time", VF (FNum 3600));
      ("max-depth", VI 3); ("max-num-nodes", VI 7); ("max-num-features", VI 2147483647); ("num-instances", VI 2147483647);
      ("num-extra-cols", VI 0); ("verbose", VB true); ("all-trees", VB false); ("train-test-split", VF (FNum 0));
      ("stratify", VB true); ("min-leaf-node-size", VI 1)]);
    ("Algorithmic Parameters",
     [("use-terminal-solver", VB true); ("use-similarity-lower-bound", VB true); ("use-upper-bound", VB true);
      ("use-lower-bound", VB true); ("use-task-lower-bound", VB true); ("upper-bound", VF (FNum 2147483647));
      ("feature-ordering", VS "in-order"); ("random-seed", VI 4); ("use-branch-caching", VB false);
      ("use-dataset-caching", VB true); ("duplicate-factor", VI 1)]);
    ("Objective Parameters", [("cost-complexity", VF (FNum 0)); ("lasso-penalty", VF (FNum 0)); ("ridge-penalty", VF (FNum 0))]);
    ("Task-specific Parameters",
     [("cost-file", VS ""); ("ppg-teacher-method", VS "DM"); ("discrimination-limit", VF (FNum 1)); ("regression-bound", VS "equivalent")]) ].

(** The parameter [n] of the category [c] has the default [d]. *)
Definition declared (c n : string) (d : pval) : Prop := exists ps, In (c, ps) defaults /\ In (n, d) ps.
(** What the getter of the right type returns. *)
Definition current (h : handler) (n : string) (v : pval) : Prop :=
  match v with
  | VS s => get_str h n = Ok s | VI z => get_int h n = Ok z | VB b => get_bool h n = Ok b | VF f => get_flt h n = Ok f
  end.
Definition same_value (v d : pval) : Prop :=
  match v, d with
  | VS s, VS s' => s = s' | VI z, VI z' => z = z' | VB b, VB b' => b = b'
  | VF (FNum p), VF (FNum q) => (p == q)%Q
  | VF FPInf, VF FPInf | VF FNInf, VF FNInf => True
  | _, _ => False
  end.
Definition same_kind (v d : pval) : Prop :=
  match v, d with VS _, VS _ | VI _, VI _ | VB _, VB _ | VF _, VF _ => True | _, _ => False end.
(** The text of a value. *)
Definition shown_as (v : pval) : string :=
  match v with VS s => s | VI z => zstr z | VB b => (if b then "1" else "0") | VF f => fstr f end.
(** The parameter [n] of category [c] has a value that differs from its default, with text [x]. *)
Definition changed (h : handler) (c n x : string) : Prop :=
  exists d v, declared c n d /\ same_kind v d /\ current h n v /\ ~ same_value v d /\ x = shown_as v.
