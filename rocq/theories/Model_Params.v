(** Model of the parameter handler, of the declared parameters, of the consistency check and
    of the way the Python estimator fills the handler.
    Sources: /repo/src/utils/parameter_handler.cpp, /repo/src/solver/define_parameters.cpp,
    /repo/pystreed/base.py:109-152, /repo/src/bindings.cpp:175-197 and 291-295.
    Descriptions and the printing functions are left out. *)
From Coq Require Import List String Ascii ZArith QArith Bool.
Import ListNotations.
Local Open Scope string_scope.

(** The result of a call: it returns, it calls exit(1), or its behaviour is undefined. *)
Inductive out (A : Type) := Ok (a : A) | Exit | Undef.
Arguments Ok {A}. Arguments Exit {A}. Arguments Undef {A}.
Definition bind {A B} (o : out A) (f : A -> out B) : out B :=
  match o with Ok a => f a | Exit => Exit | Undef => Undef end.

(** double values: not a number, the two infinities, and numbers.  Simplification: every
    rational is a number. *)
Inductive flt := FNan | FNInf | FPInf | FNum (q : Q).
(** operator> on doubles: false when one side is not a number. *)
Definition flt_gt (a b : flt) : bool :=
  match a, b with
  | FNan, _ | _, FNan => false
  | FPInf, FPInf => false
  | FPInf, _ => true
  | _, FPInf => false
  | FNInf, _ => false
  | _, FNInf => true
  | FNum p, FNum q => negb (Qle_bool p q)
  end.
(** operator>= *)
Definition flt_ge (a b : flt) : bool :=
  match a, b with
  | FNan, _ | _, FNan => false
  | _, _ => negb (flt_gt b a)
  end.

(** parameter_handler.h:46-49: the entries: current value and what is checked. *)
Record sentry := SEntry { se_cur : string; se_allowed : list string; se_optional : bool }.
Record ientry := IEntry { ie_cur : Z; ie_min : Z; ie_max : Z }.
Record fentry := FEntry { fe_cur : flt; fe_min : flt; fe_max : flt }.

(** parameter_handler.h:53-57: the categories (names only) and the four maps. *)
Record handler := Handler {
  h_cats : list string;
  h_str : list (string * sentry);
  h_int : list (string * ientry);
  h_bool : list (string * bool);
  h_flt : list (string * fentry) }.
Definition h_new : handler := Handler [] [] [] [] [].

(** std::map: find and operator[] followed by an assignment. *)
Fixpoint m_get {A} (n : string) (m : list (string * A)) : option A :=
  match m with [] => None | (k, a) :: m' => if k =? n then Some a else m_get n m' end.
Fixpoint m_put {A} (n : string) (a : A) (m : list (string * A)) : list (string * A) :=
  match m with
  | [] => [(n, a)]
  | (k, b) :: m' => if k =? n then (k, a) :: m' else (k, b) :: m_put n a m'
  end.

(** parameter_handler.cpp:9-31: the getters. *)
Definition get_str (h : handler) (n : string) : out string :=
  match m_get n (h_str h) with Some e => Ok (se_cur e) | None => Exit end.
Definition get_int (h : handler) (n : string) : out Z :=
  match m_get n (h_int h) with Some e => Ok (ie_cur e) | None => Exit end.
Definition get_bool (h : handler) (n : string) : out bool :=
  match m_get n (h_bool h) with Some e => Ok e | None => Exit end.
Definition get_flt (h : handler) (n : string) : out flt :=
  match m_get n (h_flt h) with Some e => Ok (fe_cur e) | None => Exit end.

Definition known {A} (n : string) (m : list (string * A)) : bool :=
  match m_get n m with Some _ => true | None => false end.
Definition mem (n : string) (l : list string) : bool := existsb (fun k => k =? n) l.

(** parameter_handler.cpp:33-41: DefineNewCategory. *)
Definition def_cat (h : handler) (c : string) : out handler :=
  if c =? "" then Exit
  else if mem c (h_cats h) then Exit
  else Ok (Handler (h_cats h ++ [c]) (h_str h) (h_int h) (h_bool h) (h_flt h)).

(** parameter_handler.cpp:43-65, 67-88, 90-109, 111-132: the four declarations.  The default
    value is not checked; the one for Booleans looks for a duplicate among the integers. *)
Definition def_str (h : handler) (n d c : string) (allowed : list string) (opt : bool) : out handler :=
  if negb (mem c (h_cats h)) then Exit else if n =? "" then Exit else if known n (h_str h) then Exit
  else Ok (Handler (h_cats h) (m_put n (SEntry d allowed opt) (h_str h)) (h_int h) (h_bool h) (h_flt h)).
Definition def_int (h : handler) (n : string) (d : Z) (c : string) (lo hi : Z) : out handler :=
  if negb (mem c (h_cats h)) then Exit else if n =? "" then Exit else if known n (h_int h) then Exit
  else Ok (Handler (h_cats h) (h_str h) (m_put n (IEntry d lo hi) (h_int h)) (h_bool h) (h_flt h)).
Definition def_bool (h : handler) (n : string) (d : bool) (c : string) : out handler :=
  if negb (mem c (h_cats h)) then Exit else if n =? "" then Exit else if known n (h_int h) then Exit
  else Ok (Handler (h_cats h) (h_str h) (h_int h) (m_put n d (h_bool h)) (h_flt h)).
Definition def_flt (h : handler) (n : string) (d : flt) (c : string) (lo hi : flt) : out handler :=
  if negb (mem c (h_cats h)) then Exit else if n =? "" then Exit else if known n (h_flt h) then Exit
  else Ok (Handler (h_cats h) (h_str h) (h_int h) (h_bool h) (m_put n (FEntry d lo hi) (h_flt h))).

(** parameter_handler.cpp:291-327: the checks before a value is set. *)
Definition check_str (e : sentry) (v : string) : bool :=
  if se_optional e && (v =? "") then true
  else match se_allowed e with [] => true | _ => mem v (se_allowed e) end.
Definition check_int (e : ientry) (v : Z) : bool := negb ((v <? ie_min e)%Z || (ie_max e <? v)%Z).
Definition check_flt (e : fentry) (v : flt) : bool := negb (flt_gt (fe_min e) v || flt_gt v (fe_max e)).

(** parameter_handler.cpp:134-152: the setters. *)
Definition set_str (h : handler) (n v : string) : out handler :=
  match m_get n (h_str h) with
  | None => Exit
  | Some e => if check_str e v
              then Ok (Handler (h_cats h) (m_put n (SEntry v (se_allowed e) (se_optional e)) (h_str h)) (h_int h) (h_bool h) (h_flt h))
              else Exit
  end.
Definition set_int (h : handler) (n : string) (v : Z) : out handler :=
  match m_get n (h_int h) with
  | None => Exit
  | Some e => if check_int e v
              then Ok (Handler (h_cats h) (h_str h) (m_put n (IEntry v (ie_min e) (ie_max e)) (h_int h)) (h_bool h) (h_flt h))
              else Exit
  end.
Definition set_bool (h : handler) (n : string) (v : bool) : out handler :=
  match m_get n (h_bool h) with
  | None => Exit
  | Some _ => Ok (Handler (h_cats h) (h_str h) (h_int h) (m_put n v (h_bool h)) (h_flt h))
  end.
Definition set_flt (h : handler) (n : string) (v : flt) : out handler :=
  match m_get n (h_flt h) with
  | None => Exit
  | Some e => if check_flt e v
              then Ok (Handler (h_cats h) (h_str h) (h_int h) (h_bool h) (m_put n (FEntry v (fe_min e) (fe_max e)) (h_flt h)))
              else Exit
  end.

(** What reading a number from a string stores (operator>> of stringstream).  On a blank
    string nothing is stored, so that the variable is used without a value: [None]. *)
Record reader := Reader { rd_int : string -> option Z; rd_bool : string -> option bool; rd_flt : string -> option flt }.
Definition stored {A} (o : option A) : out A := match o with Some a => Ok a | None => Undef end.

(** parameter_handler.cpp:154-181: ParseCommandLineArguments without the program name.  A
    missing last value is argv[argc], a null pointer: undefined behaviour. *)
Fixpoint parse_args (R : reader) (h : handler) (args : list string) : out handler :=
  match args with
  | [] => Ok h
  | a :: rest =>
    match a with
    | String "-" n =>
      if known n (h_str h) || known n (h_int h) || known n (h_bool h) || known n (h_flt h)
      then match rest with
           | [] => Undef
           | v :: rest' =>
             bind (if known n (h_str h) then set_str h n v
                   else if known n (h_int h) then bind (stored (rd_int R v)) (set_int h n)
                   else if known n (h_bool h) then bind (stored (rd_bool R v)) (set_bool h n)
                   else bind (stored (rd_flt R v)) (set_flt h n))
                  (fun h' => parse_args R h' rest')
           end
      else Exit
    | _ => Exit
    end
  end.

(** A call of a user: a setter or a command line. *)
Inductive pcall :=
| PStr (n v : string) | PInt (n : string) (v : Z) | PBool (n : string) (v : bool) | PFlt (n : string) (v : flt)
| PArgs (args : list string).
Definition pstep (R : reader) (h : handler) (c : pcall) : out handler :=
  match c with
  | PStr n v => set_str h n v | PInt n v => set_int h n v | PBool n v => set_bool h n v | PFlt n v => set_flt h n v
  | PArgs args => parse_args R h args
  end.
Fixpoint prun (R : reader) (h : handler) (cs : list pcall) : out handler :=
  match cs with [] => Ok h | c :: cs' => bind (pstep R h c) (fun h' => prun R h' cs') end.

Definition i32max : Z := 2147483647.
(** DBL_MAX. *)
Definition dbl_max : flt := FNum (inject_Z ((2 ^ 53 - 1) * 2 ^ 971)).
Definition fz (z : Z) : flt := FNum (inject_Z z).

Definition main_c := "Main Parameters".
Definition alg_c := "Algorithmic Parameters".
Definition obj_c := "Objective Parameters".
Definition task_c := "Task-specific Parameters".

(** define_parameters.cpp:9-326: DefineParameters, in the order of the source. *)
Definition define_all : list (handler -> out handler) :=
  [ (fun h => def_cat h main_c); (fun h => def_cat h alg_c); (fun h => def_cat h obj_c); (fun h => def_cat h task_c);
    (fun h => def_str h "task" "accuracy" main_c
       ["accuracy"; "cost-complex-accuracy"; "f1-score"; "group-fairness"; "survival-analysis"; "regression";
        "cost-complex-regression"; "piecewise-linear-regression"; "simple-linear-regression"; "equality-of-opportunity";
        "cost-sensitive"; "prescriptive-policy"; "instance-cost-sensitive"] false);
    (fun h => def_bool h "hyper-tune" false main_c);
    (fun h => def_str h "file" "" main_c [] false);
    (fun h => def_str h "test-file" "" main_c [] true);
    (fun h => def_flt h "time" (fz 3600) main_c (fz 0) (fz i32max));
    (fun h => def_int h "max-depth" 3 main_c 0 20);
    (fun h => def_int h "max-num-nodes" 7 main_c 0 i32max);
    (fun h => def_int h "max-num-features" i32max main_c 1 i32max);
    (fun h => def_int h "num-instances" i32max main_c 1 i32max);
    (fun h => def_int h "num-extra-cols" 0 main_c 0 i32max);
    (fun h => def_bool h "verbose" true main_c);
    (fun h => def_bool h "all-trees" false main_c);
    (fun h => def_flt h "train-test-split" (fz 0) main_c (fz 0) (fz 1));
    (fun h => def_bool h "stratify" true main_c);
    (fun h => def_int h "min-leaf-node-size" 1 main_c 1 i32max);
    (fun h => def_bool h "use-terminal-solver" true alg_c);
    (fun h => def_bool h "use-similarity-lower-bound" true alg_c);
    (fun h => def_bool h "use-upper-bound" true alg_c);
    (fun h => def_bool h "use-lower-bound" true alg_c);
    (fun h => def_bool h "use-task-lower-bound" true alg_c);
    (fun h => def_flt h "upper-bound" (fz i32max) alg_c (fz 0) dbl_max);
    (fun h => def_str h "feature-ordering" "in-order" alg_c ["in-order"; "gini"] false);
    (fun h => def_int h "random-seed" 4 alg_c (-1) i32max);
    (fun h => def_bool h "use-branch-caching" false alg_c);
    (fun h => def_bool h "use-dataset-caching" true alg_c);
    (fun h => def_int h "duplicate-factor" 1 alg_c 1 i32max);
    (fun h => def_str h "cost-file" "" task_c [] true);
    (fun h => def_str h "ppg-teacher-method" "DM" task_c ["DM"; "IPW"; "DR"] true);
    (fun h => def_flt h "discrimination-limit" (fz 1) task_c (fz 0) (fz 1));
    (fun h => def_flt h "cost-complexity" (fz 0) obj_c (fz 0) (fz 1));
    (fun h => def_flt h "lasso-penalty" (fz 0) obj_c (fz 0) (fz (10 ^ 12)));
    (fun h => def_flt h "ridge-penalty" (fz 0) obj_c (fz 0) (fz (10 ^ 12)));
    (fun h => def_str h "regression-bound" "equivalent" task_c ["equivalent"; "kmeans"] true) ]%Z.
Definition define_parameters : out handler := fold_left bind define_all (Ok h_new).

(** parameter_handler.cpp:329-344: CheckParameters: [Ok] means that it returns.  [1L << d] is
    a 64-bit shift, undefined outside 0..63; int(...) keeps the low 32 bits.  The literal
    1e-6 is taken as the rational. *)
Definition to_int32 (z : Z) : Z := ((z + 2 ^ 31) mod 2 ^ 32 - 2 ^ 31)%Z.
Definition check_parameters (h : handler) : out unit :=
  bind (get_int h "max-depth") (fun d =>
  if ((d <? 0) || (63 <=? d))%Z then Undef
  else
    let by_depth := (to_int32 (2 ^ d) - 1)%Z in
    bind (get_int h "max-num-nodes") (fun n =>
    if (by_depth <? n)%Z then Exit
    else if (n =? by_depth)%Z then Ok tt
    else bind (get_flt h "cost-complexity") (fun cc => if flt_ge cc (FNum (1 # 1000000)) then Exit else Ok tt))).

(** The settings of an estimator (base.py:37-113). *)
Record settings := Settings {
  s_task : string; s_depth : Z; s_nodes : option Z; s_mls : Z; s_time : Q; s_cc : Q; s_order : string; s_ub : Q; s_seed : Z;
  s_all : bool; s_tune : bool; s_verbose : bool; s_branch : bool; s_data : bool; s_term : bool; s_sim : bool;
  s_use_ub : bool; s_use_lb : bool }.

(** base.py:17-34: _parameter_constraints, checked by _validate_params of scikit-learn at the
    start of fit (an infinite or not-a-number value is outside all these intervals).
    Together with the limit of 32 bits that pybind11 puts on integers (bindings.cpp:184). *)
Definition tasks : list string :=
  ["accuracy"; "cost-complex-accuracy"; "regression"; "cost-complex-regression"; "piecewise-linear-regression";
   "simple-linear-regression"; "cost-sensitive"; "f1-score"; "prescriptive-policy"; "instance-cost-sensitive";
   "group-fairness"; "equality-of-opportunity"; "survival-analysis"].
Definition validated (s : settings) : bool :=
  mem (s_task s) tasks && (0 <=? s_depth s)%Z && (s_depth s <=? 20)%Z
  && match s_nodes s with None => true | Some n => (0 <=? n)%Z && (n <=? 1048575)%Z end
  && (1 <=? s_mls s)%Z && (s_mls s <=? i32max)%Z
  && negb (Qle_bool (s_time s) 0) && Qle_bool 0 (s_cc s) && Qle_bool (s_cc s) 1
  && mem (s_order s) ["in-order"; "gini"] && Qle_bool 0 (s_ub s)
  && (-1 <=? s_seed s)%Z && (s_seed s <=? i32max)%Z.

Definition cc_tasks : list string :=
  ["cost-complex-accuracy"; "cost-complex-regression"; "piecewise-linear-regression"; "simple-linear-regression"].

(** base.py:115-122: the node budget is cut to 2^depth - 1. *)
Definition node_budget (s : settings) : Z :=
  let full := (2 ^ s_depth s - 1)%Z in
  match s_nodes s with None => full | Some n => if (full <? n)%Z then full else n end.

(** base.py:124-152: _initialize_param_handler; bindings.cpp:294: CheckParameters. *)
Definition py_calls (s : settings) : list pcall :=
  [ PStr "task" (s_task s); PBool "hyper-tune" (s_tune s); PInt "max-depth" (s_depth s); PInt "max-num-nodes" (node_budget s);
    PBool "all-trees" (s_all s); PInt "min-leaf-node-size" (s_mls s); PFlt "time" (FNum (s_time s));
    PFlt "cost-complexity" (if mem (s_task s) cc_tasks then FNum (s_cc s) else fz 0);
    PStr "feature-ordering" (s_order s); PBool "verbose" (s_verbose s); PInt "random-seed" (s_seed s);
    PBool "use-branch-caching" (s_branch s); PBool "use-dataset-caching" (s_data s); PBool "use-terminal-solver" (s_term s);
    PBool "use-similarity-lower-bound" (s_sim s); PBool "use-upper-bound" (s_use_ub s); PBool "use-lower-bound" (s_use_lb s);
    PFlt "upper-bound" (FNum (s_ub s)) ].
Definition py_start (R : reader) (s : settings) : out handler :=
  bind define_parameters (fun h0 => bind (prun R h0 (py_calls s)) (fun h => bind (check_parameters h) (fun _ => Ok h))).
