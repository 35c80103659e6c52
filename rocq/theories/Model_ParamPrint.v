(** Model of the listing of changed parameters printed at the start of the program.
    Sources: /repo/src/utils/parameter_handler.cpp:183-225, /repo/src/solver/define_parameters.cpp,
    /repo/src/main.cpp:12-23.  The output is a list of lines; the text of a line is given by
    [text].  The help summary is left out. *)
From Coq Require Import List String Ascii ZArith QArith Bool DecimalString.
From Verif Require Import Model_Params.
Import ListNotations.
Local Open Scope string_scope.

(** parameter_handler.h:34-43: a category holds names with a type. *)
Inductive ptype := TString | TInteger | TBoolean | TFloat.

(** define_parameters.cpp:9-326: the parameters of each category, in the order in which the four
    declarations push them (parameter_handler.cpp:61-64, 84-87, 105-108, 128-131). *)
Definition categories : list (string * list (string * ptype)) :=
  [ (main_c,
     [("task", TString); ("hyper-tune", TBoolean); ("file", TString); ("test-file", TString); ("time", TFloat);
      ("max-depth", TInteger); ("max-num-nodes", TInteger); ("max-num-features", TInteger); ("num-instances", TInteger);
      ("num-extra-cols", TInteger); ("verbose", TBoolean); ("all-trees", TBoolean); ("train-test-split", TFloat);
      ("stratify", TBoolean); ("min-leaf-node-size", TInteger)]);
    (alg_c,
     [("use-terminal-solver", TBoolean); ("use-similarity-lower-bound", TBoolean); ("use-upper-bound", TBoolean);
      ("use-lower-bound", TBoolean); ("use-task-lower-bound", TBoolean); ("upper-bound", TFloat); ("feature-ordering", TString);
      ("random-seed", TInteger); ("use-branch-caching", TBoolean); ("use-dataset-caching", TBoolean); ("duplicate-factor", TInteger)]);
    (obj_c, [("cost-complexity", TFloat); ("lasso-penalty", TFloat); ("ridge-penalty", TFloat)]);
    (task_c, [("cost-file", TString); ("ppg-teacher-method", TString); ("discrimination-limit", TFloat); ("regression-bound", TString)]) ].

(** std::to_string of an int64_t and of a bool. *)
Definition zstr (z : Z) : string := NilZero.string_of_int (Z.to_int z).
Definition bstr (b : bool) : string := if b then "1" else "0".
(** std::to_string of a double: "%f", six digits after the point, rounded to the nearest and in a
    tie to the even digit.  Simplification: a not-a-number is shown without a sign. *)
Definition micros (n d : Z) : Z :=
  let m := (n * 1000000)%Z in
  let q := (m / d)%Z in
  let r := (m mod d)%Z in
  (if 2 * r <? d then q else if d <? 2 * r then q + 1 else if Z.even q then q else q + 1)%Z.
Definition tail_of (s : string) : string := match s with String _ s' => s' | EmptyString => EmptyString end.
Definition fstr (f : flt) : string :=
  match f with
  | FNan => "nan" | FPInf => "inf" | FNInf => "-inf"
  | FNum q =>
    let m := micros (Z.abs (Qnum q)) (Zpos (Qden q)) in
    (if (Qnum q <? 0)%Z then "-" else "") ++ zstr (m / 1000000)%Z ++ "." ++ tail_of (zstr (1000000 + m mod 1000000)%Z)
  end.

(** operator== on doubles. *)
Definition flt_same (a b : flt) : bool :=
  match a, b with
  | FPInf, FPInf | FNInf, FNInf => true
  | FNum p, FNum q => Qeq_bool p q
  | _, _ => false
  end.

(** The lines of the output. *)
Inductive line := LDefault | LHead | LCat (c : string) | LPar (n v : string) | LEnd.
Definition text (l : line) : string :=
  match l with
  | LDefault => "Using default parameters"
  | LHead => "Using default parameters with the following exceptions:"
  | LCat c => c
  | LPar n v => String "009" ("-" ++ n ++ " = " ++ v)
  | LEnd => "------------------------"
  end.

(** parameter_handler.cpp:188-208: the value shown for a parameter, if it is shown.  The default
    value of an entry is its current value right after the declarations, [h0]: they set both and
    the setters leave it (parameter_handler.cpp:54-55, 79-80, 101-102, 122-123, 134-152). *)
Definition shown (h0 h : handler) (n : string) (t : ptype) : option string :=
  match t with
  | TString => match m_get n (h_str h), m_get n (h_str h0) with
               | Some e, Some d => if se_cur e =? se_cur d then None else Some (se_cur e)
               | _, _ => None end
  | TInteger => match m_get n (h_int h), m_get n (h_int h0) with
                | Some e, Some d => if (ie_cur e =? ie_cur d)%Z then None else Some (zstr (ie_cur e))
                | _, _ => None end
  | TBoolean => match m_get n (h_bool h), m_get n (h_bool h0) with
                | Some e, Some d => if Bool.eqb e d then None else Some (bstr e)
                | _, _ => None end
  | TFloat => match m_get n (h_flt h), m_get n (h_flt h0) with
              | Some e, Some d => if flt_same (fe_cur e) (fe_cur d) then None else Some (fstr (fe_cur e))
              | _, _ => None end
  end.
(** parameter_handler.cpp:187-213: the lines of a category. *)
Fixpoint cat_lines (h0 h : handler) (ps : list (string * ptype)) : list line :=
  match ps with
  | [] => []
  | (n, t) :: ps' => match shown h0 h n t with Some v => LPar n v :: cat_lines h0 h ps' | None => cat_lines h0 h ps' end
  end.
(** parameter_handler.cpp:185-218: a category without lines is left out. *)
Fixpoint all_lines (h0 h : handler) (cs : list (string * list (string * ptype))) : list line :=
  match cs with
  | [] => []
  | (c, ps) :: cs' =>
    (match cat_lines h0 h ps with [] => [] | l => LCat c :: l end) ++ all_lines h0 h cs'
  end.
(** parameter_handler.cpp:183-225: PrintParametersDifferentFromDefault. *)
Definition print_changed (h0 h : handler) : list line :=
  match all_lines h0 h categories with
  | [] => [LDefault]
  | l => LHead :: l ++ [LEnd]
  end.

(** main.cpp:12-23: what the program prints before it reads data, for the arguments after the
    program name.  Without arguments it prints the help and exits. *)
Definition start_up (R : reader) (args : list string) : out (list line) :=
  bind define_parameters (fun h0 =>
  match args with
  | [] => Exit
  | _ => bind (parse_args R h0 args) (fun h =>
         bind (get_bool h "verbose") (fun v => Ok (if v then print_changed h0 h else [])))
  end).
