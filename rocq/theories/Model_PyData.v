(** Model of how the estimators prepare the data of a call.
    Sources: /repo/pystreed/group_fair.py, base.py, binarizer.py, regression.py and the fit
    functions of the other estimators.  A column is of any type [C]; column names are numbers
    and are assumed distinct (pandas allows repeated names). *)
From Coq Require Import List Arith Bool ZArith QArith.
From Verif Require Import Model_Binarizer.
Import ListNotations.
Local Open Scope nat_scope.

(** Python indexing of a sequence of length [n]; [None] is an IndexError. *)
Definition py_index (n : nat) (i : Z) : option nat :=
  if ((0 <=? i) && (i <? Z.of_nat n))%Z then Some (Z.to_nat i)
  else if ((- Z.of_nat n <=? i) && (i <? 0))%Z then Some (Z.to_nat (Z.of_nat n + i))
  else None.
(** range(a, b) *)
Definition py_range (a b : Z) : list Z := map (fun k => (a + Z.of_nat k)%Z) (seq 0 (Z.to_nat (b - a))).

Fixpoint sequence {A} (l : list (option A)) : option (list A) :=
  match l with
  | [] => Some []
  | x :: l' => match x, sequence l' with Some a, Some r => Some (a :: r) | _, _ => None end
  end.

Section Columns.
  Context {C : Type}.
  Definition frame := list (nat * C).
  (** group_fair.py:95: X[:, [i, *range(0,i), *range(i+1, n)]] on the columns of an array;
      the array itself is not changed.  Line 89: index 0 returns X. *)
  Definition move_array (i : Z) (X : list C) : option (list C) :=
    if (i =? 0)%Z then Some X
    else
      let n := length X in
      sequence (map (fun k => match py_index n k with Some j => nth_error X j | None => None end)
                    (i :: py_range 0 i ++ py_range (i + 1) (Z.of_nat n))).

  (** X.pop(s) and X.insert(0, s, column) (group_fair.py:92-93, 101-102): the frame of the
      caller is changed.  [None]: no such column. *)
  Definition find_col (s : nat) (X : frame) : option C := option_map snd (find (fun p => fst p =? s) X).
  Definition move_name (s : nat) (X : frame) : option frame :=
    match find_col s X with
    | Some c => Some ((s, c) :: filter (fun p => negb (fst p =? s)) X)
    | None => None
    end.
  (** group_fair.py:88-94: an index on a data frame is turned into the name at that place. *)
  Definition move_frame (i : Z) (X : frame) : option frame :=
    if (i =? 0)%Z then Some X
    else match py_index (length X) i with
         | Some j => match nth_error X j with Some p => move_name (fst p) X | None => None end
         | None => None
         end.

  (** binarizer.py:60-85 and 87-101 on data frames: fit keeps the names of the columns, and
      transform selects them by name; the order by type of the columns is left out here and
      is the subject of C66. *)
  Definition select (names : list nat) (X : frame) : option (list C) := sequence (map (fun s => find_col s X) names).

  Inductive df_call := DFit | DPredict.
  (** The state: the frame of the caller and the names kept by the last fit.  A call gives the
      columns that reach the search.  group_fair.py:108-161, base.py:237-337. *)
  Definition df_step (move : frame -> option frame) (st : frame * list nat) (c : df_call) : option ((frame * list nat) * list C) :=
    match move (fst st) with
    | None => None
    | Some X => match c with
                | DFit => Some ((X, map fst X), map snd X)
                | DPredict => option_map (fun cols => ((X, snd st), cols)) (select (snd st) X)
                end
    end.
  Fixpoint df_run (move : frame -> option frame) (st : frame * list nat) (cs : list df_call) : option (list (list C)) :=
    match cs with
    | [] => Some []
    | c :: cs' => match df_step move st c with
                  | None => None
                  | Some (st', cols) => option_map (cons cols) (df_run move st' cs')
                  end
    end.
End Columns.

(** The fit functions of the estimators.
    classification.py:99-123, regression.py (STreeDRegressor inherits base.py:237),
    regression.py:226-256, prescriptive_policy_generation.py:129-157, survival_analysis.py:92-121,
    group_fair.py:108-130, cost_sensitive_classification.py:66-91,
    instance_cost_sensitive_classification.py:112-133. *)
Inductive estimator := EClassifier | ERegressor | ELinear | EPolicy | ESurvival | EFair | ECost | EInstance.
(** What happens with the list of categorical columns: the binarizer is fitted with it, the
    data is not binarized, or a ValueError is raised. *)
Inductive fit_out (K : Type) := Binarized (cats : option K) | AsIs | Raises.
Arguments Binarized {K}. Arguments AsIs {K}. Arguments Raises {K}.

Section Route.
  Context {K : Type}.
  (** An argument in the place of extra_data: nothing, data made by the estimator, or the list
      of categorical columns. *)
  Inductive extra := ENone | EData | ECats (k : K).
  (** base.py:210-217 raises unless extra_data is None; the estimators with own data override
      it (e.g. survival_analysis.py:84-90) and accept it. *)
  Definition process_extra (e : estimator) (x : extra) : bool :=
    match e with
    | EClassifier | ERegressor | EFair | ECost => match x with ENone => true | _ => false end
    | ELinear | EPolicy | ESurvival | EInstance => true
    end.
  (** base.py:219-228; cost_sensitive_classification.py:63-64 returns the data as it is. *)
  Definition binarize (e : estimator) (cats : option K) : fit_out K := match e with ECost => AsIs | _ => Binarized cats end.
  (** base.py:237-261: fit(X, y, extra_data, categorical). *)
  Definition base_fit (e : estimator) (x : extra) (cats : option K) : fit_out K :=
    let b := binarize e cats in if process_extra e x then b else Raises.
  Definition in_extra (cats : option K) : extra := match cats with None => ENone | Some k => ECats k end.
  Definition est_fit (e : estimator) (cats : option K) : fit_out K :=
    match e with
    | EClassifier | ERegressor => base_fit e ENone cats
    | ELinear | EPolicy | ESurvival => base_fit e EData cats
    | EFair | ECost => base_fit e (in_extra cats) None
    | EInstance => base_fit e EData None
    end.
End Route.

(** The continuous columns of the piecewise linear regressor, regression.py:198-266.  [detect]
    stands for get_column_types (binarizer.py:16-31) on the data of the call: the columns that
    are neither binary nor listed as categorical. *)
Section Continuous.
  Context {X M : Type} (detect : X -> list nat).
  (** The argument continuous_columns: nothing, a list of columns, or a matrix. *)
  Inductive cc_arg := CNone | CList (cs : list nat) | CMatrix (m : M).
  (** What the regression works on. *)
  Inductive cc_used := Columns (cs : list nat) | Matrix (m : M).
  Inductive cc_call := CFit (x : X) (a : cc_arg) | CPredict (x : X) (a : cc_arg).
  Definition call_data (c : cc_call) : X := match c with CFit x _ | CPredict x _ => x end.
  Definition call_arg (c : cc_call) : cc_arg := match c with CFit _ a | CPredict _ a => a end.
  (** regression.py:198-224 with [stored] for continuous_columns_; the same for fit, predict
      and score (226-266).  [None]: a ValueError. *)
  Definition cc_step (stored : option (list nat)) (c : cc_call) : option (cc_used * option (list nat)) :=
    match call_arg c with
    | CMatrix m => Some (Matrix m, stored)
    | CList cs => Some (Columns cs, Some cs)
    | CNone => match stored with
               | Some cs => Some (Columns cs, Some cs)
               | None => match detect (call_data c) with
                         | [] => None
                         | cs => Some (Columns cs, Some cs)
                         end
               end
    end.
  (** The calls of one estimator, which starts without stored columns (regression.py:177). *)
  Fixpoint cc_run (stored : option (list nat)) (cs : list cc_call) : list (option cc_used) :=
    match cs with
    | [] => []
    | c :: cs' => match cc_step stored c with
                  | None => None :: cc_run stored cs'
                  | Some (u, stored') => Some u :: cc_run stored' cs'
                  end
    end.
End Continuous.

(** binarizer.py:16-31 for arrays: neither categorical nor binary. *)
Definition detect_array (cats : list nat) (rows : list (list Q)) : list nat :=
  filter (fun j => negb (existsb (Nat.eqb j) cats) && negb (binary_column rows j)) (seq 0 (length (hd [] rows))).
