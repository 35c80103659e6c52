(** Model of the tuning phases of the linear regressions and of the memo of the last leaf.
    Sources: /repo/src/tasks/regression/piecewise_linear_regression.cpp,
    /repo/src/tasks/regression/piecewise_simple_linear_regression.cpp, /repo/src/solver/solver.cpp. *)
From Coq Require Import List Arith Bool ZArith QArith Qabs.
From Verif Require Import Base_Q Model_FeatureVector Model_Data Model_Tuning.
Import ListNotations.
Local Open Scope nat_scope.

(** * The grids *)
(** The parameters that tuning changes. *)
Record lin := Lin { l_cc : Q; l_lasso : Q; l_ridge : Q }.
(** define_parameters.cpp:286-313 with parameter_handler.cpp (SetFloatParameter): values out of
    range end the process. *)
Definition in_range (p : lin) : bool :=
  (Qle_bool 0 (l_cc p) && Qle_bool (l_cc p) 1) && (Qle_bool 0 (l_lasso p) && Qle_bool (l_lasso p) (inject_Z (10 ^ 12))) && (Qle_bool 0 (l_ridge p) && Qle_bool (l_ridge p) (inject_Z (10 ^ 12))).
Definition accept (cs : list lin) (skip : bool) : option (list lin * bool) := if forallb in_range cs then Some (cs, skip) else None.

(** piecewise_linear_regression.cpp:532-553: ComputeMaxLambda; a row: the target and the
    continuous features. *)
Definition max_lambda (nc : nat) (rows : list (Q * list Q)) : Q :=
  fold_left (fun m j => let v := Qabs (sumQ (fun r => (fst r * nth j (snd r) 0)%Q) rows / qn (length rows)) in if Qle_bool v m then m else v) (seq 0 nc) 0%Q.

(** piecewise_linear_regression.cpp:558-560, piecewise_simple_linear_regression.cpp:516-517. *)
Definition alphas : list Q := [1 # 10; 5 # 100; 25 # 1000; 1 # 100; 75 # 10000; 5 # 1000; 25 # 10000; 1 # 1000; 5 # 10000; 1 # 10000]%Q.
Definition shares : list Q := [1 # 2; 5 # 100; 5 # 1000; 0]%Q.
Definition ratios : list Q := [0; 1 # 4; 1 # 2; 3 # 4; 1]%Q.
Definition penalties : list Q := [1000; 100; 10; 1; 1 # 10; 1 # 100; 0]%Q.
(** piecewise_linear_regression.cpp:566-576, 589-597: with share 0 the loop over the ratios is left
    after the first one. *)
Definition pwl_penalties (ml cc : Q) : list lin :=
  flat_map (fun lp => map (fun r => Lin cc (r * lp * ml) ((1 - r) * lp * ml))%Q (if Qeq_bool lp 0 then firstn 1 ratios else ratios)) shares.
(** piecewise_linear_regression.cpp:555-603. *)
Definition pwl_grid (ml : Q) (ph : nat) (p : lin) : option (list lin * bool) :=
  match ph with
  | 0 => accept (pwl_penalties ml (99 # 100)) false
  | 1 => accept (map (fun a => Lin a (l_lasso p) (l_ridge p)) alphas) true
  | _ => accept (pwl_penalties ml (l_cc p)) false
  end.
(** piecewise_simple_linear_regression.cpp:513-546. *)
Definition slr_grid (ph : nat) (p : lin) : option (list lin * bool) :=
  match ph with
  | 0 => accept (map (fun lp => Lin (1 # 10) lp (l_ridge p)) penalties) false
  | 1 => accept (map (fun a => Lin a (l_lasso p) (l_ridge p)) alphas) true
  | _ => accept (map (fun lp => Lin (l_cc p) lp (l_ridge p)) penalties) false
  end.

(** solver.cpp:914-986: the phases; [runs]: what the configurations of a phase give on its folds.
    [None]: the process ends, or a vector is read at index -1. *)
Fixpoint hyper (grid : nat -> lin -> option (list lin * bool)) (worst : Q) (max_nodes : nat) (runs : nat -> list lin -> list (list run_out)) (k ph : nat) (p : lin) : option lin :=
  match k with
  | 0 => Some p
  | S k' =>
    match grid ph p with
    | None => None
    | Some (cs, skip) =>
      match phase smaller worst skip max_nodes (length cs) (runs ph cs) with
      | None => None
      | Some c => match nth_error cs c with
                  | Some p' => hyper grid worst max_nodes runs k' (S ph) p'
                  | None => None
                  end
      end
    end
  end.

(** * The memo of the last leaf *)
Section Memo.
  Context {A : Type}.   (* a leaf: model and cost *)
  Variable no_label : A -> bool.   (* its model is worst_label *)
  (** branch.cpp:46-52: the codes are equal one by one. *)
  Fixpoint same_branch (a b : branch) : bool :=
    match a, b with [], [] => true | x :: a', y :: b' => (x =? y) && same_branch a' b' | _, _ => false end.
  (** piecewise_linear_regression.cpp:448-461; [g]: SolveGLMNet on the data of the branch with the
      current data and parameters.  State: last_branch and last_solution. *)
  Definition memo_leaf (g : branch -> A) (st : branch * A) (b : branch) : (branch * A) * A :=
    if same_branch b (fst st) && (0 <? length (fst st)) && negb (no_label (snd st)) then (st, snd st) else ((b, g b), g b).
  (** The calls of one fit in their order. *)
  Fixpoint memo_calls (g : branch -> A) (st : branch * A) (bs : list branch) : (branch * A) * list A :=
    match bs with
    | [] => (st, [])
    | b :: bs' => let '(st', x) := memo_leaf g st b in let '(st'', xs) := memo_calls g st' bs' in (st'', x :: xs)
    end.
  (** Fits one after the other on the same solver (solver.cpp:936-955): nothing resets the memo. *)
  Fixpoint memo_fits (st : branch * A) (fits : list ((branch -> A) * list branch)) : list (list A) :=
    match fits with
    | [] => []
    | (g, bs) :: fits' => let '(st', xs) := memo_calls g st bs in xs :: memo_fits st' fits'
    end.
End Memo.
