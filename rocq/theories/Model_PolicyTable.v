(** Model of how the policy estimator reads its table of targets.
    Source: /repo/pystreed/prescriptive_policy_generation.py:85-124,
    /repo/include/tasks/prescriptive_policy.h:10-24, with rationals for doubles. *)
From Coq Require Import List Arith Bool ZArith QArith.
From Verif Require Import Model_Binarizer.
Import ListNotations.
Local Open Scope nat_scope.

(** prescriptive_policy.h:17-24: the fields of PPGData that are given. *)
Record ppg_row := PPGRow { g_k : Z; g_y : Q; g_mu : Q; g_hat : list Q; g_opt : Z; g_cf : list Q }.
(** int() of a float *)
Definition py_int (q : Q) : Z := Z.quot (Qnum q) (Zpos (Qden q)).
Definition cell (row : list Q) (i : nat) : Q := nth i row 0%Q.
(** prescriptive_policy_generation.py:94-111 and prescriptive_policy.h:10-15: one row of a
    table with [w] columns for [n] treatments; [None]: a ValueError. *)
Definition read_row (w n : nat) (row : list Q) : option ppg_row :=
  let k := py_int (cell row 0) in
  let y := cell row 1 in
  let mu := cell row 2 in
  let hat := map (fun i => cell row (3 + i)) (seq 0 n) in
  if w =? 4 + n * 2 then Some (PPGRow k y mu hat (py_int (cell row (3 + n))) (map (fun i => cell row (4 + n + i)) (seq 0 n)))
  else if w =? 3 + n then Some (PPGRow k y mu hat 0 (repeat 0%Q n))
  else None.
Fixpoint read_rows (w n : nat) (rows : list (list Q)) : option (list ppg_row) :=
  match rows with
  | [] => Some []
  | r :: rest => match read_row w n r, read_rows w n rest with Some p, Some ps => Some (p :: ps) | _, _ => None end
  end.
(** prescriptive_policy_generation.py:85-124 on an array with [w] columns.  [stored] is
    n_classes_; the result has the rows and the new n_classes_. *)
Definition check_data (stored : option nat) (reset : bool) (w : nat) (rows : list (list Q)) : option (list ppg_row * option nat) :=
  if w <? 5 then None
  else
    let n := match stored with
             | Some c => if reset then length (unique (map (fun r => cell r 0) rows)) else c
             | None => length (unique (map (fun r => cell r 0) rows))
             end in
    match read_rows w n rows with
    | None => None
    | Some ps => Some (ps, match stored with
                           | Some c => if reset then Some (length (nodup Z.eq_dec (map g_k ps))) else Some c
                           | None => Some (length (nodup Z.eq_dec (map g_k ps)))
                           end)
    end.
(** prescriptive_policy.cpp:106-116: the test score counts the rows of a leaf whose optimal
    treatment is another one. *)
Definition test_errors (ps : list ppg_row) (label : Z) : nat := length (filter (fun p => negb (g_opt p =? label)%Z) ps).

(** ** Costs per instance *)
(** The targets of the instance-cost-sensitive estimator: an array with [w] columns or a list
    of CostVector objects. *)
Inductive ctable := CArray (w : nat) (rows : list (list Q)) | CVectors (vs : list (list Q)).
(** np.argmin: the first smallest entry; [None] (a ValueError) for an empty vector. *)
Fixpoint qargmin_from (k best : nat) (bc : Q) (cs : list Q) : nat :=
  match cs with
  | [] => best
  | c :: r => if Qle_bool bc c then qargmin_from (S k) best bc r else qargmin_from (S k) k c r
  end.
Definition qargmin (cs : list Q) : option nat := match cs with [] => None | c :: r => Some (qargmin_from 1 0 c r) end.
Fixpoint qargmins (vs : list (list Q)) : option (list nat) :=
  match vs with
  | [] => Some []
  | v :: r => match qargmin v, qargmins r with Some l, Some ls => Some (l :: ls) | _, _ => None end
  end.
(** instance_cost_sensitive_classification.py:80-107.  [stored] is n_classes_; the result has
    the labels, the cost vectors and the new n_classes_. *)
Definition check_costs (stored : option nat) (reset : bool) (t : ctable) : option ((list nat * list (list Q)) * option nat) :=
  let vs := match t with
            | CArray w rows =>
              if w <? 2 then None
              else match stored with
                   | Some c => if reset || (c =? w) then Some rows else None
                   | None => Some rows
                   end
            | CVectors vs => Some vs
            end in
  match vs with
  | None => None
  | Some vs =>
    match qargmins vs with
    | None => None
    | Some ls =>
      let n := fold_left (fun a v => Nat.max a (length v)) vs 0 in
      Some ((ls, vs), match stored with Some c => if reset then Some n else Some c | None => Some n end)
    end
  end.
