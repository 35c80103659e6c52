(** Model of the baseline hazard of survival analysis.
    Source: /repo/src/tasks/survival_analysis.cpp:40-104 and
    /repo/pystreed/survival_analysis.py: _compute_baseline_cumulative_hazard_function.
    Doubles are modelled by rationals. *)
From Coq Require Import List Arith Bool QArith.
From Verif Require Import Base_Q.
Import ListNotations.
Local Open Scope nat_scope.

(** A row: the time and whether the event was seen. *)
Definition srow := (Q * bool)%type.
(** survival_analysis.cpp:45-65: events_per_time with the vector of its keys, and Python's [ts]:
    per time the censored and the died. *)
Definition tally_t := list (Q * (nat * nat)).
Fixpoint tally_add (r : srow) (tl : tally_t) : tally_t :=
  match tl with
  | [] => [(fst r, if snd r then (0, 1) else (1, 0))]
  | (s, (c, d)) :: tl' => if Qeq_bool s (fst r) then (s, if snd r then (c, S d) else (S c, d)) :: tl' else (s, (c, d)) :: tally_add r tl'
  end.
Definition tally (rows : list srow) : tally_t := fold_left (fun tl r => tally_add r tl) rows [].
(** survival_analysis.cpp:67: std::sort of the times. *)
Fixpoint time_insert (e : Q * (nat * nat)) (tl : tally_t) : tally_t :=
  match tl with [] => [e] | e' :: tl' => if Qle_bool (fst e) (fst e') then e :: tl else e' :: time_insert e tl' end.
Definition time_sort (tl : tally_t) : tally_t := fold_right time_insert [] tl.
(** survival_analysis.cpp:69-84: the running sum; times without a death are left out. *)
Fixpoint haz_loop (sum : Q) (at_risk : nat) (tl : tally_t) : list (Q * Q) :=
  match tl with
  | [] => []
  | (t, (c, d)) :: tl' =>
    let sum' := (sum + qn d / qn at_risk)%Q in
    let rest := haz_loop sum' (at_risk - (d + c)) tl' in
    if d =? 0 then rest else (t, sum') :: rest
  end.
(** survival_analysis.cpp:86-88: the step before the first event. *)
Definition haz_table (rows : list srow) : list (Q * Q) :=
  (0%Q, (1 / qn (length rows + 1))%Q) :: haz_loop 0 (length rows) (time_sort (tally rows)).
(** survival_analysis.cpp:90-102: the binary search; [lim] is t + 1e-6. *)
Fixpoint haz_search (fuel : nat) (tb : list (Q * Q)) (lim : Q) (a b : nat) : nat :=
  match fuel with
  | 0 => a
  | S f => if a =? b then a else
           let mid := (a + b + 1) / 2 in
           if Qle_bool (fst (nth mid tb (0, 0)%Q)) lim then haz_search f tb lim mid b else haz_search f tb lim a (mid - 1)
  end.
Definition haz_at (tb : list (Q * Q)) (lim : Q) : Q := snd (nth (haz_search (length tb) tb lim 0 (length tb - 1)) tb (0, 0)%Q).
Definition hazard (rows : list srow) (t : Q) : Q := haz_at (haz_table rows) (t + (1 # 1000000))%Q.

(** survival_analysis.py: the dictionary, in insertion order: the first key is 0, an event at
    time 0 replaces its value. *)
Definition py_table (rows : list srow) : list (Q * Q) :=
  let first := (1 / qn (length rows + 1))%Q in
  match haz_loop 0 (length rows) (time_sort (tally rows)) with
  | (k, v) :: rest => if Qeq_bool k 0 then (0%Q, v) :: rest else (0%Q, first) :: (k, v) :: rest
  | [] => [(0%Q, first)]
  end.
(** survival_analysis.py: f: the exact key, else the binary search. *)
Definition py_hazard (rows : list srow) (t : Q) : Q :=
  match find (fun e => Qeq_bool (fst e) t) (py_table rows) with
  | Some e => snd e
  | None => haz_at (py_table rows) t
  end.
