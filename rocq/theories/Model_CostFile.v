(** Model of the cost file, of the score of cost-sensitive trees and of the reads in the cost
    tables.
    Sources: /repo/src/tasks/cost_sensitive.cpp, /repo/include/tasks/cost_sensitive.h. *)
From Coq Require Import List Arith Bool ZArith QArith Ascii.
From Verif Require Import Base_Q Model_FeatureVector Model_Data Model_Terminal Model_FileReader Model_CostSensitive.
Import ListNotations.
Local Open Scope list_scope.
Local Open Scope nat_scope.

(** * Reading with operator>> *)
(** A stream: whether it is good, and the rest of the line. *)
Definition stream : Type := bool * text.
(** num_get for double: a sign, digits, a point and digits.  Simplification: no exponents, no
    hexadecimal numbers, and the value is exact. *)
Definition read_dec (s : text) : option (Q * text) :=
  let '(neg, s) := match s with
                   | c :: r => if Ascii.eqb c "-"%char then (true, r) else if Ascii.eqb c "+"%char then (false, r) else (false, s)
                   | [] => (false, s) end in
  let '(a, r) := read_digits 0 s in
  let '(b, r', k, j) := match r with
                  | c :: r1 => if Ascii.eqb c "."%char then let '(b, r2) := read_digits a r1 in (b, r2, length r1 - length r2, 1) else (a, r, 0, 0)
                  | [] => (a, r, 0, 0) end in
  if length s - length r' =? j then None
  else let q := (inject_Z (Z.of_N b) / inject_Z (10 ^ Z.of_nat k))%Q in Some (if neg then (- q)%Q else q, r').
(** cost_sensitive.cpp:27, 42-43: operator>> into a double.  A stream that is not good, and one at
    its end, leave the variable alone; text that is no number stores 0. *)
Definition take_num (st : stream) (old : option Q) : stream * option Q :=
  if fst st then match skip_ws (snd st) with
                 | [] => ((false, []), old)
                 | s => match read_dec s with Some (q, r) => ((true, r), Some q) | None => ((false, s), Some 0%Q) end
                 end
  else (st, old).
(** operator>> into an int (numbers out of range: simplification, 0). *)
Definition take_int (st : stream) (old : option Z) : stream * option Z :=
  if fst st then match skip_ws (snd st) with
                 | [] => ((false, []), old)
                 | s => match read_int s with Some (z, r) => ((true, r), Some z) | None => ((false, s), Some 0%Z) end
                 end
  else (st, old).
(** operator>> into a string: up to the next white space. *)
Fixpoint split_word (s : text) : text * text :=
  match s with [] => ([], []) | c :: r => if is_space c then ([], s) else let '(w, r') := split_word r in (c :: w, r') end.
Definition take_word (st : stream) (old : text) : stream * text :=
  if fst st then match skip_ws (snd st) with
                 | [] => ((false, []), old)
                 | s => let '(w, r) := split_word s in ((true, r), w)
                 end
  else (st, old).

(** * The cost file *)
(** cost_sensitive.cpp:24-30: one row of the matrix; [temp] has no value before the first read. *)
Fixpoint read_costs_row (k : nat) (st : stream) (temp : option Q) : list (option Q) :=
  match k with
  | 0 => []
  | S k' => let '(st, temp) := take_num st temp in temp :: read_costs_row k' st temp
  end.
(** cost_sensitive.cpp:34-47: one original feature; [None]: a variable without value. *)
Record fline := FLine { fl_cost : option Q; fl_disc : option Q; fl_group : text; fl_lo : option Z; fl_hi : option Z }.
Definition read_fline (line : text) : fline :=
  let st := (true, line) in
  let '(st, _) := take_word st [] in
  let '(st, c) := take_num st None in
  let '(st, d) := take_num st None in
  let '(st, g) := take_word st [] in
  let '(st, lo) := take_int st None in
  let '(_, hi) := take_int st None in
  FLine c d g lo hi.
(** cost_sensitive.cpp:14-51: the lines before the header are rows of the matrix (rows without a
    line keep their zeros), those behind it are features. *)
Definition read_costs (n : nat) (file : text) : list (list (option Q)) * list fline :=
  let ls := lines file in
  (map (fun i => match nth_error ls i with Some l => read_costs_row n (true, l) None | None => repeat (Some 0%Q) n end) (seq 0 n),
   map read_fline (skipn (S n) ls)).

(** * The score *)
(** cost_sensitive.cpp:163-169: ComputeScore.  [counts]: instances_per_class.  [None]: a division
    by zero (the result is infinite or not a number). *)
Definition cs_score (value total_test max_mis : Z) (counts : list nat) : option Q :=
  let n := fold_right Nat.add 0 counts in
  let avg := (inject_Z value / qn n)%Q in
  let inv := (1 - qn (fold_right Nat.max 0%nat counts) / qn n)%Q in
  let standard := (inject_Z total_test + inv * inject_Z max_mis)%Q in
  if Qeq_bool standard 0 then None else Some (avg / standard)%Q.
(** data.h:232-244: the number of instances of every class. *)
Definition class_counts (nl : nat) (rows : list (list nat * nat)) : list nat :=
  map (fun k => length (filter (fun p => snd p =? k) rows)) (seq 0 nl).

(** * Reads in the tables *)
(** cost_sensitive.cpp:149-161 with the places that are read: [None]: behind the end of a
    table. *)
Fixpoint charge_loop (tbl : list bool) (n : nat) (feature : nat) (b : branch) : option bool :=
  match b with
  | [] => Some false
  | c :: b' => match nth_error tbl (c / 2 * n + feature) with
               | None => None
               | Some true => Some true
               | Some false => charge_loop tbl n feature b'
               end
  end.
Definition charge_read (t : tables) (b : branch) (feature : nat) : option Z :=
  match charge_loop (tb_bin t) (num_features t) feature b with
  | None => None
  | Some true => Some 0%Z
  | Some false => match charge_loop (tb_group t) (num_features t) feature b with
                  | None => None
                  | Some true => nth_error (tb_disc t) feature
                  | Some false => nth_error (tb_cost t) feature
                  end
  end.
