(** Model of the names of binarised columns and of the conditions that are printed from them.
    Sources: /repo/pystreed/binarizer.py:31-37,87-123,162-233,286-349,
    /repo/pystreed/base.py:386-424, /repo/pystreed/utils.py:46-55.
    Numbers are exact decimals instead of doubles.  The user's table is a data frame; the thresholds
    of a column are given (Model_Binarizer.v models how they are chosen). *)
From Coq Require Import List String Ascii ZArith QArith Bool Arith.
From Verif Require Import Model_Terminal Model_Text Spec_Printed.
Import ListNotations.
Local Open Scope string_scope.

(** Decimal digits: the last [k] digits of [n], and all digits of [n]. *)
Definition digit_char (d : Z) : ascii := ascii_of_nat (48 + Z.to_nat d).
Fixpoint digits (k : nat) (n : Z) : string :=
  match k with O => "" | S k' => digits k' (n / 10) ++ String (digit_char (n mod 10)) "" end.
Fixpoint ndig (fuel : nat) (n : Z) : nat :=
  match fuel with
  | O => 1%nat
  | S f => if (n <? 10)%Z then 1%nat else S (ndig f (n / 10))
  end.
Definition num_digits (n : Z) : nat := ndig (S (Z.to_nat (Z.log2 n))) n.
Definition show (n : Z) : string := digits (num_digits n) n.

(** Python's str of a whole number and of a float.  Simplified: the shortest text of a float is
    positional, which holds for 0 and from 0.0001 up to 10^16. *)
Definition minus (b : bool) (s : string) : string := if b then "-" ++ s else s.
Definition str_int (z : Z) : string := minus (z <? 0)%Z (show (Z.abs z)).
Definition point (k : nat) (n : Z) : string := show (n / 10 ^ Z.of_nat k) ++ "." ++ digits k n.
Definition str_float (x : number) : string :=
  minus (n_neg x) (match n_dec x with O => show (n_dig x) ++ ".0" | k => point k (n_dig x) end).

(** Rounding of a / b to a whole number, halves to even, as Python's formatting does. *)
Definition round_div (a b : Z) : Z :=
  let q := (a / b)%Z in let r := (a mod b)%Z in
  if (2 * r <? b)%Z then q else if (b <? 2 * r)%Z then (q + 1)%Z else if Z.even q then q else (q + 1)%Z.
(** str.rstrip of one character *)
Fixpoint rstrip (c : ascii) (s : string) : string :=
  match s with
  | "" => ""
  | String a r => match rstrip c r with
                  | "" => if Ascii.eqb a c then "" else String a ""
                  | r' => String a r' end
  end.
(** utils.py:54,55: f"{t:.2f}" or f"{t:f}", then rstrip('0').rstrip('.') *)
Definition fixed (k : nat) (x : number) : string :=
  minus (n_neg x) (rstrip "." (rstrip "0" (point k (round_div (n_dig x * 10 ^ Z.of_nat k) (10 ^ Z.of_nat (n_dec x)))))).
(** utils.py:52: f"{t:.2e}": one digit, two decimals and an exponent of at least two digits. *)
Definition show_exp (e : Z) : string :=
  (if (e <? 0)%Z then "e-" else "e+") ++ (if (Z.abs e <? 10)%Z then digits 2 (Z.abs e) else show (Z.abs e)).
Definition scientific (x : number) : string :=
  let nd := num_digits (n_dig x) in
  let e := (Z.of_nat nd - 1 - Z.of_nat (n_dec x))%Z in
  let m := round_div (n_dig x * 100) (10 ^ (Z.of_nat nd - 1)) in
  minus (n_neg x) (if (m =? 1000)%Z then point 2 100 ++ show_exp (e + 1) else point 2 m ++ show_exp e).
(** utils.py:46-55.  log10(abs(t)) >= k is abs(t) >= 10^k. *)
Definition format_float (x : number) : string :=
  let unit := (10 ^ Z.of_nat (n_dec x))%Z in
  if (n_dig x mod unit =? 0)%Z then minus (n_neg x) (show (n_dig x / unit) ++ ".0")
  else if (1000000 * unit <=? n_dig x)%Z || (n_dig x * 10000 <=? unit)%Z then scientific x
  else if (100 * unit <=? n_dig x)%Z then fixed 2 x
  else fixed 6 x.

(** float(text).  Simplified: texts with blanks or underscores, which Python accepts, are refused;
    "inf" and "nan" are refused here because the formatter raises for them.  The result is a
    decimal, given by the digits of the mantissa and the exponent. *)
Definition parse_float (s : string) : option number :=
  let (neg, u) := read_sign s in
  let (m, e) := cut "e" u in
  let (a, f) := cut "." m in
  let f := match f with Some f => f | None => "" end in
  if (String.length a + String.length f =? 0)%nat then None
  else match read_digits 0 (a ++ f) with
       | None => None
       | Some n =>
         match e with
         | None => Some (Nr neg n (String.length f))
         | Some t =>
           let (eneg, ed) := read_sign t in
           match ed with
           | "" => None
           | _ => match read_digits 0 ed with
                  | None => None
                  | Some k =>
                    let x := (Z.of_nat (String.length f) + (if eneg then k else - k))%Z in
                    Some (if (x <? 0)%Z then Nr neg (n * 10 ^ (- x)) 0 else Nr neg n (Z.to_nat x))
                  end
           end
         end
       end.

(** str.split(" <= "): the text up to the first separator and the texts after it.  [skip] counts
    the characters of a separator that are still to be passed. *)
Definition sep : string := " <= ".
Fixpoint pieces (skip : nat) (s : string) : string * list string :=
  match s with
  | "" => ("", [])
  | String c r =>
    match skip with
    | S k => pieces k r
    | O => if String.prefix sep s then let (p, ps) := pieces 3 r in ("", p :: ps)
           else let (p, ps) := pieces 0 r in (String c p, ps)
    end
  end.
(** base.py:386-395: the printed condition, or None when the code raises an error: split gives more
    than two parts, or float refuses the threshold.  [cmp] is the comparator that is printed. *)
Definition predicate_str (cmp : string) (name : string) : option string :=
  match pieces 0 name with
  | (_, []) => Some name
  | (a, [b]) =>
    if (3 <=? String.length b)%nat
    then match parse_float b with Some t => Some (a ++ " " ++ cmp ++ " " ++ format_float t) | None => None end
    else Some (a ++ " " ++ cmp ++ " " ++ b)
  | _ => None
  end.

(** binarizer.py:31-37: _escape of a text; other values are kept. *)
Fixpoint escape (s : string) : string :=
  match s with
  | "" => ""
  | String c r => if Ascii.eqb c "'" then String "\" (String "'" (escape r)) else String c (escape r)
  end.
(** binarizer.py:199-205: a value in a name. *)
Definition show_cell (v : cell) : string :=
  match v with Txt s => "'" ++ escape s ++ "'" | Int z => str_int z | Flt x => str_float x end.
(** binarizer.py:186-189: the value of a two-valued column: the escaped text is only used to see
    whether the value is a text. *)
Definition show_second (v : cell) : string :=
  match v with Txt s => "'" ++ s ++ "'" | _ => show_cell v end.
Fixpoint join (l : list string) : string :=
  match l with [] => "" | [a] => a | a :: r => a ++ "," ++ join r end.

(** One binary column of the result: the column of the user's table it is computed from, its test
    and its name. *)
Inductive test := TBinary | TEqual (v : cell) | TIn (vs : list cell) | TCut (t : number).
Record bcol := BCol { bc_src : nat; bc_test : test; bc_name : string }.
(** binarizer.py:87-123,213-233,335-349: the bit of a row. *)
Definition col_bit (c : bcol) (row : list cell) : bool :=
  match bc_test c with
  | TBinary => cell_eqb (at_ row (bc_src c)) (Int 1)
  | TEqual v => cell_eqb (at_ row (bc_src c)) v
  | TIn vs => existsb (cell_eqb (at_ row (bc_src c))) vs
  | TCut t => cell_le (at_ row (bc_src c)) (value t)
  end.

(** collections.Counter of one column: values by first appearance, and by descending count. *)
Fixpoint distinct_cells (seen col : list cell) : list cell :=
  match col with
  | [] => []
  | x :: r => if existsb (cell_eqb x) seen then distinct_cells seen r else x :: distinct_cells (x :: seen) r
  end.
Definition count (col : list cell) (x : cell) : nat := List.length (filter (cell_eqb x) col).
Fixpoint by_count (c : cell -> nat) (x : cell) (l : list cell) : list cell :=
  match l with [] => [x] | y :: r => if (c y <=? c x)%nat then x :: l else y :: by_count c x r end.
Definition second_common (col : list cell) : cell :=
  nth 1 (fold_right (by_count (count col)) [] (distinct_cells [] col)) (Txt "").
(** binarizer.py:168-206: the tests and names that a categorical column [j] named [nm] gives. *)
Definition cat_columns (n j : nat) (nm : string) (col : list cell) : list bcol :=
  let vs := distinct_cells [] col in
  if (n <=? 1)%nat || (List.length vs <=? 1)%nat then []
  else if (n =? 2)%nat || (List.length vs =? 2)%nat then
    let v := second_common col in [BCol j (TEqual v) (nm ++ " == " ++ show_second v)]
  else
    let one v := BCol j (TEqual v) (nm ++ " == " ++ show_cell v) in
    if (n <? List.length vs)%nat
    then (map one (firstn (n - 1) vs)
         ++ [BCol j (TIn (skipn (n - 1) vs)) (nm ++ " in [" ++ join (map show_cell (skipn (n - 1) vs)) ++ "]")%string])%list
    else map one vs.
(** binarizer.py:324 *)
Definition cut_columns (j : nat) (nm : string) (cuts : list number) : list bcol :=
  map (fun t => BCol j (TCut t) (nm ++ sep ++ str_float t)) cuts.

(** The labels of a data frame; None is a label that is not a text. *)
Definition all_text (labels : list (option string)) (js : list nat) : bool :=
  forallb (fun j => match nth j labels None with Some _ => true | None => false end) js.
Definition label (labels : list (option string)) (j : nat) : string :=
  match nth j labels None with Some s => s | None => "" end.
(** binarizer.py:170-173,292-295: the name of the [i]-th column of a part: scikit-learn sets
    feature_names_in_ only when all labels of the part are texts.  Parts with labels of both kinds
    (refused by newer versions of scikit-learn) count as having none. *)
Definition part_name (labels : list (option string)) (js : list nat) (i : nat) : string :=
  if all_text labels js then label labels (nth i js 0%nat) else "Feature " ++ dec (i + 1).
(** binarizer.py:107-109: binary columns are renamed one by one. *)
Definition binary_name (labels : list (option string)) (js : list nat) (i : nat) : string :=
  match nth (nth i js 0%nat) labels None with Some s => s | None => "Binary Feature " ++ dec (i + 1) end.
(** binarizer.py:60-123: the columns of the binarised frame: the binary ones, the categories and the
    thresholds. *)
Definition frame_columns (labels : list (option string)) (n : nat) (rows : list (list cell))
    (bins cats : list nat) (cuts : list (nat * list number)) : list bcol :=
  (map (fun i => BCol (nth i bins 0%nat) TBinary (binary_name labels bins i)) (seq 0 (List.length bins))
  ++ flat_map (fun i => cat_columns n (nth i cats 0%nat) (part_name labels cats i) (map (fun r => at_ r (nth i cats 0%nat)) rows)) (seq 0 (List.length cats))
  ++ flat_map (fun i => cut_columns (fst (nth i cuts (0%nat, []))) (part_name labels (map fst cuts) i) (snd (nth i cuts (0%nat, [])))) (seq 0 (List.length cuts)))%list.

(** base.py:408-424: the condition printed for feature [f] of the tree, the names being
    feature_names_in_. *)
Definition printed (cols : list bcol) (f : nat) : option string :=
  match nth_error cols f with Some c => predicate_str "<=" (bc_name c) | None => None end.
(** The bits of a row. *)
Definition bits (cols : list bcol) (row : list cell) : list nat := map (fun c => if col_bit c row then 1 else 0)%nat cols.
