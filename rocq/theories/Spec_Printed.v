(** What a printed condition says about a row of the user's table, stated without the code.

    A cell holds a whole number, a decimal number or a text.  [says nm text c] relates the text of
    a condition to its meaning, [nm] being the names of the columns of the table. *)
From Coq Require Import List String Ascii ZArith QArith Qabs Bool Arith.
From Verif Require Import Model_Terminal.
Import ListNotations.
Local Open Scope string_scope.

(** The number (-1)^neg * dig / 10^dec. *)
Record number := Nr { n_neg : bool; n_dig : Z; n_dec : nat }.
Definition p10 (k : nat) : Q := inject_Z (10 ^ Z.of_nat k).
Definition signed (b : bool) (q : Q) : Q := if b then (- q)%Q else q.
Definition value (x : number) : Q := signed (n_neg x) (inject_Z (n_dig x) / p10 (n_dec x))%Q.
Inductive cell := Int (z : Z) | Flt (x : number) | Txt (s : string).
Definition cell_eqb (a b : cell) : bool :=
  match a, b with
  | Txt s, Txt t => String.eqb s t
  | Txt _, _ | _, Txt _ => false
  | Int x, Int y => Z.eqb x y
  | Int x, Flt y => Qeq_bool (inject_Z x) (value y)
  | Flt x, Int y => Qeq_bool (value x) (inject_Z y)
  | Flt x, Flt y => Qeq_bool (value x) (value y)
  end.
(** A text has no order; it is at most no number. *)
Definition cell_le (a : cell) (u : Q) : bool :=
  match a with Int z => Qle_bool (inject_Z z) u | Flt x => Qle_bool (value x) u | Txt _ => false end.

(** Reading a decimal text: digits, a point, digits, and an exponent. *)
Definition digit_of (c : ascii) : option Z :=
  let n := nat_of_ascii c in
  if (48 <=? n)%nat && (n <=? 57)%nat then Some (Z.of_nat (n - 48)) else None.
Fixpoint read_digits (acc : Z) (s : string) : option Z :=
  match s with
  | "" => Some acc
  | String c r => match digit_of c with Some d => read_digits (acc * 10 + d) r | None => None end
  end.
(** The text before and after the first [c]. *)
Fixpoint cut (c : ascii) (s : string) : string * option string :=
  match s with
  | "" => ("", None)
  | String a r => if Ascii.eqb a c then ("", Some r) else let (x, y) := cut c r in (String a x, y)
  end.
Definition read_unsigned (s : string) : option Q :=
  match s with
  | "" => None
  | _ => let (a, b) := cut "." s in
         match b with
         | None => match read_digits 0 a with Some n => Some (inject_Z n) | None => None end
         | Some f =>
           if (String.length a + String.length f =? 0)%nat then None
           else match read_digits 0 (a ++ f) with
                | Some n => Some (inject_Z n / p10 (String.length f))%Q | None => None end
         end
  end.
Definition read_sign (s : string) : bool * string :=
  match s with
  | String c r => if Ascii.eqb c "-" then (true, r) else if Ascii.eqb c "+" then (false, r) else (false, s)
  | "" => (false, s)
  end.
Definition read_number (s : string) : option Q :=
  let (neg, u) := read_sign s in
  let (m, e) := cut "e" u in
  match read_unsigned m with
  | None => None
  | Some q =>
    match e with
    | None => Some (signed neg q)
    | Some t =>
      let (eneg, ed) := read_sign t in
      match ed with
      | "" => None
      | _ => match read_digits 0 ed with
             | Some k => Some (signed neg (if eneg then q / p10 (Z.to_nat k) else q * p10 (Z.to_nat k)))%Q
             | None => None
             end
      end
    end
  end.

(** A text between quotes, every quote in it being preceded by a backslash. *)
Fixpoint escaped (s : string) : string :=
  match s with
  | "" => ""
  | String c r => if Ascii.eqb c "'" then String "\" (String "'" (escaped r)) else String c (escaped r)
  end.
Inductive cell_text : string -> cell -> Prop :=
| ct_txt s : cell_text ("'" ++ escaped s ++ "'") (Txt s)
| ct_int t z q : read_number t = Some q -> q == inject_Z z -> cell_text t (Int z)
| ct_flt t x q : read_number t = Some q -> q == value x -> cell_text t (Flt x).
Inductive list_text : string -> list cell -> Prop :=
| lt_one t v : cell_text t v -> list_text t [v]
| lt_more t v u vs : cell_text t v -> list_text u vs -> list_text (t ++ "," ++ u) (v :: vs).

(** Conditions on the columns of the user's table. *)
Inductive cond := IsOne (j : nat) | IsValue (j : nat) (v : cell) | IsIn (j : nat) (vs : list cell) | AtMost (j : nat) (u : Q).
Definition at_ (row : list cell) (j : nat) : cell := nth j row (Txt "").
Definition holds (row : list cell) (c : cond) : bool :=
  match c with
  | IsOne j => cell_eqb (at_ row j) (Int 1)
  | IsValue j v => cell_eqb (at_ row j) v
  | IsIn j vs => existsb (cell_eqb (at_ row j)) vs
  | AtMost j u => cell_le (at_ row j) u
  end.
Inductive says (nm : nat -> string) : string -> cond -> Prop :=
| s_one j : says nm (nm j) (IsOne j)
| s_value j t v : cell_text t v -> says nm (nm j ++ " == " ++ t) (IsValue j v)
| s_in j t vs : list_text t vs -> says nm (nm j ++ " in [" ++ t ++ "]") (IsIn j vs)
| s_most j t u : read_number t = Some u -> says nm (nm j ++ " <= " ++ t) (AtMost j u).

(** The character occurs in the text. *)
Fixpoint has (c : ascii) (s : string) : bool :=
  match s with "" => false | String a r => Ascii.eqb a c || has c r end.
(** What is printed and what is tested differ at most in a threshold, by at most half a percent. *)
Definition close (shown tested : cond) : Prop :=
  shown = tested \/ exists j u t, shown = AtMost j u /\ tested = AtMost j t /\ (Qabs (u - t) <= Qabs t / 200)%Q.
(** The value of the row lies between the printed and the tested threshold. *)
Definition cell_value (c : cell) : option Q := match c with Int z => Some (inject_Z z) | Flt x => Some (value x) | Txt _ => None end.
Definition between (row : list cell) (shown tested : cond) : Prop :=
  exists j u t q, shown = AtMost j u /\ tested = AtMost j t /\ cell_value (at_ row j) = Some q /\ ((u < q /\ q <= t) \/ (t < q /\ q <= u))%Q.
(** A reader of the printed tree goes on below "satisfied" when the condition holds. *)
Fixpoint follow (shown : nat -> cond) (row : list cell) (t : tree) : nat :=
  match t with
  | Leaf l => l
  | Split f l r => if holds row (shown f) then follow shown row r else follow shown row l
  end.
Fixpoint features_below (w : nat) (t : tree) : Prop :=
  match t with Leaf _ => True | Split f l r => (f < w)%nat /\ features_below w l /\ features_below w r end.
