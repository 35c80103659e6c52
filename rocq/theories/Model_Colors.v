(** Model of the colours in exported trees.
    Sources: /repo/pystreed/utils.py, /repo/pystreed/classification.py,
    /repo/pystreed/cost_sensitive_classification.py, /repo/pystreed/group_fair.py,
    /repo/pystreed/prescriptive_policy_generation.py,
    /repo/pystreed/instance_cost_sensitive_classification.py, /repo/pystreed/base.py.
    Simplification: floats are rationals. *)
From Coq Require Import List Arith Bool ZArith QArith Qround Qabs Ascii String.
From Verif Require Import Base_Q Model_SimpleLinear.
Import ListNotations.
Local Open Scope nat_scope.

Definition colour : Type := Z * Z * Z.

(** utils.py:25: np.arange(25, 385, 360.0 / n).astype(int): n hues from 25 on, cut to integers. *)
Definition hue (n i : nat) : Z := Qfloor (25 + qn i * (360 / qn n)).
Definition hues (n : nat) : list Z := map (hue n) (seq 0 n).
(** utils.py:20-23: saturation, value, chroma and shift. *)
Definition chroma : Q := (75 # 100) * (9 # 10).
Definition shift : Q := (9 # 10) - chroma.
(** utils.py:27-28: x = c * (1 - abs((h_bar % 2) - 1)) with h_bar = h / 60. *)
Definition second (h : Z) : Q :=
  let hb := (inject_Z h / 60)%Q in
  let md := (hb - 2 * inject_Z (Qfloor (hb / 2)))%Q in
  (chroma * (1 - Qabs (md - 1)))%Q.
(** utils.py:30-40: the row of the table for int(h_bar); all rows the table has are read for
    hues from 0 to 419. *)
Definition table (h : Z) : Q * Q * Q :=
  let c := chroma in let x := second h in
  nth (Z.to_nat (h / 60)) [(c, x, 0); (x, c, 0); (0, c, x); (0, x, c); (x, 0, c); (c, 0, x); (c, x, 0)]%Q (0, 0, 0)%Q.
(** utils.py:41-42: int(255 * (r + m)); the values are not negative. *)
Definition level (r : Q) : Z := Qfloor (255 * (r + shift)).
Definition hue_colour (h : Z) : colour := let '(r, g, b) := table h in (level r, level g, level b).
(** utils.py:4-45: _color_brew. *)
Definition color_brew (n : nat) : list colour := map hue_colour (hues n).

(** Python's format "x": lower case hexadecimal digits. *)
Definition hex_digit (z : Z) : ascii :=
  nth (Z.to_nat z) ["0"; "1"; "2"; "3"; "4"; "5"; "6"; "7"; "8"; "9"; "a"; "b"; "c"; "d"; "e"; "f"]%char "?"%char.
(** Formats of numbers from 0 to 255 with two places; [fillc] fills an unused first place.
    Other numbers have no two places: longer or with a sign; here they give "?" (only numbers in
    the range are shown to occur). *)
Definition hex2 (fillc : ascii) (z : Z) : string :=
  if (z <? 0)%Z || (255 <? z)%Z then String "?"%char EmptyString
  else String (if (z <? 16)%Z then fillc else hex_digit (z / 16)) (String (hex_digit (z mod 16)) EmptyString).
Definition hex3 (fillc : ascii) (c : colour) : string :=
  let '(r, g, b) := c in String "#"%char (append (hex2 fillc r) (append (hex2 fillc g) (hex2 fillc b))).
(** base.py:448: "#{:02x}{:02x}{:02x}": filled with zeros. *)
Definition code02 (c : colour) : string := hex3 "0"%char c.
(** instance_cost_sensitive_classification.py:192: "#%2x%2x%2x": filled with blanks. *)
Definition code2 (c : colour) : string := hex3 " "%char c.
(** base.py:449: int(0.4 * c). *)
Definition darker (c : colour) : colour := let d z := Qfloor ((4 # 10) * inject_Z z) in let '(r, g, b) := c in (d r, d g, d b).

(** The state of an estimator that matters: n_classes_ ([None] before the first fit) and the
    stored palette. *)
Record palette_state := PS { ps_classes : option nat; ps_colors : option (list colour) }.
(** A new estimator. *)
Definition ps_new : palette_state := PS None None.
(** classification.py:122-123, cost_sensitive_classification.py:89, group_fair.py:128: a fit
    counts the distinct labels.  The stored palette stays. *)
Definition ps_fit (y : list nat) (s : palette_state) : palette_state := PS (Some (List.length (nodup Nat.eq_dec y))) (ps_colors s).
(** classification.py:172-176, cost_sensitive_classification.py:93-97, group_fair.py:163-167,
    prescriptive_policy_generation.py:207-211: the palette is made at the first leaf that is
    exported; then the colour of the label is read.  [None]: IndexError. *)
Definition ps_palette (s : palette_state) (n : nat) : list colour := match ps_colors s with Some p => p | None => color_brew n end.
Definition leaf_codes (p : list colour) (label : nat) : option (string * string) :=
  option_map (fun c => (code02 c, code02 (darker c))) (nth_error p label).
(** base.py:424-477: the leaves of the tree one after the other; [None]: an exception.  At least
    one leaf is exported, so that the palette is stored (also when the label is not found).
    base.py:432: without a fit there is an exception. *)
Fixpoint codes_of (p : list colour) (labels : list nat) : option (list (string * string)) :=
  match labels with
  | [] => Some []
  | l :: ls => match leaf_codes p l, codes_of p ls with Some c, Some cs => Some (c :: cs) | _, _ => None end
  end.
Definition ps_export (s : palette_state) (labels : list nat) : option (list (string * string)) * palette_state :=
  match ps_classes s with
  | None => (None, s)
  | Some n => (codes_of (ps_palette s n) labels, PS (Some n) (Some (ps_palette s n)))
  end.
(** A history of fits (with the labels of the training data) and exports (of trees with the
    given labels in the leaves). *)
Inductive ps_op := OpFit (y : list nat) | OpExport (labels : list nat).
Fixpoint ps_run (ops : list ps_op) (s : palette_state) : palette_state :=
  match ops with
  | [] => s
  | OpFit y :: ops' => ps_run ops' (ps_fit y s)
  | OpExport ls :: ops' => ps_run ops' (snd (ps_export s ls))
  end.

(** numpy's argmin and Python's sorted (the order of equal numbers makes no difference). *)
Fixpoint argmin_from (best : nat) (bv : Q) (i : nat) (l : list Q) : nat :=
  match l with [] => best | x :: l' => if qlt x bv then argmin_from i x (S i) l' else argmin_from best bv (S i) l' end.
Definition argmin (l : list Q) : nat := match l with [] => 0 | x :: l' => argmin_from 0 x 1 l' end.
Fixpoint sorted_insert (x : Q) (l : list Q) : list Q := match l with [] => [x] | y :: l' => if qlt y x then y :: sorted_insert x l' else x :: l end.
Definition sorted (l : list Q) : list Q := fold_right sorted_insert [] l.
(** Python's round(x, 0): the nearest integer, the even one of two. *)
Definition round_even (x : Q) : Z :=
  let f := Qfloor x in
  let d := (x - inject_Z f)%Q in
  if qlt d (1 # 2) then f else if qlt (1 # 2) d then (f + 1)%Z else if Z.even f then f else (f + 1)%Z.
(** instance_cost_sensitive_classification.py:181-190: how strong the colour is; [None]:
    IndexError (only one class). *)
Definition strength (costs : list Q) : option Q :=
  let best := nth (argmin costs) costs 0%Q in
  if qlt best ((1 # 100) * fold_left Qplus costs 0)%Q then Some 0%Q
  else match nth_error (sorted costs) 1 with
       | None => None
       | Some s1 => if qlt s1 (1 # 100) then Some 0%Q else Some ((s1 - nth 0 (sorted costs) 0) / s1)%Q
       end.
Definition mix (alpha : Q) (c : colour) : colour :=
  let m z := round_even (alpha * inject_Z z + (1 - alpha) * 255) in let '(r, g, b) := c in (m r, m g, m b).
(** instance_cost_sensitive_classification.py:177-192: _get_branching_color with a fresh palette;
    [costs]: the mean costs of the classes. *)
Definition branching_color (costs : list Q) : option string :=
  match nth_error (color_brew (List.length costs)) (argmin costs), strength costs with
  | Some c, Some alpha => Some (code2 (mix alpha c))
  | _, _ => None
  end.
