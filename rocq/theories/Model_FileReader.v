(** Model of reading data files, character by character.
    Source: /repo/src/utils/file_reader.cpp (release build: runtime_assert is empty,
    /repo/include/base.h:31-35). *)
From Coq Require Import List Arith Bool ZArith Ascii.
From Verif Require Import Model_FeatureVector Model_Data Model_Params.
Import ListNotations.
Local Open Scope nat_scope.

Definition text := list ascii.
Definition nl : ascii := "010"%char.

(** std::getline on a file: the lines without their newline; the last one may lack it. *)
Fixpoint lines (s : text) : list text :=
  match s with
  | [] => []
  | c :: r => if Ascii.eqb c nl then [] :: lines r
              else match lines r with [] => [[c]] | l :: ls => (c :: l) :: ls end
  end.

(** isspace in the C locale, and the characters skipped by operator>>. *)
Definition is_space (c : ascii) : bool := let n := nat_of_ascii c in (n =? 32) || ((9 <=? n) && (n <=? 13)).
Fixpoint skip_ws (s : text) : text := match s with c :: r => if is_space c then skip_ws r else s | [] => [] end.

Definition is_digit (c : ascii) : bool := let n := nat_of_ascii c in (48 <=? n) && (n <=? 57).
Definition digit_value (c : ascii) : N := N.of_nat (nat_of_ascii c - 48).
Fixpoint read_digits (acc : N) (s : text) : N * text :=
  match s with
  | c :: r => if is_digit c then read_digits (10 * acc + digit_value c)%N r else (acc, s)
  | [] => (acc, [])
  end.
(** operator>> for integers (num_get, decimal): skip white space, an optional sign, digits.
    [None]: the extraction fails. *)
Definition read_number (s : text) : option (bool * N * text) :=
  let s := skip_ws s in
  let '(neg, s) := match s with
                   | c :: r => if Ascii.eqb c "-"%char then (true, r) else if Ascii.eqb c "+"%char then (false, r) else (false, s)
                   | [] => (false, s) end in
  match s with
  | c :: _ => if is_digit c then let '(n, r) := read_digits 0 s in Some (neg, n, r) else None
  | [] => None
  end.
(** operator>> into an int; out of range fails. *)
Definition read_int (s : text) : option (Z * text) :=
  match read_number s with
  | Some (neg, n, r) =>
    let z := if neg then (- Z.of_N n)%Z else Z.of_N n in
    if ((- 2 ^ 31 <=? z) && (z <? 2 ^ 31))%Z then Some (z, r) else None
  | None => None
  end.

(** file_reader.cpp:137-146: one feature value: operator>> into an uint32_t.  [Undef]: the
    extraction fails at the end of the line, the variable has no value.  Simplification: any
    failing extraction is [Undef]. *)
Definition read_bit (s : text) : out (bool * text) :=
  match read_number s with
  | None => Undef
  | Some (neg, n, r) =>
    if (2 ^ 32 <=? n)%N then Exit
    else let n := if neg then ((2 ^ 32 - n) mod 2 ^ 32)%N else n in
         if (n =? 0)%N then Ok (false, r) else if (n =? 1)%N then Ok (true, r) else Exit
  end.
Fixpoint read_bits (k : nat) (s : text) : out (list bool) :=
  match k with
  | 0 => Ok []
  | S k' => bind (read_bit s) (fun p => bind (read_bits k' (snd p)) (fun l => Ok (fst p :: l)))
  end.

(** Numbers that may be INT32_MAX ("no limit"). *)
Definition limit (a : option nat) (k : nat) : nat := match a with Some m => Nat.min m k | None => k end.

(** An instance read from a file: id, label, extra data, features. *)
Record frow (L E : Type) := FRow { fr_id : nat; fr_label : L; fr_extra : E; fr_bits : list bool }.
Arguments FRow {L E}. Arguments fr_id {L E}. Arguments fr_label {L E}. Arguments fr_extra {L E}. Arguments fr_bits {L E}.

Section Reader.
  (** [rd_label]: operator>> for the label type; [rd_extra]: ET::ReadData. *)
  Context {L E : Type} (rd_label : text -> option (L * text)) (rd_extra : text -> option (E * text)).
  Notation frow := (frow L E).

  (** file_reader.cpp:121-146: one line.  [nf]: num_features; [maxf]: max_num_features; [cap]:
      data.NumFeatures().  std::getline(iss, line) gives the rest of the line.
      Simplification: a failing label or extra value is [Undef]. *)
  Definition read_line (nf maxf cap : option nat) (line : text) : out (L * E * list bool * nat) :=
    match rd_label line with
    | None => Undef
    | Some (l, s) =>
      match rd_extra s with
      | None => Undef
      | Some (e, s) =>
        let nf := limit maxf (match nf with Some m => m | None => length s / 2 end) in
        bind (read_bits nf s) (fun v =>
        Ok (l, e, map (fun p => snd p && (match cap with Some c => fst p <? c | None => true end)) (combine (seq 0 nf) v), nf))
      end
    end.

  (** file_reader.cpp:148-154: the copies of one line; the flag: the limit is reached. *)
  Fixpoint add_copies (dup : nat) (num : option nat) (init id : nat) (l : L) (e : E) (v : list bool) : list frow * nat * bool :=
    match dup with
    | 0 => ([], id, match num with Some n => n <=? id - init | None => false end)
    | S dup' =>
      let stop := match num with Some n => n <=? S id - init | None => false end in
      if stop then ([FRow id l e v], S id, true)
      else let '(xs, id', stop) := add_copies dup' num init (S id) l e v in (FRow id l e v :: xs, id', stop)
    end.

  (** file_reader.cpp:113-155: the loop over the lines.  [pick]: None when all lines are
      included, else the sorted indices that were drawn, from indices_no on.  [Undef]: it is
      read behind its end. *)
  Fixpoint read_lines (dup : nat) (num maxf cap : option nat) (init : nat) (pick : option (list nat)) (line_no id : nat) (nf : option nat) (ls : list text) : out (list frow * option nat) :=
    match ls with
    | [] => Ok ([], nf)
    | line :: ls' =>
      let take (pick' : option (list nat)) :=
        bind (read_line nf maxf cap line) (fun q =>
        let '(l, e, v, nf') := q in
        let '(xs, id', stop) := add_copies dup num init id l e v in
        if stop then Ok (xs, Some nf')
        else bind (read_lines dup num maxf cap init pick' (S line_no) id' (Some nf') ls') (fun p => Ok (xs ++ fst p, snd p))) in
      match pick with
      | None => take None
      | Some [] => Undef
      | Some (k :: pick') => if line_no =? k then take (Some pick')
                             else read_lines dup num maxf cap init pick (S line_no) id nf ls'
      end
    end.

  (** file_reader.cpp:79-158: ReadFromFile.  [draw n a]: the sorted indices when [n] of [a]
      lines are drawn (shuffle, resize, sort).  Result: the new instances and the number of
      features of the data. *)
  Definition read_file (draw : nat -> nat -> list nat) (dup : nat) (num maxf cap : option nat) (init : nat) (s : text) : out (list frow * option nat) :=
    let ls := lines s in
    let pick := match num with
                | None => None
                | Some n => if length ls <? n then None else Some (draw n (length ls))
                end in
    bind (read_lines dup num maxf cap init pick 0 init None ls) (fun p =>
    Ok (fst p, match snd p with Some m => Some (limit cap m) | None => cap end)).

  (** file_reader.cpp:57-77: FillDataView.  [lab]: None for regression.  A label -1 clears the
      vector and is then used as an index; a smaller label makes resize throw. *)
  Fixpoint push_row (k : nat) (x : frow) (v : list (list frow)) : list (list frow) :=
    match k, v with
    | 0, [] => [[x]]
    | 0, g :: v' => (g ++ [x]) :: v'
    | S k', [] => [] :: push_row k' x []
    | S k', g :: v' => g :: push_row k' x v'
    end.
  Definition fill_step (lab : option (L -> Z)) (o : out (list (list frow))) (x : frow) : out (list (list frow)) :=
    bind o (fun v =>
    match lab with
    | None => Ok (push_row 0 x v)
    | Some f => let z := f (fr_label x) in
                if (z =? -1)%Z then Undef else if (z <? 0)%Z then Exit else Ok (push_row (Z.to_nat z) x v)
    end).
  Definition fill_view (lab : option (L -> Z)) (data : list frow) (start stop : nat) : out (list (list frow)) :=
    fold_left (fill_step lab) (filter (fun x => negb (fr_id x <? start) && negb (stop <=? fr_id x)) data)
              (Ok (match lab with None => [[]] | Some _ => [] end)).

  (** file_reader.cpp:10-25: CopyTrainData: the copies get new ids, in the order of the view. *)
  Fixpoint copy_group (id : nat) (g : list frow) : list frow :=
    match g with [] => [] | x :: g' => FRow id (fr_label x) (fr_extra x) (fr_bits x) :: copy_group (S id) g' end.
  Fixpoint copy_view (id : nat) (v : list (list frow)) : list (list frow) :=
    match v with [] => [] | g :: v' => copy_group id g :: copy_view (id + length g) v' end.

  (** file_reader.cpp:28-55: ReadData with a test file ([test] = Some contents), or without
      test file and without a train-test split (which is modelled in Model_Splits).  Result:
      the two views and the number of features. *)
  Definition read_data (draw : nat -> nat -> list nat) (lab : option (L -> Z)) (dup : nat) (num maxf : option nat) (train : text) (test : option text) : out (list (list frow) * list (list frow) * option nat) :=
    bind (read_file draw dup num maxf None 0 train) (fun p =>
    let size := length (fst p) in
    match test with
    | Some t =>
      bind (read_file draw 1 None maxf (snd p) size t) (fun q =>
      let data := fst p ++ fst q in
      bind (fill_view lab data 0 size) (fun tr =>
      bind (fill_view lab data (length (concat tr)) (length data)) (fun te => Ok (tr, te, snd q))))
    | None => bind (fill_view lab (fst p) 0 size) (fun tr => Ok (tr, copy_view size tr, snd p))
    end).
End Reader.

(** Accuracy and the other tasks with integer labels and without extra data. *)
Definition no_extra (s : text) : option (unit * text) := Some (tt, s).
Definition read_data_int := read_data read_int no_extra.
