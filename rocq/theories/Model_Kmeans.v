(** Model of the one-dimensional clustering behind the k-means bound of cost-complex regression.
    Sources: /repo/src/tasks/regression/ckmeans/Ckmeans.1d.dp.cpp:305-389,
    /repo/src/tasks/regression/ckmeans/fill_log_linear.cpp,
    /repo/src/tasks/regression/ckmeans/fill_SMAWK.cpp,
    /repo/include/tasks/regression/ckmeans/within_cluster.h:36-69,
    /repo/include/tasks/regression/ckmeans/precision.h.
    Simplification: exact rationals instead of doubles.  Vectors are functions from indices. *)
From Coq Require Import List Arith Bool QArith.
From Verif Require Import Base_Q.
Import ListNotations.
Local Open Scope nat_scope.

Definition upd {A} (f : nat -> A) (i : nat) (x : A) : nat -> A := fun k => if k =? i then x else f k.
Definition qlt (a b : Q) : bool := negb (Qle_bool b a).

(** Ckmeans.1d.dp.cpp:341-364: running sums. *)
Fixpoint run (g : nat -> Q) (i : nat) : Q := match i with 0 => g 0 | S i' => (run g i' + g i)%Q end.

Section Data.
  (** Weights and values of the sorted points (WeightValuePair), [N] points. *)
  Context (wt xv : nat -> Q) (N : nat).

  (** Ckmeans.1d.dp.cpp:326-331. *)
  Definition shift : Q := xv (N / 2).
  Definition equally_weighted : bool := Qeq_bool (wt 0) 0.
  (** Ckmeans.1d.dp.cpp:332-358: sum_x, sum_x_sq and sum_w. *)
  Definition sum_x : nat -> Q := run (fun i => if equally_weighted then (xv i - shift)%Q else (wt i * (xv i - shift))%Q).
  Definition sum_x_sq : nat -> Q :=
    run (fun i => if equally_weighted then ((xv i - shift) * (xv i - shift))%Q else (wt i * (xv i - shift) * (xv i - shift))%Q).
  Definition sum_w : nat -> Q := run (fun i => if equally_weighted then 0%Q else wt i).

  (** within_cluster.h:36-69: ssq, unequally weighted version (sum_w is never an empty vector
      here). *)
  Definition ssq (j i : nat) : Q :=
    let s := if Qle_bool (sum_w i) (sum_w j) then 0%Q
             else if 0 <? j
             then let mu := ((sum_x i - sum_x (j - 1)%nat) / (sum_w i - sum_w (j - 1)%nat))%Q in
                  (sum_x_sq i - sum_x_sq (j - 1)%nat - (sum_w i - sum_w (j - 1)%nat) * mu * mu)%Q
             else (sum_x_sq i - sum_x i * sum_x i / sum_w i)%Q in
    if qlt s 0 then 0%Q else s.

  (** A row of the matrices S and J. *)
  Definition krow := ((nat -> Q) * (nat -> nat))%type.

  (** fill_log_linear.cpp:76-105: the loop over j, downwards from [j]; the pair is S[q][i],
      J[q][i]. *)
  Fixpoint scan (Sp : nat -> Q) (i j jlow : nat) (best : Q * nat) : Q * nat :=
    if j <? jlow then best
    else
      let sji := ssq j i in
      if Qle_bool (fst best) (sji + Sp (jlow - 1)%nat) then best
      else
        let low := (ssq jlow i + Sp (jlow - 1)%nat)%Q in
        let best := if qlt low (fst best) then (low, jlow) else best in
        let cur := (sji + Sp (j - 1)%nat)%Q in
        let best := if qlt cur (fst best) then (cur, j) else best in
        match j with 0 => best | S j' => scan Sp i j' (S jlow) best end.

  (** fill_log_linear.cpp:30-127: fill_row_q_log_linear.  [fuel] bounds the recursion; it is
      never exhausted when larger than the number of positions. *)
  Fixpoint fill_ll (fuel : nat) (prev : krow) (q imin imax jmin jmax : nat) (row : krow) : krow :=
    match fuel with
    | 0 => row
    | S fuel =>
      if imax <? imin then row
      else
        let i := (imin + imax) / 2 in
        let jlow := Nat.max (if q <? imin then Nat.max q jmin else q) (snd prev i) in
        let jhigh := if imax <? N - 1 then Nat.min (i - 1) jmax else i - 1 in
        let best := scan (fst prev) i jhigh jlow (fst prev (i - 1), i) in
        let row := (upd (fst row) i (fst best), upd (snd row) i (snd best)) in
        let row := fill_ll fuel prev q imin (i - 1) (if q <? imin then snd row (imin - 1) else q) (snd row i) row in
        fill_ll fuel prev q (i + 1) imax (snd row i) (if imax <? N - 1 then snd row (imax + 1) else imax) row
    end.

  (** fill_SMAWK.cpp:72-79: the entry of column [j] in row [i] of the matrix that is searched. *)
  Definition mcell (Sp : nat -> Q) (i j : nat) : Q := (Sp (j - 1)%nat + ssq j i)%Q.

  (** fill_SMAWK.cpp:60-105: the loop of reduce_in_place.  The vector js_red is kept as two lists:
      [stk] is js_red[left], js_red[left-1], ..., js_red[0] and [rest] is js_red[right],
      js_red[right+1], ...; the entries between them are never read again.  [None]: read past
      the end of js_red, or fuel used up. *)
  Fixpoint red_loop (fuel : nat) (Sp : nat -> Q) (n imin istep : nat) (stk rest : list nat) : option (list nat) :=
    if length stk + length rest <=? n then Some (rev stk ++ rest)
    else match fuel, rest with
    | S fuel, j :: j1 :: tl =>
      let p := length stk in
      let i := imin + p * istep in
      let less := qlt (mcell Sp i j) (mcell Sp i j1) in
      if less && (p <? n - 1) then red_loop fuel Sp n imin istep (j :: stk) (j1 :: tl)
      else if less && (p =? n - 1) then red_loop fuel Sp n imin istep stk (j :: tl)
      else match stk with
           | t :: stk' => red_loop fuel Sp n imin istep stk' (t :: j1 :: tl)
           | [] => red_loop fuel Sp n imin istep [] (j1 :: tl)
           end
    | _, _ => None
    end.
  (** fill_SMAWK.cpp:41-106: reduce_in_place. *)
  Definition reduce (Sp : nat -> Q) (imin imax istep : nat) (js : list nat) : option (list nat) :=
    let n := (imax - imin) / istep + 1 in
    if length js <=? n then Some js else red_loop (S (2 * length js)) Sp n imin istep [] js.

  (** fill_SMAWK.cpp:127-130: move on to the first column that is at least [jl]. *)
  Fixpoint seek (jl : nat) (rs : list nat) : list nat :=
    match rs with [] => [] | j :: tl => if j <? jl then seek jl tl else rs end.
  (** fill_SMAWK.cpp:148-170: the loop over the columns after [cur] for row [i].  [jp] is
      J[q-1][i], [sj] is sjimin, the pair is S[q][i], J[q][i].  The second result is the rest of
      js from position r on, after line 170. *)
  Fixpoint even_scan (Sp : nat -> Q) (i jp jmax : nat) (sj : Q) (cur : nat) (tl : list nat) (best : Q * nat) : (Q * nat) * list nat :=
    match tl with
    | [] => (best, [cur])
    | j :: tl' =>
      if (jmax <? j) || (i <? j) then (best, cur :: tl)
      else if j <? jp then even_scan Sp i jp jmax sj j tl' best
      else
        let s := mcell Sp i j in
        if Qle_bool s (fst best) then even_scan Sp i jp jmax sj j tl' (s, j)
        else if qlt (fst best) (Sp (j - 1)%nat + sj)%Q then (best, cur :: tl)
        else even_scan Sp i jp jmax sj j tl' best
    end.
  (** fill_SMAWK.cpp:108-173: fill_even_positions from row [i] on; [lastj] is js[n-1], [rs] the
      part of js from position r on.  [None]: read past the end of js, or fuel used up. *)
  Fixpoint even_loop (fuel : nat) (prev : krow) (i imax istep lastj jl : nat) (rs : list nat) (row : krow) : option krow :=
    if imax <? i then Some row
    else match fuel, seek jl rs with
    | S fuel, a :: tl =>
      let jh := if i + istep <=? imax then snd row (i + istep) else lastj in
      let jmax := Nat.min jh i in
      let r := even_scan (fst prev) i (snd prev i) jmax (ssq jmax i) a tl (mcell (fst prev) i a, a) in
      even_loop fuel prev (i + 2 * istep) imax istep lastj jh (snd r)
        (upd (fst row) i (fst (fst r)), upd (snd row) i (snd (fst r)))
    | _, _ => None
    end.
  (** fill_SMAWK.cpp:198-213: the loop over the columns in find_min_from_candidates. *)
  Fixpoint find_scan (Sp : nat -> Q) (i jp : nat) (tl : list nat) (best : Q * nat) : Q * nat :=
    match tl with
    | [] => best
    | j :: tl' =>
      if j <? jp then find_scan Sp i jp tl' best
      else if i <? j then best
      else
        let s := mcell Sp i j in
        find_scan Sp i jp tl' (if Qle_bool s (fst best) then (s, j) else best)
    end.
  (** fill_SMAWK.cpp:217-287: SMAWK.  find_min_from_candidates (lines 175-215) is only called with
      imin = imax, so that its loop over the rows runs once.  [None] as above. *)
  Fixpoint smawk (fuel : nat) (prev : krow) (imin imax istep : nat) (js : list nat) (row : krow) : option krow :=
    match fuel with
    | 0 => None
    | S fuel =>
      if imax <=? imin then
        match js with
        | [] => None
        | a :: tl =>
          let b := find_scan (fst prev) imin (snd prev imin) tl (mcell (fst prev) imin a, a) in
          Some (upd (fst row) imin (fst b), upd (snd row) imin (snd b))
        end
      else match reduce (fst prev) imin imax istep js with
      | None => None
      | Some jso =>
        let imin' := imin + istep in
        let imax' := imin' + (imax - imin') / (2 * istep) * (2 * istep) in
        match smawk fuel prev imin' imax' (2 * istep) jso row with
        | None => None
        | Some row => even_loop (S N) prev imin imax istep (last js 0) (hd 0 js) js row
        end
      end
    end.
  (** fill_SMAWK.cpp:289-305: fill_row_q_SMAWK with imax = N - 1.  A read past the end would give
      a row of zeros; it does not happen (Proofs_Smawk.smawk_spec). *)
  Definition fill_smawk (prev : krow) (q imin : nat) : krow :=
    let row := ((fun _ : nat => 0%Q), (fun _ : nat => 0)) in
    match smawk (S N) prev imin (N - 1) 1 (seq q (N - 1 - q + 1)) row with Some r => r | None => row end.

  (** Ckmeans.1d.dp.cpp:366-380: row [q]; [last] says q = K - 1. *)
  Definition first_row : krow := ((fun i => if i =? 0 then 0%Q else ssq 0 i), (fun _ => 0)).
  Definition fill_row (prev : krow) (q : nat) (last : bool) : krow :=
    let imin := if last then N - 1 else Nat.max 1 q in
    if 300 <? N then fill_smawk prev q imin
    else fill_ll (S N) prev q imin (N - 1) q (N - 1) ((fun _ => 0%Q), (fun _ => 0)).

  (** Ckmeans.1d.dp.cpp:366-388: the loop over the number of clusters and the early stop.
      [rem] rows are left to fill. *)
  Fixpoint stop_loop (reg : Q) (rem q : nat) (prev : krow) : Q * nat :=
    match rem with
    | 0 => ((fst prev (N - 1)%nat + qn (q - 1)%nat * reg)%Q, q - 1)
    | S rem =>
      let row := fill_row prev q (rem =? 0) in
      if qlt (fst prev (N - 1)%nat - fst row (N - 1)%nat) reg
      then ((fst prev (N - 1)%nat + qn (q - 1)%nat * reg)%Q, q - 1)
      else stop_loop reg rem (S q) row
    end.
  (** Ckmeans.1d.dp.cpp:305-389: fill_dp_matrix_dynamic_stop with [K] rows. *)
  Definition dynamic_stop (K : nat) (reg : Q) : Q * nat := stop_loop reg (K - 1) 1 first_row.
End Data.
