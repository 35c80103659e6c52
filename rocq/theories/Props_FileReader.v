(** C44: reading data files. *)
From Coq Require Import List Arith Bool ZArith Ascii Lia Sorted.
From Verif Require Import Model_Params Model_FileReader.
Import ListNotations.
Local Open Scope nat_scope.

(** * Specification: how a data file is written *)

(** Text of one value, followed by the feature columns: every feature is one separator
    character and 0 or 1. *)
Definition bit_char (b : bool) : ascii := if b then "1"%char else "0"%char.
Definition columns (bits : list (ascii * bool)) : text := flat_map (fun p : ascii * bool => [fst p; bit_char (snd p)]) bits.
(** A blank or tab or similar, but no newline. *)
Definition blank (c : ascii) : Prop := is_space c = true /\ c <> nl.
(** End of line: nothing, or one blank (such as the carriage return of CRLF files). *)
Definition line_end (s : text) : Prop := s = [] \/ exists c, blank c /\ s = [c].
Definition no_nl (s : text) : Prop := ~ In nl s.

(** A file: every line followed by a newline, which may be missing after the last one. *)
Fixpoint file_of (final_nl : bool) (ls : list text) : text :=
  match ls with
  | [] => []
  | [l] => if final_nl then l ++ [nl] else l
  | l :: ls' => l ++ nl :: file_of final_nl ls'
  end.

(** Instances numbered from [i] on. *)
Fixpoint number {L E} (i : nat) (rows : list (L * E * list bool)) : list (frow L E) :=
  match rows with
  | [] => []
  | (l, e, b) :: rows' => FRow i l e b :: number (S i) rows'
  end.
Definition upto {A} (num : option nat) (l : list A) : list A := match num with Some n => firstn n l | None => l end.

Lemma lines_line l s : no_nl l -> lines (l ++ nl :: s) = l :: lines s.
Proof.
  induction l as [|c l IH]; intros N; [reflexivity|].
  cbn [app lines]. assert (c <> nl) by (intros ->; apply N; now left).
  destruct (Ascii.eqb_spec c nl); [contradiction|].
  rewrite IH by (intros H'; apply N; now right). reflexivity.
Qed.
Lemma lines_last l : no_nl l -> l <> [] -> lines l = [l].
Proof.
  induction l as [|c l IH]; intros N E; [now elim E|].
  cbn [lines]. assert (c <> nl) by (intros ->; apply N; now left).
  destruct (Ascii.eqb_spec c nl); [contradiction|].
  destruct l as [|d l]; [reflexivity|].
  rewrite IH; [reflexivity|intros H'; apply N; now right|discriminate].
Qed.
Lemma lines_file f ls : Forall no_nl ls -> Forall (fun l => l <> []) ls -> lines (file_of f ls) = ls.
Proof.
  induction ls as [|l ls IH]; intros A B; [reflexivity|].
  inversion_clear A; inversion_clear B.
  destruct ls as [|m ls].
  - cbn [file_of]. destruct f; [now rewrite lines_line|now apply lines_last].
  - change (file_of f (l :: m :: ls)) with (l ++ nl :: file_of f (m :: ls)).
    rewrite lines_line by assumption. now rewrite IH.
Qed.

(** ** Reading the feature columns *)
Lemma skip_ws_blank c s : is_space c = true -> skip_ws (c :: s) = skip_ws s.
Proof. intros H; cbn. now rewrite H. Qed.
(** What may follow a number: the end, or a blank. *)
Definition ends (s : text) : Prop := match s with [] => True | c :: _ => is_space c = true end.
Lemma space_not_digit c : is_space c = true -> is_digit c = false.
Proof.
  unfold is_space, is_digit. intros H.
  apply orb_true_iff in H. rewrite andb_true_iff, Nat.leb_le, Nat.leb_le, Nat.eqb_eq in H.
  apply andb_false_iff. rewrite !Nat.leb_gt. lia.
Qed.
Lemma read_digits_ends a s : ends s -> read_digits a s = (a, s).
Proof. destruct s as [|c s]; intros H; [reflexivity|]. cbn in *. now rewrite (space_not_digit c H). Qed.
Lemma read_bit_char b s : ends s -> read_bit (bit_char b :: s) = Ok (b, s).
Proof.
  intros H. unfold read_bit, read_number.
  destruct b; cbn [bit_char].
  - change (skip_ws ("1"%char :: s)) with ("1"%char :: s). cbn -[read_digits].
    cbn [read_digits]. change (is_digit "1") with true. cbn iota. now rewrite (read_digits_ends _ _ H).
  - change (skip_ws ("0"%char :: s)) with ("0"%char :: s). cbn -[read_digits].
    cbn [read_digits]. change (is_digit "0") with true. cbn iota. now rewrite (read_digits_ends _ _ H).
Qed.
Lemma read_number_skip c s : is_space c = true -> read_number (c :: s) = read_number s.
Proof. intros H. unfold read_number. now rewrite skip_ws_blank. Qed.
Lemma read_bit_sep c b s : is_space c = true -> ends s -> read_bit (c :: bit_char b :: s) = Ok (b, s).
Proof. intros H1 H2. rewrite <- (read_bit_char b s H2). unfold read_bit. now rewrite read_number_skip. Qed.
Lemma columns_ends bits t : Forall (fun p => blank (fst p)) bits -> line_end t -> ends (columns bits ++ t).
Proof.
  intros A [->|[c [[B _] ->]]]; (destruct bits as [|[d b] bits]; [cbn; try exact I; assumption|]); inversion_clear A as [|? ? [B' _]]; exact B'.
Qed.
Lemma read_bits_columns k bits t : Forall (fun p => blank (fst p)) bits -> line_end t -> k <= length bits ->
  read_bits k (columns bits ++ t) = Ok (firstn k (map snd bits)).
Proof.
  revert bits; induction k as [|k IH]; intros bits A T H; [reflexivity|].
  destruct bits as [|[c b] bits]; [cbn in H; lia|].
  inversion_clear A as [|? ? [B _] A'].
  change (columns ((c, b) :: bits) ++ t) with (c :: bit_char b :: (columns bits ++ t)).
  cbn [read_bits]. cbn [fst] in B. rewrite read_bit_sep by (assumption || now apply columns_ends).
  cbn [bind snd]. rewrite IH by (assumption || (cbn in H; lia)). reflexivity.
Qed.
Lemma columns_len bits : length (columns bits) = 2 * length bits.
Proof. induction bits as [|p l IH]; [reflexivity|]. unfold columns in *. cbn [flat_map]. rewrite app_length, IH. cbn. lia. Qed.
Lemma width bits t : line_end t -> length (columns bits ++ t) / 2 = length bits.
Proof.
  intros T. rewrite app_length, columns_len. replace (2 * length bits) with (length bits * 2) by lia.
  rewrite Nat.div_add_l by lia. destruct T as [->|[c [_ ->]]]; cbn; lia.
Qed.

(** ** Sampling: which rows are selected *)
Fixpoint chosen {A} (d : A) (idx : list nat) (l : list A) : list A :=
  match idx with [] => [] | i :: idx' => nth i l d :: chosen d idx' l end.
Definition increasing (idx : list nat) : Prop := StronglySorted lt idx.
(** What [n] indices drawn from [a] look like. *)
Definition drawn (idx : list nat) (n a : nat) : Prop := length idx = n /\ increasing idx /\ Forall (fun i => i < a) idx.

Section Reader.
  Context {L E : Type} (rd_label : text -> option (L * text)) (rd_extra : text -> option (E * text)).

  (** A row as written: label, extra data, feature bits with the separators in front of them. *)
  Record written := Written { wr_label : L; wr_extra : E; wr_head : text; wr_bits : list (ascii * bool); wr_end : text }.
  Definition line_of (w : written) : text := wr_head w ++ columns (wr_bits w) ++ wr_end w.
  (** The head is any text that is read back as the label and the extra data. *)
  Definition head_ok (w : written) : Prop :=
    forall s, ends s -> exists s', rd_label (wr_head w ++ s) = Some (wr_label w, s') /\ rd_extra s' = Some (wr_extra w, s).
  Definition written_ok (m : nat) (w : written) : Prop :=
    head_ok w /\ no_nl (wr_head w) /\ wr_head w <> [] /\ Forall (fun p => blank (fst p)) (wr_bits w) /\ line_end (wr_end w) /\ length (wr_bits w) = m.
  (** The row a reader should see, with at most [maxf] features. *)
  Definition row_of (maxf : option nat) (w : written) : L * E * list bool :=
    (wr_label w, wr_extra w, upto maxf (map snd (wr_bits w))).

  Lemma line_no_nl m w : written_ok m w -> no_nl (line_of w).
  Proof.
    intros (_ & H & _ & B & T & _) I. unfold line_of in I. rewrite !in_app_iff in I.
    destruct I as [I|[I|I]]; [now apply H| |].
    - unfold columns in I. rewrite in_flat_map in I. destruct I as [[c b] [I1 I2]].
      rewrite Forall_forall in B. specialize (B _ I1). destruct B as [_ B].
      cbn in I2. destruct I2 as [I2|[I2|[]]]; [now apply B|]. destruct b; discriminate.
    - destruct T as [T|[c [[_ C] T]]]; rewrite T in I; [destruct I|]. destruct I as [I|[]]. now apply C.
  Qed.
  Lemma line_nonempty m w : written_ok m w -> line_of w <> [].
  Proof. intros (_ & _ & H & _) I. unfold line_of in I. apply app_eq_nil in I. now apply H. Qed.

  Definition fitsin (cap : option nat) (k : nat) : Prop := match cap with Some c => k <= c | None => True end.

  Lemma mask_id cap k (v : list bool) j : fitsin cap (j + k) -> length v = k ->
    map (fun p : nat * bool => snd p && (match cap with Some c => fst p <? c | None => true end)) (combine (seq j k) v) = v.
  Proof.
    revert j v; induction k as [|k IH]; intros j v F H; (destruct v as [|b v]; [|]); try discriminate; [reflexivity|].
    cbn [seq combine map]. rewrite IH; [|now replace (S j + k) with (j + S k) by lia|now injection H].
    f_equal. cbn [fst snd]. destruct cap as [c|]; [|apply andb_true_r].
    cbn in F. assert (E' : (j <? c) = true) by (apply Nat.ltb_lt; lia). rewrite E'. apply andb_true_r.
  Qed.

  Lemma read_line_written nf maxf cap m w : written_ok m w -> nf = None \/ nf = Some (limit maxf m) -> fitsin cap (limit maxf m) ->
    read_line rd_label rd_extra nf maxf cap (line_of w) =
    Ok (wr_label w, wr_extra w, upto maxf (map snd (wr_bits w)), limit maxf m).
  Proof.
    intros (Hh & _ & _ & B & T & W) N F. unfold read_line, line_of.
    destruct (Hh _ (columns_ends _ _ B T)) as [s' [-> ->]].
    replace (limit maxf match nf with Some m0 => m0 | None => length (columns (wr_bits w) ++ wr_end w) / 2 end) with (limit maxf m).
    2:{ destruct N as [->| ->]; [now rewrite width, W|]. destruct maxf; cbn; lia. }
    rewrite read_bits_columns by (assumption || (rewrite W; destruct maxf; cbn; lia)).
    cbn [bind]. rewrite mask_id.
    - f_equal. f_equal. f_equal. destruct maxf as [x|]; cbn.
      + destruct (Nat.le_gt_cases x m); [now rewrite Nat.min_l by assumption|].
        rewrite Nat.min_r by lia. rewrite !firstn_all2; [reflexivity|rewrite map_length; lia|rewrite map_length; lia].
      + now rewrite <- W, <- (map_length snd (wr_bits w)), firstn_all.
    - exact F.
    - rewrite firstn_length, map_length, W. destruct maxf; cbn; lia.
  Qed.

  (** ** Copies and limits *)
  Definition left (num : option nat) (init id : nat) : option nat := match num with Some n => Some (n - (id - init)) | None => None end.
  Definition reached (num : option nat) (init id : nat) : bool := match num with Some n => n <=? id - init | None => false end.

  Lemma number_app (r1 r2 : list (L * E * list bool)) i : number i (r1 ++ r2) = number i r1 ++ number (i + length r1) r2.
  Proof.
    revert i; induction r1 as [|[[l e] b] r1 IH]; intros i; cbn; [now rewrite Nat.add_0_r|].
    rewrite IH. now replace (S i + length r1) with (i + S (length r1)) by lia.
  Qed.
  Lemma number_len (r : list (L * E * list bool)) i : length (number i r) = length r.
  Proof. revert i; induction r as [|[[l e] b] r IH]; intros i; cbn; [reflexivity|now rewrite IH]. Qed.

  Lemma add_copies_spec dup num init id (l : L) (e : E) (v : list bool) : init <= id -> 0 < dup -> reached num init id = false ->
    let rs := upto (left num init id) (repeat (l, e, v) dup) in
    add_copies dup num init id l e v = (number id rs, id + length rs, reached num init (id + length rs)).
  Proof.
    revert id; induction dup as [|dup IH]; intros id LE P R; [lia|]. cbn zeta.
    cbn [add_copies]. fold (reached num init (S id)).
    destruct (reached num init (S id)) eqn:R1.
    - destruct num as [n|]; [|discriminate]. unfold reached in R, R1. apply Nat.leb_le in R1. apply Nat.leb_gt in R.
      cbn [left upto]. replace (n - (id - init)) with 1 by lia. cbn [firstn repeat number length]. unfold reached.
      replace (id + 1 - init) with n by lia. rewrite Nat.leb_refl. now rewrite Nat.add_1_r.
    - destruct dup as [|dup].
      + cbn [add_copies]. fold (reached num init (S id)). rewrite R1.
        assert (X : upto (left num init id) (repeat (l, e, v) 1) = [(l, e, v)]).
        { destruct num as [n|]; [|reflexivity]. unfold reached in R. apply Nat.leb_gt in R. cbn [left upto].
          now rewrite firstn_all2 by (cbn; lia). }
        rewrite X. cbn. now rewrite Nat.add_1_r, R1.
      + assert (X : upto (left num init id) (repeat (l, e, v) (S (S dup))) = (l, e, v) :: upto (left num init (S id)) (repeat (l, e, v) (S dup))).
        { destruct num as [n|]; [|reflexivity]. unfold reached in R, R1. apply Nat.leb_gt in R. apply Nat.leb_gt in R1. cbn [left upto].
          replace (n - (id - init)) with (S (n - (S id - init))) by lia. reflexivity. }
        rewrite (IH (S id)) by (assumption || lia). rewrite X. cbn [number length].
        now replace (S id + length (upto (left num init (S id)) (repeat (l, e, v) (S dup)))) with (id + S (length (upto (left num init (S id)) (repeat (l, e, v) (S dup))))) by lia.
  Qed.

  Definition copies (dup : nat) (rows : list (L * E * list bool)) := flat_map (fun r => repeat r dup) rows.

  Lemma upto_app (A : Type) (num : option nat) init id (a b : list A) : init <= id ->
    reached num init (id + length (upto (left num init id) a)) = true ->
    upto (left num init id) (a ++ b) = upto (left num init id) a.
  Proof.
    intros LE R. destruct num as [n|]; [|discriminate]. cbn in *. apply Nat.leb_le in R.
    rewrite firstn_length in R. rewrite firstn_app.
    replace (n - (id - init) - length a) with 0 by lia. now rewrite app_nil_r.
  Qed.
  Lemma upto_app2 (A : Type) (num : option nat) init id (a b : list A) : init <= id ->
    reached num init (id + length (upto (left num init id) a)) = false ->
    upto (left num init id) a = a /\
    upto (left num init id) (a ++ b) = a ++ upto (left num init (id + length a)) b.
  Proof.
    intros LE R. destruct num as [n|]; [|now split]. cbn in *. apply Nat.leb_gt in R.
    rewrite firstn_length in R.
    assert (X : length a < n - (id - init)) by lia.
    rewrite firstn_all2 by lia. split; [reflexivity|].
    rewrite firstn_app, firstn_all2 by lia. f_equal. f_equal. lia.
  Qed.

  (** ** All lines *)
  Definition final_nf (maxf : option nat) (m : nat) (nf : option nat) (seen : bool) : option nat := if seen then Some (limit maxf m) else nf.

  Lemma read_lines_all dup num maxf cap init m : 0 < dup -> fitsin cap (limit maxf m) ->
    forall ws lno id nf, Forall (written_ok m) ws -> init <= id -> reached num init id = false -> nf = None \/ nf = Some (limit maxf m) ->
    read_lines rd_label rd_extra dup num maxf cap init None lno id nf (map line_of ws) =
    Ok (number id (upto (left num init id) (copies dup (map (row_of maxf) ws))),
        if ws then nf else Some (limit maxf m)).
  Proof.
    intros D F; induction ws as [|w ws IH]; intros lno id nf A LE R N.
    - cbn. destruct num; cbn; [now rewrite firstn_nil|reflexivity].
    - inversion_clear A as [|? ? W A']. cbn [map read_lines].
      rewrite (read_line_written _ _ _ m) by assumption. cbn [bind].
      rewrite add_copies_spec by assumption.
      change (copies dup (row_of maxf w :: map (row_of maxf) ws)) with (repeat (row_of maxf w) dup ++ copies dup (map (row_of maxf) ws)).
      fold (row_of maxf w).
      destruct (reached num init (id + length (upto (left num init id) (repeat (row_of maxf w) dup)))) eqn:R1.
      + now rewrite upto_app.
      + destruct (upto_app2 _ num init id (repeat (row_of maxf w) dup) (copies dup (map (row_of maxf) ws)) LE R1) as [X Y].
        rewrite Y. rewrite X in *. rewrite IH; [|assumption|lia|assumption|now right].
        cbn [bind fst snd]. rewrite number_app. now destruct ws.
  Qed.

  (** ** Drawn lines *)
  Lemma read_lines_pick dup num maxf cap init m (d : written) : 0 < dup -> fitsin cap (limit maxf m) ->
    forall ws idx lno id nf, Forall (written_ok m) ws -> increasing idx -> Forall (fun i => lno <= i < lno + length ws) idx ->
    init <= id -> reached num init id = false -> (match num with Some n => n - (id - init) <= length idx | None => False end) ->
    nf = None \/ nf = Some (limit maxf m) ->
    read_lines rd_label rd_extra dup num maxf cap init (Some idx) lno id nf (map line_of ws) =
    Ok (number id (upto (left num init id) (copies dup (map (row_of maxf) (chosen d (map (fun i => i - lno) idx) ws)))),
        if ws then nf else Some (limit maxf m)).
  Proof.
    intros D F; induction ws as [|w ws IH]; intros idx lno id nf A S B LE R N NF.
    - cbn. destruct idx as [|i idx].
      + cbn. destruct num; cbn; [now rewrite firstn_nil|reflexivity].
      + inversion_clear B. cbn in H. lia.
    - inversion_clear A as [|? ? W A'].
      destruct idx as [|i idx].
      { exfalso. destruct num as [n|]; [|exact N]. unfold reached in R. cbn [length] in N. apply Nat.leb_gt in R. lia. }
      cbn [map read_lines]. inversion_clear S as [|? ? S' S2]. inversion_clear B as [|? ? B1 B2].
      cbn [length] in B1.
      destruct (Nat.eqb_spec lno i) as [<-|NE].
      + rewrite (read_line_written _ _ _ m) by assumption. cbn [bind].
        rewrite add_copies_spec by assumption. rewrite Nat.sub_diag. cbn [chosen nth map].
        change (copies dup (row_of maxf w :: ?x)) with (repeat (row_of maxf w) dup ++ copies dup x).
        fold (row_of maxf w).
        assert (Z : chosen d (map (fun i => i - lno) idx) (w :: ws) = chosen d (map (fun i => i - Datatypes.S lno) idx) ws).
        { clear - S2. induction idx as [|j idx IH]; [reflexivity|]. inversion_clear S2. cbn [map chosen].
          rewrite IH by assumption. f_equal. replace (j - lno) with (Datatypes.S (j - Datatypes.S lno)) by lia. reflexivity. }
        rewrite Z.
        destruct (reached num init (id + length (upto (left num init id) (repeat (row_of maxf w) dup)))) eqn:R1.
        * now rewrite upto_app.
        * match goal with |- context [copies dup ?x] => destruct (upto_app2 _ num init id (repeat (row_of maxf w) dup) (copies dup x) LE R1) as [X Y] end.
          rewrite Y. rewrite X in *. rewrite IH; [| assumption | assumption | | lia | assumption | | now right].
          -- cbn [bind fst snd]. rewrite number_app. now destruct ws.
          -- clear - S2 B2. rewrite Forall_forall in *. intros x I. specialize (S2 x I). specialize (B2 x I). cbn in B2. lia.
          -- destruct num as [n|]; [|exact N]. rewrite repeat_length in *. cbn [length] in N. unfold reached in R, R1. apply Nat.leb_gt in R. apply Nat.leb_gt in R1. lia.
      + assert (Z : chosen d (map (fun i => i - lno) (i :: idx)) (w :: ws) = chosen d (map (fun i => i - Datatypes.S lno) (i :: idx)) ws).
        { assert (G : Forall (lt lno) (i :: idx)) by (constructor; [lia|]; clear - S2 B1 NE; rewrite Forall_forall in *; intros x I; specialize (S2 x I); lia).
          revert G. generalize (i :: idx). clear. intros l. induction l as [|j l IH]; intros G; [reflexivity|]. inversion_clear G. cbn [map chosen].
          rewrite IH by assumption. f_equal. replace (j - lno) with (Datatypes.S (j - Datatypes.S lno)) by lia. reflexivity. }
        change ((i - lno) :: map (fun i0 => i0 - lno) idx) with (map (fun i => i - lno) (i :: idx)). rewrite Z.
        rewrite IH; [|assumption|now constructor| |assumption|assumption|assumption|assumption].
        * destruct ws; [|reflexivity]. cbn in B1. lia.
        * assert (G : Forall (lt lno) (i :: idx)) by (constructor; [lia|]; clear - S2 B1 NE; rewrite Forall_forall in *; intros x I; specialize (S2 x I); lia).
          constructor; [cbn in B1; lia|]. inversion_clear G. clear - H0 B2. rewrite Forall_forall in *. intros x I. specialize (H0 x I). specialize (B2 x I). cbn in B2. lia.
  Qed.

  (** The lines used: all of them, or those that were drawn. *)
  Definition selected (draw : nat -> nat -> list nat) (d : written) (num : option nat) (ws : list written) : list written :=
    match num with
    | None => ws
    | Some n => if length ws <? n then ws else chosen d (draw n (length ws)) ws
    end.
  Definition positive (num : option nat) : Prop := match num with Some n => 0 < n | None => True end.
  Definition draw_ok (draw : nat -> nat -> list nat) : Prop := forall n a, n <= a -> drawn (draw n a) n a.

  (** C44: what is read from a file of [ws] lines, all with [m] features: the selected lines in
      their order, each [dup] times, at most [num] in total, with consecutive ids from [init]
      on, the written label and extra data and the first [maxf] of the written bits.  Holds for
      every label and extra type whose text is read back. *)
  Theorem C44_rows_read draw dup num maxf cap init m ws d f :
    draw_ok draw -> 0 < dup -> positive num -> Forall (written_ok m) ws -> fitsin cap (limit maxf m) ->
    read_file rd_label rd_extra draw dup num maxf cap init (file_of f (map line_of ws)) =
    Ok (number init (upto num (copies dup (map (row_of maxf) (selected draw d num ws)))),
        if ws then cap else Some (limit maxf m)).
  Proof.
    intros DO D P A F. unfold read_file. rewrite lines_file.
    2:{ clear - A. induction A; cbn [map]; constructor; [now apply (line_no_nl m)|assumption]. }
    2:{ clear - A. induction A; cbn [map]; constructor; [now apply (line_nonempty m)|assumption]. }
    rewrite map_length.
    assert (Lf : left num init init = num) by (destruct num as [n|]; [|reflexivity]; cbn; f_equal; lia).
    assert (R : reached num init init = false) by (destruct num as [n|]; [|reflexivity]; cbn in *; apply Nat.leb_gt; lia).
    assert (G : limit cap (limit maxf m) = limit maxf m) by (destruct cap as [c|]; [|reflexivity]; cbn in *; lia).
    unfold selected. destruct num as [n|].
    - destruct (Nat.ltb_spec (length ws) n).
      + rewrite (read_lines_all _ _ _ _ _ m) by (assumption || lia || now left).
        cbn [bind fst snd]. rewrite Lf. destruct ws; [reflexivity|now rewrite G].
      + destruct (DO n (length ws) H) as (D1 & D2 & D3).
        rewrite (read_lines_pick _ _ _ _ _ m d); try (assumption || lia || now left).
        * cbn [bind fst snd]. rewrite Lf.
          replace (map (fun i => i - 0) (draw n (length ws))) with (draw n (length ws)).
          2:{ generalize (draw n (length ws)). clear. intros l. induction l as [|a l IH]; [reflexivity|]. cbn [map]. now rewrite <- IH, Nat.sub_0_r. }
          destruct ws; [reflexivity|now rewrite G].
        * clear - D3. rewrite Forall_forall in *. intros x I. specialize (D3 x I). lia.
    - rewrite (read_lines_all _ _ _ _ _ m) by (assumption || lia || now left).
      cbn [bind fst snd]. rewrite Lf. destruct ws; [reflexivity|now rewrite G].
  Qed.

  (** ** The views *)
  Definition in_group (lab : L -> Z) (k : nat) (x : frow L E) : bool := (lab (fr_label x) =? Z.of_nat k)%Z.
  (** A view with one group per label: the instances of the label, in order. *)
  Definition grouped (lab : L -> Z) (rows : list (frow L E)) (v : list (list (frow L E))) : Prop :=
    (forall k, nth k v [] = filter (in_group lab k) rows) /\
    length v = fold_right Nat.max 0 (map (fun x => Datatypes.S (Z.to_nat (lab (fr_label x)))) rows).

  Lemma push_row_nth k (x : frow L E) v j : nth j (push_row k x v) [] = if j =? k then nth j v [] ++ [x] else nth j v [].
  Proof.
    revert v j; induction k as [|k IH]; intros [|g v] [|j]; cbn; try reflexivity.
    - now destruct j.
    - rewrite IH. now destruct (j =? k); destruct j.
    - apply IH.
  Qed.
  Lemma push_row_len k (x : frow L E) v : length (push_row k x v) = Nat.max (length v) (Datatypes.S k).
  Proof. revert v; induction k as [|k IH]; intros [|g v]; cbn; try reflexivity; try (now rewrite Nat.max_0_r); now rewrite IH. Qed.

  Definition labels_ok (lab : L -> Z) (rows : list (frow L E)) : Prop := Forall (fun x => (0 <= lab (fr_label x))%Z) rows.

  Lemma fill_fold lab rows v0 : labels_ok lab rows -> exists v,
    fold_left (fill_step (Some lab)) rows (Ok v0) = Ok v /\
    (forall k, nth k v [] = nth k v0 [] ++ filter (in_group lab k) rows) /\
    length v = Nat.max (length v0) (fold_right Nat.max 0 (map (fun x => Datatypes.S (Z.to_nat (lab (fr_label x)))) rows)).
  Proof.
    revert v0; induction rows as [|x rows IH]; intros v0 A.
    - exists v0. cbn. split; [reflexivity|]. split; [intros; now rewrite app_nil_r|lia].
    - inversion_clear A as [|? ? A1 A2]. cbn [fold_left fill_step].
      unfold fill_step at 2. cbn [bind].
      assert (E1 : (lab (fr_label x) =? -1)%Z = false) by (apply Z.eqb_neq; lia).
      assert (E2 : (lab (fr_label x) <? 0)%Z = false) by (apply Z.ltb_ge; lia).
      rewrite E1, E2. destruct (IH (push_row (Z.to_nat (lab (fr_label x))) x v0) A2) as [v [H1 [H2 H3]]].
      exists v. split; [exact H1|]. split.
      + intros k. rewrite H2, push_row_nth. cbn [filter]. unfold in_group at 2.
        destruct (Nat.eqb_spec k (Z.to_nat (lab (fr_label x)))) as [->|NE].
        * rewrite Z2Nat.id by assumption. rewrite Z.eqb_refl. now rewrite <- app_assoc.
        * destruct (Z.eqb_spec (lab (fr_label x)) (Z.of_nat k)) as [EQ|_]; [rewrite EQ, Nat2Z.id in NE; now elim NE|reflexivity].
      + rewrite H3, push_row_len. cbn [map fold_right]. lia.
  Qed.

  Lemma number_filter (a b : list (L * E * list bool)) :
    filter (fun x : frow L E => negb (fr_id x <? 0) && negb (length a <=? fr_id x)) (number 0 (a ++ b)) = number 0 a /\
    filter (fun x : frow L E => negb (fr_id x <? length a) && negb (length (a ++ b) <=? fr_id x)) (number 0 (a ++ b)) = number (length a) b.
  Proof.
    assert (Y : forall r i lo hi, lo <= i -> i + length r <= hi -> filter (fun x : frow L E => negb (fr_id x <? lo) && negb (hi <=? fr_id x)) (number i r) = number i r).
    { clear. induction r as [|[[l e] v] r IH]; intros i lo hi H1 H2; [reflexivity|]. cbn [number filter fr_id length] in *.
      assert (X1 : (i <? lo) = false) by (apply Nat.ltb_ge; lia). assert (X2 : (hi <=? i) = false) by (apply Nat.leb_gt; lia).
      rewrite X1, X2. cbn [negb andb]. now rewrite IH by lia. }
    assert (N : forall r i lo hi, i + length r <= lo \/ hi <= i -> filter (fun x : frow L E => negb (fr_id x <? lo) && negb (hi <=? fr_id x)) (number i r) = []).
    { clear. induction r as [|[[l e] v] r IH]; intros i lo hi H; [reflexivity|]. cbn [number filter fr_id length] in *.
      assert (X : negb (i <? lo) && negb (hi <=? i) = false).
      { destruct H; [assert (X1 : (i <? lo) = true) by (apply Nat.ltb_lt; lia); now rewrite X1|].
        assert (X2 : (hi <=? i) = true) by (apply Nat.leb_le; lia). rewrite X2. apply andb_false_r. }
      rewrite X. apply IH. lia. }
    rewrite number_app, !filter_app. split.
    - rewrite Y by lia. rewrite N by (right; lia). apply app_nil_r.
    - rewrite N by (left; lia). rewrite Y by (rewrite ?app_length; lia). reflexivity.
  Qed.

  Lemma view_total lab rows v : labels_ok lab rows -> grouped lab rows v -> length (concat v) = length rows.
  Proof.
    revert v; induction rows as [|x rows IH] using rev_ind; intros v A [G1 G2].
    - cbn in G2. destruct v; [reflexivity|discriminate].
    - apply Forall_app in A. destruct A as [A1 A2]. inversion_clear A2.
      destruct (fill_fold lab rows [] A1) as [u [_ [U1 U2]]].
      assert (U1' : forall k, nth k u [] = filter (in_group lab k) rows) by (intros k; rewrite U1; now destruct k).
      assert (GU : grouped lab rows u) by (split; assumption).
      specialize (IH u A1 GU).
      assert (E1 : v = push_row (Z.to_nat (lab (fr_label x))) x u).
      { apply (nth_ext _ _ [] []).
        - rewrite G2, push_row_len, U2, map_app, fold_right_app. cbn [map fold_right length].
          generalize (Datatypes.S (Z.to_nat (lab (fr_label x)))). intros q.
          generalize (map (fun x0 : frow L E => Datatypes.S (Z.to_nat (lab (fr_label x0)))) rows). clear. intros l.
          induction l as [|a l IH]; cbn [fold_right] in *; lia.
        - intros k _. rewrite G1, filter_app, push_row_nth, U1'. cbn [filter]. unfold in_group at 2.
          destruct (Nat.eqb_spec k (Z.to_nat (lab (fr_label x)))) as [->|NE].
          + now rewrite Z2Nat.id, Z.eqb_refl by assumption.
          + destruct (Z.eqb_spec (lab (fr_label x)) (Z.of_nat k)) as [EQ|_]; [rewrite EQ, Nat2Z.id in NE; now elim NE|]. apply app_nil_r. }
      rewrite E1, app_length, <- IH. cbn [length]. generalize (Z.to_nat (lab (fr_label x))). clear. intros k.
      revert u; induction k as [|k IH]; intros [|g u]; cbn [push_row concat length]; try reflexivity.
      + rewrite !app_length. cbn. lia.
      + cbn [app]. rewrite IH. reflexivity.
      + rewrite !app_length, IH. lia.
  Qed.

  (** C44: a train and a test file: both views hold the rows of their own file, grouped by
      label in the order of the file; the ids of the test rows continue after the train rows. *)
  Theorem C44_train_and_test draw lab dup num maxf m m' ws ws' d f f' :
    draw_ok draw -> 0 < dup -> positive num -> Forall (written_ok m) ws -> Forall (written_ok m') ws' ->
    (forall w, In w ws \/ In w ws' -> (0 <= lab (wr_label w))%Z) -> ws <> [] -> ws' <> [] -> limit maxf m' <= limit maxf m ->
    let train := upto num (copies dup (map (row_of maxf) (selected draw d num ws))) in
    let test := map (row_of maxf) ws' in
    exists tr te, read_data rd_label rd_extra draw (Some lab) dup num maxf (file_of f (map line_of ws)) (Some (file_of f' (map line_of ws'))) =
                  Ok (tr, te, Some (limit maxf m')) /\
      grouped lab (number 0 train) tr /\ grouped lab (number (length train) test) te.
  Proof.
    intros DO D P A A' NN NE NE' LE train test. unfold read_data.
    rewrite (C44_rows_read draw dup num maxf None 0 m ws d f) by (assumption || exact I).
    cbn [bind fst snd]. fold train. rewrite number_len.
    assert (X : (if ws then None else Some (limit maxf m)) = Some (limit maxf m)) by (destruct ws; [now elim NE|reflexivity]).
    rewrite X. rewrite (C44_rows_read draw 1 None maxf (Some (limit maxf m)) (length train) m' ws' d f') by (assumption || exact I || lia).
    cbn [bind fst snd].
    replace (upto None (copies 1 (map (row_of maxf) (selected draw d None ws')))) with test.
    2:{ unfold test, upto, selected, copies. clear. induction ws' as [|w l IH]; [reflexivity|]. cbn [map flat_map repeat app]. f_equal; exact IH. }
    replace (number 0 train ++ number (length train) test) with (number 0 (train ++ test)) by (rewrite number_app; reflexivity).
    destruct (number_filter train test) as [F1 F2].
    assert (SEL : forall w, In w (selected draw d num ws) -> In w ws).
    { unfold selected. destruct num as [n|]; [|auto]. destruct (Nat.ltb_spec (length ws) n); [auto|].
      destruct (DO n (length ws) H) as (_ & _ & D3). clear - D3. intros w. induction (draw n (length ws)) as [|i l IH]; [intros []|].
      inversion_clear D3. cbn [chosen]. intros [<-|I]; [now apply nth_In|now apply IH]. }
    assert (LABS : forall rows (i : nat), (forall r, In r rows -> exists w, (In w ws \/ In w ws') /\ r = row_of maxf w) -> labels_ok lab (number i rows)).
    { clear - NN. induction rows as [|[[l e] v] rows IH]; intros i H; [apply Forall_nil|]. cbn [number]. apply Forall_cons.
      - destruct (H (l, e, v) (or_introl eq_refl)) as [w [I EQ]]. specialize (NN w I). unfold row_of in EQ. injection EQ as -> _ _. exact NN.
      - apply IH. intros r I. apply H. now right. }
    assert (OK1 : labels_ok lab (number 0 train)).
    { apply LABS. intros r I. unfold train in I.
      assert (I' : In r (copies dup (map (row_of maxf) (selected draw d num ws)))) by (destruct num as [n|]; cbn [upto] in I; [rewrite <- (firstn_skipn n), in_app_iff; now left|exact I]).
      unfold copies in I'. apply in_flat_map in I'. destruct I' as [r' [I1 I2]]. apply repeat_spec in I2. subst r'.
      apply in_map_iff in I1. destruct I1 as [w [<- I1]]. exists w. split; [left; now apply SEL|reflexivity]. }
    assert (OK2 : labels_ok lab (number (length train) test)).
    { apply LABS. intros r I. unfold test in I. apply in_map_iff in I. destruct I as [w [<- I]]. exists w. split; [now right|reflexivity]. }
    unfold fill_view at 1. rewrite F1.
    destruct (fill_fold lab (number 0 train) [] OK1) as [tr [T1 [T2 T3]]]. rewrite T1. cbn [bind].
    assert (G1 : grouped lab (number 0 train) tr) by (split; [intros k; rewrite T2; now destruct k|exact T3]).
    rewrite (view_total lab _ tr OK1 G1), number_len, number_len.
    unfold fill_view. rewrite F2.
    destruct (fill_fold lab (number (length train) test) [] OK2) as [te [E1 [E2 E3]]]. rewrite E1. cbn [bind].
    exists tr, te. split; [|split; [exact G1|split; [intros k; rewrite E2; now destruct k|exact E3]]].
    destruct ws'; [now elim NE'|reflexivity].
  Qed.

  (** C44: without a test file the test view is a copy of the train view, with new ids. *)
  Definition same_content (x y : frow L E) : Prop := fr_label x = fr_label y /\ fr_extra x = fr_extra y /\ fr_bits x = fr_bits y.
  Lemma copy_group_spec id g : Forall2 same_content g (copy_group id g) /\ map fr_id (copy_group id g) = seq id (length g).
  Proof.
    revert id; induction g as [|x g IH]; intros id; [split; [constructor|reflexivity]|].
    destruct (IH (Datatypes.S id)) as [H1 H2]. split; [constructor; [repeat split|exact H1]|]. cbn. now rewrite H2.
  Qed.
  Lemma copy_view_spec id v : Forall2 (Forall2 same_content) v (copy_view id v) /\ map fr_id (concat (copy_view id v)) = seq id (length (concat v)).
  Proof.
    revert id; induction v as [|g v IH]; intros id; [split; [constructor|reflexivity]|].
    destruct (IH (id + length g)) as [H1 H2]. destruct (copy_group_spec id g) as [H3 H4].
    split; [now constructor|]. cbn [copy_view concat]. rewrite map_app, H4, H2, app_length, seq_app. reflexivity.
  Qed.
  Theorem C44_train_only draw lab dup num maxf m ws d f :
    draw_ok draw -> 0 < dup -> positive num -> Forall (written_ok m) ws ->
    (forall w, In w ws -> (0 <= lab (wr_label w))%Z) -> ws <> [] ->
    let train := upto num (copies dup (map (row_of maxf) (selected draw d num ws))) in
    exists tr te, read_data rd_label rd_extra draw (Some lab) dup num maxf (file_of f (map line_of ws)) None = Ok (tr, te, Some (limit maxf m)) /\
      grouped lab (number 0 train) tr /\ Forall2 (Forall2 same_content) tr te /\
      map fr_id (concat te) = seq (length train) (length train).
  Proof.
    intros DO D P A NN NE train. unfold read_data.
    rewrite (C44_rows_read draw dup num maxf None 0 m ws d f) by (assumption || exact I).
    cbn [bind fst snd]. fold train. rewrite number_len.
    assert (X : (if ws then None else Some (limit maxf m)) = Some (limit maxf m)) by (destruct ws; [now elim NE|reflexivity]).
    rewrite X.
    destruct (number_filter train []) as [F1 _]. rewrite app_nil_r in F1.
    assert (OK1 : labels_ok lab (number 0 train)).
    { assert (SEL : forall w, In w (selected draw d num ws) -> In w ws).
      { unfold selected. destruct num as [n|]; [|auto]. destruct (Nat.ltb_spec (length ws) n); [auto|].
        destruct (DO n (length ws) H) as (_ & _ & D3). clear - D3. intros w. induction (draw n (length ws)) as [|i l IH]; [intros []|].
        inversion_clear D3. cbn [chosen]. intros [<-|I]; [now apply nth_In|now apply IH]. }
      assert (Q : forall r, In r train -> exists w, In w ws /\ r = row_of maxf w).
      { intros r I. unfold train in I.
        assert (I' : In r (copies dup (map (row_of maxf) (selected draw d num ws)))) by (destruct num as [n|]; cbn [upto] in I; [rewrite <- (firstn_skipn n), in_app_iff; now left|exact I]).
        unfold copies in I'. apply in_flat_map in I'. destruct I' as [r' [I1 I2]]. apply repeat_spec in I2. subst r'.
        apply in_map_iff in I1. destruct I1 as [w [<- I1]]. exists w. split; [now apply SEL|reflexivity]. }
      revert Q. generalize 0. generalize train. clear - NN. induction train as [|[[l e] v] rows IH]; intros i H; [apply Forall_nil|]. cbn [number]. apply Forall_cons.
      - destruct (H (l, e, v) (or_introl eq_refl)) as [w [I EQ]]. specialize (NN w I). unfold row_of in EQ. injection EQ as -> _ _. exact NN.
      - apply IH. intros r I. apply H. now right. }
    unfold fill_view. rewrite F1.
    destruct (fill_fold lab (number 0 train) [] OK1) as [tr [T1 [T2 T3]]]. rewrite T1. cbn [bind].
    assert (G1 : grouped lab (number 0 train) tr) by (split; [intros k; rewrite T2; now destruct k|exact T3]).
    exists tr, (copy_view (length train) tr). split; [reflexivity|]. split; [exact G1|].
    destruct (copy_view_spec (length train) tr) as [H1 H2]. split; [exact H1|].
    now rewrite H2, (view_total lab _ tr OK1 G1), number_len.
  Qed.
End Reader.

(** ** Integer labels without extra data *)
(** The value of a decimal numeral, most significant digit first. *)
Fixpoint decimal (acc : N) (ds : text) : N := match ds with [] => acc | c :: r => decimal (10 * acc + digit_value c)%N r end.
(** A label of the usual tasks: digits, value below 2^31. *)
Definition numeral (ds : text) (z : Z) : Prop :=
  ds <> [] /\ Forall (fun c => is_digit c = true) ds /\ z = Z.of_N (decimal 0 ds) /\ (z < 2 ^ 31)%Z.

Lemma digit_facts c : is_digit c = true -> is_space c = false /\ Ascii.eqb c "-" = false /\ Ascii.eqb c "+" = false /\ c <> nl.
Proof.
  unfold is_digit, is_space. intros H. apply andb_true_iff in H. rewrite !Nat.leb_le in H.
  split; [|split; [|split]].
  - apply orb_false_iff. rewrite andb_false_iff, Nat.eqb_neq, !Nat.leb_gt. lia.
  - apply Ascii.eqb_neq. intros ->. cbn in H. lia.
  - apply Ascii.eqb_neq. intros ->. cbn in H. lia.
  - intros ->. cbn in H. lia.
Qed.
Lemma read_digits_numeral ds a s : Forall (fun c => is_digit c = true) ds -> ends s -> read_digits a (ds ++ s) = (decimal a ds, s).
Proof.
  revert a; induction ds as [|c ds IH]; intros a A H; [now apply read_digits_ends|].
  inversion_clear A as [|? ? D A']. cbn [app read_digits decimal]. rewrite D. now apply IH.
Qed.
Lemma read_int_numeral ds z s : numeral ds z -> ends s -> read_int (ds ++ s) = Some (z, s).
Proof.
  intros (N & A & V & B) H. unfold read_int, read_number.
  destruct ds as [|c ds]; [now elim N|].
  assert (D : is_digit c = true) by now inversion A.
  destruct (digit_facts c D) as (F1 & F2 & F3 & _).
  cbn [app skip_ws]. rewrite F1, F2, F3, D.
  change (c :: ds ++ s) with ((c :: ds) ++ s). rewrite (read_digits_numeral _ _ _ A H).
  rewrite <- V. assert (E1 : (- 2 ^ 31 <=? z)%Z = true) by (apply Z.leb_le; lia).
  assert (E2 : (z <? 2 ^ 31)%Z = true) by now apply Z.ltb_lt.
  now rewrite E1, E2.
Qed.

(** A line of a usual data file: a numeral and the feature columns. *)
Definition int_line (m : nat) (w : @written Z unit) : Prop :=
  numeral (wr_head w) (wr_label w) /\ wr_extra w = tt /\
  Forall (fun p => blank (fst p)) (wr_bits w) /\ line_end (wr_end w) /\ length (wr_bits w) = m.
Lemma int_line_ok m w : int_line m w -> written_ok read_int no_extra m w /\ (0 <= wr_label w)%Z.
Proof.
  intros (N & X & B & T & W). split.
  - split; [|split; [|split; [|exact (conj B (conj T W))]]].
    + intros s H. exists s. split; [now apply read_int_numeral|]. unfold no_extra. now rewrite X.
    + destruct N as (_ & A & _). intros I. rewrite Forall_forall in A. specialize (A _ I). now apply digit_facts in A.
    + now destruct N.
  - destruct N as (_ & _ & -> & _). lia.
Qed.

(** C44, for integer labels: every line of a well-formed train file becomes one train instance,
    every line of the test file one test instance. *)
Theorem C44_classification_files draw m ws ws' f f' :
  Forall (int_line m) ws -> Forall (int_line m) ws' -> ws <> [] -> ws' <> [] ->
  exists tr te, read_data_int draw (Some (fun z => z)) 1 None None (file_of f (map line_of ws)) (Some (file_of f' (map line_of ws'))) = Ok (tr, te, Some m) /\
    grouped (fun z => z) (number 0 (map (row_of None) ws)) tr /\
    grouped (fun z => z) (number (length ws) (map (row_of None) ws')) te.
Proof.
  intros A A' NE NE'.
  assert (B : Forall (written_ok read_int no_extra m) ws) by (eapply Forall_impl; [|exact A]; intros w H; now apply int_line_ok).
  assert (B' : Forall (written_ok read_int no_extra m) ws') by (eapply Forall_impl; [|exact A']; intros w H; now apply int_line_ok).
  assert (NN : forall w, In w ws \/ In w ws' -> (0 <= wr_label w)%Z).
  { rewrite Forall_forall in A, A'. intros w [I|I]; [now apply (int_line_ok m), A|now apply (int_line_ok m), A']. }
  destruct ws as [|d ws0] eqn:W; [now elim NE|]. rewrite <- W in *.
  (* without a limit nothing is drawn; any drawing function will do *)
  set (dr := fun n a : nat => seq 0 n).
  assert (DO : draw_ok dr).
  { intros n a H. unfold dr. split; [apply seq_length|]. split.
    - assert (Q : forall k j, increasing (seq j k)).
      { clear. induction k as [|k IH]; intros j; cbn; constructor; [apply IH|]. apply Forall_forall. intros x I. apply in_seq in I. lia. }
      apply Q.
    - apply Forall_forall. intros x I. apply in_seq in I. lia. }
  destruct (C44_train_and_test read_int no_extra dr (fun z => z) 1 None None m m ws ws' d f f' DO ltac:(lia) I B B' NN NE NE' (le_n _)) as [tr [te [H1 [H2 H3]]]].
  assert (Cp : forall l : list (@written Z unit), copies 1 (map (row_of None) l) = map (row_of None) l).
  { clear. induction l as [|w l IH]; [reflexivity|]. cbn [map]. unfold copies in *. cbn [flat_map repeat app]. f_equal; exact IH. }
  exists tr, te. split; [exact H1|]. cbn [upto selected] in H2, H3. rewrite Cp in H2, H3.
  split; [exact H2|]. now rewrite map_length in H3.
Qed.

(** A sample of [n] lines: [n] different rows of the file in the order of the file. *)
Theorem C44_sample draw n m ws d f :
  draw_ok draw -> 0 < n <= length ws -> Forall (int_line m) ws ->
  read_file read_int no_extra draw 1 (Some n) None None 0 (file_of f (map line_of ws)) =
  Ok (number 0 (map (row_of None) (chosen d (draw n (length ws)) ws)), Some m).
Proof.
  intros DO [P H] A.
  assert (B : Forall (written_ok read_int no_extra m) ws) by (eapply Forall_impl; [|exact A]; intros w X; now apply int_line_ok).
  rewrite (C44_rows_read read_int no_extra draw 1 (Some n) None None 0 m ws d f DO) by (assumption || lia || exact I).
  unfold selected. assert (E1 : (length ws <? n) = false) by (apply Nat.ltb_ge; lia). rewrite E1.
  assert (Cp : forall l : list (@written Z unit), copies 1 (map (row_of None) l) = map (row_of None) l).
  { clear. induction l as [|w l IH]; [reflexivity|]. cbn [map]. unfold copies in *. cbn [flat_map repeat app]. f_equal; exact IH. }
  rewrite Cp. cbn [upto]. rewrite firstn_all2.
  - destruct ws; [cbn in H; lia|reflexivity].
  - rewrite map_length. destruct (DO n (length ws) H) as (D1 & _). rewrite <- D1 at 2. generalize (draw n (length ws)). clear. intros l. induction l; cbn; lia.
Qed.

(** ** Other values in the feature columns *)
Lemma read_bits_other k bits c ds z t : Forall (fun p => blank (fst p)) bits -> length bits < k -> blank c -> numeral ds z -> (1 < z)%Z -> ends t ->
  read_bits k (columns bits ++ c :: ds ++ t) = Exit.
Proof.
  revert bits; induction k as [|k IH]; intros bits A H Bc Nm Z T; [lia|]. destruct bits as [|[d b] bits].
  - cbn [columns flat_map app read_bits]. unfold read_bit. rewrite read_number_skip by apply Bc.
    destruct Nm as (N & Dg & V & B). unfold read_number. destruct ds as [|e ds]; [now elim N|].
    assert (D : is_digit e = true) by now inversion Dg.
    destruct (digit_facts e D) as (F1 & F2 & F3 & _). cbn [app skip_ws]. rewrite F1, F2, F3, D.
    change (e :: ds ++ t) with ((e :: ds) ++ t). rewrite (read_digits_numeral _ _ _ Dg T).
    set (n := decimal 0 (e :: ds)) in *. clearbody n.
    assert (E1 : (2 ^ 32 <=? n)%N = false) by (apply N.leb_gt; lia). rewrite E1.
    assert (E2 : (n =? 0)%N = false) by (apply N.eqb_neq; lia). rewrite E2.
    assert (E3 : (n =? 1)%N = false) by (apply N.eqb_neq; lia). rewrite E3. reflexivity.
  - inversion_clear A as [|? ? [B _] A']. cbn [fst] in B.
    change (columns ((d, b) :: bits) ++ c :: ds ++ t) with (d :: bit_char b :: (columns bits ++ c :: ds ++ t)).
    cbn [read_bits]. rewrite read_bit_sep; [|exact B|].
    + cbn [bind snd]. rewrite IH; [reflexivity|exact A'|cbn [length] in H; lia|exact Bc|exact Nm|exact Z|exact T].
    + destruct bits as [|[d2 b2] bits]; [apply Bc|]. inversion_clear A' as [|? ? [B2 _] _]. exact B2.
Qed.
Lemma read_lines_exit m bad rest : read_line read_int no_extra (Some m) None None bad = Exit ->
  forall ws lno id nf, Forall (written_ok read_int no_extra m) ws -> (ws = [] -> nf = Some m) -> nf = None \/ nf = Some m ->
  read_lines read_int no_extra 1 None None None 0 None lno id nf (map line_of ws ++ bad :: rest) = Exit.
Proof.
  intros X. induction ws as [|w ws IH]; intros lno id nf A N NF.
  - rewrite (N eq_refl). cbn [map app read_lines]. rewrite X. reflexivity.
  - inversion_clear A as [|? ? W A']. cbn [map app read_lines].
    rewrite (read_line_written _ _ _ _ _ m) by (assumption || exact I). cbn [bind limit add_copies].
    rewrite IH; [reflexivity|exact A'|reflexivity|now right].
Qed.
(** A line with a value other than 0 and 1 in a feature column, after any number of good lines
    and whatever follows, ends the program. *)
Theorem C44_other_value draw m ws hd lab bits c ds z t rest f :
  Forall (int_line m) ws -> ws <> [] -> numeral hd lab -> Forall (fun p => blank (fst p)) bits -> length bits < m ->
  blank c -> numeral ds z -> (1 < z)%Z -> ends t -> no_nl t -> Forall (fun l => no_nl l /\ l <> []) rest ->
  read_file read_int no_extra draw 1 None None None 0 (file_of f (map line_of ws ++ (hd ++ columns bits ++ c :: ds ++ t) :: rest)) = Exit.
Proof.
  intros A NE Hh Hb Hl Bc Nm Z T Nt Hr.
  assert (B : Forall (written_ok read_int no_extra m) ws) by (eapply Forall_impl; [|exact A]; intros w X; now apply int_line_ok).
  assert (Nn : forall d y, numeral d y -> no_nl d).
  { intros d y (_ & D & _) I. rewrite Forall_forall in D. specialize (D _ I). now apply digit_facts in D. }
  unfold read_file. rewrite lines_file.
  - rewrite (read_lines_exit m); [reflexivity| |exact B|intros ->; now elim NE|now left].
    unfold read_line. rewrite (read_int_numeral hd lab _ Hh).
    + cbn [no_extra]. cbn [limit]. rewrite (read_bits_other m bits c ds z t Hb Hl Bc Nm Z T). reflexivity.
    + destruct bits as [|[d b] bits]; [apply Bc|]. inversion_clear Hb as [|? ? [B2 _] _]. exact B2.
  - apply Forall_app. split; [|apply Forall_cons].
    + apply Forall_forall. intros l I. apply in_map_iff in I. destruct I as (w & <- & I). rewrite Forall_forall in B. exact (line_no_nl _ _ _ _ (B w I)).
    + intro I. apply in_app_or in I. destruct I as [I|I]; [exact (Nn _ _ Hh I)|]. apply in_app_or in I. destruct I as [I|[I|I]].
      * unfold columns in I. rewrite in_flat_map in I. destruct I as [[d b] [I1 I2]]. rewrite Forall_forall in Hb. specialize (Hb _ I1). destruct Hb as [_ Hb].
        cbn in I2. destruct I2 as [I2|[I2|[]]]; [now apply Hb|]. destruct b; discriminate.
      * now apply Bc.
      * apply in_app_or in I. destruct I as [I|I]; [exact (Nn _ _ Nm I)|exact (Nt I)].
    + eapply Forall_impl; [|exact Hr]. now intros l [X _].
  - apply Forall_app. split; [|apply Forall_cons].
    + apply Forall_forall. intros l I. apply in_map_iff in I. destruct I as (w & <- & I). rewrite Forall_forall in B. exact (line_nonempty _ _ _ _ (B w I)).
    + destruct Hh as (Nh & _). intro I. apply app_eq_nil in I. now apply Nh.
    + eapply Forall_impl; [|exact Hr]. now intros l [_ X].
Qed.
(** The separators: space, tabulator, vertical tabulator, form feed and carriage return. *)
Theorem C44_separators c : blank c <-> In c [" "; "009"; "011"; "012"; "013"]%char.
Proof.
  split.
  - intros [H N]. destruct c as [[] [] [] [] [] [] [] []]; vm_compute in H; try discriminate; vm_compute; tauto.
  - intros H. repeat (destruct H as [<-|H]; [split; [reflexivity|discriminate]|]). destruct H.
Qed.

(** ** Files that are not well formed *)
From Coq Require Import String.
Definition text_of := String.list_ascii_of_string.
Definition first_n (n a : nat) : list nat := seq 0 n.
Local Open Scope string_scope.
Definition newline : String.string := String.String nl "".
Definition read_string (s : String.string) := read_file read_int no_extra first_n 1 None None None 0 (text_of s).

Example C44_other_value_ex : read_string (String.append "1 0 1" (String.append newline (String.append "0 1 2" newline))) = Exit.
Proof. vm_compute. reflexivity. Qed.
(** A blank line is read as an instance: its label has no value. *)
Theorem C44_blank_line_refuted :
  exists s, s = String.append "1 0" (String.append newline (String.append newline (String.append "0 1" newline))) /\ read_string s = Undef.
Proof. eexists; split; [reflexivity|]. vm_compute. reflexivity. Qed.
(** A line with more columns than the first one is cut without notice. *)
Theorem C44_wider_line_refuted :
  exists s x y, s = String.append "1 0" (String.append newline (String.append "0 1 1" newline)) /\ read_string s = Ok ([x; y], Some 1) /\
    fr_bits y = [true]%list.
Proof. eexists; eexists; eexists; split; [reflexivity|]. split; [vm_compute; reflexivity|reflexivity]. Qed.
(** A narrower one is undefined. *)
Theorem C44_narrower_line_refuted :
  exists s, s = String.append "1 0 1" (String.append newline (String.append "0 1" newline)) /\ read_string s = Undef.
Proof. eexists; split; [reflexivity|]. vm_compute. reflexivity. Qed.
(** Two blanks between the columns of the first line: the number of features is wrong. *)
Theorem C44_two_blanks_refuted :
  exists s, s = String.append "1  0  1" newline /\ read_string s = Undef.
Proof. eexists; split; [reflexivity|]. vm_compute. reflexivity. Qed.
(** A label -1 discards the groups filled before and is used as an index. *)
Theorem C44_negative_label_refuted :
  exists s, s = String.append "1 0" (String.append newline (String.append "-1 1" newline)) /\
    (exists r, read_string s = Ok r) /\ read_data_int first_n (Some (fun z => z)) 1 None None (text_of s) None = Undef.
Proof. eexists; split; [reflexivity|]. split; [eexists; vm_compute; reflexivity|vm_compute; reflexivity]. Qed.
(** The parameter text says that the first instances are considered; any sample may be read. *)
Theorem C44_first_rows_refuted :
  exists draw s x y, draw_ok draw /\ s = String.append "1 0" (String.append newline (String.append "0 1" newline)) /\
    read_file read_int no_extra draw 1 (Some 1) None None 0 (text_of s) = Ok ([x], Some 1) /\
    read_string s = Ok ([y; FRow 1 0%Z tt [true]], Some 1) /\ fr_label x <> fr_label y.
Proof.
  exists (fun n a => seq (a - n) n). eexists. eexists. eexists. split; [|split; [reflexivity|split; [vm_compute; reflexivity|split; [vm_compute; reflexivity|discriminate]]]].
  intros n a H. split; [apply seq_length|]. split.
  - assert (Q : forall k j, increasing (seq j k)).
    { clear. induction k as [|k IH]; intros j; cbn; constructor; [apply IH|]. apply Forall_forall. intros x I. apply in_seq in I. lia. }
    apply Q.
  - apply Forall_forall. intros x I. apply in_seq in I. lia.
Qed.
Local Close Scope string_scope.
Local Open Scope char_scope.
Local Open Scope list_scope.

(** ** A concrete file *)
Definition tab : ascii := "009"%char.
Definition cr : ascii := "013"%char.
Definition ex_rows : list (@written Z unit) :=
  [Written 1%Z tt ["1"%char] [(" "%char, true); (" "%char, false)] [];
   Written 0%Z tt ["0"%char; "0"%char] [(tab, false); (" "%char, false)] [cr];
   Written 12%Z tt ["1"%char; "2"%char] [(" "%char, true); (tab, true)] [" "%char]].
Lemma blank_space : blank " "%char. Proof. split; [reflexivity|discriminate]. Qed.
Lemma blank_tab : blank tab. Proof. split; [reflexivity|discriminate]. Qed.
Lemma blank_cr : blank cr. Proof. split; [reflexivity|discriminate]. Qed.
Example ex_rows_ok : Forall (int_line 2) ex_rows.
Proof.
  assert (Bs : blank " "%char) by apply blank_space. assert (Bt : blank tab) by apply blank_tab. assert (Bc : blank cr) by apply blank_cr.
  apply Forall_cons; [|apply Forall_cons; [|apply Forall_cons; [|apply Forall_nil]]].
  - split; [|split; [reflexivity|split; [|split; [now left|reflexivity]]]].
    + split; [discriminate|]. split; [apply Forall_cons; [reflexivity|apply Forall_nil]|]. split; reflexivity.
    + apply Forall_cons; [exact Bs|]. apply Forall_cons; [exact Bs|apply Forall_nil].
  - split; [|split; [reflexivity|split; [|split; [right; exists cr; now split|reflexivity]]]].
    + split; [discriminate|]. split; [apply Forall_cons; [reflexivity|apply Forall_cons; [reflexivity|apply Forall_nil]]|]. split; reflexivity.
    + apply Forall_cons; [exact Bt|]. apply Forall_cons; [exact Bs|apply Forall_nil].
  - split; [|split; [reflexivity|split; [|split; [right; exists " "%char; now split|reflexivity]]]].
    + split; [discriminate|]. split; [apply Forall_cons; [reflexivity|apply Forall_cons; [reflexivity|apply Forall_nil]]|]. split; reflexivity.
    + apply Forall_cons; [exact Bs|]. apply Forall_cons; [exact Bt|apply Forall_nil].
Qed.
Example ex_read : exists tr te, read_data_int first_n (Some (fun z => z)) 1 None None (file_of false (map line_of ex_rows)) (Some (file_of true (map line_of ex_rows))) = Ok (tr, te, Some 2) /\
  nth 12 tr [] = [FRow 2 12%Z tt [true; true]] /\ nth 0 te [] = [FRow 4 0%Z tt [false; false]].
Proof. eexists; eexists; split; [vm_compute; reflexivity|split; reflexivity]. Qed.
Example ex_sample : read_file read_int no_extra (fun n a => seq (a - n) n) 2 (Some 3) (Some 1) None 7 (file_of true (map line_of ex_rows)) =
  Ok ([FRow 7 1%Z tt [true]; FRow 8 1%Z tt [true]; FRow 9 0%Z tt [false]], Some 1).
Proof. vm_compute. reflexivity. Qed.

Print Assumptions C44_other_value.
Print Assumptions C44_separators.
Print Assumptions C44_rows_read.
Print Assumptions C44_train_and_test.
Print Assumptions C44_train_only.
Print Assumptions C44_classification_files.
Print Assumptions C44_sample.
Print Assumptions C44_blank_line_refuted.
Print Assumptions C44_wider_line_refuted.
Print Assumptions C44_narrower_line_refuted.
Print Assumptions C44_two_blanks_refuted.
Print Assumptions C44_negative_label_refuted.
Print Assumptions C44_first_rows_refuted.
