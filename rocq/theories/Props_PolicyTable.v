(** C87: the table of targets of the policy estimator. *)
From Coq Require Import List Arith Bool ZArith QArith Lia Sorted.
From Verif Require Import Model_Binarizer Model_PolicyTable Props_Binarizer.
Import ListNotations.
Local Open Scope nat_scope.

(** ** Specification: the documented table for [K] treatments
    (prescriptive_policy_generation.py:137-145).  An observation has the historic treatment, its
    outcome and propensity, [K] predicted outcomes and, in a table for testing, the optimal
    treatment and [K] outcomes. *)
Record obs := Obs { o_k : nat; o_y : Q; o_mu : Q; o_hat : list Q; o_opt : nat; o_cf : list Q }.
Definition num (n : nat) : Q := inject_Z (Z.of_nat n).
Definition obs_ok (K : nat) (o : obs) : Prop := o_k o < K /\ length (o_hat o) = K /\ o_opt o < K /\ length (o_cf o) = K.
Definition layout (test : bool) (o : obs) : list Q :=
  num (o_k o) :: o_y o :: o_mu o :: o_hat o ++ if test then num (o_opt o) :: o_cf o else [].
Definition columns (test : bool) (K : nat) : nat := if test then 4 + 2 * K else 3 + K.
(** What should reach the solver; without the part for testing it has zeros. *)
Definition meant (test : bool) (o : obs) : ppg_row :=
  PPGRow (Z.of_nat (o_k o)) (o_y o) (o_mu o) (o_hat o) (if test then Z.of_nat (o_opt o) else 0) (if test then o_cf o else repeat 0%Q (length (o_hat o))).
Definition seen (rows : list obs) : nat := length (nodup Nat.eq_dec (map o_k rows)).

Lemma layout_length test K o : obs_ok K o -> length (layout test o) = columns test K.
Proof. intros (_ & H & _ & C). unfold layout, columns. cbn [length]. rewrite app_length, H. destruct test; cbn [length]; lia. Qed.

Lemma py_int_num n : py_int (num n) = Z.of_nat n.
Proof. unfold py_int, num. cbn. apply Z.quot_1_r. Qed.
Lemma num_inj a b : num a == num b -> a = b.
Proof. unfold num. intro H. apply Nat2Z.inj. exact (proj1 (inject_Z_injective _ _) H). Qed.
Lemma uinsert_fresh x l : StronglySorted Qlt l -> (forall y, In y l -> ~ y == x) -> length (uinsert x l) = S (length l).
Proof.
  induction 1 as [|z l S IH F]; intros N; cbn [uinsert]; [reflexivity|]. destruct (Qeq_bool x z) eqn:E.
  - apply Qeq_bool_eq in E. exfalso. apply (N z (or_introl eq_refl)). now symmetry.
  - destruct (Qle_bool x z); cbn [length]; [reflexivity|]. f_equal. apply IH. intros y Y. apply N. now right.
Qed.
Lemma uinsert_old x l : StronglySorted Qlt l -> (exists y, In y l /\ y == x) -> length (uinsert x l) = length l.
Proof.
  induction 1 as [|z l S IH F]; intros (y & I & E); [destruct I|]. cbn [uinsert]. destruct (Qeq_bool x z) eqn:Q; [reflexivity|].
  apply qeq_f in Q. destruct I as [->|I]; [exfalso; apply Q; now symmetry|]. rewrite Forall_forall in F. pose proof (F y I) as L.
  destruct (Qle_bool x z) eqn:B.
  - apply Qle_bool_iff in B. exfalso. rewrite E in L. exact (Qlt_not_le _ _ L B).
  - cbn [length]. f_equal. apply IH. exists y. auto.
Qed.
Lemma unique_nums ks : length (unique (map num ks)) = length (nodup Nat.eq_dec ks).
Proof.
  induction ks as [|k ks IH]; [reflexivity|]. cbn [map nodup]. change (unique (num k :: map num ks)) with (uinsert (num k) (unique (map num ks))).
  destruct (in_dec Nat.eq_dec k ks) as [I|I].
  - rewrite uinsert_old; [exact IH|apply unique_sorted|apply unique_has, in_map, I].
  - rewrite uinsert_fresh; [cbn [length]; congruence|apply unique_sorted|]. intros y Y E. apply unique_in, in_map_iff in Y. destruct Y as (j & <- & J). apply num_inj in E. subst. auto.
Qed.
Lemma nodup_nums (l : list nat) : length (nodup Z.eq_dec (map Z.of_nat l)) = length (nodup Nat.eq_dec l).
Proof.
  induction l as [|k l IH]; [reflexivity|]. cbn [map nodup]. destruct (in_dec Nat.eq_dec k l) as [I|I], (in_dec Z.eq_dec (Z.of_nat k) (map Z.of_nat l)) as [J|J]; cbn [length]; try congruence.
  - exfalso. apply J, in_map, I.
  - exfalso. apply in_map_iff in J. destruct J as (j & E & J). apply I. apply Nat2Z.inj in E. congruence.
Qed.
Lemma map_cell (l : list Q) n : n = length l -> map (fun i => nth i l 0%Q) (seq 0 n) = l.
Proof.
  intros ->. induction l as [|x l IH]; [reflexivity|]. cbn [length seq map nth]. f_equal. rewrite <- seq_shift, map_map. exact IH.
Qed.
Lemma read_own test K o : obs_ok K o -> read_row (columns test K) K (layout test o) = Some (meant test o).
Proof.
  intros (A & B & C & D). unfold read_row, layout, cell, columns. cbn [nth Nat.add].
  assert (P : forall i, i < K -> forall l, nth i (o_hat o ++ l) 0%Q = nth i (o_hat o) 0%Q) by (intros; apply app_nth1; lia).
  assert (H : forall l, map (fun i => nth i (o_hat o ++ l) 0%Q) (seq 0 K) = o_hat o).
  { intro l. transitivity (map (fun i => nth i (o_hat o) 0%Q) (seq 0 K)); [|apply map_cell; congruence]. apply map_ext_in. intros i I. apply in_seq in I. apply P. lia. }
  rewrite H. unfold meant. destruct test.
  - match goal with |- context [?a =? ?b] => replace (a =? b) with true by (symmetry; apply Nat.eqb_eq; lia) end. rewrite !py_int_num. f_equal. f_equal.
    + rewrite app_nth2 by lia. rewrite B, Nat.sub_diag. cbn [nth]. apply py_int_num.
    + transitivity (map (fun i => nth i (o_cf o) 0%Q) (seq 0 K)); [|apply map_cell; congruence]. apply map_ext. intro i. rewrite app_nth2 by lia. replace (S (K + i) - length (o_hat o)) with (S i) by lia. reflexivity.
  - match goal with |- context [?a =? ?b] => replace (a =? b) with false by (symmetry; apply Nat.eqb_neq; lia) end. rewrite Nat.eqb_refl, py_int_num, B. reflexivity.
Qed.
Lemma read_all test K rows : Forall (obs_ok K) rows -> read_rows (columns test K) K (map (layout test) rows) = Some (map (meant test) rows).
Proof. induction 1 as [|o l H _ IH]; [reflexivity|]. cbn [map read_rows]. rewrite read_own by exact H. rewrite IH. reflexivity. Qed.
Lemma first_cells test rows : map (fun r => cell r 0) (map (layout test) rows) = map num (map o_k rows).
Proof. rewrite !map_map. reflexivity. Qed.
Lemma meant_keys test rows : map g_k (map (meant test) rows) = map Z.of_nat (map o_k rows).
Proof. rewrite !map_map. reflexivity. Qed.

(** A table that follows the documentation is read as it is meant: in a fit, if every treatment
    occurs in the data; in later calls always. *)
Theorem C87_fit_partial : forall stored test K rows, Forall (obs_ok K) rows -> seen rows = K -> 5 <= columns test K ->
  check_data stored true (columns test K) (map (layout test) rows) = Some (map (meant test) rows, Some K).
Proof.
  intros stored test K rows OK S C. unfold check_data. replace (columns test K <? 5) with false by (symmetry; apply Nat.ltb_ge; exact C).
  rewrite first_cells, unique_nums. unfold seen in S. rewrite S.
  replace (match stored with Some _ => K | None => K end) with K by (destruct stored; reflexivity). rewrite read_all by exact OK.
  rewrite meant_keys, nodup_nums, S. destruct stored; reflexivity.
Qed.
Theorem C87_later : forall test K rows, Forall (obs_ok K) rows -> 5 <= columns test K ->
  check_data (Some K) false (columns test K) (map (layout test) rows) = Some (map (meant test) rows, Some K).
Proof.
  intros test K rows OK C. unfold check_data. replace (columns test K <? 5) with false by (symmetry; apply Nat.ltb_ge; exact C). rewrite read_all by exact OK. reflexivity.
Qed.

(** If some treatment does not occur, a fit never reads the table as it is meant.  It raises an
    error, except for a table without the part for testing when the treatments are one more
    than twice those that occur. *)
Definition misread (s : nat) (o : obs) : ppg_row :=
  PPGRow (Z.of_nat (o_k o)) (o_y o) (o_mu o) (firstn s (o_hat o)) (py_int (nth s (o_hat o) 0%Q)) (skipn (S s) (o_hat o)).
Lemma seq_cells (l : list Q) a n : a + n <= length l -> map (fun i => nth (a + i) l 0%Q) (seq 0 n) = firstn n (skipn a l).
Proof.
  revert a. induction n as [|n IH]; intros a H; [reflexivity|]. rewrite seq_S, map_app, IH by lia. cbn [map Nat.add].
  clear IH. revert l H. induction a as [|a IHa]; intros l H; cbn [skipn Nat.add].
  - revert n H. induction l as [|x l IHl]; intros n H; [cbn in H; lia|]. destruct n; [reflexivity|]. cbn [firstn app nth]. f_equal. apply IHl. cbn in H. lia.
  - destruct l as [|x l]; [cbn in H; lia|]. cbn [nth]. apply IHa. cbn in H. lia.
Qed.
Lemma read_other s o : obs_ok (2 * s + 1) o -> read_row (columns false (2 * s + 1)) s (layout false o) = Some (misread s o).
Proof.
  intros (A & B & _). unfold read_row, layout, cell, columns, misread. rewrite app_nil_r. cbn [nth Nat.add].
  match goal with |- context [?a =? ?b] => replace (a =? b) with true by (symmetry; apply Nat.eqb_eq; lia) end. rewrite py_int_num.
  f_equal. f_equal; [exact (seq_cells (o_hat o) 0 s ltac:(lia))|].
  transitivity (firstn s (skipn (S s) (o_hat o))); [exact (seq_cells (o_hat o) (S s) s ltac:(lia))|]. apply firstn_all2. rewrite skipn_length. lia.
Qed.
Lemma seen_pos o rows : 0 < seen (o :: rows).
Proof.
  unfold seen. assert (I : In (o_k o) (nodup Nat.eq_dec (map o_k (o :: rows)))) by (apply nodup_In; now left). destruct (nodup Nat.eq_dec (map o_k (o :: rows))); [destruct I|cbn; lia].
Qed.
Theorem C87_unseen_refuted : forall stored test K rows, rows <> [] -> Forall (obs_ok K) rows -> seen rows < K -> 5 <= columns test K ->
  check_data stored true (columns test K) (map (layout test) rows)
  = if negb test && (K =? 2 * seen rows + 1) then Some (map (misread (seen rows)) rows, Some (seen rows)) else None.
Proof.
  intros stored test K rows NE OK S C. unfold check_data. replace (columns test K <? 5) with false by (symmetry; apply Nat.ltb_ge; exact C).
  rewrite first_cells, unique_nums. change (length (nodup Nat.eq_dec (map o_k rows))) with (seen rows).
  replace (match stored with Some _ => seen rows | None => seen rows end) with (seen rows) by (destruct stored; reflexivity).
  destruct (negb test && (K =? 2 * seen rows + 1)) eqn:T.
  - apply andb_true_iff in T. destruct T as [T1 T2]. apply negb_true_iff in T1. apply Nat.eqb_eq in T2. subst test.
    assert (R : read_rows (columns false K) (seen rows) (map (layout false) rows) = Some (map (misread (seen rows)) rows)).
    { rewrite T2 in OK |- *. clear -OK. revert OK. generalize (seen rows) as s. intros s. induction 1 as [|o l H _ IH]; [reflexivity|]. cbn [map read_rows]. rewrite read_other by exact H. rewrite IH. reflexivity. }
    rewrite R. assert (K' : map g_k (map (misread (seen rows)) rows) = map Z.of_nat (map o_k rows)) by (rewrite !map_map; reflexivity).
    rewrite K', nodup_nums. fold (seen rows). destruct stored; reflexivity.
  - assert (R : read_rows (columns test K) (seen rows) (map (layout test) rows) = None); [|rewrite R; reflexivity].
    pose proof (seen_pos (hd (Obs 0 0 0 [] 0 []) rows) (tl rows)) as P. destruct rows as [|o rows]; [congruence|]. cbn [hd tl] in P. cbn [map read_rows].
    assert (X : read_row (columns test K) (seen (o :: rows)) (layout test o) = None); [|rewrite X; reflexivity].
    unfold read_row. apply andb_false_iff in T. rewrite negb_false_iff, Nat.eqb_neq in T.
    assert (columns test K <> 4 + seen (o :: rows) * 2) by (unfold columns; destruct test; destruct T; try discriminate; lia).
    assert (columns test K <> 3 + seen (o :: rows)) by (unfold columns; destruct test; lia).
    replace (columns test K =? 4 + seen (o :: rows) * 2) with false by (symmetry; now apply Nat.eqb_neq).
    replace (columns test K =? 3 + seen (o :: rows)) with false by (symmetry; now apply Nat.eqb_neq). reflexivity.
Qed.

(** Treatments need not be numbered without gaps: a table with one predicted outcome per
    treatment that occurs is accepted, although the solver reads a predicted outcome for every
    number up to the largest treatment (prescriptive_policy.cpp:49-92). *)
Theorem C87_gap_refuted : exists rows ps, check_data None true 5 rows = Some (ps, Some 2)
  /\ exists p q, In p ps /\ In q ps /\ (Z.of_nat (length (g_hat q)) <= g_k p)%Z.
Proof.
  exists [[0; 1; 1 # 2; 3; 4]; [2; 1; 1 # 2; 3; 4]]%Q. eexists. split; [vm_compute; reflexivity|]. eexists; eexists. split; [right; left; reflexivity|]. split; [left; reflexivity|]. vm_compute. discriminate.
Qed.
(** A table for testing without its last part is accepted and scored as if treatment 0 were
    optimal in every row. *)
Theorem C87_score_refuted : forall K rows, Forall (obs_ok K) rows -> 2 <= K ->
  exists ps, check_data (Some K) false (3 + K) (map (layout false) rows) = Some (ps, Some K)
    /\ test_errors ps 0 = 0 /\ forall label, label <> 0%Z -> test_errors ps label = length rows.
Proof.
  intros K rows OK G. exists (map (meant false) rows). split; [apply (C87_later false K rows OK); cbn; lia|]. unfold test_errors. split.
  - clear. induction rows as [|o l IH]; [reflexivity|]. exact IH.
  - intros label L. clear -L. induction rows as [|o l IH]; [reflexivity|]. cbn [map filter meant g_opt]. replace (negb (0 =? label)%Z) with true by (symmetry; apply negb_true_iff, Z.eqb_neq; congruence).
    cbn [length]. f_equal. exact IH.
Qed.

Example C87_ex : let rows := [Obs 0 1 (1 # 2) [1; 2; 3; 4; 5] 1 [5; 6; 7; 8; 9]; Obs 1 2 (1 # 4) [6; 7; 8; 9; 10] 0 [1; 1; 1; 1; 1]]%Q in
  Forall (obs_ok 5) rows /\ seen rows = 2 /\ 5 = 2 * seen rows + 1 /\ map (layout false) rows = [[0; 1; 1 # 2; 1; 2; 3; 4; 5]; [1; 2; 1 # 4; 6; 7; 8; 9; 10]]%Q
  /\ option_map (fun p => map g_opt (fst p)) (check_data None true 8 (map (layout false) rows)) = Some [3; 8]%Z.
Proof. cbv zeta. split; [repeat constructor; cbn; lia|]. repeat split; vm_compute; reflexivity. Qed.
Example C87_full_ex : let rows := [Obs 0 1 (1 # 2) [1; 2] 1 [5; 6]; Obs 1 2 (1 # 4) [6; 7] 0 [1; 1]]%Q in Forall (obs_ok 2) rows /\ seen rows = 2 /\ 5 <= columns true 2.
Proof. cbv zeta. split; [repeat constructor; cbn; lia|]. split; [reflexivity|cbn; lia]. Qed.

Print Assumptions C87_fit_partial.
Print Assumptions C87_later.
Print Assumptions C87_unseen_refuted.
Print Assumptions C87_gap_refuted.
Print Assumptions C87_score_refuted.

(** * C88.  The table of costs of the instance-cost-sensitive estimator. *)
(** ** Specification: [l] is the first cheapest label of [cs]. *)
Definition first_cheapest (cs : list Q) (l : nat) : Prop :=
  l < length cs /\ (forall k, k < length cs -> (nth l cs 0 <= nth k cs 0)%Q) /\ forall k, k < l -> (nth l cs 0 < nth k cs 0)%Q.
Lemma qargmin_from_spec cs : forall pre best bc, best < length pre -> nth best pre 0%Q = bc -> (forall k, k < length pre -> (bc <= nth k pre 0)%Q) ->
  (forall k, k < best -> (bc < nth k pre 0)%Q) -> first_cheapest (pre ++ cs) (qargmin_from (length pre) best bc cs).
Proof.
  induction cs as [|c cs IH]; intros pre best bc L E M F; cbn [qargmin_from].
  - rewrite app_nil_r. split; [exact L|]. rewrite E. split; [exact M|exact F].
  - assert (LP : S (length pre) = length (pre ++ [c])) by (rewrite app_length; cbn; lia). replace (pre ++ c :: cs) with ((pre ++ [c]) ++ cs) by (rewrite <- app_assoc; reflexivity).
    destruct (Qle_bool bc c) eqn:B; rewrite LP; apply IH; rewrite <- ?LP.
    + lia.
    + rewrite app_nth1 by lia. exact E.
    + intros k K. destruct (Nat.eq_dec k (length pre)) as [->|D]; [rewrite app_nth2, Nat.sub_diag by lia; cbn; now apply Qle_bool_iff|]. rewrite app_nth1 by lia. apply M. lia.
    + intros k K. rewrite app_nth1 by lia. apply F. exact K.
    + lia.
    + rewrite app_nth2, Nat.sub_diag by lia. reflexivity.
    + apply qle_f in B. intros k K. destruct (Nat.eq_dec k (length pre)) as [->|D]; [rewrite app_nth2, Nat.sub_diag by lia; cbn; apply Qle_refl|]. rewrite app_nth1 by lia.
      apply Qlt_le_weak. eapply Qlt_le_trans; [exact B|]. apply M. lia.
    + apply qle_f in B. intros k K. rewrite app_nth1 by lia. eapply Qlt_le_trans; [exact B|]. apply M. exact K.
Qed.
Lemma qargmin_spec cs l : qargmin cs = Some l -> first_cheapest cs l.
Proof.
  destruct cs as [|c cs]; [discriminate|]. cbn [qargmin]. intro H. injection H as <-. apply (qargmin_from_spec cs [c] 0 c); cbn; [lia|reflexivity| |lia].
  intros k K. assert (k = 0) by lia. subst. apply Qle_refl.
Qed.
Lemma qargmins_spec vs : Forall (fun v => v <> []) vs -> exists ls, qargmins vs = Some ls /\ Forall2 first_cheapest vs ls.
Proof.
  induction 1 as [|v vs N _ (ls & E & F)]; [exists []; split; [reflexivity|constructor]|]. cbn [qargmins]. destruct (qargmin v) as [l|] eqn:Q.
  - exists (l :: ls). rewrite E. split; [reflexivity|]. constructor; [apply qargmin_spec, Q|exact F].
  - destruct v; [congruence|discriminate].
Qed.
Lemma width_max w vs : vs <> [] -> Forall (fun v : list Q => length v = w) vs -> fold_left (fun a v => Nat.max a (length v)) vs 0 = w.
Proof.
  assert (G : forall vs a, a <= w -> Forall (fun v : list Q => length v = w) vs -> fold_left (fun a v => Nat.max a (length v)) vs a = if (length vs =? 0) then a else w).
  { clear vs. induction vs as [|v vs IH]; intros a A F; [reflexivity|]. inversion F as [|? ? V R]; subst. cbn [fold_left length Nat.eqb]. rewrite IH by (auto; lia). destruct (length vs =? 0); lia. }
  intros N F. rewrite (G vs 0 ltac:(lia) F). destruct vs; [congruence|reflexivity].
Qed.
(** An array with a column per label is read as it is; the label of a row is its first cheapest
    one and the number of labels is the number of columns. *)
Theorem C88_fit : forall stored w rows, 2 <= w -> rows <> [] -> Forall (fun r => length r = w) rows ->
  exists ls, check_costs stored true (CArray w rows) = Some ((ls, rows), Some w) /\ Forall2 first_cheapest rows ls.
Proof.
  intros stored w rows W N F. destruct (qargmins_spec rows) as (ls & E & C).
  { eapply Forall_impl; [|exact F]. intros r L ->. cbn in L. lia. }
  exists ls. split; [|exact C]. unfold check_costs. replace (w <? 2) with false by (symmetry; apply Nat.ltb_ge; lia).
  destruct stored; cbn [orb]; rewrite E, (width_max w rows N F); reflexivity.
Qed.
(** In later calls an array is accepted exactly if it has as many columns. *)
Theorem C88_later : forall K w rows, 2 <= K -> Forall (fun r => length r = w) rows ->
  if w =? K then exists ls, check_costs (Some K) false (CArray w rows) = Some ((ls, rows), Some K) /\ Forall2 first_cheapest rows ls
  else check_costs (Some K) false (CArray w rows) = None.
Proof.
  intros K w rows G F. destruct (Nat.eqb_spec w K) as [->|D].
  - destruct (qargmins_spec rows) as (ls & E & C); [eapply Forall_impl; [|exact F]; intros r L ->; cbn in L; lia|].
    exists ls. split; [|exact C]. unfold check_costs. replace (K <? 2) with false by (symmetry; apply Nat.ltb_ge; lia). rewrite Nat.eqb_refl. cbn [orb]. rewrite E. reflexivity.
  - unfold check_costs. destruct (w <? 2); [reflexivity|]. cbn [orb]. replace (K =? w) with false by (symmetry; apply Nat.eqb_neq; congruence). reflexivity.
Qed.
(** Lists of cost vectors are not checked: in a fit a vector may have fewer costs than there are
    labels, in a later call any vector that is not empty is accepted. *)
Theorem C88_vectors_refuted :
  (exists vs ls n v, check_costs None true (CVectors vs) = Some ((ls, vs), Some n) /\ In v vs /\ length v < n)
  /\ (forall K vs, Forall (fun v => v <> []) vs -> exists ls, check_costs (Some K) false (CVectors vs) = Some ((ls, vs), Some K)).
Proof.
  split.
  - exists [[0; 1; 2]; [1]]%Q, [0; 0], 3, [1%Q]. split; [vm_compute; reflexivity|]. split; [right; now left|cbn; lia].
  - intros K vs F. destruct (qargmins_spec vs F) as (ls & E & _). exists ls. unfold check_costs. rewrite E. reflexivity.
Qed.
Example C88_ex : check_costs None true (CArray 3 [[4; 1; 1]; [0; 2; 0]]%Q) = Some (([1; 0], [[4; 1; 1]; [0; 2; 0]]%Q), Some 3)
  /\ check_costs (Some 3) false (CArray 2 [[4; 1]]%Q) = None.
Proof. split; vm_compute; reflexivity. Qed.
Print Assumptions C88_fit.
Print Assumptions C88_later.
Print Assumptions C88_vectors_refuted.
