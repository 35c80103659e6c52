(** Properties of a fresh fit with the accuracy task, stated on the user's rows.
    [fit_rows W P nf nl clk rows]: the switches [W], the budgets [P], [nf] features, labels
    below [nl], a clock [clk] (its [i]-th reading says whether the time limit has not been
    reached) and the rows with their labels. *)
From Coq Require Import List Arith Bool Lia ZArith QArith.
From Verif Require Import Model_FeatureVector Model_Data Model_Node Model_Cache Model_Terminal Model_Heap Model_Solver Model_Preproc
  Spec_Tree Spec_Examples Spec_Rows Proofs_View Proofs_Base Proofs_Rows Proofs_Score Proofs_Fit Proofs_Small Proofs_Clock Proofs_Preproc.
Import ListNotations.
Local Open Scope nat_scope.

Definition fit_rows (W : switches) (P : params) (nf nl : nat) (clk : nat -> bool) (rows : list (list nat * nat)) : fit_result :=
  fit acc W P nf clk (mk_view nl rows).

(** What the Python layer and the parameter check guarantee about the input: every row has
    [nf] features and a label below [nl], there are fewer than 2^31 - 1 rows, the minimum
    leaf size is at least 1, and the node budget fits the depth when only one node is
    allowed or all trees are asked for. *)
Record usable (W : switches) (P : params) (nf nl : nat) (rows : list (list nat * nat)) : Prop := Usable {
  us_rows : good_rows nf nl rows;
  us_labels : 1 <= nl;
  us_size : (Z.of_nat (length rows) < 2147483647)%Z;
  us_leaf : 1 <= w_mls W;
  us_nodes : p_all P = true \/ p_nodes P = 1 -> p_nodes P <= 2 ^ p_depth P - 1 }.

(** The settings for which the search is exact: the similarity bound only with a minimum
    leaf size of 1; the depth-two solver only with a minimum leaf size of 1, with upper
    bounds on or a depth of at most three, and either one node or the full node budget (the
    others are refuted: C06, C07, C46, C47). *)
Definition exact (W : switches) (P : params) : Prop :=
  (w_sim W = true -> w_mls W = 1)
  /\ (w_term W = true -> w_mls W = 1 /\ (w_ub W = true \/ p_depth P <= 3 \/ p_nodes P = 1)
                         /\ (p_nodes P = 1 \/ (p_all P = false /\ p_nodes P = 2 ^ p_depth P - 1))).
(** ... and for which the tree rebuilt at the end is as good as the value found: with the
    depth-two solver up to depth three, whatever caches are used (depth four is refuted:
    C48). *)
Definition rebuilds (W : switches) (P : params) : Prop :=
  w_term W = true -> p_depth P <= 3 \/ p_nodes P = 1.

Lemma filter_length_le {A} (p : A -> bool) xs : length (filter p xs) <= length xs.
Proof. induction xs as [|x xs IH]; [reflexivity|]. cbn [filter]. destruct (p x); cbn [length]; lia. Qed.

Section Rows.
  Context (W : switches) (P : params) (nf nl : nat) (clk : nat -> bool) (rows : list (list nat * nat)).
  Hypothesis HU : usable W P nf nl rows.
  Notation R := (fit_rows W P nf nl clk rows).
  Notation v := (mk_view nl rows).

  Lemma acc_worst : within acc v.
  Proof.
    split; [|apply acc_tells|intros k x l _; cbn [acc tk_inst]; unfold wc; cbn [acc tk_sim tk_wpl]; destruct (k =? l); lia].
    assert (E : forall u k, vsum_from (wc acc) k u = Z.of_nat (vsize u)).
    { unfold vsize. induction u as [|xs u IH]; intro k; [reflexivity|]. cbn [vsum_from concat]. rewrite IH, app_length, Nat2Z.inj_add. f_equal.
      unfold wc; cbn [acc tk_wpl tk_sim]. induction xs as [|x xs IHx]; [reflexivity|]. cbn [map zsum length]. rewrite IHx. lia. }
    unfold vsum. rewrite E, (rows_size nf nl rows (us_rows _ _ _ _ _ HU)). apply (us_size _ _ _ _ _ HU).
  Qed.

  Lemma fit_facts strong : w_mls W <= length rows -> (strong = true -> fr_proven R = true) -> (strong = true -> exact W P) ->
    fit_post acc W P nf clk v strong (rebuilds W P).
  Proof.
    intros Hsz Hp Hex. pose proof (us_rows _ _ _ _ _ HU) as Hg.
    apply (fit_spec acc acc_good W P nf clk v strong (us_leaf _ _ _ _ _ HU) (fun _ _ => eq_refl) (rows_loaded nf nl rows Hg)
             (fun _ _ _ _ _ => eq_refl) (fun _ _ _ _ => eq_refl)).
    - rewrite rows_labels. apply (us_labels _ _ _ _ _ HU).
    - exact acc_worst.
    - rewrite (rows_size nf nl rows Hg). exact Hsz.
    - exact (us_nodes _ _ _ _ _ HU).
    - exact Hp.
    - exact Hex.
  Qed.

  Lemma none_small : length rows < w_mls W -> fr_tree R = None.
  Proof.
    intro H. apply small_fit; [apply (gt_true acc acc_good)|]. rewrite (rows_size nf nl rows (us_rows _ _ _ _ _ HU)). exact H.
  Qed.
  Lemma tree_large t : fr_tree R = Some t -> w_mls W <= length rows.
  Proof. intro H. destruct (le_lt_dec (w_mls W) (length rows)) as [L|L]; [exact L|]. apply none_small in L. congruence. Qed.
  Lemma fit_nodes t : w_branch W = false -> w_data W = true -> p_depth P <= 3 -> fr_tree R = Some t -> nodes t <= p_nodes P.
  Proof.
    intros Hb Hd H3 Ht. pose proof (us_rows _ _ _ _ _ HU) as Hg.
    refine (fit_budget acc acc_good W P nf clk v (us_leaf _ _ _ _ _ HU) (fun _ _ => eq_refl) (rows_loaded nf nl rows Hg) (fun _ _ _ _ _ => eq_refl) (fun _ _ _ _ => eq_refl) _ _ _ t _ Hb Hd H3 Ht).
    - rewrite rows_labels. apply (us_labels _ _ _ _ _ HU).
    - exact acc_worst.
    - rewrite (rows_size nf nl rows Hg). exact (tree_large t Ht).
    - exact (us_nodes _ _ _ _ _ HU).
  Qed.
  Lemma row_leaves_size m t : forall rs, row_leaves m rs t -> m <= length rs.
  Proof.
    induction t as [l|f l IHl r IHr]; intros rs H; [exact H|]. destruct H as [H _]. apply IHl in H.
    pose proof (filter_length_le (fun p : list nat * nat => nth f (fst p) 0 =? 0) rs). lia.
  Qed.
  Lemma row_allowed_size m d n t : row_allowed nf nl m d n rows t -> m <= length rows.
  Proof. intros (_ & H & _). eapply row_leaves_size. exact H. Qed.
  Lemma to_view m d n t : row_allowed nf nl m d n rows t -> allowed (fun f => f < nf) m d n v t.
  Proof. apply (rows_allowed nf nl rows (us_rows _ _ _ _ _ HU)). Qed.
  Lemma of_view m d n t : allowed (fun f => f < nf) m d n v t -> row_allowed nf nl m d n rows t.
  Proof. apply (rows_allowed nf nl rows (us_rows _ _ _ _ _ HU)). Qed.
  Lemma cost_view t : tree_cost (tk_inst acc) v t = Z.of_nat (row_errors rows t).
  Proof. apply (rows_errors nf nl rows (us_rows _ _ _ _ _ HU)). Qed.
  Lemma errors_small t : (Z.of_nat (row_errors rows t) < 2147483647)%Z.
  Proof.
    pose proof (filter_length_le (fun p : list nat * nat => negb (row_predict t (fst p) =? snd p)) rows).
    pose proof (us_size _ _ _ _ _ HU). unfold row_errors. lia.
  Qed.
End Rows.

(** C01: a fit that is proven optimal returns a tree with the fewest training errors among
    all trees within the limits, if there is a tree within the limits whose errors do not
    exceed the user's upper bound. *)
Theorem C01_accuracy_optimal_partial : forall W P nf nl clk rows,
  usable W P nf nl rows -> exact W P -> rebuilds W P ->
  fr_proven (fit_rows W P nf nl clk rows) = true ->
  (exists t0, row_allowed nf nl (w_mls W) (p_depth P) (p_nodes P) rows t0 /\ (Z.of_nat (row_errors rows t0) <= p_ub P)%Z) ->
  exists t, fr_tree (fit_rows W P nf nl clk rows) = Some t
    /\ forall t', row_allowed nf nl (w_mls W) (p_depth P) (p_nodes P) rows t' -> row_errors rows t <= row_errors rows t'.
Proof.
  intros W P nf nl clk rows HU Hex Hreb Hp (t0 & Ht0 & Hub).
  pose proof (row_allowed_size _ _ _ _ _ _ _ Ht0) as Hsz.
  pose proof (errors_small W P nf nl rows HU t0) as Hsm.
  destruct (fit_facts W P nf nl clk rows HU true Hsz (fun _ => Hp) (fun _ => Hex)) as [[_ H]|(t & H1 & H2 & H3 & H4 & H5 & H6 & H7)].
  - specialize (H eq_refl t0 (to_view W P nf nl rows HU _ _ _ _ Ht0)). rewrite (cost_view W P nf nl rows HU) in H. unfold bound in H. cbn [acc tk_worst] in H; unfold int32_max in H. lia.
  - exists t. split; [exact H1|]. intros t' Ht'. specialize (H7 eq_refl Hreb). rewrite (cost_view W P nf nl rows HU) in H7.
    assert (Q : forall t', row_allowed nf nl (w_mls W) (p_depth P) (p_nodes P) rows t' -> (bound acc P < Z.of_nat (row_errors rows t'))%Z \/ (Z.of_nat (row_errors rows t) <= Z.of_nat (row_errors rows t'))%Z).
    { intros t1 Ht1. destruct (H6 eq_refl t1 (to_view W P nf nl rows HU _ _ _ _ Ht1)) as [Q|Q]; rewrite (cost_view W P nf nl rows HU) in Q; [left; exact Q|right; lia]. }
    assert (B0 : (Z.of_nat (row_errors rows t0) <= bound acc P)%Z) by (unfold bound; cbn [acc tk_worst]; unfold int32_max; lia).
    destruct (Q t0 Ht0) as [Q0|Q0]; [lia|]. destruct (Q t' Ht') as [Q1|Q1]; lia.
Qed.
Print Assumptions C01_accuracy_optimal_partial.

(** C52: without the depth-two solver there is no limit on the depth, the node budget or
    (without the similarity bound) the leaf size. *)
Theorem C52_optimal_without_depth_two_solver : forall W P nf nl clk rows,
  usable W P nf nl rows -> w_term W = false -> (w_sim W = true -> w_mls W = 1) ->
  fr_proven (fit_rows W P nf nl clk rows) = true ->
  (exists t0, row_allowed nf nl (w_mls W) (p_depth P) (p_nodes P) rows t0 /\ (Z.of_nat (row_errors rows t0) <= p_ub P)%Z) ->
  exists t, fr_tree (fit_rows W P nf nl clk rows) = Some t
    /\ forall t', row_allowed nf nl (w_mls W) (p_depth P) (p_nodes P) rows t' -> row_errors rows t <= row_errors rows t'.
Proof.
  intros W P nf nl clk rows HU Ht Hs. apply C01_accuracy_optimal_partial; [exact HU| |].
  - split; [exact Hs|]. rewrite Ht. discriminate.
  - intro H. congruence.
Qed.
Print Assumptions C52_optimal_without_depth_two_solver.

(** C53: with the default switches (depth-two solver, similarity bound, data set cache, any
    feature order) and the full node budget the value found by the search is the optimum for
    every depth; for depth at most three the returned tree attains it. *)
Theorem C53_default_value_optimal : forall g P nf nl clk rows,
  usable (defaults g 1) P nf nl rows -> p_all P = false -> p_nodes P = 2 ^ p_depth P - 1 -> p_ub P = no_bound -> rows <> [] ->
  fr_proven (fit_rows (defaults g 1) P nf nl clk rows) = true ->
  exists t best, fr_tree (fit_rows (defaults g 1) P nf nl clk rows) = Some t
    /\ row_allowed nf nl 1 (p_depth P) (p_nodes P) rows best
    /\ (forall t', row_allowed nf nl 1 (p_depth P) (p_nodes P) rows t' -> row_errors rows best <= row_errors rows t')
    /\ nd_sol (fr_value (fit_rows (defaults g 1) P nf nl clk rows)) = Z.of_nat (row_errors rows best)
    /\ (p_depth P <= 3 -> row_errors rows t = row_errors rows best).
Proof.
  intros g P nf nl clk rows HU Ha Hn Hub Hne Hp.
  assert (Hsz : w_mls (defaults g 1) <= length rows) by (cbn; destruct rows; [congruence|cbn; lia]).
  assert (Hex : exact (defaults g 1) P) by (split; [reflexivity|]; intros _; cbn; auto).
  destruct (fit_facts _ P nf nl clk rows HU true Hsz (fun _ => Hp) (fun _ => Hex)) as [[_ H]|(t & H1 & H2 & H3 & H4 & (t0 & H5 & H5') & H6 & H7)].
  - exfalso. assert (Hl : row_allowed nf nl 1 (p_depth P) (p_nodes P) rows (Leaf 0)).
    { split; [cbn; apply (us_labels _ _ _ _ _ HU)|]. split; [cbn in *; exact Hsz|]. cbn; lia. }
    specialize (H eq_refl _ (to_view _ P nf nl rows HU _ _ _ _ Hl)). rewrite (cost_view _ P nf nl rows HU) in H.
    pose proof (errors_small _ P nf nl rows HU (Leaf 0)) as Hs. unfold bound in H. rewrite Hub in H. cbn [acc tk_worst] in H; unfold int32_max in H. unfold no_bound in H. lia.
  - exists t, t0. change (w_mls (defaults g 1)) with 1 in *.
    assert (Hopt : forall t', row_allowed nf nl 1 (p_depth P) (p_nodes P) rows t' -> row_errors rows t0 <= row_errors rows t').
    { intros t' Ht'. destruct (H6 eq_refl t' (to_view _ P nf nl rows HU _ _ _ _ Ht')) as [Q|Q].
      - rewrite (cost_view _ P nf nl rows HU) in Q. pose proof (errors_small _ P nf nl rows HU t') as Hs. unfold bound in Q. rewrite Hub in Q. cbn [acc tk_worst] in Q; unfold int32_max in Q. unfold no_bound in Q. lia.
      - rewrite <- H5', !(cost_view _ P nf nl rows HU) in Q. lia. }
    split; [exact H1|]. split; [exact (of_view _ P nf nl rows HU _ _ _ _ H5)|]. split; [exact Hopt|]. split.
    + unfold fit_rows. rewrite <- H5'. rewrite (cost_view _ P nf nl rows HU). reflexivity.
    + intro Hd.
      assert (Hr : rebuilds (defaults g 1) P) by (intros _; left; exact Hd).
      specialize (H7 eq_refl Hr). rewrite <- H5', !(cost_view _ P nf nl rows HU) in H7.
      apply of_view with (1 := HU) in H2. apply Nat.le_antisymm; [lia|]. apply Hopt.
      destruct H2 as (A1 & A2 & A3 & A4). split; [exact A1|]. split; [exact A2|]. split; [lia|].
      rewrite Hn. etransitivity; [exact A4|]. assert (2 ^ Nat.min (p_depth P) (2 ^ p_depth P - 1) <= 2 ^ p_depth P) by (apply Nat.pow_le_mono_r; lia). rewrite Hn. lia.
Qed.
Print Assumptions C53_default_value_optimal.

(** C48: for the settings above the errors of a returned tree within the node budget are
    the value found by the search, whatever caches, bounds and feature order are used. *)
Theorem C48_depth_three_partial : forall W P nf nl clk rows t,
  usable W P nf nl rows -> exact W P -> rebuilds W P -> p_ub P = no_bound -> nodes t <= p_nodes P ->
  fr_proven (fit_rows W P nf nl clk rows) = true ->
  fr_tree (fit_rows W P nf nl clk rows) = Some t ->
  Z.of_nat (row_errors rows t) = nd_sol (fr_value (fit_rows W P nf nl clk rows)).
Proof.
  intros W P nf nl clk rows t HU Hex Hr Hub Hnt Hp Ht.
  destruct (fit_facts _ P nf nl clk rows HU true (tree_large _ _ _ _ _ _ HU t Ht) (fun _ => Hp) (fun _ => Hex)) as [[H _]|(t' & H1 & H2 & _ & _ & _ & H6 & H7)].
  { unfold fit_rows in Ht. congruence. }
  assert (t' = t) by (unfold fit_rows in Ht; congruence). subst t'. specialize (H7 eq_refl Hr).
  assert (Ha : row_allowed nf nl (w_mls W) (p_depth P) (p_nodes P) rows t).
  { apply of_view with (1 := HU) in H2. destruct H2 as (A1 & A2 & A3 & _). split; [exact A1|]. split; [exact A2|]. split; [lia|exact Hnt]. }
  destruct (H6 eq_refl t (to_view _ P nf nl rows HU _ _ _ _ Ha)) as [Q|Q].
  - rewrite (cost_view _ P nf nl rows HU) in Q. pose proof (errors_small _ P nf nl rows HU t) as Hs. unfold bound in Q. rewrite Hub in Q. cbn [acc tk_worst] in Q; unfold int32_max in Q. unfold no_bound in Q. lia.
  - rewrite (cost_view _ P nf nl rows HU) in Q, H7. unfold fit_rows. lia.
Qed.
Print Assumptions C48_depth_three_partial.

(** C01: when no tree is returned, no tree is within the limits and the upper bound. *)
Theorem C01_no_tree : forall W P nf nl clk rows,
  usable W P nf nl rows -> exact W P ->
  fr_proven (fit_rows W P nf nl clk rows) = true -> fr_tree (fit_rows W P nf nl clk rows) = None ->
  forall t, row_allowed nf nl (w_mls W) (p_depth P) (p_nodes P) rows t -> (p_ub P < Z.of_nat (row_errors rows t))%Z.
Proof.
  intros W P nf nl clk rows HU Hex Hp Hn t Ht.
  pose proof (row_allowed_size _ _ _ _ _ _ _ Ht) as Hsz. pose proof (errors_small W P nf nl rows HU t) as Hsm.
  destruct (fit_facts W P nf nl clk rows HU true Hsz (fun _ => Hp) (fun _ => Hex)) as [[_ H]|(t1 & H1 & _)]; [|unfold fit_rows in Hn; congruence].
  specialize (H eq_refl t (to_view W P nf nl rows HU _ _ _ _ Ht)). rewrite (cost_view W P nf nl rows HU) in H. unfold bound in H. cbn [acc tk_worst] in H; unfold int32_max in H. lia.
Qed.
Print Assumptions C01_no_tree.

(** C02: whatever the switches and the clock, the returned tree has at most max-depth
    levels, tests only the given features, and every leaf holds enough rows.  The node
    budget is proved for full budgets, for at most one node, without caches, and with the
    data set cache (the default) up to depth three. *)
Theorem C02_budgets_partial : forall W P nf nl clk rows t,
  usable W P nf nl rows -> fr_tree (fit_rows W P nf nl clk rows) = Some t ->
  row_allowed nf nl (w_mls W) (p_depth P) (2 ^ p_depth P - 1) rows t
  /\ (2 ^ p_depth P - 1 <= p_nodes P \/ p_nodes P <= 1 \/ (w_branch W = false /\ (w_data W = false \/ p_depth P <= 3)) ->
      row_allowed nf nl (w_mls W) (p_depth P) (p_nodes P) rows t).
Proof.
  intros W P nf nl clk rows t HU Ht.
  destruct (fit_facts W P nf nl clk rows HU false (tree_large _ _ _ _ _ _ HU t Ht) ltac:(discriminate) ltac:(discriminate)) as [[H _]|(t1 & H1 & H2 & H3 & _)];
    [unfold fit_rows in Ht; congruence|].
  assert (t1 = t) by (unfold fit_rows in Ht; congruence). subst t1. apply of_view with (1 := HU) in H2. destruct H2 as (A1 & A2 & A3 & A4).
  assert (Hpow : 2 ^ Nat.min (p_depth P) (p_nodes P) <= 2 ^ p_depth P) by (apply Nat.pow_le_mono_r; lia).
  split.
  - split; [exact A1|]. split; [exact A2|]. split; lia.
  - intro Hb. split; [exact A1|]. split; [exact A2|]. split; [lia|]. destruct Hb as [Hb|[Hb|[Hb Hb']]]; [lia| |].
    2:{ destruct (w_data W) eqn:Hda; [|auto]. destruct Hb' as [Hb'|Hb']; [discriminate|].
        exact (fit_nodes _ _ _ _ _ _ HU t Hb Hda Hb' Ht). }
    assert (nodes t <= 2 ^ p_nodes P - 1).
    { etransitivity; [exact A4|]. assert (2 ^ Nat.min (p_depth P) (p_nodes P) <= 2 ^ p_nodes P) by (apply Nat.pow_le_mono_r; lia). lia. }
    destruct (p_nodes P) as [|[|k]]; cbn in *; lia.
Qed.
Print Assumptions C02_budgets_partial.

(** C02: with fewer rows than the minimum leaf size there is no tree. *)
Theorem C02_too_few_rows : forall W P nf nl clk rows,
  good_rows nf nl rows -> length rows < w_mls W -> fr_tree (fit_rows W P nf nl clk rows) = None.
Proof.
  intros W P nf nl clk rows Hg H. apply small_fit; [apply (gt_true acc acc_good)|]. rewrite (rows_size nf nl rows Hg). exact H.
Qed.
Print Assumptions C02_too_few_rows.

(** C03: the numbers behind the reported training score are those of the returned tree on
    the user's rows: [accuracy.h]: score = (rows - errors) / rows. *)
Theorem C03_training_score : forall W P nf nl clk rows t,
  usable W P nf nl rows -> fr_tree (fit_rows W P nf nl clk rows) = Some t ->
  exists z q, fr_train (fit_rows W P nf nl clk rows) = Some (z, q)
    /\ z = Z.of_nat (row_errors rows t).
Proof.
  intros W P nf nl clk rows t HU Ht.
  destruct (fit_facts W P nf nl clk rows HU false (tree_large _ _ _ _ _ _ HU t Ht) ltac:(discriminate) ltac:(discriminate)) as [[H _]|(t1 & H1 & H2 & H3 & H4 & _)];
    [unfold fit_rows in Ht; congruence|].
  assert (t1 = t) by (unfold fit_rows in Ht; congruence). subst t1. exists (Z.of_nat (row_errors rows t)).
  eexists. split; [|reflexivity]. unfold fit_rows. rewrite H4, (cost_view W P nf nl rows HU). reflexivity.
Qed.
Print Assumptions C03_training_score.

(** C51: the sum behind the reported question length counts, for every row, the tests on its
    path plus one. *)
Theorem C51_question_length : forall W P nf nl clk rows t,
  usable W P nf nl rows -> fr_tree (fit_rows W P nf nl clk rows) = Some t ->
  exists z, fr_train (fit_rows W P nf nl clk rows) = Some (z, list_sum (map (fun r => 1 + row_tests t (fst r)) rows)).
Proof.
  intros W P nf nl clk rows t HU Ht.
  destruct (fit_facts W P nf nl clk rows HU false (tree_large _ _ _ _ _ _ HU t Ht) ltac:(discriminate) ltac:(discriminate)) as [[H _]|(t1 & H1 & H2 & H3 & H4 & _)];
    [unfold fit_rows in Ht; congruence|].
  assert (t1 = t) by (unfold fit_rows in Ht; congruence). subst t1.
  eexists. unfold fit_rows. rewrite H4. rewrite (tests_rows t rows nf nl (us_rows _ _ _ _ _ HU)). reflexivity.
Qed.
Print Assumptions C51_question_length.

(** C04: a fit that reports a proven optimum returns exactly what it returns without any
    time limit, whenever the clock readings happen. *)
Theorem C04_proven_is_timely : forall W P nf nl clk rows,
  fr_proven (fit_rows W P nf nl clk rows) = true ->
  fit_rows W P nf nl clk rows = fit_rows W P nf nl no_limit rows.
Proof. intros W P nf nl clk rows. apply fit_clock. reflexivity. Qed.
Print Assumptions C04_proven_is_timely.

(** ... and without a time limit the flag is set, so it is clear exactly when a reading
    came too late. *)
Theorem C04_no_limit_is_proven : forall W P nf nl rows, fr_proven (fit_rows W P nf nl no_limit rows) = true.
Proof. intros. apply fit_no_limit. reflexivity. Qed.
Print Assumptions C04_no_limit_is_proven.

(** C05: two settings of the switches for which the search is exact give trees with the same
    number of training errors (full node budget, or the returned trees within it). *)
Theorem C05_switches_partial : forall W1 W2 P nf nl rows t1 t2,
  usable W1 P nf nl rows -> usable W2 P nf nl rows -> w_mls W1 = w_mls W2 ->
  exact W1 P -> rebuilds W1 P -> exact W2 P -> rebuilds W2 P ->
  nodes t1 <= p_nodes P -> nodes t2 <= p_nodes P -> p_ub P = no_bound ->
  fr_tree (fit_rows W1 P nf nl no_limit rows) = Some t1 -> fr_tree (fit_rows W2 P nf nl no_limit rows) = Some t2 ->
  row_errors rows t1 = row_errors rows t2.
Proof.
  intros W1 W2 P nf nl rows t1 t2 U1 U2 Hm E1 B1 E2 B2 N1 N2 Hub H1 H2.
  assert (X : forall W t, usable W P nf nl rows -> nodes t <= p_nodes P -> fr_tree (fit_rows W P nf nl no_limit rows) = Some t ->
    row_allowed nf nl (w_mls W) (p_depth P) (p_nodes P) rows t /\ (Z.of_nat (row_errors rows t) <= p_ub P)%Z).
  { intros W t U N H. destruct (C02_budgets_partial W P nf nl no_limit rows t U H) as [(A1 & A2 & A3 & A4) _].
    split; [exact (conj A1 (conj A2 (conj A3 N)))|]. pose proof (errors_small W P nf nl rows U t). rewrite Hub. unfold no_bound. lia. }
  destruct (X W1 t1 U1 N1 H1) as [X1 X1']. destruct (X W2 t2 U2 N2 H2) as [X2 X2'].
  destruct (C01_accuracy_optimal_partial W1 P nf nl no_limit rows U1 E1 B1 (C04_no_limit_is_proven _ _ _ _ _) ltac:(eauto)) as (t1' & Y1 & Z1).
  destruct (C01_accuracy_optimal_partial W2 P nf nl no_limit rows U2 E2 B2 (C04_no_limit_is_proven _ _ _ _ _) ltac:(eauto)) as (t2' & Y2 & Z2).
  assert (t1' = t1) by congruence. assert (t2' = t2) by congruence. subst t1' t2'.
  rewrite Hm in *. apply Nat.le_antisymm; auto.
Qed.
Print Assumptions C05_switches_partial.

(** The hypotheses are met by concrete fits: six rows with three features, depth two with
    the default switches; depth three with five nodes without the depth-two solver. *)
Definition ex_P2 : params := Params 2 3 false no_bound.
Definition ex_W3 : switches := Switches true true true false true true true true 1.
Definition ex_P3 : params := Params 3 5 false no_bound.
Example ex_usable2 : usable (defaults true 1) ex_P2 3 2 six_rows.
Proof. constructor; [repeat constructor|lia|reflexivity|apply le_n|]. cbn. intros [H|H]; discriminate. Qed.
Example ex_usable3 : usable ex_W3 ex_P3 3 2 six_rows.
Proof. constructor; [repeat constructor|lia|reflexivity|apply le_n|]. cbn. intros [H|H]; discriminate. Qed.
Example ex_exact2 : exact (defaults true 1) ex_P2 /\ rebuilds (defaults true 1) ex_P2.
Proof. split; [split; [reflexivity|]; intros _; cbn; auto|]. intros _. cbn. auto. Qed.
Example ex_exact3 : exact ex_W3 ex_P3 /\ rebuilds ex_W3 ex_P3.
Proof. split; [split; [reflexivity|discriminate]|discriminate]. Qed.
Example ex_fit2 : exists t, fr_tree (fit_rows (defaults true 1) ex_P2 3 2 no_limit six_rows) = Some t
  /\ depth t = 2 /\ row_errors six_rows t = 0
  /\ fr_train (fit_rows (defaults true 1) ex_P2 3 2 no_limit six_rows) = Some (0%Z, 18).
Proof. eexists. split; [vm_compute; reflexivity|]. vm_compute. auto. Qed.
Example ex_fit3 : exists t, fr_tree (fit_rows ex_W3 ex_P3 3 2 no_limit six_rows) = Some t /\ row_errors six_rows t = 0 /\ nodes t = 3.
Proof. eexists. split; [vm_compute; reflexivity|]. vm_compute. auto. Qed.
(** Depth three with the default switches: the parity of three features, with one row
    contradicted; the seven nodes are needed and one error is left. *)
Definition ex_P7 : params := Params 3 7 false no_bound.
Definition parity_rows : list (list nat * nat) :=
  [([0;0;0],0); ([0;0;1],1); ([0;1;0],1); ([0;1;1],0); ([1;0;0],1); ([1;0;1],0); ([1;1;0],0); ([1;1;1],1); ([1;1;1],0); ([1;1;1],1)].
Example ex_usable7 : usable (defaults true 1) ex_P7 3 2 parity_rows.
Proof. constructor; [repeat constructor|lia|reflexivity|apply le_n|]. cbn. intros [H|H]; discriminate. Qed.
Example ex_exact7 : exact (defaults true 1) ex_P7 /\ rebuilds (defaults true 1) ex_P7.
Proof. split; [split; [reflexivity|]; intros _; cbn; auto|]. intros _. cbn. auto. Qed.
Example ex_fit7 : exists t, fr_tree (fit_rows (defaults true 1) ex_P7 3 2 no_limit parity_rows) = Some t /\ row_errors parity_rows t = 1 /\ nodes t = 7.
Proof. eexists. split; [vm_compute; reflexivity|]. vm_compute. auto. Qed.
(** ... also with upper bounds off and the branch cache only, or without caches. *)
Definition ex_W7 (br : bool) : switches := Switches false true true true true br false false 1.
Example ex_usable7' br : usable (ex_W7 br) ex_P7 3 2 parity_rows.
Proof. constructor; [repeat constructor|lia|reflexivity|apply le_n|]. cbn. intros [H|H]; discriminate. Qed.
Example ex_exact7' br : exact (ex_W7 br) ex_P7 /\ rebuilds (ex_W7 br) ex_P7.
Proof. split; [split; [reflexivity|]; intros _; cbn; auto|]. intros _. cbn. auto. Qed.
Example ex_fit7' br : exists t, fr_tree (fit_rows (ex_W7 br) ex_P7 3 2 no_limit parity_rows) = Some t /\ row_errors parity_rows t = 1 /\ nodes t = 7.
Proof. destruct br; (eexists; split; [vm_compute; reflexivity|]; vm_compute; auto). Qed.
(** A node budget of six at depth three with the default switches is used up. *)
Definition ex_P6 : params := Params 3 6 false no_bound.
Example ex_usable6 : usable (defaults true 1) ex_P6 3 2 parity_rows.
Proof. constructor; [repeat constructor|lia|reflexivity|apply le_n|]. cbn. intros [H|H]; discriminate. Qed.
Example ex_fit6 : exists t, fr_tree (fit_rows (defaults true 1) ex_P6 3 2 no_limit parity_rows) = Some t /\ nodes t = 6 /\ row_errors parity_rows t = 2.
Proof. eexists. split; [vm_compute; reflexivity|]. vm_compute. auto. Qed.
(** A clock that runs out after twenty readings: the flag is clear. *)
Example ex_late : fr_proven (fit_rows ex_W3 ex_P3 3 2 (fun i => i <? 20) six_rows) = false.
Proof. vm_compute. reflexivity. Qed.
