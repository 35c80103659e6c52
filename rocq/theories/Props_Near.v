(** C82, C84, C85 with costs of any size: the tree returned is within a small factor of the best. *)
From Coq Require Import List Arith Bool Lia ZArith String Permutation.
From Verif Require Import Model_FeatureVector Model_Data Model_Node Model_Cache Model_Terminal Model_Heap Model_Solver Model_Preproc Model_Predict
  Model_CostComplex Model_CostSensitive Model_Tasks
  Spec_Tree Spec_Examples Spec_Rows Spec_Tasks Proofs_View Proofs_Base Proofs_Rows Proofs_Fit Proofs_Preproc Proofs_Predict Proofs_Task Proofs_Plain Proofs_PlainFit Proofs_Near Proofs_NearFit
  Props_Solver Props_CostSensitive Props_Sparse Props_Tasks Props_Costs.
Import ListNotations.
Local Open Scope list_scope.
Local Open Scope nat_scope.

Lemma t_near T : plain_task T -> tk_mindiff T = 0%Z -> tk_sdom T = t_sdom -> near_task T.
Proof.
  intros H1 H2 H3. constructor; [exact H1|exact H2|]. intros a b Hb H. rewrite H3 in H. unfold t_sdom in H. apply Z.ltb_ge in H. exact H.
Qed.
Lemma below_worst most worst : (most * 10001 <= worst * 10000)%Z -> (0 < most)%Z ->
  (forall Z0 z, (Z0 < most)%Z -> (z <= Z0)%Z -> t_sdom z worst = true) /\ (most <= worst)%Z.
Proof. intros H1 H2. split; [|lia]. intros Z0 z H3 H4. unfold t_sdom. apply Z.ltb_lt. lia. Qed.
Lemma min_limits d n : 2 ^ Nat.min d n - 1 <= 2 ^ d - 1.
Proof. pose proof (Nat.pow_le_mono_r 2 (Nat.min d n) d ltac:(lia) ltac:(lia)). lia. Qed.
Lemma rows_within nf nl m d n rows t : good_rows nf nl rows -> allowed (fun f => f < nf) m (Nat.min d n) (2 ^ Nat.min d n - 1) (mk_view nl rows) t ->
  row_allowed nf nl m d (2 ^ d - 1) rows t.
Proof.
  intros Hg (F1 & F2 & F3 & F4). apply (rows_allowed nf nl rows Hg). split; [exact F1|]. split; [exact F2|]. pose proof (min_limits d n). lia.
Qed.

(** * C82 *)
(** Like [ics_usable], but the rows together may pay up to 2^1023. *)
Record ics_any (W : switches) (P : params) (nf extra : nat) (rows : list crow) : Prop := ICSAny {
  ia_bits : Forall (fun r => List.length (cr_bits r) = nf) rows;
  ia_some : 1 <= Nat.max extra (label_count (map cr_label rows));
  ia_costs : Forall (fun r => Nat.max extra (label_count (map cr_label rows)) <= List.length (cr_costs r) /\ Forall (fun c => (0 <= c)%Z) (cr_costs r)) rows;
  ia_leaf : 1 <= w_mls W <= List.length rows;
  ia_nodes : p_all P = true \/ p_nodes P = 1 -> p_nodes P <= 2 ^ p_depth P - 1;
  ia_most : (Z.of_nat (List.length rows) * fold_right Z.max 0 (List.concat (map cr_costs rows)) <= Z.min (p_ub P) (2 ^ 1023))%Z;
  ia_plain : plain_search W }.

Section ICSNear.
  Context (W : switches) (P : params) (nf extra : nat) (clk : nat -> bool) (rows : list crow).
  Hypothesis HU : ics_any W P nf extra rows.
  Notation nl := (Nat.max extra (label_count (map cr_label rows))).
  Notation T := (ics (map cr_costs rows)).
  Notation rs := (map cr_row rows).
  Notation v := (mk_view nl rs).
  Notation top := (fold_right Z.max 0 (List.concat (map cr_costs rows)))%Z.

  Lemma ia_rows : good_rows nf nl rs.
  Proof.
    assert (H : rows_of_len nf rs) by (apply Forall_map; exact (ia_bits _ _ _ _ _ HU)).
    apply load_good in H. eapply Forall_impl; [|exact H]. intros p [A B]. split; [exact A|]. rewrite labels_count, map_map in B. cbn [cr_row snd] in B. cbn beta in B. change (fun x => cr_label x) with cr_label in B. lia.
  Qed.
  Lemma ia_entry x l : (0 <= label_cost (map cr_costs rows) x l <= top)%Z.
  Proof.
    unfold label_cost. destruct (nth_in_or_default (iid x) (map cr_costs rows) []) as [Hi|Hi].
    - apply in_map_iff in Hi. destruct Hi as (r & <- & Hr). pose proof (proj1 (Forall_forall _ _) (ia_costs _ _ _ _ _ HU) r Hr) as [_ H0].
      split; [apply nth_nonneg; exact H0|].
      destruct (nth_in_or_default l (cr_costs r) 0%Z) as [Hl|Hl]; [|rewrite Hl; apply (max_ge _ 0)].
      assert (Hin : In (nth l (cr_costs r) 0%Z) (List.concat (map cr_costs rows))) by (apply in_concat; exists (cr_costs r); split; [apply in_map; exact Hr|exact Hl]).
      destruct (In_nth _ _ 0%Z Hin) as (k & _ & E). rewrite <- E at 1. apply max_ge.
    - rewrite Hi. replace (nth l [] 0%Z) with 0%Z by (destruct l; reflexivity). pose proof (max_ge (List.concat (map cr_costs rows)) 0). lia.
  Qed.
  Lemma ia_tcost t : forall u b, tcost T u b t = tree_cost (tk_inst T) u t.
  Proof.
    induction t as [l|f l IHl r IHr]; intros u b; cbn [tcost].
    - cbn [ics tk_leaf tk_inst]. apply ics_leaf_cost.
    - rewrite IHl, IHr, tree_cost_split. change (bcost T (vsize u) b f) with 0%Z. lia.
  Qed.
  Lemma ia_plain_task : plain_task T.
  Proof.
    constructor; cbn [ics tk_leaf tk_mindiff tk_sdom tk_dom tk_eq].
    - intros u l. rewrite ics_leaf_sum. induction (List.concat u) as [|x xs IH]; cbn [map zsum]; [lia|]. pose proof (ia_entry x l). lia.
    - intros n b f. change (bcost T n b f) with 0%Z. lia.
    - lia.
    - exact t_sdom_lt.
    - exact t_dom_refl.
    - exact t_eq_0.
  Qed.
  Lemma ia_total t : tcost T v [] t = ics_total rows t.
  Proof.
    rewrite ia_tcost, (rows_cost nf nl rs ia_rows). apply numbered_sum. intros i r Hi. cbn [ics tk_inst]. unfold label_cost.
    rewrite (row_predict_inst t). cbn [row_inst mk_inst iid fst snd cr_row]. rewrite (nth_map_error cr_costs rows i r [] Hi). reflexivity.
  Qed.
  Lemma ia_bound u b t : vsize u <= vsize v -> (tcost T u b t <= Z.of_nat (List.length rows) * top)%Z.
  Proof.
    intro Hu. rewrite (rows_size nf nl rs ia_rows), map_length in Hu. rewrite ia_tcost, tree_cost_vsum.
    assert (vsum (fun k x => tk_inst T x k (predict t x)) u <= Z.of_nat (vsize u) * top)%Z by (apply vsum_bound; intros j x _; apply ia_entry).
    pose proof (max_ge (List.concat (map cr_costs rows)) 0) as [_ Ht].
    assert (Z.of_nat (vsize u) * top <= Z.of_nat (List.length rows) * top)%Z by (apply Z.mul_le_mono_nonneg_r; lia). lia.
  Qed.
End ICSNear.

(** Without lower bounds and depth-two solver, for costs of any size: a fit that is proven
    optimal returns a tree within the limits, reports what it costs, and no tree within the
    limits is cheaper by more than the factor (10001/10000)^e with e = (d+1)(d+2)/2 for depth d. *)
Theorem C82_near_partial : forall W P nf extra clk rows, ics_any W P nf extra rows ->
  let nl := Nat.max extra (label_count (map cr_label rows)) in let R := fit_ics W P nf extra clk rows in
  fr_proven R = true ->
  exists t, fr_tree R = Some t
    /\ row_allowed nf nl (w_mls W) (p_depth P) (2 ^ p_depth P - 1) (map cr_row rows) t
    /\ option_map fst (fr_train R) = Some (ics_total rows t)
    /\ forall t', row_allowed nf nl (w_mls W) (p_depth P) (p_nodes P) (map cr_row rows) t' -> at_most (slack (p_depth P)) (ics_total rows t) (ics_total rows t').
Proof.
  intros W P nf extra clk rows HU nl R Hp. subst nl R. rewrite ics_fit in *. pose proof (ia_rows W P nf extra rows HU) as Hg.
  set (nl := Nat.max extra (label_count (map cr_label rows))) in *. pose proof (ia_leaf _ _ _ _ _ HU) as Hm. pose proof (ia_most _ _ _ _ _ HU) as Ht. destruct (ia_plain _ _ _ _ _ HU) as [P1 P2].
  destruct (below_worst (2 ^ 1023 + 1) dbl_max) as [Q1 Q2]; [vm_compute; discriminate|reflexivity|].
  pose proof (ia_total W P nf extra rows HU) as TT. fold nl in TT.
  destruct (near_fit (ics (map cr_costs rows)) (t_near _ (ia_plain_task W P nf extra rows HU) eq_refl eq_refl) W P nf clk (mk_view nl (map cr_row rows))
    (Z.of_nat (List.length rows) * fold_right Z.max 0 (List.concat (map cr_costs rows)))%Z) as (t & R1 & R2 & R3 & R4).
  - lia.
  - reflexivity.
  - apply rows_loaded; exact Hg.
  - rewrite rows_labels. exact (ia_some _ _ _ _ _ HU).
  - rewrite (rows_size nf nl _ Hg), map_length. lia.
  - intros u u' l E. cbn [ics tk_leaf]. rewrite !ics_leaf_sum. assert (X : map iid (List.concat u) = map iid (List.concat u')) by (rewrite !concat_map, E; reflexivity).
    assert (Y : forall xs, map (fun x => label_cost (map cr_costs rows) x l) xs = map (fun i => nth l (nth i (map cr_costs rows) []) 0%Z) (map iid xs)) by (intro xs; rewrite map_map; reflexivity).
    rewrite !Y, X. reflexivity.
  - reflexivity.
  - left. reflexivity.
  - exact P1.
  - exact P2.
  - discriminate.
  - reflexivity.
  - intros u b t Hu _. apply (ia_bound W P nf extra rows HU). exact Hu.
  - intros z Hz. eapply Q1; [|exact Hz]. apply Z.lt_succ_r. eapply Z.le_trans; [exact Ht|apply Z.le_min_r].
  - cbn [ics tk_worst]. lia.
  - exact (ia_nodes _ _ _ _ _ HU).
  - exact Hp.
  - lia.
  - rewrite TT in R3. exists t. split; [exact R1|]. split; [apply (rows_within _ _ _ _ (p_nodes P)); assumption|]. split; [exact R3|].
    intros t' Ht'. rewrite <- !TT. apply R4. apply (rows_allowed nf nl _ Hg). exact Ht'.
Qed.

(** * C84 *)
Theorem C84_near_partial : forall M specs W P nf clk rows, costs_below 2147000000 M specs W P nf rows -> w_mls W <= List.length rows ->
  (Z.of_nat (List.length rows) * (fold_right Z.max 0 (List.concat M) + Z.of_nat (p_depth P) * fold_right Z.max 0 (map fc_cost specs ++ map fc_disc specs)) <= p_ub P)%Z ->
  let nl := label_count (map snd rows) in let R := fit_cost_sensitive M specs W P nf clk rows in
  fr_proven R = true ->
  exists t, fr_tree R = Some t
    /\ row_allowed nf nl (w_mls W) (p_depth P) (2 ^ p_depth P - 1) rows t
    /\ option_map fst (fr_train R) = Some (bill_total M specs rows t)
    /\ forall t', row_allowed nf nl (w_mls W) (p_depth P) (p_nodes P) rows t' -> at_most (slack (p_depth P)) (bill_total M specs rows t) (bill_total M specs rows t').
Proof.
  intros M specs W P nf clk rows HU Hs Hub nl R Hp. subst nl R. pose proof (tc_rows M specs W P nf rows HU) as Hg.
  unfold fit_cost_sensitive in *. rewrite load_mk_view, labels_count in *. set (nl := label_count (map snd rows)) in *.
  destruct (ku_plain _ _ _ _ _ _ HU) as [[Hlb Htm] Hdc]. pose proof (ku_most _ _ _ _ _ _ HU) as Hmost.
  pose proof (max_ge (map fc_cost specs ++ map fc_disc specs) 0) as [_ HF]. pose proof (max_ge (List.concat M) 0) as [_ HM].
  assert (HB : forall u b t, vsize u <= vsize (mk_view nl rows) -> depth t <= p_depth P ->
    (tcost (cost_sensitive M (initialize specs)) u b t <= Z.of_nat (List.length rows) * (fold_right Z.max 0 (List.concat M) + Z.of_nat (p_depth P) * fold_right Z.max 0 (map fc_cost specs ++ map fc_disc specs)))%Z).
  { intros u b t Hu Ht. rewrite (rows_size nf nl rows Hg) in Hu. eapply Z.le_trans; [apply (tc_bound M specs W P nf rows HU)|].
    assert (X : (Z.of_nat (depth t) * fold_right Z.max 0 (map fc_cost specs ++ map fc_disc specs) <= Z.of_nat (p_depth P) * fold_right Z.max 0 (map fc_cost specs ++ map fc_disc specs))%Z) by (apply Z.mul_le_mono_nonneg_r; lia).
    pose proof (Z.mul_nonneg_nonneg (Z.of_nat (depth t)) _ ltac:(lia) HF). apply Z.mul_le_mono_nonneg; lia. }
  assert (FA : forall d n t, allowed (fun f => f < nf) (w_mls W) d n (mk_view nl rows) t -> tcost (cost_sensitive M (initialize specs)) (mk_view nl rows) [] t = bill_total M specs rows t).
  { intros d n t Ht. apply (tc_cost M specs W P nf rows HU). apply (rows_allowed nf nl rows Hg) in Ht. apply Ht. }
  destruct (below_worst 2147000000 int32_max) as [Q1 Q2]; [vm_compute; discriminate|reflexivity|].
  destruct (near_fit (cost_sensitive M (initialize specs)) (t_near _ (tc_plain M specs W P nf rows HU) eq_refl eq_refl) W P nf clk (mk_view nl rows)
    (Z.of_nat (List.length rows) * (fold_right Z.max 0 (List.concat M) + Z.of_nat (p_depth P) * fold_right Z.max 0 (map fc_cost specs ++ map fc_disc specs)))%Z) as (t & R1 & R2 & R3 & R4).
  - exact (ku_leaf _ _ _ _ _ _ HU).
  - reflexivity.
  - apply rows_loaded; exact Hg.
  - rewrite rows_labels. exact (tc_some M specs W P nf rows HU).
  - rewrite (rows_size nf nl _ Hg). exact Hs.
  - exact (fun u u' l E => leaf_costs_lengths M l u u' 0 (iid_lengths u u' E)).
  - intros n b b' f E. change (bcost _ n b f) with (Z.of_nat n * charge (initialize specs) b f)%Z. change (bcost _ n b' f) with (Z.of_nat n * charge (initialize specs) b' f)%Z.
    f_equal. unfold charge. rewrite (existsb_half (fun c => same_bin (initialize specs) c f) b b' E), (existsb_half (fun c => same_group (initialize specs) c f) b b' E). reflexivity.
  - right. exact (tc_distinct M specs W P nf rows HU).
  - exact Hlb.
  - exact Htm.
  - discriminate.
  - rewrite Hdc. discriminate.
  - exact HB.
  - intros z Hz. exact (Q1 _ z Hmost Hz).
  - cbn [cost_sensitive tk_worst]. lia.
  - exact (ku_nodes _ _ _ _ _ _ HU).
  - exact Hp.
  - exact Hub.
  - rewrite (FA _ _ _ R2) in R3. exists t. split; [exact R1|]. split; [apply (rows_within _ _ _ _ (p_nodes P)); assumption|]. split; [exact R3|].
    intros t' Ht'. apply (rows_allowed nf nl _ Hg) in Ht'. rewrite <- (FA _ _ _ Ht'), <- (FA _ _ _ R2). apply R4. exact Ht'.
Qed.

(** * C85 *)
Theorem C85_near_partial : forall bc W P nf clk rows, nodes_below 2147000000 bc W P nf rows -> w_mls W <= List.length rows ->
  (Z.of_nat (List.length rows) + bc * Z.of_nat (2 ^ p_depth P - 1) <= p_ub P)%Z ->
  let nl := label_count (map snd rows) in let R := fit_cca bc W P nf clk rows in
  fr_proven R = true ->
  exists t, fr_tree R = Some t
    /\ row_allowed nf nl (w_mls W) (p_depth P) (2 ^ p_depth P - 1) rows t
    /\ option_map fst (fr_train R) = Some (sparse_total bc rows t)
    /\ forall t', row_allowed nf nl (w_mls W) (p_depth P) (p_nodes P) rows t' -> at_most (slack (p_depth P)) (sparse_total bc rows t) (sparse_total bc rows t').
Proof.
  intros bc W P nf clk rows0 HU Hs Hub nl R Hp. subst nl R. unfold fit_cca in *.
  revert Hp. generalize (uid_table (row_insts rows0)) as uid. intros uid Hp.
  pose proof (cca_rows_perm rows0) as HP. revert Hp HP. generalize (cca_rows rows0) as rows. intros rows Hp HP.
  assert (ST : forall t, sparse_total bc rows0 t = sparse_total bc rows t) by (intro t; unfold sparse_total; rewrite (row_errors_perm _ _ _ HP); reflexivity).
  rewrite <- (Permutation_length HP) in Hs, Hub.
  assert (HU' : nodes_below 2147000000 bc W P nf rows).
  { destruct HU as [U1 U2 U3 U4 U5 U6]. constructor; try assumption; [eapply Permutation_Forall; [apply Permutation_sym; exact HP|exact U1]|rewrite (Permutation_length HP); exact U3]. }
  pose proof (nc_rows bc W P nf rows HU') as Hg. rewrite load_mk_view, labels_count in *.
  pose proof (nu_plain _ _ _ _ _ HU') as [[Hlb Htm] Hw]. pose proof (nu_most _ _ _ _ _ HU') as Hmost.
  pose proof (nc_total uid bc W P nf rows HU') as NT. pose proof (nc_bound uid bc W P nf rows HU') as NB.
  set (nl := label_count (map snd rows)) in *.
  assert (Hnl : 1 <= nl).
  { subst nl. pose proof (nu_leaf _ _ _ _ _ HU'). destruct rows as [|p r]; [cbn in Hs; lia|]. unfold label_count. cbn [map fold_right]. clear. lia. }
  destruct (below_worst 2147000000 int32_max) as [Q1 Q2]; [vm_compute; discriminate|reflexivity|].
  destruct (near_fit (cca uid bc) (t_near _ (nc_plain uid bc W P nf rows HU') eq_refl eq_refl) W P nf clk (mk_view nl rows)
    (Z.of_nat (List.length rows) + bc * Z.of_nat (2 ^ p_depth P - 1))%Z) as (t & R1 & R2 & R3 & R4).
  - exact (nu_leaf _ _ _ _ _ HU').
  - reflexivity.
  - apply rows_loaded; exact Hg.
  - rewrite rows_labels. exact Hnl.
  - rewrite (rows_size nf nl _ Hg). exact Hs.
  - intros u u' l E. change (acc_leaf u l = acc_leaf u' l). unfold acc_leaf. apply iid_lengths in E. clear -E. revert u' E. generalize 0.
    induction u as [|xs u IH]; intros k [|ys u'] E; try discriminate; [reflexivity|]. cbn [map] in E. injection E as E1 E2. cbn [acc_leaf_from]. rewrite E1, (IH (S k) u' E2). reflexivity.
  - reflexivity.
  - left. reflexivity.
  - exact Hlb.
  - exact Htm.
  - intros _. split; [exact Hw|]. exists bc. reflexivity.
  - reflexivity.
  - exact NB.
  - intros z Hz. exact (Q1 _ z Hmost Hz).
  - cbn [cca tk_worst]. lia.
  - exact (nu_nodes _ _ _ _ _ HU').
  - exact Hp.
  - exact Hub.
  - rewrite NT in R3. exists t. split; [exact R1|]. split; [apply (row_allowed_perm _ _ _ _ _ _ _ HP); apply (rows_within _ _ _ _ (p_nodes P)); assumption|]. split; [rewrite ST; exact R3|].
    intros t' Ht'. apply (row_allowed_perm _ _ _ _ _ _ _ (Permutation_sym HP)) in Ht'. apply (rows_allowed nf nl _ Hg) in Ht'. rewrite !ST, <- !NT. apply R4. exact Ht'.
Qed.

(** For the default depth limit of three the factor is less than 1.0011. *)
Lemma at_most_three a b : (0 <= b)%Z -> at_most (slack 3) a b -> (a * 10000 <= b * 10011)%Z.
Proof.
  intros Hb H. change (slack 3) with 10 in H. unfold at_most in H. change (Z.of_nat 10) with 10%Z in H.
  change (10000 ^ 10)%Z with 10000000000000000000000000000000000000000%Z in H. change (10001 ^ 10)%Z with 10010004501200210025202100120004500100001%Z in H. lia.
Qed.

(** ** Cases *)
Definition wide_rows : list (list nat * list Z) :=
  [wide_row 0 0 0; wide_row 0 0 1; wide_row 0 1 0; wide_row 0 1 1; wide_row 1 0 0; wide_row 1 0 1; wide_row 1 1 0; wide_row 1 1 1].
(** A fit that does not return the best tree: the factor is needed. *)
Example C82_near_ex : let P := Params 3 7 false no_bound in let W := plain_defaults true 1 in let rows := py_rows wide_rows in
  ics_any W P 3 0 rows /\ fr_proven (fit_ics W P 3 0 (fun _ => true) rows) = true
  /\ exists t t', fr_tree (fit_ics W P 3 0 (fun _ => true) rows) = Some t /\ row_allowed 3 2 1 3 7 (map cr_row rows) t'
     /\ ics_total rows t = 20001%Z /\ ics_total rows t' = 20000%Z.
Proof.
  cbv zeta. split.
  { split; try (repeat constructor; cbn; lia); try (intros [H|H]; discriminate). vm_compute; discriminate. }
  split; [vm_compute; reflexivity|]. exists (Leaf 0), (Split 0 (Leaf 0) (Split 1 (Leaf 0) (Split 2 (Leaf 0) (Leaf 1)))).
  split; [vm_compute; reflexivity|]. split; [split; [cbn; lia|]; split; [cbn; lia|]; split; cbn; lia|]. split; vm_compute; reflexivity.
Qed.
Example C84_near_ex : let P := Params 3 7 false no_bound in let W := plain_defaults true 1 in let M := [[0;150000];[270000;0]]%Z in
  costs_below 2147000000 M bill_specs W P 4 bill_rows /\ w_mls W <= List.length bill_rows
  /\ (Z.of_nat (List.length bill_rows) * (fold_right Z.max 0 (List.concat M) + Z.of_nat (p_depth P) * fold_right Z.max 0 (map fc_cost bill_specs ++ map fc_disc bill_specs)) <= p_ub P)%Z
  /\ fr_proven (fit_cost_sensitive M bill_specs W P 4 (fun _ => true) bill_rows) = true
  /\ exists t, fr_tree (fit_cost_sensitive M bill_specs W P 4 (fun _ => true) bill_rows) = Some t /\ nodes t = 3.
Proof.
  cbv zeta. split.
  { destruct (proj1 C84_test_costs_ex). constructor; try assumption; [split; [cbn; lia|]|intros [|[|[|k]]]; reflexivity].
    apply Forall_cons; [|apply Forall_cons; [|apply Forall_nil]]; (split; [reflexivity|]); (apply Forall_cons; [lia|]); (apply Forall_cons; [lia|]); apply Forall_nil. }
  split; [cbn; lia|]. split; [vm_compute; discriminate|]. split; [vm_compute; reflexivity|]. eexists. split; [vm_compute; reflexivity|vm_compute; reflexivity].
Qed.
(** Many nodes are allowed, so that they together could cost more than 10000. *)
Example C85_near_ex : let P := Params 13 7 false no_bound in let W := Switches true false false false false false true true 1 in
  nodes_below 2147000000 2 W P 4 shuffled /\ w_mls W <= List.length shuffled
  /\ (10000 < Z.of_nat (List.length shuffled) + 2 * Z.of_nat (2 ^ p_depth P - 1) <= p_ub P)%Z
  /\ fr_proven (fit_cca 2 W P 4 (fun _ => true) shuffled) = true
  /\ exists t, fr_tree (fit_cca 2 W P 4 (fun _ => true) shuffled) = Some t /\ sparse_total 2 shuffled t = 8%Z.
Proof.
  cbv zeta. split.
  { destruct (proj1 C85_ex). constructor; try assumption; intros [H|H]; discriminate. }
  split; [vm_compute; lia|]. split; [split; vm_compute; [reflexivity|discriminate]|]. split; [vm_compute; reflexivity|]. eexists. split; [vm_compute; reflexivity|vm_compute; reflexivity].
Qed.

Print Assumptions C82_near_partial.
Print Assumptions C84_near_partial.
Print Assumptions C85_near_partial.
