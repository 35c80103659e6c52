(** C76, positive part: with the depth-two solver and leaves of one instance or more, the tree
    returned for the F1-score task has the best F1-score for trees without and with one split
    and for trees of depth two, with every combination of the other switches. *)
From Coq Require Import List Arith Bool ZArith QArith Lia Lqa Permutation.
From Verif Require Import Model_FeatureVector Model_Data Model_Node Model_Terminal Model_Heap Model_Solver Model_Preproc Model_Container Model_Pareto Model_Front.
From Verif Require Import Spec_Tree Spec_Examples Spec_Rows Spec_F1 Proofs_View Proofs_Preproc Proofs_Rows Proofs_Container Props_Container Proofs_Pareto Proofs_F1 Props_Pareto Proofs_Front Proofs_FrontRoot Props_Front Props_FrontSound.
Import ListNotations.
Local Open Scope nat_scope.

Lemma label_split f v l : length (nth l v []) = length (nth l (split_left f v) []) + length (nth l (split_right f v) []).
Proof.
  unfold split_left, split_right. revert l. induction v as [|xs v IH]; intros [|l]; try reflexivity.
  - cbn [nth map]. induction xs as [|x xs IHx]; [reflexivity|]. cbn [filter length]. destruct (has f x); cbn [negb length]; lia.
  - cbn [nth map]. apply IH.
Qed.
Lemma label_le v l : length (nth l v []) <= vsize v.
Proof.
  unfold vsize. revert l. induction v as [|xs v IH]; intros [|l]; cbn; try lia; rewrite app_length; [lia|]. specialize (IH l). lia.
Qed.

Section Two.
  Context (rnd : Q -> Q) (W : fswitches) (nf : nat) (rows : list (list nat * nat)).
  Notation mls := (fw_mls W).
  Hypothesis HR : f1_rows mls nf rows.
  Hypothesis Hmls : mls = 1.
  Hypothesis Hterm : fw_term W = true.
  Hypothesis Hrnd : forall a b, (a <= b)%Q -> (rnd a <= rnd b)%Q.
  Notation v := (mk_view 2 rows).
  Notation v' := (pview acc mls nf v).
  Notation pos := (Z.of_nat (length (nth 1 v' []))).
  Notation G := (mk_fcfg W nf (pdead acc mls nf v)).
  Notation T := (f1_ftask rnd pos).
  Notation T1 := (f1_task rnd pos).
  Notation G1 := (PCfg mls (fun _ => false) (if fw_gini W then order_gini nf else order_in nf)).
  Notation ok := (okm T G).

  Lemma Hm : 1 <= mls. Proof. rewrite Hmls. reflexivity. Qed.
  Let Hld := rows_loaded nf 2 rows (fr_good _ _ _ HR).
  Lemma nl2 : num_labels v' = 2. Proof. exact (v'_labels mls nf rows). Qed.
  Lemma ppos : (0 < pos)%Z. Proof. exact (pos_pos rnd mls nf rows HR Hm). Qed.
  Lemma sz : mls <= vsize v'. Proof. exact (v'_size mls nf rows HR). Qed.

  Lemma valid b t : fits ok (num_labels v') t -> fvalid v' (tval T1 (restrict b v') t).
  Proof.
    intro F. apply (f1_hvalid rnd G1 nf v' nl2 ppos Hm sz b t). revert F. apply fits_weak. intros f [F1 F2]. split; [exact F1|]. split; [exact F2|reflexivity].
  Qed.
  Lemma valid0 t : fits ok (num_labels v') t -> fvalid v' (tval T1 v' t).
  Proof. intro F. pose proof (valid [] t F) as H. rewrite restrict_nil in H. exact H. Qed.

  Lemma f1_refl a : f1_dom a a = true. Proof. apply f1_dom_le. lia. Qed.
  Lemma f1_trans a b c : f1_dom a b = true -> f1_dom b c = true -> f1_dom a c = true.
  Proof. rewrite !f1_dom_le. lia. Qed.
  Lemma f1_anti a b : f1_dom a b = true -> f1_dom b a = true -> a = b.
  Proof. destruct a, b. rewrite !f1_dom_le. cbn. intros. f_equal; lia. Qed.
  Lemma f1_sums a a' b b' : f1_dom a a' = true -> f1_dom b b' = true -> f1_dom (f1_add a b) (f1_add a' b') = true.
  Proof. rewrite !f1_dom_le. cbn. lia. Qed.
  Lemma f1_mono t t' : fits ok (num_labels v') t -> fits ok (num_labels v') t' ->
    f1_dom (tval T1 v' t) (tval T1 v' t') = true -> f1_d0 rnd pos (tval T1 v' t) (tval T1 v' t') = true.
  Proof.
    intros F F' D. apply Qle_bool_iff. apply Hrnd. exact (score_mono G1 v' nl2 ppos Hm sz _ _ (valid0 t F) (valid0 t' F') D).
  Qed.
  Lemma f1_best b t : fits ok (num_labels v') t -> f1_dom (F1 0 0) (tval T1 (restrict b v') t) = true.
  Proof. intro F. destruct (valid b t F) as [V1 V2]. apply f1_dom_le. cbn [f1_fn f1_fp]. lia. Qed.
  Lemma f1_same u f l : f1_add (f1_leaf (split_left f u) l) (f1_leaf (split_right f u) l) = f1_leaf u l.
  Proof.
    unfold f1_leaf. pose proof (label_split f u l). pose proof (vsize_split f u). pose proof (label_le (split_left f u) l). pose proof (label_le (split_right f u) l).
    destruct (l =? 0); unfold f1_add; cbn [f1_fn f1_fp]; f_equal; lia.
  Qed.
  Lemma f1_inv a b : f1_dom_inv a b = f1_dom b a. Proof. reflexivity. Qed.
  Lemma f1_worst b l : f1_dom (F1 int_max int_max) (f1_leaf (restrict b v') l) = false.
  Proof.
    destruct (f1_dom _ _) eqn:E; [|reflexivity]. apply f1_dom_le in E. unfold f1_leaf, int_max in E. destruct (l =? 0); cbn [f1_fn f1_fp] in E; lia.
  Qed.
  Lemma f1_part b f t t' : fits ok (num_labels v') t -> fits ok (num_labels v') t' ->
    f1_dom (tval T1 (split_left f (restrict b v')) t) (f1_add (tval T1 (split_left f (restrict b v')) t) (tval T1 (split_right f (restrict b v')) t')) = true
    /\ f1_dom (tval T1 (split_right f (restrict b v')) t') (f1_add (tval T1 (split_left f (restrict b v')) t) (tval T1 (split_right f (restrict b v')) t')) = true.
  Proof.
    intros F F'. rewrite restrict_left, restrict_right. destruct (valid (br_left b f) t F) as [A1 A2]. destruct (valid (br_right b f) t' F') as [B1 B2].
    rewrite !f1_dom_le. cbn [f1_add f1_fn f1_fp]. split; lia.
  Qed.

  Notation at_root lem := (lem T G v' (vsize v') f1_eqb_eq f1_refl f1_trans f1_anti (f1_d0_refl rnd pos) (f1_d0_trans rnd pos) f1_mono f1_sums f1_best f1_same f1_inv
     eq_refl Hmls (fun _ => eq_refl) Hterm (pview_ids acc mls nf v Hld) (pview_sorted acc mls nf v Hld) (f1_order W nf rows Hm) eq_refl).

  Lemma size1 : 1 <= vsize v'. Proof. pose proof sz. rewrite Hmls in *. assumption. Qed.
  Lemma nl_le : 2 <= num_labels v'. Proof. rewrite nl2. reflexivity. Qed.

  Lemma leaf1 dp nds : allowed ok mls dp nds v' (Leaf 1).
  Proof.
    unfold allowed. cbn [fits depth nodes leaves_ok]. pose proof nl2 as L. unfold num_labels in L. rewrite L. pose proof sz as Z. unfold vsize in Z. repeat split; try lia.
  Qed.

  (** The score of a tree on the preprocessed data is the one of the tree on the rows. *)
  Lemma up_score (P : nat -> Prop) dp nds t : (forall f, P f -> f < nf) -> allowed P mls dp nds v' t ->
    (f1_score pos (tval T1 v' t) == row_f1 rows (unflip (pfl acc mls nf v) t))%Q.
  Proof.
    intros HP A. destruct (up_tree acc mls nf rows (fr_good _ _ _ HR) Hm P dp nds t HP A) as (U1 & U2 & U3).
    destruct (counts rnd mls nf rows HR Hm _ t P U2 U3) as (E1 & E2 & E3).
    set (t0 := unflip (pfl acc mls nf v) t) in *.
    pose proof (count_nonneg rows t0 1 0). pose proof (count_nonneg rows t0 0 1). pose proof (count_nonneg rows t0 1 1). pose proof ppos.
    rewrite score_fr; [|exact ppos|rewrite E1; lia|rewrite E2; lia]. unfold fr, row_f1. rewrite E1, E2, E3. reflexivity.
  Qed.

  Lemma down dp nds t : row_allowed nf 2 mls dp nds rows t ->
    exists t', allowed ok mls dp nds v' t' /\ (f1_score pos (tval T1 v' t') == row_f1 rows t)%Q.
  Proof.
    intro H. destruct (tree_down rnd mls nf (fw_gini W) rows HR Hm dp nds t H) as (t' & A & Pt). exists t'.
    split; [|exact (score_rows rnd mls nf (fw_gini W) rows HR Hm dp nds t t' A Pt)].
    destruct A as (A1 & A2). split; [|exact A2]. revert A1. apply fits_weak. intros f (F1 & F2 & _). split; assumption.
  Qed.

  Lemma two_best dp nds : one_search dp nds ->
    exists x, ct_sols (fst (fst (f_solve T G v' dp nds false))) = [x]
      /\ (exists t, allowed ok mls dp nds v' t /\ tval T1 v' t = cs_val x)
      /\ (forall t, allowed ok mls dp nds v' t -> (rnd (f1_score pos (tval T1 v' t)) <= rnd (f1_score pos (cs_val x)))%Q).
  Proof.
    intro Ho. assert (Hn : nds <= 2 ^ dp - 1) by (destruct Ho as [[_ H]|[-> ->]]; [exact H|cbn; lia]).
    destruct (at_root solve_cov size1 nl_le dp nds Ho Hn) as ((I & _) & C & _).
    destruct (solve_sound T G v' (vsize v') (pview_ids acc mls nf v Hld) (pview_sorted acc mls nf v Hld) (f1_order W nf rows Hm) (fun _ _ => eq_refl) dp nds false Hn eq_refl) as [S _].
    set (res := fst (fst (f_solve T G v' dp nds false))) in *. unfold cov in C. change (R (ft_p T) []) with (f1_d0 rnd pos) in *.
    assert (L1 : allowed ok mls dp nds v' (Leaf 1)).
    { exact (leaf1 dp nds). }
    assert (Hone : exists x, ct_sols res = [x]).
    { destruct (C (Leaf 1) L1) as (y & Hy & _).
      destruct (ct_sols res) as [|x [|x' l]]; [destruct Hy|exists x; reflexivity|exfalso].
      inversion I as [|? ? F _]; subst. rewrite Forall_forall in F. destruct (F x' (or_introl eq_refl)) as [D1 D2].
      unfold f1_d0 in D1, D2.
      destruct (Qlt_le_dec (rnd (f1_score pos (cs_val x))) (rnd (f1_score pos (cs_val x')))) as [L|L].
      - apply Qlt_le_weak in L. apply Qle_bool_iff in L. congruence.
      - apply Qle_bool_iff in L. congruence. }
    destruct Hone as (x & Ex). exists x. split; [exact Ex|]. split.
    - destruct (S x ltac:(rewrite Ex; left; reflexivity)) as (t & A & _ & ->). exists t. split; [|reflexivity].
      apply (allowed_mono _ _ _ _ _ _ _ _ A); lia.
    - intros t A. destruct (C t A) as (y & Hy & D). rewrite Ex in Hy. destruct Hy as [<-|[]]. apply Qle_bool_iff in D. exact D.
  Qed.

  Lemma two_tree dp nds : one_search dp nds ->
    (forall t t', row_allowed nf 2 mls dp nds rows t -> row_allowed nf 2 mls dp nds rows t' ->
       (rnd (row_f1 rows t) <= rnd (row_f1 rows t'))%Q -> (row_f1 rows t <= row_f1 rows t')%Q) ->
    exists x t, f1_ffit rnd W nf dp nds false v = [(x, Some t)] /\ row_allowed nf 2 mls dp nds rows t
      /\ cs_val x = F1 (row_count rows t 1 0) (row_count rows t 0 1)
      /\ forall t', row_allowed nf 2 mls dp nds rows t' -> (row_f1 rows t' <= row_f1 rows t)%Q.
  Proof.
    intros Ho Hinj. destruct (two_best dp nds Ho) as (x & Ex & (t0 & A0 & V0) & B).
    assert (Rp : forall a b, (a == b)%Q -> (rnd a == rnd b)%Q).
    { intros a b Eq. apply Qle_antisym; apply Hrnd; rewrite Eq; apply Qle_refl. }
    assert (okl : forall f, ok f -> f < nf) by (intros f [Hf _]; exact Hf).
    assert (Inj : forall t t', allowed ok mls dp nds v' t -> allowed ok mls dp nds v' t' ->
      (rnd (f1_score pos (tval T1 v' t)) <= rnd (f1_score pos (tval T1 v' t')))%Q -> (f1_score pos (tval T1 v' t) <= f1_score pos (tval T1 v' t'))%Q).
    { intros t t' A A' L. pose proof (up_score ok dp nds t okl A) as E1. pose proof (up_score ok dp nds t' okl A') as E2.
      rewrite (Rp _ _ E1), (Rp _ _ E2) in L. rewrite E1, E2.
      apply Hinj; [apply (up_tree acc mls nf rows (fr_good _ _ _ HR) Hm ok); assumption|apply (up_tree acc mls nf rows (fr_good _ _ _ HR) Hm ok); assumption|exact L]. }
    assert (L1 : allowed ok mls dp nds v' (Leaf 1)).
    { exact (leaf1 dp nds). }
    assert (Pos : (0 < f1_score pos (tval T1 v' t0))%Q).
    { pose proof (leaf_score rnd G1 nf v' nl2 ppos Hm sz) as H. apply (Qlt_le_trans _ _ _ H).
      apply (Inj (Leaf 1) t0 L1 A0). rewrite V0. exact (B (Leaf 1) L1). }
    destruct (at_root trees_one size1 nl_le (fun b l _ => f1_worst b l) f1_part dp nds Ho x Ex) as (t & Et & At & Vt).
    { intros t' A' D. change (tval T1 v' t' = cs_val x). rewrite <- V0 in D |- *. apply (score_same G1 v' nl2 ppos Hm sz).
      - apply valid0. apply A'.
      - apply valid0. apply A0.
      - exact D.
      - apply Qle_antisym.
        + apply Inj; [exact A'|exact A0|]. rewrite V0. exact (B t' A').
        + apply (score_mono G1 v' nl2 ppos Hm sz); [apply valid0; apply A'|apply valid0; apply A0|exact D].
      - exact Pos. }
    assert (okcl : forall f, okc T G f -> f < nf) by (intros f [Hf _]; exact Hf).
    destruct (f1_vals rnd W nf rows HR Hm (okc T G) dp nds t okcl At) as [U V'].
    exists x, (unflip (pfl acc mls nf v) t). rewrite (f1_ffit_eq rnd W nf rows), Et. split; [reflexivity|]. split; [exact U|].
    split; [exact (eq_trans (eq_sym Vt) V')|].
    intros t' Ht'. destruct (down dp nds t' Ht') as (s & As & Es). apply Hinj; [exact Ht'|exact U|].
    pose proof (up_score (okc T G) dp nds t okcl At) as Et'. rewrite <- (Rp _ _ Es), <- (Rp _ _ Et').
    replace (tval T1 v' t) with (cs_val x) by (symmetry; exact Vt). exact (B s As).
  Qed.
End Two.

(** For rows with labels 0 and 1, at least one 1 and fewer than 2^25 of them, leaves of at least
    one row, the depth-two solver on and every combination of the other switches: with at most
    one split, or with depth two and three splits, the one returned tree is within the limits,
    the reported counts are its own, and no tree within the limits has a better F1-score.
    Missing for the full claim: other limits (C76_refuted shows that it is false for depth two
    and two splits), larger leaves and the depth-two solver off. *)
Theorem C76_depth_two_partial : forall rnd W nf rows dp nds, f1_rows (fw_mls W) nf rows -> fw_mls W = 1 -> fw_term W = true ->
  double_rounding rnd -> (Z.of_nat (length rows) < 2 ^ 25)%Z ->
  (nds <= 1 /\ nds <= 2 ^ dp - 1 \/ dp = 2 /\ nds = 3) ->
  exists x t, f1_ffit rnd W nf dp nds false (mk_view 2 rows) = [(x, Some t)]
    /\ row_allowed nf 2 1 dp nds rows t
    /\ cs_val x = F1 (row_count rows t 1 0) (row_count rows t 0 1)
    /\ forall t', row_allowed nf 2 1 dp nds rows t' -> (row_f1 rows t' <= row_f1 rows t)%Q.
Proof.
  intros rnd W nf rows dp nds HR Hm Ht Hd HN Ho.
  pose proof (two_tree rnd W nf rows HR Hm Ht (proj1 Hd) dp nds Ho (f1_inj rnd (fw_mls W) nf rows dp nds HR Hd HN)) as H.
  rewrite Hm in H. exact H.
Qed.
Print Assumptions C76_depth_two_partial.

(** A case with the default switches: the rows of the counterexample to C76, with depth two and
    three splits, and the tree that is returned. *)
Example C76_depth_two_ex : f1_rows (fw_mls fdefaults) 3 c76_rows /\ fw_mls fdefaults = 1 /\ fw_term fdefaults = true
  /\ double_rounding no_rounding /\ (Z.of_nat (length c76_rows) < 2 ^ 25)%Z
  /\ exists x t, f1_ffit no_rounding fdefaults 3 2 3 false (mk_view 2 c76_rows) = [(x, Some t)] /\ nodes t = 3 /\ (row_f1 c76_rows t == 1)%Q.
Proof.
  split; [split; [repeat constructor|exists ([1;1;0],1); split; [left; reflexivity|reflexivity]|cbn; lia]|].
  split; [reflexivity|]. split; [reflexivity|]. split; [exact no_rounding_ok|]. split; [reflexivity|].
  do 2 eexists. split; [vm_compute; reflexivity|]. split; reflexivity.
Qed.
