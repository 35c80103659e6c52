(** C61-C64: the fairness tasks.  Modelled configuration: bounds, caches and the depth-two
    solver off. *)
From Coq Require Import List Arith Bool ZArith QArith Qabs Lia Lqa Permutation.
From Verif Require Import Model_FeatureVector Model_Data Model_Node Model_Terminal Model_Heap Model_Solver Model_Preproc Model_Container Model_Pareto Model_Fairness.
From Verif Require Import Spec_Tree Spec_Examples Spec_Rows Spec_Fair Proofs_View Proofs_Feature Proofs_Preproc Proofs_Rows Proofs_Heap Proofs_Container Proofs_Predict Proofs_Pareto Proofs_Fairness.
Import ListNotations.
Local Open Scope nat_scope.

(** What is asked of the rows: labels 0 and 1, rows that count in both groups, enough rows
    for one leaf. *)
Record fair_rows (eo : bool) (mls nf : nat) (rows : list (list nat * nat)) : Prop := FairRows {
  fa_good : good_rows nf 2 rows;
  fa_groups : forall g, members eo g rows <> [];
  fa_size : mls <= length rows }.

Lemma predict_lt P t bits : fits P 2 t -> row_predict t bits < 2.
Proof. induction t as [l|f l IHl r IHr]; [auto|]. cbn. intros (_ & H1 & H2). destruct (_ =? _); auto. Qed.

(** Sums over data of which the counted bits are kept. *)
Lemma cost_map_in c (g : inst -> inst) t t' v : (forall x k l, In x (concat v) -> c (g x) k l = c x k l) ->
  (forall x, In x (concat v) -> predict t x = predict t' (g x)) ->
  tree_cost c (map (map g) v) t' = tree_cost c v t.
Proof.
  unfold tree_cost. generalize 0 as k. induction v as [|xs v IH]; intros k Hc Hp; [reflexivity|]. cbn [map cost_from]. f_equal.
  - clear IH. assert (Hc' : forall x k l, In x xs -> c (g x) k l = c x k l) by (intros; apply Hc; cbn; apply in_or_app; auto).
    assert (Hp' : forall x, In x xs -> predict t x = predict t' (g x)) by (intros; apply Hp; cbn; apply in_or_app; auto). clear Hc Hp.
    induction xs as [|x xs IH]; [reflexivity|]. cbn [map fold_right]. rewrite IH by (intros; (apply Hc' || apply Hp'); right; assumption).
    rewrite Hc' by (left; reflexivity). rewrite Hp' by (left; reflexivity). reflexivity.
  - apply IH; intros; [apply Hc|apply Hp]; cbn; apply in_or_app; auto.
Qed.

Section Rows.
  Context (eo : bool) (nf : nat) (rows : list (list nat * nat)).
  Hypothesis Hg : good_rows nf 2 rows.
  Notation v := (mk_view 2 rows).

  Lemma row_ind (q : inst -> nat -> nat -> bool) (q' : list nat * nat -> bool) t :
    (forall p, In (snd p) rows -> q (row_inst p) (row_label p) (row_predict t (fst (snd p))) = q' (snd p)) ->
    tree_cost (fun x k l => ind (q x k l)) v t = Z.of_nat (length (filter q' rows)).
  Proof.
    intro H. rewrite (rows_cost nf 2 rows Hg). rewrite <- (numbered_snd rows) at 2.
    assert (K : forall p, In p (numbered rows) -> q (row_inst p) (row_label p) (row_predict t (fst (snd p))) = q' (snd p)).
    { intros p Hp. apply H. apply numbered_in. exact Hp. }
    revert K. generalize (numbered rows) as L.
    induction L as [|p L IH]; intro K; [reflexivity|]. cbn [map filter fold_right]. rewrite IH by (intros; apply K; right; assumption).
    rewrite row_predict_inst, K by (left; reflexivity). unfold ind. destruct (q' (snd p)); cbn [length]; lia.
  Qed.

  Lemma row_mis P t : fits P 2 t -> tree_cost c_mis v t = Z.of_nat (row_errors rows t).
  Proof.
    intro Hf. apply row_ind. intros p Hp. apply (proj1 (Forall_forall _ _) Hg) in Hp. destruct Hp as [_ Hp]. unfold q_mis, row_label.
    pose proof (predict_lt P t (fst (snd p)) Hf). destruct (row_predict t (fst (snd p))) as [|[|]], (snd (snd p)) as [|[|]]; try lia; reflexivity.
  Qed.
  Lemma row_pos P t g : fits P 2 t -> tree_cost (c_pos eo g) v t = Z.of_nat (positives eo g rows t).
  Proof.
    intro Hf. unfold positives, members. rewrite filter_filter. apply row_ind. intros p _. unfold q_pos, row_label. rewrite row_has.
    rewrite <- andb_assoc. pose proof (predict_lt P t (fst (snd p)) Hf). destruct (row_predict t (fst (snd p))) as [|[|]]; try lia; reflexivity.
  Qed.
  Lemma row_neg P t g : fits P 2 t -> (tree_cost (c_pos eo g) v t + tree_cost (c_neg eo g) v t = Z.of_nat (length (members eo g rows)))%Z.
  Proof.
    intro Hf. rewrite (row_pos P t g Hf).
    assert (E : tree_cost (c_neg eo g) v t = Z.of_nat (length (filter (fun p => negb (row_predict t (fst p) =? 1)) (members eo g rows)))).
    { unfold members. rewrite filter_filter. apply row_ind. intros p _. unfold q_neg, row_label. rewrite row_has.
      rewrite <- andb_assoc. pose proof (predict_lt P t (fst (snd p)) Hf). destruct (row_predict t (fst (snd p))) as [|[|]]; try lia; reflexivity. }
    rewrite E. unfold positives. pose proof (filter_length_split (fun p => row_predict t (fst p) =? 1) (members eo g rows)). lia.
  Qed.
End Rows.

(** The constraint of the code is the one on the rates. *)
Lemma ok_rates (lim : Q) (G0 G1 a b : Z) m r : (0 < G0)%Z -> (0 < G1)%Z ->
  fs_ok G0 G1 lim (FSol m (a * G1 + (G1 - b) * G0) (b * G0 + (G0 - a) * G1) r) = true
  <-> (Qabs (inject_Z a / inject_Z G0 - inject_Z b / inject_Z G1) <= lim)%Q.
Proof.
  intros H0 H1. unfold fs_ok. cbn [fs_g0 fs_g1]. rewrite Qle_bool_iff.
  assert (Q0 : (0 < inject_Z G0)%Q) by (change 0%Q with (inject_Z 0); rewrite <- Zlt_Qlt; exact H0).
  assert (Q1 : (0 < inject_Z G1)%Q) by (change 0%Q with (inject_Z 0); rewrite <- Zlt_Qlt; exact H1).
  assert (QD : (0 < inject_Z (G0 * G1))%Q) by (rewrite inject_Z_mult; apply Qmult_lt_0_compat; assumption).
  replace (Z.max (a * G1 + (G1 - b) * G0) (b * G0 + (G0 - a) * G1) - G0 * G1)%Z with (Z.abs (a * G1 - b * G0)) by lia.
  assert (E : (inject_Z (Z.abs (a * G1 - b * G0)) == Qabs (inject_Z a / inject_Z G0 - inject_Z b / inject_Z G1) * inject_Z (G0 * G1))%Q).
  { rewrite <- (Qabs_pos (inject_Z (G0 * G1))) by (apply Qlt_le_weak; exact QD). rewrite <- Qabs_Qmult. change (inject_Z (Z.abs (a * G1 - b * G0))) with (Qabs (inject_Z (a * G1 - b * G0))).
    apply Qabs_wd. unfold Z.sub. rewrite inject_Z_plus, inject_Z_opp, !inject_Z_mult. field. split; lra. }
  rewrite E. split; intro H; [|apply Qmult_le_compat_r; [exact H|apply Qlt_le_weak; exact QD]].
  apply Qmult_le_r in H; assumption.
Qed.

Section Fit.
  Context (eo : bool) (lim : Q) (mls nf : nat) (gini : bool) (rows : list (list nat * nat)).
  Hypothesis HR : fair_rows eo mls nf rows.
  Hypothesis Hm : 1 <= mls.
  Hypothesis Hlim : (0 <= lim)%Q.
  Notation v := (mk_view 2 rows).
  Notation v' := (pview fair_pre mls nf v).
  Notation Hg := (fa_good _ _ _ _ HR).
  Let Hld := rows_loaded nf 2 rows Hg.
  Notation G0 := (group0_size eo v').
  Notation G1 := (group1_size eo v').
  Notation G := (PCfg mls (pdead fair_pre mls nf v) (if gini then order_gini nf else order_in nf)).
  Notation T := (fair_task eo (Z.of_nat (vsize v')) G0 G1 lim).

  Lemma nf_pos : 0 < nf.
  Proof.
    destruct (Nat.eq_dec nf 0) as [E|]; [exfalso|lia]. apply (fa_groups _ _ _ _ HR true). unfold members.
    rewrite (filter_ext_in _ (fun _ => false)); [apply filter_none|]. intros p Hp.
    apply (proj1 (Forall_forall _ _) Hg) in Hp. destruct Hp as [Hp _]. rewrite E in Hp. destruct (fst p); [reflexivity|discriminate].
  Qed.
  Lemma v'_labels : num_labels v' = 2.
  Proof. rewrite pview_labels. apply (rows_labels 2 rows). Qed.
  Lemma pfl0 : pfl fair_pre mls nf v 0 = false.
  Proof. reflexivity. Qed.
  Lemma pdead0 : pdead fair_pre mls nf v 0 = false.
  Proof.
    destruct (pdead fair_pre mls nf v 0) eqn:E; [exfalso|reflexivity]. revert E. unfold pdead, preprocess. cbn [fst snd]. intro H.
    apply mark_dups_spec in H. destruct H as [H|(f1 & H1 & _)]; [|lia]. apply andb_true_iff in H. destruct H as [_ H]. discriminate.
  Qed.
  Lemma has0 x : In x (concat v) -> has 0 (pg fair_pre mls nf v x) = has 0 x.
  Proof.
    intro Hx. destruct (pg_spec fair_pre mls nf v Hld x Hx) as (_ & _ & H). rewrite H by apply nf_pos. rewrite pdead0, pfl0. apply xorb_false_l.
  Qed.

  Section Pair.
    Context (P : nat -> Prop) (t t' : tree).
    Hypothesis Hf : fits P 2 t.
    Hypothesis Hp : forall x, In x (concat v) -> predict t x = predict t' (pg fair_pre mls nf v x).
    Lemma val_mis : tree_cost c_mis v' t' = Z.of_nat (row_errors rows t).
    Proof. rewrite <- (row_mis nf rows Hg P t Hf). apply cost_map_in; [reflexivity|exact Hp]. Qed.
    Lemma val_pos g : tree_cost (c_pos eo g) v' t' = Z.of_nat (positives eo g rows t).
    Proof.
      rewrite <- (row_pos eo nf rows Hg P t g Hf). apply cost_map_in; [|exact Hp]. intros x k l Hx. unfold c_pos, q_pos. rewrite has0 by exact Hx. reflexivity.
    Qed.
    Lemma val_neg g : tree_cost (c_neg eo g) v' t' = (Z.of_nat (length (members eo g rows)) - Z.of_nat (positives eo g rows t))%Z.
    Proof.
      assert (E : tree_cost (c_neg eo g) v' t' = tree_cost (c_neg eo g) v t).
      { apply cost_map_in; [|exact Hp]. intros x k l Hx. unfold c_neg, q_neg. rewrite has0 by exact Hx. reflexivity. }
      rewrite E, <- (row_pos eo nf rows Hg P t g Hf). pose proof (row_neg eo nf rows Hg P t g Hf). lia.
    Qed.
  End Pair.

  Lemma g0_rows : G0 = Z.of_nat (length (members eo false rows)).
  Proof.
    rewrite g0_grp, <- (pos_neg eo false v' (Leaf 0) v'_labels).
    rewrite (val_pos (fun _ => True) (Leaf 0) (Leaf 0) ltac:(cbn; lia) ltac:(reflexivity)), (val_neg (fun _ => True) (Leaf 0) (Leaf 0) ltac:(cbn; lia) ltac:(reflexivity)). lia.
  Qed.
  Lemma g1_rows : G1 = Z.of_nat (length (members eo true rows)).
  Proof.
    rewrite g1_grp, <- (pos_neg eo true v' (Leaf 0) v'_labels).
    rewrite (val_pos (fun _ => True) (Leaf 0) (Leaf 0) ltac:(cbn; lia) ltac:(reflexivity)), (val_neg (fun _ => True) (Leaf 0) (Leaf 0) ltac:(cbn; lia) ltac:(reflexivity)). lia.
  Qed.
  Lemma members_pos g : (0 < Z.of_nat (length (members eo g rows)))%Z.
  Proof. pose proof (fa_groups _ _ _ _ HR g). destruct (members eo g rows); [congruence|cbn [length]; lia]. Qed.

  Lemma val_rows P t t' : fits P 2 t -> (forall x, In x (concat v) -> predict t x = predict t' (pg fair_pre mls nf v x)) ->
    let m g := Z.of_nat (length (members eo g rows)) in
    let k g := Z.of_nat (positives eo g rows t) in
    tval T v' t' = FSol (Z.of_nat (row_errors rows t)) (k false * m true + (m true - k true) * m false) (k true * m false + (m false - k false) * m true) false.
  Proof.
    intros Hf Hp. cbn zeta. rewrite fair_tval by apply v'_labels. unfold fval.
    rewrite (val_mis P t t' Hf Hp), !(val_pos P t t' Hf Hp), !(val_neg P t t' Hf Hp), g0_rows, g1_rows. reflexivity.
  Qed.

  Lemma ok_rows P t t' : fits P 2 t -> (forall x, In x (concat v) -> predict t x = predict t' (pg fair_pre mls nf v x)) ->
    fs_ok G0 G1 lim (tval T v' t') = true <-> (disc eo rows t <= lim)%Q.
  Proof.
    intros Hf Hp. rewrite (val_rows P t t' Hf Hp), g0_rows, g1_rows. unfold disc, rate. apply ok_rates; apply members_pos.
  Qed.

  Lemma okf_iff t : fits (okf T G nf) 2 t -> fits (fun f => f < nf /\ tk_may fair_pre f = true) 2 t.
  Proof. induction t as [l|f l IHl r IHr]; [auto|]. cbn [fits]. intros ((H1 & H0 & _) & H2 & H3). auto. Qed.
  Lemma to_okf t : forall xs, (forall x, In x xs -> In x (concat v')) ->
    fits (fun f => f < nf /\ tk_may fair_pre f = true) 2 t -> leaves_ok mls xs t -> fits (okf T G nf) 2 t.
  Proof.
    induction t as [l|f l IHl r IHr]; intros xs Hxs; [auto|]. cbn [fits leaves_ok]. intros ((H1 & H0) & H2 & H3) [L1 L2].
    split.
    2: { split; [apply (IHl (filter (fun x => negb (has f x)) xs))|apply (IHr (filter (fun x => has f x) xs))]; try assumption;
         intros x Hx; apply filter_In in Hx; apply Hxs; apply Hx. }
    split; [exact H1|]. split; [exact H0|]. cbn [pc_redundant]. destruct (pdead fair_pre mls nf v f) eqn:E; [exfalso|reflexivity].
    apply leaves_ok_size in L2. rewrite filter_all_false in L2; [cbn in L2; lia|].
    intros x Hx. exact (pview_red fair_pre mls nf v Hm Hld f x E (Hxs x Hx)).
  Qed.
  Lemma fits_and t (P Q : nat -> Prop) nl : fits (fun f => P f /\ Q f) nl t <-> fits P nl t /\ fits Q nl t.
  Proof. induction t as [l|f l IHl r IHr]; cbn [fits]; [tauto|]. rewrite IHl, IHr. tauto. Qed.
  Lemma fits_ext t (P Q : nat -> Prop) nl : (forall f, P f <-> Q f) -> fits P nl t -> fits Q nl t.
  Proof. intro H. induction t as [l|f l IHl r IHr]; cbn [fits]; [auto|]. intros (A & B & C). split; [apply H; exact A|auto]. Qed.

  Lemma tree_up dp nds t : good_tree eo lim G nf v' dp nds t ->
    row_allowed nf 2 mls dp nds rows (unflip (pfl fair_pre mls nf v) t) /\ blind (unflip (pfl fair_pre mls nf v) t)
    /\ (forall x, In x (concat v) -> predict (unflip (pfl fair_pre mls nf v) t) x = predict t (pg fair_pre mls nf v x)).
  Proof.
    intros (H1 & H2 & H3 & H4). change (length v') with (num_labels v') in H1. rewrite v'_labels in H1. apply okf_iff in H1.
    unfold pview in H2. rewrite concat_map_map in H2. cbn [pc_mls] in H2.
    destruct (unflip_tree fair_pre mls nf v Hm Hld 2 t (fun _ => true)) as (A1 & A2 & A3 & A4 & A5); rewrite ?filter_true in *; try assumption.
    split; [|split; [|exact A5]].
    - apply (rows_allowed nf 2 rows Hg). unfold allowed. change (length v) with (num_labels v). rewrite (rows_labels 2 rows).
      split; [exact A1|]. split; [exact A2|]. lia.
    - unfold blind. apply unflip_fits. apply fits_and in H1. destruct H1 as [_ H1]. revert H1. apply fits_ext. intro f. apply Nat.ltb_lt.
  Qed.

  Hypothesis Hproxy : no_proxy nf rows.

  Lemma proxy f f1 : f < nf -> f1 < nf -> tk_may fair_pre f = true ->
    (forall x, In x (concat v) -> xorb (pfl fair_pre mls nf v f) (has f x) = xorb (pfl fair_pre mls nf v f1) (has f1 x)) -> tk_may fair_pre f1 = true.
  Proof.
    intros Hf Hf1 M E. destruct f1 as [|f1]; [exfalso|reflexivity]. cbn [tk_may fair_pre] in M. apply Nat.ltb_lt in M.
    destruct (Hproxy f (conj M Hf)) as ((p & P1 & P2) & (q & Q1 & Q2)).
    assert (K : forall r, In r rows -> xorb (pfl fair_pre mls nf v f) (negb (nth f (fst r) 0 =? 0)) = negb (nth 0 (fst r) 0 =? 0)).
    { intros r Hr. rewrite <- (numbered_snd rows) in Hr. apply in_map_iff in Hr. destruct Hr as (s & <- & Hs).
      assert (Hx : In (row_inst s) (concat v)) by (rewrite (view_perm nf 2 rows Hg); apply in_map; exact Hs).
      specialize (E _ Hx). rewrite pfl0, xorb_false_l, !row_has in E. exact E. }
    pose proof (K p P1) as Kp. pose proof (K q Q1) as Kq. rewrite Q2 in Kq. destruct (pfl fair_pre mls nf v f); cbn [xorb] in Kp, Kq.
    - destruct (nth 0 (fst q) 0 =? 0); discriminate.
    - destruct (nth f (fst p) 0 =? 0), (nth 0 (fst p) 0 =? 0); try discriminate; congruence.
  Qed.

  Lemma tree_down dp nds t : row_allowed nf 2 mls dp nds rows t -> blind t ->
    exists t', good_tree eo lim G nf v' dp nds t' /\ (forall x, In x (concat v) -> predict t x = predict t' (pg fair_pre mls nf v x)).
  Proof.
    intros H B. apply (rows_allowed nf 2 rows Hg) in H. destruct H as (H1 & H2 & H3 & H4).
    change (length v) with (num_labels v) in H1. rewrite (rows_labels 2 rows) in H1.
    assert (F : fits (fun f => f < nf /\ tk_may fair_pre f = true) 2 t).
    { apply fits_and. split; [exact H1|]. revert B. apply fits_ext. intro f. symmetry. apply Nat.ltb_lt. }
    destruct (norm_tree_gen fair_pre mls nf v Hm Hld proxy 2 t (fun _ => true)) as (t' & A1 & A2 & A3 & A4 & A5); rewrite ?filter_true in *; try assumption.
    exists t'. split; [|exact A5]. unfold good_tree, allowed. change (length v') with (num_labels v'). rewrite v'_labels.
    assert (Ev : concat v' = map (pg fair_pre mls nf v) (concat v)) by (unfold pview; apply concat_map_map).
    rewrite Ev. split; [|split; [exact A2|lia]].
    apply (to_okf t' (map (pg fair_pre mls nf v) (concat v))); [|exact A1|exact A2].
    intros x Hx. unfold pview. rewrite concat_map_map. exact Hx.
  Qed.

  Lemma v'_size : mls <= vsize v'.
  Proof. rewrite pview_size, (rows_size nf 2 rows Hg). apply (fa_size _ _ _ _ HR). Qed.
  Lemma G_order u f : In f (pc_order G u) <-> f < nf.
  Proof.
    cbn [pc_order]. destruct gini.
    - rewrite (Permutation_in' eq_refl (order_gini_perm nf u)). rewrite in_seq. lia.
    - unfold order_in. rewrite in_seq. lia.
  Qed.

  Lemma fair_fit_eq dp nds all : fair_fit eo lim mls nf dp nds all gini v
    = map (fun p => (fst p, option_map (unflip (pfl fair_pre mls nf v)) (snd p))) (p_trees T G v' dp nds all).
  Proof. unfold fair_fit. rewrite preprocess_eq. reflexivity. Qed.

  Lemma fit_fair dp nds all : (Z.of_nat (length (members eo false rows)) * Z.of_nat (length (members eo true rows)) < 10000)%Z -> nds <= 2 ^ dp - 1 ->
    exists x t, fair_fit eo lim mls nf dp nds all gini v = [(x, Some t)]
      /\ row_allowed nf 2 mls dp nds rows t /\ blind t /\ (disc eo rows t <= lim)%Q
      /\ fs_mis (cs_val x) = Z.of_nat (row_errors rows t)
      /\ forall t', row_allowed nf 2 mls dp nds rows t' -> blind t' -> (disc eo rows t' <= lim)%Q -> row_errors rows t <= row_errors rows t'.
  Proof.
    intros HD Hn.
    assert (P0 : (0 < G0)%Z) by (rewrite g0_rows; apply members_pos). assert (P1 : (0 < G1)%Z) by (rewrite g1_rows; apply members_pos).
    rewrite <- g0_rows, <- g1_rows in HD.
    destruct (fair_view eo lim G nf v' v'_labels P0 P1 HD Hlim G_order Hm v'_size dp nds all Hn) as (x & t & E & A & V & O & B).
    destruct (tree_up dp nds t A) as (U1 & U2 & U3).
    assert (Fu : fits (fun f => 0 < f) 2 (unflip (pfl fair_pre mls nf v) t)) by exact U2.
    exists x, (unflip (pfl fair_pre mls nf v) t). rewrite fair_fit_eq, E. split; [reflexivity|].
    split; [exact U1|]. split; [exact U2|]. split; [apply (ok_rows _ _ t Fu U3); exact O|].
    pose proof (val_rows _ _ t Fu U3) as W. cbn zeta in W. change (pt_S T) with fsol in *. split; [rewrite <- V, W; reflexivity|].
    intros t' Ht' Hb Hd. destruct (tree_down dp nds t' Ht' Hb) as (s & As & Ps).
    pose proof (val_rows _ _ s Hb Ps) as W'. cbn zeta in W'. change (pt_S T) with fsol in *.
    pose proof (B s As (proj2 (ok_rows _ _ s Hb Ps) Hd)) as L. rewrite W, W' in L. cbn [fs_mis] in L. lia.
  Qed.
End Fit.

(** * C61.  The tree is within the limit, does not test the sensitive column, makes the number
    of errors that is reported, and no such tree makes fewer.  For all rows, limits and orders
    of the features, both tasks and both loops over the sizes, while the product of the group
    sizes is below 10000 (so that the tolerance of 1e-4 cannot matter) and no column is a copy
    of the sensitive one. *)
Theorem C61_fair_optimum_partial : forall eo lim mls nf gini rows dp nds all, fair_rows eo mls nf rows -> no_proxy nf rows ->
  1 <= mls -> (0 <= lim)%Q -> nds <= 2 ^ dp - 1 ->
  (Z.of_nat (length (members eo false rows)) * Z.of_nat (length (members eo true rows)) < 10000)%Z ->
  exists x t, fair_fit eo lim mls nf dp nds all gini (mk_view 2 rows) = [(x, Some t)]
    /\ row_allowed nf 2 mls dp nds rows t /\ blind t /\ (disc eo rows t <= lim)%Q
    /\ fs_mis (cs_val x) = Z.of_nat (row_errors rows t)
    /\ forall t', row_allowed nf 2 mls dp nds rows t' -> blind t' -> (disc eo rows t' <= lim)%Q -> row_errors rows t <= row_errors rows t'.
Proof. intros. apply fit_fair; assumption. Qed.
Print Assumptions C61_fair_optimum_partial.

(** Twelve rows: sensitive column, two others; label. *)
Definition fair_ex : list (list nat * nat) :=
  [([0;0;1],0);([0;1;1],1);([0;1;0],1);([0;0;0],0);([0;1;1],1);([0;0;1],1);
   ([1;0;0],0);([1;1;0],1);([1;0;1],0);([1;0;0],1);([1;0;1],0);([1;0;0],0)].
Example C61_ex : forall eo, fair_rows eo 1 3 fair_ex /\ no_proxy 3 fair_ex.
Proof.
  intro eo. split.
  - split; [repeat constructor|intros []; destruct eo; discriminate|cbn; lia].
  - intros f Hf. assert (E : f = 1 \/ f = 2) by lia. destruct E; subst.
    + split; [exists ([0;1;1],1)|exists ([0;0;1],0)]; split; cbn; auto; discriminate.
    + split; [exists ([0;0;1],0)|exists ([0;1;0],1)]; split; cbn; auto; discriminate.
Qed.
(** Limits 1, 3/10 and 1/10 give two, three and four errors, and the reported number is right. *)
(** The reported errors, the errors of the tree, and whether it is within the limit. *)
Definition fair_out (eo : bool) (lim : Q) (dp nds : nat) (rows : list (list nat * nat)) : list (Z * option (nat * bool)) :=
  map (fun p => (fs_mis (cs_val (fst p)), option_map (fun t => (row_errors rows t, Qle_bool (disc eo rows t) lim)) (snd p)))
      (fair_fit eo lim 1 3 dp nds false true (mk_view 2 rows)).
Example C61_ex_fit : fair_out false (1 # 2) 2 3 fair_ex = [(2%Z, Some (2, true))] /\ fair_out false (3 # 10) 2 3 fair_ex = [(4%Z, Some (4, true))]
  /\ fair_out true (3 # 10) 2 3 fair_ex = [(2%Z, Some (2, true))] /\ fair_out true (1 # 5) 2 3 fair_ex = [(6%Z, Some (6, true))].
Proof. vm_compute. auto. Qed.

(** For larger groups it is refuted: two subtrees whose group scores differ by less than 1e-4
    count as equal, and the one that is dropped was needed.  Groups of 100 and 101 rows. *)
Definition tol_ex : list (list nat * nat) :=
  [([0;1;0],1);([1;1;0],0);([1;0;1],1)] ++ repeat ([0;0;0],0) 99 ++ repeat ([1;0;0],0) 99.
Lemma shape_one {A} (q : tree -> nat) k (L : list (A * option tree)) : map (fun p => option_map q (snd p)) L = [Some k] -> exists x t, L = [(x, Some t)] /\ q t = k.
Proof. destruct L as [|[x [t|]] [|]]; cbn; intro H; try discriminate. injection H as H. eauto. Qed.
Lemma tol_fit : exists x t, fair_fit false (197 # 20000) 1 3 2 3 false true (mk_view 2 tol_ex) = [(x, Some t)] /\ row_errors tol_ex t = 2.
Proof. apply (shape_one (fun t => row_errors tol_ex t)). vm_compute. reflexivity. Qed.
Theorem C61_refuted : exists rows lim, fair_rows false 1 3 rows /\ no_proxy 3 rows /\ (0 <= lim)%Q
  /\ exists x t t', fair_fit false lim 1 3 2 3 false true (mk_view 2 rows) = [(x, Some t)]
    /\ row_allowed 3 2 1 2 3 rows t' /\ blind t' /\ (disc false rows t' <= lim)%Q /\ row_errors rows t' < row_errors rows t.
Proof.
  exists tol_ex, (197 # 20000). split; [|split; [|split]].
  - split; [|intros []; discriminate|cbn; lia]. apply Forall_forall. intros p Hp. unfold tol_ex in Hp. rewrite !in_app_iff in Hp.
    destruct Hp as [Hp|[Hp|Hp]]; [cbn in Hp; intuition; subst; cbn; lia| |]; apply repeat_spec in Hp; subst; cbn; lia.
  - intros f Hf. assert (E : f = 1 \/ f = 2) by lia. destruct E; subst.
    + split; [exists ([0;1;0],1)|exists ([1;1;0],0)]; split; cbn; auto; discriminate.
    + split; [exists ([1;1;0],0)|exists ([0;1;0],1)]; split; cbn; auto; discriminate.
  - unfold Qle. cbn. lia.
  - destruct tol_fit as (x & t & E & N).
    exists x, t, (Split 2 (Split 1 (Leaf 0) (Leaf 1)) (Leaf 1)). split; [exact E|]. split; [|split; [cbn; lia|split]].
    + vm_compute; repeat split; repeat constructor.
    + vm_compute. discriminate.
    + rewrite N. vm_compute. constructor.
Qed.
Print Assumptions C61_refuted.

(** * C62.  It does not matter which group is coded as 1. *)
Definition recode (rows : list (list nat * nat)) : list (list nat * nat) :=
  map (fun p => ((if nth 0 (fst p) 0 =? 0 then 1 else 0) :: tl (fst p), snd p)) rows.

Lemma recode_nth f p : 0 < f -> nth f ((if nth 0 (fst p) 0 =? 0 then 1 else 0) :: tl (fst p)) 0 = @nth nat f (@fst (list nat) nat p) 0.
Proof. intro H. destruct f as [|f]; [lia|]. cbn [nth]. destruct (fst p) as [|b bs]; [destruct f; reflexivity|reflexivity]. Qed.
Lemma recode_predict t p : blind t -> row_predict t ((if nth 0 (fst p) 0 =? 0 then 1 else 0) :: tl (fst p)) = row_predict t (@fst (list nat) nat p).
Proof.
  unfold blind. induction t as [l|f l IHl r IHr]; [reflexivity|]. cbn [fits row_predict]. intros (H & H1 & H2). rewrite recode_nth by exact H. rewrite IHl, IHr by assumption. reflexivity.
Qed.
Lemma filter_map_comm {A B} (g : A -> B) (p : B -> bool) xs : filter p (map g xs) = map g (filter (fun x => p (g x)) xs).
Proof. induction xs as [|x xs IH]; [reflexivity|]. cbn. destruct (p (g x)); cbn; rewrite IH; reflexivity. Qed.
Lemma recode_errors rows t : blind t -> row_errors (recode rows) t = row_errors rows t.
Proof.
  intro B. unfold row_errors, recode. rewrite filter_map_comm, map_length. f_equal. apply filter_ext. intro p. cbn [fst snd]. rewrite recode_predict by exact B. reflexivity.
Qed.
Lemma recode_leaves m t : blind t -> forall rows, row_leaves m (recode rows) t <-> row_leaves m rows t.
Proof.
  unfold blind. induction t as [l|f l IHl r IHr]; intros B rows; [cbn; unfold recode; rewrite map_length; tauto|].
  destruct B as (H & B1 & B2). cbn [row_leaves].
  assert (E1 : filter (fun p => nth f (fst p) 0 =? 0) (recode rows) = recode (filter (fun p => nth f (fst p) 0 =? 0) rows)).
  { unfold recode. rewrite filter_map_comm. f_equal. apply filter_ext. intro p. cbn [fst]. rewrite recode_nth by exact H. reflexivity. }
  assert (E2 : filter (fun p => negb (nth f (fst p) 0 =? 0)) (recode rows) = recode (filter (fun p => negb (nth f (fst p) 0 =? 0)) rows)).
  { unfold recode. rewrite filter_map_comm. f_equal. apply filter_ext. intro p. cbn [fst]. rewrite recode_nth by exact H. reflexivity. }
  rewrite E1, E2, IHl, IHr by assumption. tauto.
Qed.
Lemma recode_allowed nf m d n rows t : blind t -> row_allowed nf 2 m d n (recode rows) t <-> row_allowed nf 2 m d n rows t.
Proof. intro B. unfold row_allowed. rewrite (recode_leaves m t B rows). tauto. Qed.
Lemma recode_members eo g rows : members eo g (recode rows)
  = recode (members eo (negb g) rows).
Proof.
  unfold members, recode. rewrite filter_map_comm. f_equal. apply filter_ext. intro p. cbn [fst snd nth]. destruct (nth 0 (fst p) 0 =? 0), g; reflexivity.
Qed.
Lemma recode_rate eo g rows t : blind t -> rate eo g (recode rows) t = rate eo (negb g) rows t.
Proof.
  intro B. unfold rate, positives. rewrite recode_members. unfold recode. rewrite filter_map_comm, !map_length. cbn [fst].
  rewrite (filter_ext _ (fun p => row_predict t (fst p) =? 1)); [reflexivity|].
  intro p. rewrite recode_predict by exact B. reflexivity.
Qed.
Lemma recode_disc eo rows t : blind t -> (disc eo (recode rows) t == disc eo rows t)%Q.
Proof. intro B. unfold disc. rewrite !recode_rate by exact B. cbn [negb]. rewrite (Qabs_Qminus (rate eo true rows t)). reflexivity. Qed.
Lemma recode_rows eo mls nf rows : 0 < nf -> fair_rows eo mls nf rows -> fair_rows eo mls nf (recode rows).
Proof.
  intros Hn [H1 H2 H3]. split.
  - apply Forall_forall. intros p Hp. apply in_map_iff in Hp. destruct Hp as (q & <- & Hq). apply (proj1 (Forall_forall _ _) H1) in Hq. cbn [fst snd length].
    destruct Hq as [Hq Hl]. split; [|exact Hl]. destruct (fst q); cbn in *; lia.
  - intro g. rewrite recode_members. specialize (H2 (negb g)). destruct (members eo (negb g) rows); [congruence|discriminate].
  - unfold recode. rewrite map_length. exact H3.
Qed.
Lemma recode_proxy nf rows : no_proxy nf rows -> no_proxy nf (recode rows).
Proof.
  intros H f Hf. destruct (H f Hf) as ((p & P1 & P2) & (q & Q1 & Q2)).
  set (g := fun p : list nat * nat => ((if nth 0 (fst p) 0 =? 0 then 1 else 0) :: tl (fst p), snd p)).
  split; [exists (g q)|exists (g p)]; (split; [apply in_map; assumption|]); unfold g; cbn [fst]; rewrite recode_nth by lia.
  - rewrite Q2. cbn [nth]. destruct (nth 0 (fst q) 0 =? 0); discriminate.
  - cbn [nth]. destruct (nth f (fst p) 0 =? 0), (nth 0 (fst p) 0 =? 0); try reflexivity; congruence.
Qed.

Theorem C62_group_coding_partial : forall eo lim mls nf gini gini' rows dp nds all all', fair_rows eo mls nf rows -> no_proxy nf rows ->
  1 <= mls -> (0 <= lim)%Q -> nds <= 2 ^ dp - 1 ->
  (Z.of_nat (length (members eo false rows)) * Z.of_nat (length (members eo true rows)) < 10000)%Z ->
  exists x t x' t', fair_fit eo lim mls nf dp nds all gini (mk_view 2 rows) = [(x, Some t)]
    /\ fair_fit eo lim mls nf dp nds all' gini' (mk_view 2 (recode rows)) = [(x', Some t')]
    /\ fs_mis (cs_val x) = fs_mis (cs_val x') /\ row_errors rows t = row_errors rows t' /\ (disc eo rows t' <= lim)%Q.
Proof.
  intros eo lim mls nf gini gini' rows dp nds all all' HR HP Hm Hl Hn HD.
  destruct (C61_fair_optimum_partial eo lim mls nf gini rows dp nds all HR HP Hm Hl Hn HD) as (x & t & E & A & B & D & M & O).
  destruct (C61_fair_optimum_partial eo lim mls nf gini' (recode rows) dp nds all') as (x' & t' & E' & A' & B' & D' & M' & O');
    [apply recode_rows; [eapply nf_pos; eassumption|exact HR]|apply recode_proxy; exact HP|exact Hm|exact Hl|exact Hn| |].
  { rewrite !recode_members. unfold recode. rewrite !map_length. cbn [negb]. lia. }
  rewrite recode_errors in M' by exact B'. rewrite recode_disc in D' by exact B'.
  assert (Q : row_errors rows t = row_errors rows t').
  { apply Nat.le_antisymm.
    - apply O; [apply (recode_allowed _ _ _ _ _ _ B'); exact A'|exact B'|exact D'].
    - rewrite <- (recode_errors rows t B), <- (recode_errors rows t' B'). apply O'; [apply (recode_allowed _ _ _ _ _ _ B); exact A|exact B|rewrite recode_disc by exact B; exact D]. }
  exists x, t, x', t'. rewrite M, M', Q. auto.
Qed.
Print Assumptions C62_group_coding_partial.

(** Refuted for data with a copy of the sensitive column: with few rows in group 1 the copy is
    disabled as a duplicate, with many it is flipped first and stays usable. *)
Definition proxy_ex : list (list nat * nat) := [([0;0],0);([0;0],0);([0;0],0);([1;1],1);([1;1],1)].
Theorem C62_refuted : exists rows lim, fair_rows false 1 2 rows /\ (0 <= lim)%Q
  /\ exists x t x' t', fair_fit false lim 1 2 1 1 false true (mk_view 2 rows) = [(x, Some t)]
    /\ fair_fit false lim 1 2 1 1 false true (mk_view 2 (recode rows)) = [(x', Some t')]
    /\ row_errors rows t = 2 /\ row_errors (recode rows) t' = 0.
Proof.
  exists proxy_ex, 1%Q. split; [split; [repeat constructor|intros []; discriminate|cbn; lia]|]. split; [unfold Qle; cbn; lia|].
  do 4 eexists. split; [vm_compute; reflexivity|]. split; [vm_compute; reflexivity|]. split; vm_compute; reflexivity.
Qed.
Print Assumptions C62_refuted.

(** * C63.  The score of a tree on test data is its accuracy if it is within the limit there,
    and 0 otherwise. *)
Section Test.
  Context (eo : bool) (lim : Q) (mls nf : nat) (rows test : list (list nat * nat)).
  Hypothesis HR : fair_rows eo mls nf rows.
  Hypothesis Hm : 1 <= mls.
  Hypothesis Ht : good_rows nf 2 test.
  Notation v := (mk_view 2 rows).
  Notation fl := (pfl fair_pre mls nf v).
  Notation w := (mk_view 2 test).
  Notation m g := (Z.of_nat (length (members eo g test))).
  Notation G g := (Z.of_nat (length (members eo g rows))).

  Lemma test_unflip (fl' : nat -> bool) G0 G1 n t : forall u, fair_test_value eo G0 G1 fl' u t = tval (fair_task eo n G0 G1 lim) u (unflip fl' t).
  Proof.
    induction t as [l|f l IHl r IHr]; intro u; [reflexivity|]. cbn [fair_test_value unflip]. destruct (fl' f); cbn [tval]; rewrite IHl, IHr; reflexivity.
  Qed.
  Lemma flip0 x : In x (concat w) -> has 0 (flip_all fl nf x) = has 0 x.
  Proof.
    intro Hx. destruct (ld_bits _ _ (rows_loaded _ _ _ Ht) x Hx) as (bits & Hb & E).
    assert (K : inst_ok nf x) by (split; rewrite E; [exact Hb|apply fv_make_ok]).
    destruct (flip_all_spec fl nf x K) as (_ & _ & H). rewrite H by (eapply nf_pos; eassumption). rewrite pfl0. apply xorb_false_l.
  Qed.
  Lemma flip_predict t : fits (fun f => f < nf) 2 t -> forall x, In x (concat w) -> predict t x = predict (unflip fl t) (flip_all fl nf x).
  Proof.
    intros Hf x Hx. destruct (ld_bits _ _ (rows_loaded _ _ _ Ht) x Hx) as (bits & Hb & E).
    assert (K : inst_ok nf x) by (split; rewrite E; [exact Hb|apply fv_make_ok]).
    symmetry. apply (Proofs_Predict.unflip_flip fl nf 2 t Hf x K).
  Qed.

  Lemma test_value t : fits (fun f => f < nf) 2 t ->
    fair_test_value eo (G false) (G true) fl (preprocess_test fl nf w) t
    = let k g := Z.of_nat (positives eo g test t) in
      FSol (Z.of_nat (row_errors test t)) (k false * G true + (m true - k true) * G false) (k true * G false + (m false - k false) * G true) false.
  Proof.
    intro Hf. cbn zeta. rewrite (test_unflip fl (G false) (G true) 0).
    assert (L : num_labels (preprocess_test fl nf w) = 2).
    { unfold preprocess_test, num_labels. rewrite map_length. apply (rows_labels 2 test). }
    rewrite fair_tval by exact L. unfold fval, preprocess_test.
    rewrite (cost_map_in c_mis (flip_all fl nf) t (unflip fl t) w (fun _ _ _ _ => eq_refl) (flip_predict t Hf)).
    assert (P : forall g, tree_cost (c_pos eo g) (map (map (flip_all fl nf)) w) (unflip fl t) = tree_cost (c_pos eo g) w t).
    { intro g. apply cost_map_in; [|apply flip_predict; exact Hf]. intros x k l Hx. unfold c_pos, q_pos. rewrite flip0 by exact Hx. reflexivity. }
    assert (N : forall g, tree_cost (c_neg eo g) (map (map (flip_all fl nf)) w) (unflip fl t) = tree_cost (c_neg eo g) w t).
    { intro g. apply cost_map_in; [|apply flip_predict; exact Hf]. intros x k l Hx. unfold c_neg, q_neg. rewrite flip0 by exact Hx. reflexivity. }
    rewrite !P, !N. rewrite (row_mis nf test Ht _ t Hf).
    pose proof (row_neg eo nf test Ht _ t false Hf) as N0. pose proof (row_neg eo nf test Ht _ t true Hf) as N1.
    rewrite !(row_pos eo nf test Ht _ t _ Hf) in *. f_equal; [|].
    - replace (tree_cost (c_neg eo true) w t) with (m true - Z.of_nat (positives eo true test t))%Z by lia. reflexivity.
    - replace (tree_cost (c_neg eo false) w t) with (m false - Z.of_nat (positives eo false test t))%Z by lia. reflexivity.
  Qed.

  Lemma score_eq t : fits (fun f => f < nf) 2 t ->
    fair_score eo lim mls nf v w t
    = let k g := Z.of_nat (positives eo g test t) in
      if fs_ok (G false) (G true) lim (FSol (Z.of_nat (row_errors test t)) (k false * G true + (m true - k true) * G false) (k true * G false + (m false - k false) * G true) false)
      then accuracy test t else 0%Q.
  Proof.
    intro Hf. unfold fair_score. rewrite preprocess_eq. cbn zeta. unfold fair_test_score.
    rewrite (g0_rows eo mls nf rows HR Hm), (g1_rows eo mls nf rows HR Hm), (test_value t Hf). cbn zeta. cbn [fs_mis].
    assert (S : vsize (preprocess_test fl nf w) = length test).
    { rewrite <- (rows_size nf 2 test Ht). unfold vsize, preprocess_test. rewrite concat_map_map, map_length. reflexivity. }
    rewrite S. reflexivity.
  Qed.

  Lemma pos_le g t : positives eo g test t <= length (members eo g test).
  Proof. unfold positives. apply filter_le. Qed.
End Test.

(** It holds when the groups of the test data are as large as those of the training data,
    in particular for a score on the training data. *)
Theorem C63_test_score_partial : forall eo lim mls nf rows test t, fair_rows eo mls nf rows -> 1 <= mls -> good_rows nf 2 test ->
  fits (fun f => f < nf) 2 t -> (forall g, length (members eo g test) = length (members eo g rows)) ->
  fair_score eo lim mls nf (mk_view 2 rows) (mk_view 2 test) t = if Qle_bool (disc eo test t) lim then accuracy test t else 0%Q.
Proof.
  intros eo lim mls nf rows test t HR Hm Ht Hf HG. rewrite (score_eq eo lim mls nf rows test HR Hm Ht t Hf). cbn zeta.
  pose proof (ok_rates lim (Z.of_nat (length (members eo false rows))) (Z.of_nat (length (members eo true rows)))
    (Z.of_nat (positives eo false test t)) (Z.of_nat (positives eo true test t)) (Z.of_nat (row_errors test t)) false
    (members_pos eo mls nf rows HR Hm false) (members_pos eo mls nf rows HR Hm true)) as K.
  unfold disc, rate. rewrite !HG. destruct (fs_ok _ _ _ _) eqn:E.
  - rewrite (proj2 (Qle_bool_iff _ _) (proj1 K eq_refl)). reflexivity.
  - destruct (Qle_bool _ lim) eqn:Q; [|reflexivity]. apply Qle_bool_iff in Q. apply K in Q. discriminate.
Qed.
Print Assumptions C63_test_score_partial.

Theorem C63_train_score : forall eo lim mls nf rows t, fair_rows eo mls nf rows -> 1 <= mls -> fits (fun f => f < nf) 2 t ->
  fair_score eo lim mls nf (mk_view 2 rows) (mk_view 2 rows) t = if Qle_bool (disc eo rows t) lim then accuracy rows t else 0%Q.
Proof. intros. apply C63_test_score_partial; auto. apply (fa_good _ _ _ _ H). Qed.
Print Assumptions C63_train_score.

(** In general it is refuted, because the members of a group in the test data are divided by
    the size of the group in the training data.  Test data at least twice as large scores 0
    whatever the tree is, *)
Theorem C63_large_refuted : forall eo lim mls nf rows test t, fair_rows eo mls nf rows -> 1 <= mls -> good_rows nf 2 test ->
  fits (fun f => f < nf) 2 t -> (lim < 1)%Q -> (forall g, 2 * length (members eo g rows) <= length (members eo g test)) ->
  fair_score eo lim mls nf (mk_view 2 rows) (mk_view 2 test) t = 0%Q.
Proof.
  intros eo lim mls nf rows test t HR Hm Ht Hf Hl HG. rewrite (score_eq eo lim mls nf rows test HR Hm Ht t Hf). cbn zeta.
  destruct (fs_ok _ _ _ _) eqn:E; [exfalso|reflexivity]. unfold fs_ok in E. cbn [fs_g0 fs_g1] in E. apply Qle_bool_iff in E.
  pose proof (members_pos eo mls nf rows HR Hm false) as P0. pose proof (members_pos eo mls nf rows HR Hm true) as P1.
  pose proof (HG false) as H0. pose proof (HG true) as H1.
  set (g0 := Z.of_nat (length (members eo false rows))) in *. set (g1 := Z.of_nat (length (members eo true rows))) in *.
  set (k0 := Z.of_nat (positives eo false test t)) in *. set (k1 := Z.of_nat (positives eo true test t)) in *.
  set (m0 := Z.of_nat (length (members eo false test))) in *. set (m1 := Z.of_nat (length (members eo true test))) in *.
  assert (M0 : (2 * g0 <= m0)%Z) by (unfold g0, m0; lia). assert (M1 : (2 * g1 <= m1)%Z) by (unfold g1, m1; lia).
  assert (D : (0 < g0 * g1)%Z) by (apply Z.mul_pos_pos; assumption).
  assert (X : (g0 * g1 <= Z.max (k0 * g1 + (m1 - k1) * g0) (k1 * g0 + (m0 - k0) * g1) - g0 * g1)%Z).
  { assert ((2 * g0) * g1 <= m0 * g1)%Z by (apply Z.mul_le_mono_nonneg_r; lia). assert ((2 * g1) * g0 <= m1 * g0)%Z by (apply Z.mul_le_mono_nonneg_r; lia). nia. }
  assert (Y : (inject_Z (g0 * g1) <= lim * inject_Z (g0 * g1))%Q).
  { eapply Qle_trans; [|exact E]. rewrite <- Zle_Qle. exact X. }
  assert (QD : (0 < inject_Z (g0 * g1))%Q) by (change 0%Q with (inject_Z 0); rewrite <- Zlt_Qlt; exact D).
  rewrite <- (Qmult_1_l (inject_Z (g0 * g1))) in Y at 1. apply Qmult_le_r in Y; [|exact QD]. lra.
Qed.
Print Assumptions C63_large_refuted.

(** and on test data at most half as large no tree is found to discriminate. *)
Theorem C63_small_refuted : forall eo lim mls nf rows test t, fair_rows eo mls nf rows -> 1 <= mls -> good_rows nf 2 test ->
  fits (fun f => f < nf) 2 t -> (0 <= lim)%Q -> (forall g, 2 * length (members eo g test) <= length (members eo g rows)) ->
  fair_score eo lim mls nf (mk_view 2 rows) (mk_view 2 test) t = accuracy test t.
Proof.
  intros eo lim mls nf rows test t HR Hm Ht Hf Hl HG. rewrite (score_eq eo lim mls nf rows test HR Hm Ht t Hf). cbn zeta.
  destruct (fs_ok _ _ _ _) eqn:E; [reflexivity|exfalso]. apply Bool.not_true_iff_false in E. apply E. unfold fs_ok. cbn [fs_g0 fs_g1]. apply Qle_bool_iff.
  pose proof (members_pos eo mls nf rows HR Hm false) as P0. pose proof (members_pos eo mls nf rows HR Hm true) as P1.
  pose proof (HG false) as H0. pose proof (HG true) as H1. pose proof (pos_le eo test false t) as L0. pose proof (pos_le eo test true t) as L1.
  set (g0 := Z.of_nat (length (members eo false rows))) in *. set (g1 := Z.of_nat (length (members eo true rows))) in *.
  set (k0 := Z.of_nat (positives eo false test t)) in *. set (k1 := Z.of_nat (positives eo true test t)) in *.
  set (m0 := Z.of_nat (length (members eo false test))) in *. set (m1 := Z.of_nat (length (members eo true test))) in *.
  assert (M0 : (0 <= k0 <= m0 /\ 2 * m0 <= g0)%Z) by (unfold g0, m0, k0; lia). assert (M1 : (0 <= k1 <= m1 /\ 2 * m1 <= g1)%Z) by (unfold g1, m1, k1; lia).
  assert (D : (0 < g0 * g1)%Z) by (apply Z.mul_pos_pos; assumption).
  assert (X : (Z.max (k0 * g1 + (m1 - k1) * g0) (k1 * g0 + (m0 - k0) * g1) - g0 * g1 <= 0)%Z).
  { assert ((2 * k0) * g1 <= g0 * g1)%Z by (apply Z.mul_le_mono_nonneg_r; lia). assert ((2 * (m1 - k1)) * g0 <= g1 * g0)%Z by (apply Z.mul_le_mono_nonneg_r; lia).
    assert ((2 * k1) * g0 <= g1 * g0)%Z by (apply Z.mul_le_mono_nonneg_r; lia). assert ((2 * (m0 - k0)) * g1 <= g0 * g1)%Z by (apply Z.mul_le_mono_nonneg_r; lia). lia. }
  apply Qle_trans with (inject_Z 0); [rewrite <- Zle_Qle; exact X|]. change (inject_Z 0) with 0%Q. apply Qmult_le_0_compat; [exact Hl|].
  change 0%Q with (inject_Z 0). rewrite <- Zle_Qle. lia.
Qed.
Print Assumptions C63_small_refuted.

(** A tree that gives label 1 to one group only, on a third of the rows: the discrimination is
    1, the limit 1/20, the score is the accuracy 3/4.  On three copies of the data the constant
    tree, without any discrimination, scores 0. *)
Definition test_ex : list (list nat * nat) := [([0;0;1],0);([0;0;0],0);([1;1;0],1);([1;1;0],0)].
Example C63_ex : good_rows 3 2 test_ex /\ (forall g, 2 * length (members false g test_ex) <= length (members false g fair_ex))
  /\ (disc false test_ex (Split 1 (Leaf 0) (Leaf 1)) == 1)%Q
  /\ (fair_score false (1 # 20) 1 3 (mk_view 2 fair_ex) (mk_view 2 test_ex) (Split 1 (Leaf 0) (Leaf 1)) == 3 # 4)%Q
  /\ (disc false (fair_ex ++ fair_ex ++ fair_ex) (Leaf 0) == 0)%Q
  /\ (fair_score false (1 # 20) 1 3 (mk_view 2 fair_ex) (mk_view 2 (fair_ex ++ fair_ex ++ fair_ex)) (Leaf 0) == 0)%Q
  /\ (fair_score false (1 # 20) 1 3 (mk_view 2 fair_ex) (mk_view 2 fair_ex) (Leaf 0) == 1 # 2)%Q
  /\ (fair_score false (1 # 20) 1 3 (mk_view 2 fair_ex) (mk_view 2 fair_ex) (Split 1 (Leaf 0) (Leaf 1)) == 0)%Q.
Proof. split; [repeat constructor|]. split; [intros []; cbn; lia|]. repeat split; vm_compute; reflexivity. Qed.

(** * C64.  Data of a single group.  A returned solution has passed the test of the
    constraint; with an empty group the scores of some leaves are NaN, and what passes is the
    trees without the label 0, or without another label. *)
Fixpoint no_leaf (p : nat -> bool) (t : tree) : Prop :=
  match t with Leaf l => p l = false | Split _ l r => no_leaf p l /\ no_leaf p r end.

Lemma dn_g1 eo G0 (H0 : (0 < G0)%Z) t : forall v, (exists q, fst (dn_value eo G0 0 v t) = Some q) <-> no_leaf (Nat.eqb 0) t.
Proof.
  assert (N : (G0 =? 0)%Z = false) by (apply Z.eqb_neq; lia).
  induction t as [l|f l IHl r IHr]; intro v.
  - cbn [dn_value no_leaf]. unfold dn_leaf, d_div. rewrite N. cbn [Z.eqb]. destruct l; cbn; split; intro H; try discriminate; eauto. destruct H. discriminate.
  - cbn [dn_value no_leaf fst]. specialize (IHl (split_left f v)). specialize (IHr (split_right f v)). unfold d_add.
    destruct (fst (dn_value eo G0 0 (split_left f v) l)), (fst (dn_value eo G0 0 (split_right f v) r)); rewrite <- IHl, <- IHr; split; intro H;
      try (destruct H as [? H]; discriminate); try (destruct H as [[? A] [? B]]; discriminate); eauto.
Qed.
Lemma dn_g0 eo G1 (H1 : (0 < G1)%Z) t : forall v, (exists q, fst (dn_value eo 0 G1 v t) = Some q) <-> no_leaf (fun l => negb (Nat.eqb 0 l)) t.
Proof.
  assert (N : (G1 =? 0)%Z = false) by (apply Z.eqb_neq; lia).
  induction t as [l|f l IHl r IHr]; intro v.
  - cbn [dn_value no_leaf]. unfold dn_leaf, d_div. rewrite N. cbn [Z.eqb]. destruct l; cbn; split; intro H; try discriminate; eauto. destruct H. discriminate.
  - cbn [dn_value no_leaf fst]. specialize (IHl (split_left f v)). specialize (IHr (split_right f v)). unfold d_add.
    destruct (fst (dn_value eo 0 G1 (split_left f v) l)), (fst (dn_value eo 0 G1 (split_right f v) r)); rewrite <- IHl, <- IHr; split; intro H;
      try (destruct H as [? H]; discriminate); try (destruct H as [[? A] [? B]]; discriminate); eauto.
Qed.
Lemma dn_00 eo t : forall v, dn_value eo 0 0 v t = (None, None).
Proof.
  induction t as [l|f l IHl r IHr]; intro v; [cbn [dn_value]; unfold dn_leaf, d_div; cbn [Z.eqb]; destruct (l =? 0); reflexivity|].
  cbn [dn_value]. rewrite IHl, IHr. reflexivity.
Qed.
Lemma dn_ok_first lim s : dn_ok lim s = true -> exists q, fst s = Some q.
Proof. unfold dn_ok, d_max. destruct (fst s) as [q|]; [eauto|]. cbn. discriminate. Qed.

Section Single.
  Context (eo : bool) (lim : Q) (mls nf : nat) (rows : list (list nat * nat)).
  Hypothesis Hg : good_rows nf 2 rows.
  Hypothesis Hm : 1 <= mls.
  Hypothesis Hn : 0 < nf.
  Notation v := (mk_view 2 rows).
  Notation v' := (pview fair_pre mls nf v).

  Lemma counted_map (g : inst -> inst) u : counted eo (map (map g) u) = map g (counted eo u).
  Proof. unfold counted. destruct eo; [|apply concat_map_map]. change (@nil inst) with (map g []) at 1. apply map_nth. Qed.
  Lemma counted_in x : In x (counted eo v) -> In x (concat v).
  Proof. unfold counted. destruct eo; [|auto]. intro H. destruct (nth_in_or_default 1 v []) as [K|K]; [apply in_concat; eauto|rewrite K in H; destruct H]. Qed.
  Lemma size_members g : length (filter (fun x => Bool.eqb (has 0 x) g) (counted eo v')) = length (members eo g rows).
  Proof.
    unfold pview. rewrite counted_map, filter_map_comm, map_length.
    rewrite (filter_ext_in _ (fun x => Bool.eqb (has 0 x) g)).
    - pose proof (pos_neg eo g v (Leaf 0) (rows_labels 2 rows)) as A. pose proof (row_neg eo nf rows Hg (fun _ => True) (Leaf 0) g ltac:(cbn; lia)) as B.
      unfold grp in A. lia.
    - intros x Hx. apply counted_in in Hx. destruct (pg_spec fair_pre mls nf v (rows_loaded nf 2 rows Hg) x Hx) as (_ & _ & H). rewrite H by exact Hn.
      rewrite (pdead0 mls nf rows Hm), pfl0, xorb_false_l. reflexivity.
  Qed.
  Lemma size0 : group0_size eo v' = Z.of_nat (length (members eo false rows)).
  Proof. rewrite <- size_members. reflexivity. Qed.
  Lemma size1 : group1_size eo v' = Z.of_nat (length (members eo true rows)).
  Proof. rewrite <- size_members. unfold group1_size. do 2 f_equal. apply filter_ext. intro x. destruct (has 0 x); reflexivity. Qed.
  Lemma accepts_eq t : fair_accepts eo lim mls nf v t
    = dn_ok lim (dn_value eo (Z.of_nat (length (members eo false rows))) (Z.of_nat (length (members eo true rows))) v' t).
  Proof. unfold fair_accepts. rewrite preprocess_eq, size0, size1. reflexivity. Qed.
End Single.

Lemma no_leaf_predict p fl t : no_leaf p t -> forall bits, p (row_predict (unflip fl t) bits) = false.
Proof.
  induction t as [l|f l IHl r IHr]; [cbn; auto|]. intros [H1 H2] bits. cbn [unflip]. destruct (fl f); cbn [row_predict]; destruct (_ =? _); auto.
Qed.
Lemma unflip_any P nl fl t : fits P nl t -> fits P nl (unflip fl t).
Proof. induction t as [l|f l IHl r IHr]; [auto|]. cbn [fits unflip]. intros (H & H1 & H2). destruct (fl f); cbn [fits]; auto. Qed.
Lemma row_errors_const rows t l : (forall bits, row_predict t bits = l) -> row_errors rows t = length (filter (fun p => negb (snd p =? l)) rows).
Proof. intro H. unfold row_errors. f_equal. apply filter_ext. intro p. rewrite H, Nat.eqb_sym. reflexivity. Qed.

(** Without counted rows in group 1 only trees that always answer 1 pass, without counted rows
    in group 0 only those that always answer 0, however many errors they make. *)
Theorem C64_no_group1_refuted : forall eo lim mls nf rows t fl, good_rows nf 2 rows -> 1 <= mls -> 0 < nf ->
  members eo true rows = [] -> members eo false rows <> [] -> fits (fun f => f < nf) 2 t -> fair_accepts eo lim mls nf (mk_view 2 rows) t = true ->
  (forall bits, row_predict (unflip fl t) bits = 1) /\ row_errors rows (unflip fl t) = length (filter (fun p => negb (snd p =? 1)) rows).
Proof.
  intros eo lim mls nf rows t fl Hg Hm Hn E1 E0 Hf A. rewrite (accepts_eq eo lim mls nf rows Hg Hm Hn) in A. rewrite E1 in A. apply dn_ok_first in A. cbn [length Z.of_nat] in A.
  apply dn_g1 in A; [|destruct (members eo false rows); [congruence|cbn [length]; lia]].
  assert (P : forall bits, row_predict (unflip fl t) bits = 1).
  { intro bits. pose proof (no_leaf_predict _ fl t A bits) as N. pose proof (predict_lt (fun f => f < nf) (unflip fl t) bits (unflip_any _ _ _ _ Hf)).
    destruct (row_predict (unflip fl t) bits) as [|[|]]; [discriminate|reflexivity|lia]. }
  split; [exact P|]. apply row_errors_const. exact P.
Qed.
Print Assumptions C64_no_group1_refuted.

Theorem C64_no_group0_refuted : forall eo lim mls nf rows t fl, good_rows nf 2 rows -> 1 <= mls -> 0 < nf ->
  members eo false rows = [] -> members eo true rows <> [] -> fair_accepts eo lim mls nf (mk_view 2 rows) t = true ->
  (forall bits, row_predict (unflip fl t) bits = 0) /\ row_errors rows (unflip fl t) = length (filter (fun p => negb (snd p =? 0)) rows).
Proof.
  intros eo lim mls nf rows t fl Hg Hm Hn E1 E0 A. rewrite (accepts_eq eo lim mls nf rows Hg Hm Hn) in A. rewrite E1 in A. apply dn_ok_first in A. cbn [length Z.of_nat] in A.
  apply dn_g0 in A; [|destruct (members eo true rows); [congruence|cbn [length]; lia]].
  assert (P : forall bits, row_predict (unflip fl t) bits = 0).
  { intro bits. pose proof (no_leaf_predict _ fl t A bits) as N. destruct (row_predict (unflip fl t) bits); [reflexivity|discriminate]. }
  split; [exact P|]. apply row_errors_const. exact P.
Qed.
Print Assumptions C64_no_group0_refuted.

(** Without counted rows in either group nothing passes: no tree is returned. *)
Theorem C64_no_group_refuted : forall eo lim mls nf rows t, good_rows nf 2 rows -> 1 <= mls -> 0 < nf ->
  (forall g, members eo g rows = []) -> fair_accepts eo lim mls nf (mk_view 2 rows) t = false.
Proof. intros eo lim mls nf rows t Hg Hm Hn E. rewrite (accepts_eq eo lim mls nf rows Hg Hm Hn), !E. cbn [length Z.of_nat]. rewrite dn_00. reflexivity. Qed.
Print Assumptions C64_no_group_refuted.

(** With both groups the test of the constraint is the limit on the discrimination, and
    there the scores as doubles and as numerators agree. *)
Lemma dn_both eo n G0 G1 lim (H0 : (0 < G0)%Z) (H1 : (0 < G1)%Z) t : forall v,
  let s := tval (fair_task eo n G0 G1 lim) v t in
  exists x y, dn_value eo G0 G1 v t = (Some x, Some y) /\ (x * inject_Z (G0 * G1) == inject_Z (fs_g0 s))%Q /\ (y * inject_Z (G0 * G1) == inject_Z (fs_g1 s))%Q.
Proof.
  assert (N0 : (G0 =? 0)%Z = false) by (apply Z.eqb_neq; lia). assert (N1 : (G1 =? 0)%Z = false) by (apply Z.eqb_neq; lia).
  assert (Q0 : ~ (inject_Z G0 == 0)%Q) by (unfold Qeq; cbn; lia).
  assert (Q1 : ~ (inject_Z G1 == 0)%Q) by (unfold Qeq; cbn; lia).
  induction t as [l|f l IHl r IHr]; intro v; cbn zeta.
  - cbn [dn_value tval fair_task pt_leaf]. unfold dn_leaf, fs_leaf, d_div. rewrite N0, N1.
    destruct (l =? 0); do 2 eexists; (split; [reflexivity|]); cbn [fs_g0 fs_g1]; split; rewrite !inject_Z_mult; field; assumption.
  - destruct (IHl (split_left f v)) as (x & y & E & X & Y), (IHr (split_right f v)) as (x' & y' & E' & X' & Y').
    cbn [dn_value tval fair_task pt_add]. rewrite E, E'. cbn [fst snd d_add]. do 2 eexists. split; [reflexivity|].
    unfold fs_add. cbn [fs_g0 fs_g1]. rewrite !inject_Z_plus, <- X, <- X', <- Y, <- Y'. split; ring.
Qed.
Lemma dn_ok_both eo n G0 G1 lim (H0 : (0 < G0)%Z) (H1 : (0 < G1)%Z) t v : dn_ok lim (dn_value eo G0 G1 v t) = fs_ok G0 G1 lim (tval (fair_task eo n G0 G1 lim) v t).
Proof.
  destruct (dn_both eo n G0 G1 lim H0 H1 t v) as (x & y & E & X & Y). rewrite E. clear E. set (s := tval _ v t) in *. change (pt_S _) with fsol in s.
  assert (QD : (0 < inject_Z (G0 * G1))%Q) by (change 0%Q with (inject_Z 0); rewrite <- Zlt_Qlt; apply Z.mul_pos_pos; assumption).
  apply Bool.eq_true_iff_eq. unfold dn_ok, d_max, fs_ok. cbn [fst snd d_lt].
  assert (M : forall z k, (z * inject_Z (G0 * G1) == inject_Z k)%Q -> d_le (d_add (Some z) (Some (- (1))%Q)) (Some lim) = true <-> (inject_Z (k - G0 * G1) <= lim * inject_Z (G0 * G1))%Q).
  { intros z k Ez. cbn [d_add d_le]. rewrite Qle_bool_iff. unfold Z.sub. rewrite inject_Z_plus, inject_Z_opp, <- Ez.
    rewrite <- (Qmult_le_r _ _ _ QD). split; intro H; lra. }
  rewrite Qle_bool_iff.
  assert (O : forall a b p q, (a * inject_Z (G0 * G1) == inject_Z p)%Q -> (b * inject_Z (G0 * G1) == inject_Z q)%Q -> ((a <= b)%Q <-> (p <= q)%Z)).
  { intros a b p q Ea Eb. rewrite <- (Qmult_le_r _ _ _ QD), Ea, Eb, <- Zle_Qle. tauto. }
  destruct (Qle_bool y x) eqn:B; cbn [negb].
  - apply Qle_bool_iff in B. apply (O _ _ _ _ Y X) in B. rewrite Z.max_l by exact B. apply M. exact X.
  - assert (B' : ~ (y <= x)%Q) by (intro K; apply Qle_bool_iff in K; congruence). rewrite (O _ _ _ _ Y X) in B'. rewrite Z.max_r by lia. apply M. exact Y.
Qed.
Theorem C64_both_groups : forall eo n lim mls nf rows t, fair_rows eo mls nf rows -> 1 <= mls ->
  let m g := Z.of_nat (length (members eo g rows)) in
  fair_accepts eo lim mls nf (mk_view 2 rows) t
  = fs_ok (m false) (m true) lim (tval (fair_task eo n (m false) (m true) lim) (pview fair_pre mls nf (mk_view 2 rows)) t).
Proof.
  intros eo n lim mls nf rows t HR Hm m. pose proof (fa_good _ _ _ _ HR) as Hg.
  rewrite (accepts_eq eo lim mls nf rows Hg Hm (nf_pos eo mls nf rows HR Hm)).
  apply dn_ok_both; apply (members_pos eo mls nf rows HR Hm).
Qed.
Print Assumptions C64_both_groups.

(** Five rows of one group that one test separates: the tree that separates them is refused,
    the constant tree with three errors is accepted. *)
Definition single_ex : list (list nat * nat) := [([0;0],0);([0;0],0);([0;0],0);([0;1],1);([0;1],1)].
Example C64_ex : good_rows 2 2 single_ex /\ members false true single_ex = [] /\ members false false single_ex <> []
  /\ fair_accepts false 1 1 2 (mk_view 2 single_ex) (Leaf 1) = true /\ row_errors single_ex (Leaf 1) = 3
  /\ fair_accepts false 1 1 2 (mk_view 2 single_ex) (Split 1 (Leaf 0) (Leaf 1)) = false /\ row_errors single_ex (Split 1 (Leaf 0) (Leaf 1)) = 0.
Proof. split; [repeat constructor|]. split; [reflexivity|]. split; [discriminate|]. vm_compute. auto. Qed.
