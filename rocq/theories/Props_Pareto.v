(** C20: the tree returned for the F1-score task has the best F1-score.  Modelled
    configuration: bounds, caches and the depth-two solver off. *)
From Coq Require Import List Arith Bool ZArith QArith Qround Lia Lqa Permutation.
From Verif Require Import Model_FeatureVector Model_Data Model_Node Model_Terminal Model_Heap Model_Solver Model_Preproc Model_Container Model_Pareto.
From Verif Require Import Spec_Tree Spec_Examples Spec_Rows Spec_F1 Proofs_View Proofs_Preproc Proofs_Rows Proofs_Heap Proofs_Container Props_Container Proofs_Pareto Proofs_F1.
Import ListNotations.
Local Open Scope nat_scope.

(** Better counts mean at least as good a score, and sums keep the order. *)
Theorem C20_dominance : forall pos a b, (0 < pos)%Z ->
  (0 <= f1_fn a <= pos)%Z -> (0 <= f1_fp a)%Z -> (0 <= f1_fn b <= pos)%Z -> (0 <= f1_fp b)%Z ->
  f1_dom a b = true -> (f1_score pos b <= f1_score pos a)%Q.
Proof.
  intros pos a b Hp A1 A2 B1 B2 D. apply f1_dom_le in D. rewrite !score_fr by assumption. unfold fr. apply frac_le; try lia. nia.
Qed.
Print Assumptions C20_dominance.
Theorem C20_sums : forall a a' b b', f1_dom a a' = true -> f1_dom b b' = true -> f1_dom (f1_add a b) (f1_add a' b') = true.
Proof. intros a a' b b'. rewrite !f1_dom_le. cbn. lia. Qed.
Print Assumptions C20_sums.

(** What is asked of the rows: labels 0 and 1, at least one 1, enough rows for one leaf. *)
Record f1_rows (mls nf : nat) (rows : list (list nat * nat)) : Prop := F1Rows {
  fr_good : good_rows nf 2 rows;
  fr_positive : exists r, In r rows /\ snd r = 1;
  fr_size : mls <= length rows }.

Definition with_cost (c : inst -> nat -> nat -> Z) : task :=
  {| tk_worst := tk_worst acc; tk_leaf := tk_leaf acc; tk_inst := c; tk_zero_true := true; tk_mindiff := 1; tk_wpl := tk_wpl acc;
     tk_may := tk_may acc; tk_sdom := Z.ltb; tk_dom := Z.leb; tk_eq := Z.eqb; tk_bc := None; tk_sparse := false; tk_lb := None;
     tk_huge := fun _ => false; tk_sim := None |}.

Lemma count_nonneg rows t k l : (0 <= row_count rows t k l)%Z.
Proof. unfold row_count. lia. Qed.

Section Fit.
  Context (rnd : Q -> Q) (mls nf : nat) (gini : bool) (rows : list (list nat * nat)).
  Hypothesis HR : f1_rows mls nf rows.
  Hypothesis Hm : 1 <= mls.
  Notation v := (mk_view 2 rows).
  Notation v' := (pview acc mls nf v).
  Notation Hg := (fr_good _ _ _ HR).
  Let Hld := rows_loaded nf 2 rows Hg.
  Notation pos := (Z.of_nat (length (nth 1 v' []))).
  Notation G := (PCfg mls (pdead acc mls nf v) (if gini then order_gini nf else order_in nf)).
  Notation T := (f1_task rnd pos).

  Lemma v'_labels : num_labels v' = 2.
  Proof. rewrite pview_labels. apply (rows_labels 2 rows). Qed.

  Lemma row_sum (c : inst -> nat -> nat -> Z) (q : nat -> nat -> bool) t :
    (forall x k l, c x k l = if q k l then 1%Z else 0%Z) ->
    tree_cost c v t = Z.of_nat (length (filter (fun p => q (snd p) (row_predict t (fst p))) rows)).
  Proof.
    intro Hc. rewrite (rows_cost nf 2 rows Hg). rewrite <- (numbered_snd rows) at 2. generalize (numbered rows) as L.
    induction L as [|p L IH]; [reflexivity|]. cbn [map filter fold_right]. rewrite IH, Hc, row_predict_inst. unfold row_label.
    destruct (q _ _); cbn [length]; lia.
  Qed.

  Lemma cost_same c t t' : (forall x y k l, iid x = iid y -> c x k l = c y k l) ->
    (forall x, In x (concat v) -> predict t x = predict t' (pg acc mls nf v x)) -> tree_cost c v' t' = tree_cost c v t.
  Proof. intros Hc H. exact (cost_pg (with_cost c) mls nf v Hld Hc t t' H). Qed.

  (** The counts of a tree on the preprocessed data are those on the rows. *)
  Lemma counts t t' P : fits P 2 t' ->
    (forall x, In x (concat v) -> predict t x = predict t' (pg acc mls nf v x)) ->
    f1_fn (tval T v' t') = row_count rows t 1 0 /\ f1_fp (tval T v' t') = row_count rows t 0 1
    /\ (pos - row_count rows t 1 0 = row_count rows t 1 1)%Z.
  Proof.
    intros Hf H. destruct (f1_tval rnd pos t' v' v'_labels P Hf) as [E1 E2].
    pose proof (fn_tp v' P t' v'_labels Hf) as E3.
    rewrite (cost_same c_fn t t') in E1, E3 by (auto || exact H).
    rewrite (cost_same c_fp t t') in E2 by (auto || exact H).
    rewrite (cost_same c_tp t t') in E3 by (auto || exact H).
    rewrite (row_sum c_fn (fun k l => (k =? 1) && (l =? 0)) t) in E1, E3 by reflexivity.
    rewrite (row_sum c_tp (fun k l => (k =? 1) && (l =? 1)) t) in E3 by reflexivity.
    rewrite (row_sum c_fp (fun k l => (k =? 0) && (l =? 1)) t) in E2 by reflexivity.
    unfold row_count. cbn [f1_task] in *. rewrite E1, E2. split; [reflexivity|]. split; [reflexivity|]. lia.
  Qed.

  Lemma pos_pos : (0 < pos)%Z.
  Proof.
    destruct (fr_positive _ _ _ HR) as (r & Hr & Er).
    pose proof (counts (Leaf 1) (Leaf 1) (fun _ => True)) as H. destruct H as (_ & _ & H); [cbn; lia|reflexivity|].
    assert (E : (0 < row_count rows (Leaf 1) 1 1)%Z).
    { unfold row_count. destruct (filter _ rows) as [|a l] eqn:F; [|cbn [length]; lia]. exfalso.
      assert (In r []); [|contradiction]. rewrite <- F. apply filter_In. split; [exact Hr|]. rewrite Er. reflexivity. }
    pose proof (count_nonneg rows (Leaf 1) 1 0). lia.
  Qed.

  Lemma okf_iff t : fits (okf T G nf) 2 t -> fits (fun f => f < nf /\ tk_may acc f = true) 2 t.
  Proof.
    induction t as [l|f l IHl r IHr]; [auto|]. cbn [fits]. intros ((H1 & _) & H2 & H3). auto.
  Qed.
  Lemma to_okf t : forall xs, (forall x, In x xs -> In x (concat v')) ->
    fits (fun f => f < nf /\ tk_may acc f = true) 2 t -> leaves_ok mls xs t -> fits (okf T G nf) 2 t.
  Proof.
    induction t as [l|f l IHl r IHr]; intros xs Hxs; [auto|]. cbn [fits leaves_ok]. intros ((H1 & _) & H2 & H3) [L1 L2].
    split.
    2: { split; [apply (IHl (filter (fun x => negb (has f x)) xs))|apply (IHr (filter (fun x => has f x) xs))]; try assumption;
         intros x Hx; apply filter_In in Hx; apply Hxs; apply Hx. }
    split; [exact H1|]. split; [reflexivity|]. cbn [pc_redundant]. destruct (pdead acc mls nf v f) eqn:E; [exfalso|reflexivity].
    apply leaves_ok_size in L2. rewrite filter_all_false in L2; [cbn in L2; lia|].
    intros x Hx. exact (pview_red acc mls nf v Hm Hld f x E (Hxs x Hx)).
  Qed.

  Lemma tree_down dp nds t : row_allowed nf 2 mls dp nds rows t ->
    exists t', good_tree rnd G nf v' dp nds t' /\ (forall x, In x (concat v) -> predict t x = predict t' (pg acc mls nf v x)).
  Proof.
    intro H. apply (rows_allowed nf 2 rows Hg) in H. destruct H as (H1 & H2 & H3 & H4).
    change (length v) with (num_labels v) in H1. rewrite (rows_labels 2 rows) in H1.
    destruct (norm_tree acc mls nf v Hm (fun _ _ => eq_refl) Hld 2 t (fun _ => true)) as (t' & A1 & A2 & A3 & A4 & A5); rewrite ?filter_true in *; try assumption.
    exists t'. split; [|exact A5]. unfold good_tree, allowed. change (length v') with (num_labels v'). rewrite v'_labels.
    unfold pview at 1 2. rewrite concat_map_map. split; [|split; [exact A2|lia]].
    apply (to_okf t' (map (pg acc mls nf v) (concat v))); [|exact A1|exact A2].
    intros x Hx. unfold pview. rewrite concat_map_map. exact Hx.
  Qed.

  Lemma tree_up dp nds t : good_tree rnd G nf v' dp nds t ->
    row_allowed nf 2 mls dp nds rows (unflip (pfl acc mls nf v) t)
    /\ (forall x, In x (concat v) -> predict (unflip (pfl acc mls nf v) t) x = predict t (pg acc mls nf v x)).
  Proof.
    intros (H1 & H2 & H3 & H4). change (length v') with (num_labels v') in H1. rewrite v'_labels in H1. apply okf_iff in H1.
    unfold pview in H2. rewrite concat_map_map in H2. cbn [pc_mls] in H2.
    destruct (unflip_tree acc mls nf v Hm Hld 2 t (fun _ => true)) as (A1 & A2 & A3 & A4 & A5); rewrite ?filter_true in *; try assumption.
    split; [|exact A5]. apply (rows_allowed nf 2 rows Hg). unfold allowed. change (length v) with (num_labels v). rewrite (rows_labels 2 rows).
    split; [exact A1|]. split; [exact A2|]. lia.
  Qed.

  Lemma good_fits dp nds t : good_tree rnd G nf v' dp nds t -> fits (okf T G nf) 2 t.
  Proof. intros (H & _). change (length v') with (num_labels v') in H. rewrite v'_labels in H. exact H. Qed.

  Lemma score_rows dp nds t t' : good_tree rnd G nf v' dp nds t' ->
    (forall x, In x (concat v) -> predict t x = predict t' (pg acc mls nf v x)) ->
    (f1_score pos (tval T v' t') == row_f1 rows t)%Q.
  Proof.
    intros H E. destruct (counts t t' _ (good_fits _ _ _ H) E) as (E1 & E2 & E3).
    pose proof (count_nonneg rows t 1 0). pose proof (count_nonneg rows t 0 1). pose proof (count_nonneg rows t 1 1).
    rewrite score_fr; [|exact pos_pos|rewrite E1; lia|rewrite E2; lia]. unfold fr, row_f1. rewrite E1, E2, E3. reflexivity.
  Qed.

  Lemma v'_size : mls <= vsize v'.
  Proof. rewrite pview_size, (rows_size nf 2 rows Hg). apply (fr_size _ _ _ HR). Qed.
  Lemma G_order u f : In f (pc_order G u) <-> f < nf.
  Proof.
    cbn [pc_order]. destruct gini.
    - rewrite (Permutation_in' eq_refl (order_gini_perm nf u)). rewrite in_seq. lia.
    - unfold order_in. rewrite in_seq. lia.
  Qed.

  Lemma f1_fit_eq dp nds all : f1_fit rnd mls nf dp nds all gini v
    = map (fun p => (fst p, option_map (unflip (pfl acc mls nf v)) (snd p))) (p_trees T G v' dp nds all).
  Proof. unfold f1_fit. rewrite preprocess_eq. reflexivity. Qed.

  Lemma fit_best dp nds all : (forall a b, (a <= b)%Q -> (rnd a <= rnd b)%Q) -> nds <= 2 ^ dp - 1 ->
    exists x o, f1_fit rnd mls nf dp nds all gini v = [(x, o)]
      /\ (exists t0, row_allowed nf 2 mls dp nds rows t0
            /\ cs_val x = F1 (row_count rows t0 1 0) (row_count rows t0 0 1)
            /\ forall t, row_allowed nf 2 mls dp nds rows t -> (rnd (row_f1 rows t) <= rnd (row_f1 rows t0))%Q)
      /\ ((forall t t', row_allowed nf 2 mls dp nds rows t -> row_allowed nf 2 mls dp nds rows t' ->
             (rnd (row_f1 rows t) <= rnd (row_f1 rows t'))%Q -> (row_f1 rows t <= row_f1 rows t')%Q) ->
          exists t, o = Some t /\ row_allowed nf 2 mls dp nds rows t
            /\ cs_val x = F1 (row_count rows t 1 0) (row_count rows t 0 1)
            /\ forall t', row_allowed nf 2 mls dp nds rows t' -> (row_f1 rows t' <= row_f1 rows t)%Q).
  Proof.
    intros Hr Hn.
    destruct (f1_view rnd G nf v' v'_labels pos_pos G_order Hm v'_size Hr dp nds all Hn) as (x & o & E & (t0 & A0 & V0) & B & X).
    exists x, (option_map (unflip (pfl acc mls nf v)) o). rewrite f1_fit_eq, E. split; [reflexivity|].
    assert (Rp : forall a b, (a == b)%Q -> (rnd a == rnd b)%Q).
    { intros a b Eq. apply Qle_antisym; apply Hr; rewrite Eq; apply Qle_refl. }
    assert (SB : forall t0, good_tree rnd G nf v' dp nds t0 -> tval T v' t0 = cs_val x ->
      forall t, row_allowed nf 2 mls dp nds rows t -> (rnd (row_f1 rows t) <= rnd (row_f1 rows (unflip (pfl acc mls nf v) t0)))%Q).
    { intros t1 A1 V1 t Ht. destruct (tree_down dp nds t Ht) as (t' & At & Pt). specialize (B t' At).
      destruct (tree_up dp nds t1 A1) as (_ & P1). unfold sc in B. rewrite <- V1 in B.
      rewrite (Rp _ _ (score_rows dp nds t t' At Pt)), (Rp _ _ (score_rows dp nds _ t1 A1 P1)) in B. exact B. }
    assert (VV : forall t0, good_tree rnd G nf v' dp nds t0 -> tval T v' t0 = cs_val x ->
      cs_val x = F1 (row_count rows (unflip (pfl acc mls nf v) t0) 1 0) (row_count rows (unflip (pfl acc mls nf v) t0) 0 1)).
    { intros t1 A1 V1. destruct (tree_up dp nds t1 A1) as (_ & P1). destruct (counts _ t1 _ (good_fits _ _ _ A1) P1) as (E1 & E2 & _).
      rewrite <- V1, <- E1, <- E2. destruct (tval T v' t1). reflexivity. }
    split.
    - exists (unflip (pfl acc mls nf v) t0). split; [apply tree_up; exact A0|]. split; [apply VV; assumption|]. apply SB; assumption.
    - intro Hinj. destruct X as (t & -> & At & Vt).
      + intros t t' Ht Ht' L. destruct (tree_up dp nds t Ht) as (U & P). destruct (tree_up dp nds t' Ht') as (U' & P').
        unfold sc in *. rewrite (Rp _ _ (score_rows dp nds _ t Ht P)), (Rp _ _ (score_rows dp nds _ t' Ht' P')) in L.
        rewrite (score_rows dp nds _ t Ht P), (score_rows dp nds _ t' Ht' P'). apply Hinj; assumption.
      + destruct (tree_up dp nds t At) as (U & P). exists (unflip (pfl acc mls nf v) t). split; [reflexivity|]. split; [exact U|].
        split; [apply VV; assumption|]. intros t' Ht'. apply Hinj; [exact Ht'|exact U|]. apply SB; assumption.
  Qed.
End Fit.

(** With any monotone rounding, exactly one solution is returned; its counts are those of an
    allowed tree whose rounded score no allowed tree exceeds.  For all rows, limits, orders of
    the features and both loops over the sizes. *)
Theorem C20_best_value : forall rnd mls nf gini rows dp nds all, f1_rows mls nf rows -> 1 <= mls ->
  (forall a b, (a <= b)%Q -> (rnd a <= rnd b)%Q) -> nds <= 2 ^ dp - 1 ->
  exists x o t0, f1_fit rnd mls nf dp nds all gini (mk_view 2 rows) = [(x, o)]
    /\ row_allowed nf 2 mls dp nds rows t0
    /\ cs_val x = F1 (row_count rows t0 1 0) (row_count rows t0 0 1)
    /\ forall t, row_allowed nf 2 mls dp nds rows t -> (rnd (row_f1 rows t) <= rnd (row_f1 rows t0))%Q.
Proof.
  intros rnd mls nf gini rows dp nds all HR Hm Hr Hn. destruct (fit_best rnd mls nf gini rows HR Hm dp nds all Hr Hn) as (x & o & E & (t0 & H) & _).
  exists x, o, t0. split; [exact E|exact H].
Qed.
Print Assumptions C20_best_value.

Lemma count_le rows t k l : (row_count rows t k l <= Z.of_nat (length rows))%Z.
Proof. unfold row_count. pose proof (Proofs_Container.filter_le (fun p : list nat * nat => (snd p =? k) && (row_predict t (fst p) =? l)) rows). lia. Qed.

Lemma count3 rows t : (row_count rows t 1 1 + row_count rows t 0 1 + row_count rows t 1 0 <= Z.of_nat (length rows))%Z.
Proof.
  unfold row_count. induction rows as [|[b y] rows IH]; [cbn; lia|]. cbn [filter fst snd length].
  destruct y as [|[|y]]; destruct (row_predict t b) as [|[|p]]; cbn [Nat.eqb andb length]; lia.
Qed.

(** Rounding does not change which of two trees has the better score. *)
Lemma f1_inj rnd mls nf rows dp nds : f1_rows mls nf rows -> double_rounding rnd -> (Z.of_nat (length rows) < 2 ^ 25)%Z ->
  forall t t', row_allowed nf 2 mls dp nds rows t -> row_allowed nf 2 mls dp nds rows t' ->
    (rnd (row_f1 rows t) <= rnd (row_f1 rows t'))%Q -> (row_f1 rows t <= row_f1 rows t')%Q.
Proof.
  intros HR [Hr Hd] HN.
  assert (B : forall t, row_allowed nf 2 mls dp nds rows t ->
    (0 < 2 * row_count rows t 1 1 + row_count rows t 0 1 + row_count rows t 1 0 <= 2 * Z.of_nat (length rows))%Z).
  { intros t Ht. pose proof (count3 rows t) as C3. unfold row_count in *. split; [|lia].
    destruct (fr_positive _ _ _ HR) as (r & Hr' & Er).
    assert (Hp : row_predict t (fst r) < 2).
    { destruct Ht as (Hf & _). clear -Hf. induction t as [l|f l IHl rr IHr]; [exact Hf|]. cbn. destruct Hf as (_ & H1 & H2). destruct (_ =? _); auto. }
    destruct (filter (fun p => (snd p =? 1) && (row_predict t (fst p) =? 1)) rows) as [|a l] eqn:F1; [|cbn [length]; lia].
    destruct (filter (fun p => (snd p =? 1) && (row_predict t (fst p) =? 0)) rows) as [|a l] eqn:F0; [|cbn [length]; lia].
    exfalso. assert (K : row_predict t (fst r) = 0 \/ row_predict t (fst r) = 1) by lia. assert (In r []); [|contradiction]. destruct K as [K|K].
    - rewrite <- F0. apply filter_In. split; [exact Hr'|]. rewrite Er, K. reflexivity.
    - rewrite <- F1. apply filter_In. split; [exact Hr'|]. rewrite Er, K. reflexivity. }
  assert (U : forall t, row_allowed nf 2 mls dp nds rows t -> (0 <= row_f1 rows t <= 1)%Q).
  { intros t Ht. pose proof (B t Ht). unfold row_f1. set (a := (2 * row_count rows t 1 1)%Z) in *. set (d := (a + row_count rows t 0 1 + row_count rows t 1 0)%Z) in *.
    pose proof (count_nonneg rows t 1 1). pose proof (count_nonneg rows t 0 1). pose proof (count_nonneg rows t 1 0).
    split.
    - apply Qle_shift_div_l; [rewrite <- (Zlt_Qlt 0); lia|]. rewrite Qmult_0_l, <- (Zle_Qle 0). unfold a. lia.
    - apply Qle_shift_div_r; [rewrite <- (Zlt_Qlt 0); lia|]. rewrite Qmult_1_l, <- Zle_Qle. unfold d. lia. }
  intros t t' Ht Ht' L. destruct (Hd _ (proj1 (U t Ht)) (proj2 (U t Ht))) as [D1 _]. destruct (Hd _ (proj1 (U t' Ht')) (proj2 (U t' Ht'))) as [_ D2].
  pose proof (B t Ht) as Bt. pose proof (B t' Ht') as Bt'. unfold row_f1 in *. apply frac_le; [lia|lia|].
  apply (frac_gap _ _ _ _ (2 * Z.of_nat (length rows))); [exact Bt|exact Bt'| |].
  - change (2 ^ 52)%Z with (2 ^ 26 * 2 ^ 26)%Z. change (2 ^ 26)%Z with (2 * 2 ^ 25)%Z. nia.
  - set (s := (inject_Z (2 * row_count rows t 1 1) / _)%Q) in *. set (s' := (inject_Z (2 * row_count rows t' 1 1) / _)%Q) in *.
    assert (E2 : ((2 # 2 ^ 53) == (1 # 2 ^ 53) + (1 # 2 ^ 53))%Q) by reflexivity. rewrite E2. lra.
Qed.

(** With double-precision rounding and fewer than 2^25 rows, one tree is returned, it is
    within the limits, the reported counts are its own and no allowed tree has a better
    F1-score. *)
Theorem C20_best_f1_tree : forall rnd mls nf gini rows dp nds all, f1_rows mls nf rows -> 1 <= mls ->
  double_rounding rnd -> (Z.of_nat (length rows) < 2 ^ 25)%Z -> nds <= 2 ^ dp - 1 ->
  exists x t, f1_fit rnd mls nf dp nds all gini (mk_view 2 rows) = [(x, Some t)]
    /\ row_allowed nf 2 mls dp nds rows t
    /\ cs_val x = F1 (row_count rows t 1 0) (row_count rows t 0 1)
    /\ forall t', row_allowed nf 2 mls dp nds rows t' -> (row_f1 rows t' <= row_f1 rows t)%Q.
Proof.
  intros rnd mls nf gini rows dp nds all HR Hm Hd HN Hn. destruct (fit_best rnd mls nf gini rows HR Hm dp nds all (proj1 Hd) Hn) as (x & o & E & _ & H).
  destruct H as (t & -> & H).
  - exact (f1_inj rnd mls nf rows dp nds HR Hd HN).
  - exists x, t. split; [exact E|exact H].
Qed.
Print Assumptions C20_best_f1_tree.

(** Rounding down to a multiple of 2^-53 meets the hypothesis, and so does not rounding. *)
Definition rnd53 (q : Q) : Q := inject_Z (Qround.Qfloor (q * inject_Z (2 ^ 53))) / inject_Z (2 ^ 53).
Example rnd53_ok : double_rounding rnd53 /\ double_rounding (fun q => q).
Proof.
  split; split.
  - intros a b H. unfold rnd53. apply Qmult_le_compat_r; [|discriminate]. rewrite <- Zle_Qle. apply Qround.Qfloor_resp_le.
    apply Qmult_le_compat_r; [exact H|discriminate].
  - intros q _ _. unfold rnd53. set (M := inject_Z (2 ^ 53)). assert (HM : (0 < M)%Q) by reflexivity.
    pose proof (Qround.Qfloor_le (q * M)) as H1. pose proof (Qround.Qlt_floor (q * M)) as H2.
    set (z := Qround.Qfloor (q * M)) in *. rewrite inject_Z_plus in H2. assert (E : ((1 # 2 ^ 53) == 1 / M)%Q) by reflexivity. rewrite E. split.
    + apply Qle_shift_div_l; [exact HM|]. assert (F : ((q - 1 / M) * M == q * M - 1)%Q) by (field; lra). rewrite F. change (inject_Z 1) with 1%Q in H2. lra.
    + apply Qle_shift_div_r; [exact HM|]. assert (F : ((q + 1 / M) * M == q * M + 1)%Q) by (field; lra). rewrite F. lra.
  - auto.
  - intros q _ _. assert (0 <= 1 # 2 ^ 53)%Q by discriminate. lra.
Qed.

(** A case: six rows, two features; the tree of depth two classifies all rows but one. *)
Definition f1_ex_rows : list (list nat * nat) := [([0;0],0); ([0;1],1); ([1;0],1); ([1;1],0); ([1;1],0); ([1;0],0)].
Example C20_ex : f1_rows 1 2 f1_ex_rows /\ (Z.of_nat (length f1_ex_rows) < 2 ^ 25)%Z /\ 3 <= 2 ^ 2 - 1.
Proof.
  split; [|split; [reflexivity|cbn; lia]]. constructor.
  - repeat constructor.
  - exists ([0;1],1). split; [right; left; reflexivity|reflexivity].
  - cbn. lia.
Qed.
Example C20_ex_result : exists x t, f1_fit rnd53 1 2 2 3 false false (mk_view 2 f1_ex_rows) = [(x, Some t)]
  /\ t = Split 0 (Split 1 (Leaf 0) (Leaf 1)) (Split 1 (Leaf 1) (Leaf 0)) /\ (row_f1 f1_ex_rows t == 4 # 5)%Q.
Proof. eexists. eexists. split; [vm_compute; reflexivity|]. split; reflexivity. Qed.
