(** Fits of any task with non-negative costs per instance, on the user's rows. *)
From Coq Require Import List Arith Bool Lia ZArith Permutation.
From Verif Require Import Model_FeatureVector Model_Data Model_Node Model_Cache Model_Terminal Model_Heap Model_Solver Model_Preproc Model_Predict
  Model_CostComplex Model_CostSensitive Model_Tasks
  Spec_Tree Spec_Examples Spec_Rows Proofs_View Proofs_Base Proofs_Rows Proofs_Score Proofs_Fit Proofs_Small Proofs_Preproc Proofs_Predict Props_Solver.
Import ListNotations.
Local Open Scope nat_scope.

Section Rows.
  Context (T : task) (HT : good_task T) (W : switches) (P : params) (nf nl : nat) (clk : nat -> bool) (rows : list (list nat * nat)).
  Hypothesis Hmay : forall f, f < nf -> tk_may T f = true.
  Hypothesis Hg : good_rows nf nl rows.
  Hypothesis Hnl : 1 <= nl.
  Hypothesis Hmls : 1 <= w_mls W.
  Hypothesis Hnodes : p_all P = true \/ p_nodes P = 1 -> p_nodes P <= 2 ^ p_depth P - 1.
  Hypothesis Hc : forall x y k l, iid x = iid y -> tk_inst T x k l = tk_inst T y k l.
  Hypothesis Hw : forall k x y, iid x = iid y -> wc T k x = wc T k y.
  Notation v := (mk_view nl rows).
  Hypothesis Hworst : within T v.
  Notation R := (fit T W P nf clk v).
  Notation cost t := (tree_cost (tk_inst T) v t).

  Lemma task_small t : (cost t < tk_worst T)%Z.
  Proof.
    eapply Z.le_lt_trans; [|apply (wi_worst _ _ Hworst)]. rewrite tree_cost_vsum. apply vsum_from_le_at.
    intros j x Hx. apply (wi_inst _ _ Hworst). exact Hx.
  Qed.
  Lemma task_facts strong : w_mls W <= length rows -> (strong = true -> fr_proven R = true) -> (strong = true -> exact W P) ->
    fit_post T W P nf clk v strong (rebuilds W P).
  Proof.
    intros Hsz Hp Hex. apply (fit_spec T HT W P nf clk v strong Hmls Hmay (rows_loaded nf nl rows Hg) Hc Hw).
    - rewrite rows_labels. exact Hnl.
    - exact Hworst.
    - rewrite (rows_size nf nl rows Hg). exact Hsz.
    - exact Hnodes.
    - exact Hp.
    - exact Hex.
  Qed.
  Lemma task_large t : fr_tree R = Some t -> w_mls W <= length rows.
  Proof.
    intro H. destruct (le_lt_dec (w_mls W) (length rows)) as [L|L]; [exact L|].
    rewrite small_fit in H; [discriminate|apply (gt_true T HT)|]. rewrite (rows_size nf nl rows Hg). exact L.
  Qed.

  (** The best tree is returned. *)
  Lemma task_optimal : exact W P -> rebuilds W P -> fr_proven R = true ->
    (exists t0, row_allowed nf nl (w_mls W) (p_depth P) (p_nodes P) rows t0 /\ (cost t0 <= p_ub P)%Z) ->
    exists t, fr_tree R = Some t /\ forall t', row_allowed nf nl (w_mls W) (p_depth P) (p_nodes P) rows t' -> (cost t <= cost t')%Z.
  Proof.
    intros Hex Hreb Hp (t0 & Ht0 & Hub).
    pose proof (row_allowed_size _ _ _ _ _ _ _ Ht0) as Hsz. pose proof (task_small t0) as Hsm.
    destruct (task_facts true Hsz (fun _ => Hp) (fun _ => Hex)) as [[_ H]|(t & H1 & H2 & H3 & H4 & H5 & H6 & H7)].
    - specialize (H eq_refl t0 (proj1 (rows_allowed nf nl rows Hg _ _ _ _) Ht0)). unfold bound in H. lia.
    - exists t. split; [exact H1|]. intros t' Ht'. specialize (H7 eq_refl Hreb).
      assert (Q : forall t', row_allowed nf nl (w_mls W) (p_depth P) (p_nodes P) rows t' -> (bound T P < cost t')%Z \/ (cost t <= cost t')%Z).
      { intros t1 Ht1. destruct (H6 eq_refl t1 (proj1 (rows_allowed nf nl rows Hg _ _ _ _) Ht1)) as [Q|Q]; [left; exact Q|right; lia]. }
      assert (B0 : (cost t0 <= bound T P)%Z) by (unfold bound; lia).
      destruct (Q t0 Ht0) as [Q0|Q0]; [lia|]. destruct (Q t' Ht') as [Q1|Q1]; lia.
  Qed.
  (** No tree is returned only if none is good enough. *)
  Lemma task_none : exact W P -> fr_proven R = true -> fr_tree R = None ->
    forall t, row_allowed nf nl (w_mls W) (p_depth P) (p_nodes P) rows t -> (p_ub P < cost t)%Z.
  Proof.
    intros Hex Hp Hn t Ht. pose proof (row_allowed_size _ _ _ _ _ _ _ Ht) as Hsz. pose proof (task_small t) as Hsm.
    destruct (task_facts true Hsz (fun _ => Hp) (fun _ => Hex)) as [[_ H]|(t1 & H1 & _)]; [|congruence].
    specialize (H eq_refl t (proj1 (rows_allowed nf nl rows Hg _ _ _ _) Ht)). unfold bound in H. lia.
  Qed.
  (** The score and the limits, for every setting. *)
  Lemma task_score t : fr_tree R = Some t -> option_map fst (fr_train R) = Some (cost t)
    /\ row_allowed nf nl (w_mls W) (p_depth P) (2 ^ p_depth P - 1) rows t.
  Proof.
    intro Ht. destruct (task_facts false (task_large t Ht) ltac:(discriminate) ltac:(discriminate)) as [[H _]|(t1 & H1 & H2 & H3 & H4 & _)]; [congruence|].
    assert (t1 = t) by congruence. subst t1. rewrite H4. split; [reflexivity|]. apply (proj2 (rows_allowed nf nl rows Hg _ _ _ _)) in H2.
    destruct H2 as (A1 & A2 & A3 & A4). assert (Hpow : 2 ^ Nat.min (p_depth P) (p_nodes P) <= 2 ^ p_depth P) by (apply Nat.pow_le_mono_r; lia).
    split; [exact A1|]. split; [exact A2|]. split; lia.
  Qed.
End Rows.

(** ** The comparisons with a tolerance *)
Lemma t_sdom_lt a b : t_sdom a b = true -> (a < Z.max 0 b)%Z.
Proof. unfold t_sdom. intro H. apply Z.ltb_lt in H. lia. Qed.
Lemma t_eq_refl a : (0 <= a)%Z -> t_eq a a = true.
Proof. intro H. unfold t_eq. apply Z.leb_le. lia. Qed.
Lemma t_dom_refl a : (0 <= a)%Z -> t_dom a a = true.
Proof. intro H. unfold t_dom. rewrite t_eq_refl by exact H. apply orb_true_r. Qed.
Lemma t_eq_0 b : t_eq 0 b = (0 =? b)%Z.
Proof. unfold t_eq. destruct (Z.eqb_spec 0 b) as [<-|H]; [reflexivity|]. apply Z.leb_gt. lia. Qed.
(** Whole numbers below 10000 are told apart. *)
Lemma t_tells T z : tk_sdom T = t_sdom -> tk_eq T = t_eq -> (z < 10000)%Z -> tells T z.
Proof.
  intros E1 E2 H. split; rewrite ?E1, ?E2; intros a b Ha; [intro Hb; unfold t_sdom; apply Z.ltb_lt; lia|].
  unfold t_eq. intro Hb. apply Z.leb_le in Hb. lia.
Qed.

(** ** Sums over views *)
Lemma vsum_const_from (w : inst -> Z) v : forall k, vsum_from (fun _ x => w x) k v = zsum (map w (concat v)).
Proof. induction v as [|xs v IH]; intro k; [reflexivity|]. cbn [vsum_from concat]. rewrite IH, map_app, zsum_app. reflexivity. Qed.
Lemma zsum_perm xs ys : Permutation xs ys -> zsum xs = zsum ys.
Proof. induction 1; cbn [zsum] in *; lia. Qed.
Lemma zsum_bound {A} (w : A -> Z) B xs : (forall x, In x xs -> (w x <= B)%Z) -> (zsum (map w xs) <= Z.of_nat (length xs) * B)%Z.
Proof. induction xs as [|x xs IH]; intro H; cbn [map zsum length]; [lia|]. pose proof (H x (or_introl eq_refl)). specialize (IH (fun y Hy => H y (or_intror Hy))). lia. Qed.
Lemma vsum_bound c B v : forall k, (forall j x, In x (nth j v []) -> (c (k + j)%nat x <= B)%Z) -> (vsum_from c k v <= Z.of_nat (vsize v) * B)%Z.
Proof.
  unfold vsize. induction v as [|xs v IH]; intros k H; cbn [vsum_from concat]; [cbn; lia|]. rewrite app_length.
  assert (zsum (map (c k) xs) <= Z.of_nat (length xs) * B)%Z.
  { apply zsum_bound. intros x Hx. specialize (H 0 x Hx). rewrite Nat.add_0_r in H. exact H. }
  assert (vsum_from c (S k) v <= Z.of_nat (length (concat v)) * B)%Z.
  { apply IH. intros j x Hx. specialize (H (S j) x Hx). rewrite Nat.add_succ_r in H. exact H. } lia.
Qed.
(** A sum of leaf costs is the cost of a leaf. *)
Lemma ics_leaf_sum w v l : ics_leaf w v l = zsum (map (fun x => w x l) (concat v)).
Proof.
  unfold ics_leaf. assert (H : forall v a, fold_left (fun a xs => fold_left (fun a x => (a + w x l)%Z) xs a) v a = (a + zsum (map (fun x => w x l) (concat v)))%Z).
  { induction v0 as [|xs r IH]; intro a; cbn [fold_left concat]; [cbn; lia|]. rewrite IH, map_app, zsum_app.
    assert (E : forall ys a, fold_left (fun a x => (a + w x l)%Z) ys a = (a + zsum (map (fun x => w x l) ys))%Z).
    { induction ys as [|y ys IHy]; intro b; cbn [fold_left map zsum]; [lia|]. rewrite IHy. lia. }
    rewrite E. lia. }
  rewrite H. lia.
Qed.
Lemma ics_leaf_cost w v l : ics_leaf w v l = tree_cost (fun x _ l => w x l) v (Leaf l).
Proof. rewrite ics_leaf_sum, tree_cost_vsum. unfold vsum. cbn [predict]. rewrite (vsum_const_from (fun x => w x l)). reflexivity. Qed.
Lemma resize_view n rows : resize n (load rows) = mk_view (Nat.max n (labels_of rows)) rows.
Proof.
  unfold resize. rewrite load_mk_view, !mk_view_eq, map_length, seq_length.
  replace (Nat.max n (labels_of rows)) with (labels_of rows + (n - labels_of rows)) by lia. rewrite seq_app, map_app. f_equal.
  assert (E : forall ks, (forall k, In k ks -> labels_of rows <= k) -> map (fun k => flat_map (pick row_label row_inst k) (numbered rows)) ks = repeat [] (length ks)).
  { induction ks as [|k ks IH]; intro H; [reflexivity|]. cbn [map length repeat]. f_equal; [|apply IH; intros j Hj; apply H; right; exact Hj].
    specialize (H k (or_introl eq_refl)). destruct (load_steps (numbered rows) []) as (_ & _ & I3). rewrite <- load_eq in I3. fold (labels_of rows) in I3.
    revert I3. generalize (numbered rows). induction l as [|p l IHl]; intro I3; [reflexivity|]. cbn [flat_map]. unfold pick at 1.
    specialize (I3 p (or_introl eq_refl)) as Ip. destruct (Nat.eqb_spec (row_label p) k) as [E|E]; [lia|]. apply IHl. intros q Hq. apply I3. right. exact Hq. }
  rewrite E, seq_length; [reflexivity|]. intros k Hk. apply in_seq in Hk. lia.
Qed.
