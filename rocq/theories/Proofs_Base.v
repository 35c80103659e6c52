(** Basic notions for the optimality proof: additive tasks, lower bounds, witnesses of
    solution nodes, and the leaf solver. *)
From Coq Require Import List Arith Bool Lia ZArith.
From Verif Require Import Model_FeatureVector Model_Data Model_Node Model_Cache Model_Terminal Model_Solver
  Spec_Tree Proofs_View Proofs_Diff.
Import ListNotations.
Local Open Scope nat_scope.

(** What an instance of label [k] can cost at most, according to the task. *)
Definition wc (T : task) (k : nat) (x : inst) : Z := match tk_sim T with Some w => w x | None => tk_wpl T k end.

(** A task whose cost is a sum of non-negative integer costs per instance, with zero
    branching costs. *)
Record good_task (T : task) : Prop := GoodTask {
  gt_leaf : forall v l, tk_leaf T v l = tree_cost (tk_inst T) v (Leaf l);
  gt_nonneg : forall x k l, (0 <= tk_inst T x k l)%Z;
  gt_wc : forall k x, (0 <= wc T k x)%Z;
  gt_true : tk_zero_true T = true -> forall x k, tk_inst T x k k = 0%Z;
  gt_md : (0 <= tk_mindiff T <= 1)%Z;
  gt_sdom : forall a b, tk_sdom T a b = true -> (a < Z.max 0 b)%Z;
  gt_dom : forall a, (0 <= a)%Z -> tk_dom T a a = true;
  gt_eq : forall a, (0 <= a)%Z -> tk_eq T a a = true;
  gt_eq0 : forall b, tk_eq T 0 b = (0 =? b)%Z;
  gt_bc : forall n b f, match tk_bc T with Some g => g n b f | None => 0%Z end = 0%Z; gt_sparse : tk_sparse T = false; gt_lb : tk_lb T = None }.

Lemma combine0 T f l r : good_task T -> combine_sols T f l r 0 = branch_node f (nd_sol l + nd_sol r) (num_nodes l) (num_nodes r).
Proof. intros _. unfold combine_sols. destruct (tk_bc T); reflexivity. Qed.
(** Up to the value [z] the task's comparisons tell different values apart. *)
Definition tells (T : task) (z : Z) : Prop :=
  (forall a b, (a <= z)%Z -> (a < b)%Z -> tk_sdom T a b = true)
  /\ (forall a b, (a <= z)%Z -> tk_eq T a b = true -> a = b).
(** All costs of the data are below the worst value and told apart, and no instance costs
    more than the task says. *)
Record within (T : task) (root : view) : Prop := Within {
  wi_worst : (vsum (wc T) root < tk_worst T)%Z;
  wi_tells : tells T (vsum (wc T) root);
  wi_inst : forall k x l, In x (nth k root []) -> (tk_inst T x k l <= wc T k x)%Z }.
Lemma sdom_eq T z a : good_task T -> (0 <= z)%Z -> tells T z -> tk_sdom T a z = (a <? z)%Z.
Proof.
  intros HT Hz [Hs _]. destruct (a <? z)%Z eqn:E.
  - apply Z.ltb_lt in E. apply Hs; lia.
  - apply Z.ltb_ge in E. destruct (tk_sdom T a z) eqn:Ed; [|reflexivity]. apply (gt_sdom T HT) in Ed. lia.
Qed.
Lemma tells_le T z z' : tells T z -> (z' <= z)%Z -> tells T z'.
Proof. intros [H1 H2] Hz. split; intros a b Ha; [apply H1|apply H2]; lia. Qed.
Lemma acc_tells z : tells acc z.
Proof. split; intros a b _; cbn [acc tk_sdom tk_eq]; [apply Z.ltb_lt|apply Z.eqb_eq]. Qed.

Lemma acc_leaf_cost v l : acc_leaf v l = tree_cost (tk_inst acc) v (Leaf l).
Proof.
  unfold acc_leaf, tree_cost. generalize 0. induction v as [|xs v IH]; intro k; [reflexivity|].
  cbn [acc_leaf_from cost_from]. rewrite IH. f_equal. cbn [predict tk_inst acc].
  destruct (k =? l); induction xs as [|x xs IHx]; cbn [fold_right length]; try reflexivity;
    rewrite <- IHx; lia.
Qed.

Lemma acc_good : good_task acc.
Proof.
  constructor; try reflexivity; cbn [acc wc tk_sim tk_inst tk_wpl tk_mindiff tk_leaf]; unfold wc; cbn [acc tk_sim tk_wpl tk_inst]; try lia.
  - apply acc_leaf_cost.
  - intros x k l. destruct (k =? l); lia.
  - intros _ x k. rewrite Nat.eqb_refl. reflexivity.
  - intros a b H. cbn [acc tk_sdom] in H. apply Z.ltb_lt in H. lia.
  - intros a _. apply Z.leb_refl.
  - intros a _. apply Z.eqb_refl.
Qed.

Section Base.
  Context (T : task) (G : cfg) (HT : good_task T).
  Notation nf := (c_nf G).
  Notation mls := (c_mls G).
  Notation cost := (tree_cost (tk_inst T)).
  Notation worst := (tk_worst T).

  Definition ok_feat (f : nat) : Prop := f < nf /\ tk_may T f = true.
  Definition alw (d n : nat) (v : view) (t : tree) : Prop := allowed ok_feat mls d n v t.

  (** [z] is a lower bound on the cost of every allowed tree. *)
  Definition LB (v : view) (d n : nat) (z : Z) : Prop := forall t, alw d n v t -> (z <= cost v t)%Z.

  Lemma LB_mono v d n d' n' z : LB v d n z -> d' <= d -> n' <= n -> LB v d' n' z.
  Proof. intros H Hd Hn t Ht. apply H. eapply allowed_mono; eauto. Qed.

  Lemma LB_le v d n z z' : LB v d n z -> (z' <= z)%Z -> LB v d n z'.
  Proof. intros H Hz t Ht. specialize (H t Ht). lia. Qed.

  Lemma cost_nonneg v t : (0 <= cost v t)%Z.
  Proof. rewrite tree_cost_vsum. apply vsum_nonneg. intros j x _. apply (gt_nonneg T HT). Qed.

  Lemma LB_zero v d n : LB v d n 0.
  Proof. intros t _. apply cost_nonneg. Qed.

  Lemma wc_nonneg k x : (0 <= wc T k x)%Z.
  Proof. apply (gt_wc T HT). Qed.

  (** The witness of a solution node: a leaf with its label, or a split whose two parts are
      achieved by trees with exactly the recorded numbers of nodes. *)
  Definition wit (v : view) (d : nat) (r : node) : Prop :=
    match nd_feat r with
    | None => exists l, nd_lab r = Some l /\ l < num_labels v /\ mls <= vsize v /\ nd_sol r = cost v (Leaf l)
    | Some f => ok_feat f /\ 1 <= d /\ nd_l r <= 2 ^ (d - 1) - 1 /\ nd_r r <= 2 ^ (d - 1) - 1
        /\ exists tl tr, alw (d - 1) (nd_l r) (split_left f v) tl /\ alw (d - 1) (nd_r r) (split_right f v) tr
             /\ nd_sol r = (cost (split_left f v) tl + cost (split_right f v) tr)%Z
             /\ nodes tl = nd_l r /\ nodes tr = nd_r r
    end.

  Lemma wit_tree_exact v d r : wit v d r -> exists t, alw d (num_nodes r) v t /\ cost v t = nd_sol r /\ nodes t = num_nodes r.
  Proof.
    unfold wit, num_nodes. destruct (nd_feat r) as [f|] eqn:Hf.
    - intros (Hok & Hd & _ & _ & tl & tr & Hl & Hr & Hs & El & Er). exists (Split f tl tr). split; [|split; [|cbn [nodes]; lia]].
      + apply allowed_split. pose proof Hl as (_ & _ & _ & Hnl). pose proof Hr as (_ & _ & _ & Hnr).
        repeat split; try (apply Hok); try lia.
        * apply Hl. * apply Hl. * apply Hl. * apply Hr. * apply Hr. * apply Hr.
      + rewrite tree_cost_split. symmetry. exact Hs.
    - intros (l & Hl & Hlt & Hm & Hs). exists (Leaf l). split; [|split; [symmetry; exact Hs|reflexivity]].
      unfold alw, allowed. cbn [fits leaves_ok depth nodes]. unfold num_labels in Hlt. unfold vsize in Hm. lia.
  Qed.

  Lemma wit_tree v d r : wit v d r -> exists t, alw d (num_nodes r) v t /\ cost v t = nd_sol r.
  Proof. intro H. destruct (wit_tree_exact v d r H) as (t & H1 & H2 & _). eauto. Qed.

  Lemma wit_mono v d d' r : wit v d r -> Nat.min d (num_nodes r) <= d' -> wit v d' r.
  Proof.
    unfold wit, num_nodes. destruct (nd_feat r) as [f|] eqn:Hf; [|auto].
    intros (Hok & Hd & Hnl & Hnr & tl & tr & Hl & Hr & Hs & El & Er) Hmin.
    assert (Hd' : 1 <= d') by lia.
    destruct (le_lt_dec d d') as [Hle|Hgt].
    - assert (2 ^ (d - 1) <= 2 ^ (d' - 1)) by (apply Nat.pow_le_mono_r; lia).
      repeat split; try apply Hok; try lia. exists tl, tr.
      repeat split; try exact Hs; try exact El; try exact Er; try (apply Hl); try (apply Hr).
      + destruct Hl as (_ & _ & ? & _). lia.
      + destruct Hr as (_ & _ & ? & _). lia.
    - assert (Hsum : nd_l r + nd_r r + 1 <= d') by lia.
      assert (Hp : forall k, k < 2 ^ k) by (intro k; apply Nat.pow_gt_lin_r; lia).
      pose proof (Hp (d' - 1)).
      repeat split; try apply Hok; try lia. exists tl, tr.
      repeat split; try exact Hs; try exact El; try exact Er; try (apply Hl); try (apply Hr).
      + destruct Hl as (_ & _ & _ & Hn). pose proof (depth_le_nodes tl). lia.
      + destruct Hr as (_ & _ & _ & Hn). pose proof (depth_le_nodes tr). lia.
  Qed.

  Lemma wit_nonempty v d r : wit v d r -> is_empty r = false.
  Proof.
    unfold wit, is_empty. destruct (nd_feat r); [reflexivity|]. intros (l & Hl & _). rewrite Hl. reflexivity.
  Qed.

  Lemma wit_size v d r : wit v d r -> mls <= vsize v.
  Proof. intro H. apply wit_tree in H. destruct H as (t & Ht & _). eapply allowed_size; exact Ht. Qed.

  (** Best leaf cost against a split: leaf costs are additive. *)
  Lemma leaf_split v f l : cost v (Leaf l) = (cost (split_left f v) (Leaf l) + cost (split_right f v) (Leaf l))%Z.
  Proof.
    rewrite <- tree_cost_split. rewrite !tree_cost_vsum. apply vsum_ext. intros j x _. cbn [predict].
    destruct (has f x); reflexivity.
  Qed.

  Lemma leaf_allowed v d n l : l < num_labels v -> mls <= vsize v -> alw d n v (Leaf l).
  Proof. intros Hl Hm. unfold alw, allowed. cbn [fits leaves_ok depth nodes]. unfold num_labels in Hl. unfold vsize in Hm. lia. Qed.

  (** ** Restrictions of the root *)
  Context (root : view).
  Hypothesis Hworst : within T root.

  Lemma vsum_from_restrict_le c b k :
    (forall j x, (0 <= c j x)%Z) -> (vsum_from c k (restrict b root) <= vsum_from c k root)%Z.
  Proof.
    intros Hc. unfold restrict. clear Hworst. revert k. induction root as [|xs r IH]; intro k; cbn [map vsum_from]; [lia|].
    specialize (IH (S k)). assert (zsum (map (c k) (filter (sat b) xs)) <= zsum (map (c k) xs))%Z; [|lia].
    rewrite (zsum_filter (sat b) (c k) xs). 
    assert (0 <= zsum (map (c k) (filter (fun x => negb (sat b x)) xs)))%Z; [|lia].
    generalize (filter (fun x => negb (sat b x)) xs). intro ys. induction ys as [|y ys IHy]; cbn [map zsum]; [lia|].
    specialize (Hc k y). lia.
  Qed.

  Lemma cost_le_sum b t : (cost (restrict b root) t <= vsum (wc T) root)%Z.
  Proof.
    rewrite tree_cost_vsum.
    assert (vsum (fun j x => tk_inst T x j (predict t x)) (restrict b root) <= vsum (wc T) (restrict b root))%Z.
    { apply vsum_from_le_at. intros j x Hx. apply (wi_inst _ _ Hworst). unfold restrict in Hx.
      change (@nil inst) with (filter (sat b) []) in Hx. rewrite map_nth in Hx. apply filter_In in Hx. apply Hx. }
    pose proof (vsum_from_restrict_le (wc T) b 0 wc_nonneg). unfold vsum in *. lia.
  Qed.
  Lemma cost_lt_worst b t : (cost (restrict b root) t < worst)%Z.
  Proof. pose proof (cost_le_sum b t). pose proof (wi_worst _ _ Hworst). lia. Qed.
  Lemma cost_tells b t : tells T (cost (restrict b root) t).
  Proof. eapply tells_le; [apply (wi_tells _ _ Hworst)|apply cost_le_sum]. Qed.
  (** A lower bound that is not above some cost is told apart from every value. *)
  Lemma lb_eq b t z y : (z <= cost (restrict b root) t)%Z -> tk_eq T z y = true -> z = y.
  Proof. intros Hz. apply (proj2 (cost_tells b t)). exact Hz. Qed.
  Lemma wit_tells b d r : wit (restrict b root) d r -> tells T (nd_sol r).
  Proof. intro H. apply wit_tree in H. destruct H as (t & _ & <-). apply cost_tells. Qed.
  Lemma wit_sdom b d r a : wit (restrict b root) d r -> tk_sdom T a (nd_sol r) = (a <? nd_sol r)%Z.
  Proof. intro H. apply sdom_eq; [exact HT| |eapply wit_tells; exact H]. apply wit_tree in H. destruct H as (t & _ & <-). apply cost_nonneg. Qed.
  Lemma wit_sdom_l b d r z : wit (restrict b root) d r -> (0 <= z)%Z -> tk_sdom T (nd_sol r) z = (nd_sol r <? z)%Z.
  Proof.
    intros H Hz. destruct (_ <? _)%Z eqn:E.
    - apply Z.ltb_lt in E. apply (wit_tells b d r H); [lia|exact E].
    - apply Z.ltb_ge in E. destruct (tk_sdom T _ z) eqn:Ed; [|reflexivity]. apply (gt_sdom T HT) in Ed. lia.
  Qed.

  Lemma wit_lt_worst b d r : wit (restrict b root) d r -> (nd_sol r < worst)%Z.
  Proof. intro H. apply wit_tree in H. destruct H as (t & _ & <-). apply cost_lt_worst. Qed.

  Lemma worst_pos : (0 < worst)%Z.
  Proof. pose proof (cost_lt_worst [] (Leaf 0)). pose proof (cost_nonneg (restrict [] root) (Leaf 0)). lia. Qed.

  (** ** The leaf solver *)
  Definition leaf_inv (v : view) (ub : node) (k : nat) (p : node * node) : Prop :=
    (exists l, l < k /\ fst p = leaf_node l (cost v (Leaf l))
       /\ (forall l', l' < k -> (cost v (Leaf l) <= cost v (Leaf l'))%Z)
       /\ (c_ub G = true -> nd_sol (snd p) = nd_sol (fst p) /\ (nd_sol (fst p) <= nd_sol ub)%Z)
       /\ (c_ub G = false -> snd p = ub))
    \/ (fst p = init_sol T /\ snd p = ub
        /\ (forall l', l' < k -> c_ub G = true /\ (nd_sol ub < cost v (Leaf l'))%Z)).

  Lemma leaf_fold v ub k :
    (forall l, (cost v (Leaf l) < worst)%Z) -> (forall l, tells T (cost v (Leaf l))) ->
    leaf_inv v ub k (fold_left (leaf_step T G v) (seq 0 k) (init_sol T, ub)).
  Proof.
    intros Hw Hsh. induction k as [|k IH].
    - right. cbn [seq fold_left fst snd]. repeat split; intros; lia.
    - rewrite seq_S, fold_left_app. cbn [fold_left].
      set (p := fold_left (leaf_step T G v) (seq 0 k) (init_sol T, ub)) in *.
      unfold leaf_step. cbn [Nat.add]. rewrite (gt_leaf T HT).
      cbn [nd_sol leaf_node]. rewrite (sdom_eq T _ _ HT (cost_nonneg v (Leaf k)) (Hsh k)).
      destruct (c_ub G && (nd_sol (snd p) <? cost v (Leaf k))%Z) eqn:Hskip.
      + apply andb_true_iff in Hskip. destruct Hskip as [Hub Hlt]. apply Z.ltb_lt in Hlt.
        destruct IH as [(l & Hl & Hf & Hmin & Hu & Hn)|(Hf & Hs & Hall)].
        * left. exists l. repeat split; try lia; try exact Hf; try (apply Hu; assumption); try exact Hn.
          intros l' Hl'. destruct (Nat.eq_dec l' k) as [->|]; [|apply Hmin; lia].
          destruct (Hu Hub) as [He _]. rewrite Hf in He. cbn [nd_sol leaf_node] in He. lia.
        * right. repeat split; try assumption. destruct (Nat.eq_dec l' k) as [->|]; [|apply Hall; lia].
          rewrite Hs in Hlt. exact Hlt.
      + destruct IH as [(l & Hl & Hf & Hmin & Hu & Hn)|(Hf & Hs & Hall)].
        * left. cbn [fst snd]. rewrite Hf. unfold add_sol. cbn [nd_sol leaf_node].
          assert (Hle : c_ub G = true -> (cost v (Leaf k) <= cost v (Leaf l))%Z).
          { intro Hub. rewrite Hub in Hskip. cbn [andb] in Hskip. apply Z.ltb_ge in Hskip.
            destruct (Hu Hub) as [He _]. rewrite Hf in He. cbn [nd_sol leaf_node] in He. lia. }
          destruct (cost v (Leaf k) <? cost v (Leaf l))%Z eqn:Hlt.
          -- apply Z.ltb_lt in Hlt. exists k. cbn [nd_sol leaf_node]. split; [lia|]. split; [reflexivity|].
             split. { intros l' Hl'. destruct (Nat.eq_dec l' k) as [->|]; [lia|].
                      specialize (Hmin l' ltac:(lia)). lia. }
             split; intro Hub.
             ++ unfold upd_ub, add_sol. rewrite Hub. destruct (Hu Hub) as [He Hle2]. rewrite Hf in He, Hle2.
                cbn [nd_sol leaf_node] in *. rewrite He. destruct (cost v (Leaf k) <? cost v (Leaf l))%Z eqn:E;
                  [cbn [nd_sol leaf_node]; lia|apply Z.ltb_ge in E; lia].
             ++ unfold upd_ub. rewrite Hub. apply Hn. exact Hub.
          -- apply Z.ltb_ge in Hlt. exists l. cbn [nd_sol leaf_node]. split; [lia|]. split; [reflexivity|].
             split. { intros l' Hl'. destruct (Nat.eq_dec l' k) as [->|]; [lia|]. apply Hmin; lia. }
             split; intro Hub.
             ++ unfold upd_ub, add_sol. rewrite Hub. destruct (Hu Hub) as [He Hle2]. rewrite Hf in He, Hle2.
                cbn [nd_sol leaf_node] in *. rewrite He. destruct (cost v (Leaf k) <? cost v (Leaf l))%Z eqn:E;
                  [apply Z.ltb_lt in E; lia|]. split; [exact He|exact Hle2].
             ++ unfold upd_ub. rewrite Hub. apply Hn. exact Hub.
        * assert (Hk : c_ub G = true -> (cost v (Leaf k) <= nd_sol ub)%Z).
          { intro Hub. rewrite Hub in Hskip. cbn [andb] in Hskip. apply Z.ltb_ge in Hskip. rewrite Hs in Hskip. exact Hskip. }
          left. cbn [fst snd]. rewrite Hf, Hs. unfold add_sol at 1 3. cbn [nd_sol init_sol value_node].
          specialize (Hw k). destruct (cost v (Leaf k) <? worst)%Z eqn:E; [|apply Z.ltb_ge in E; lia].
          exists k. cbn [nd_sol leaf_node]. split; [lia|]. split; [unfold add_sol; cbn [nd_sol init_sol value_node leaf_node]; rewrite E; reflexivity|].
          split. { intros l' Hl'. destruct (Nat.eq_dec l' k) as [->|]; [lia|].
                   destruct (Hall l' ltac:(lia)) as [Hub Hgt]. specialize (Hk Hub). lia. }
          split; intro Hub.
          -- specialize (Hk Hub). unfold upd_ub, add_sol. rewrite Hub. cbn [nd_sol leaf_node init_sol value_node]. rewrite E. cbn [nd_sol].
             destruct (cost v (Leaf k) <? nd_sol ub)%Z eqn:E2; cbn [nd_sol leaf_node]; [lia|]. apply Z.ltb_ge in E2. lia.
          -- unfold upd_ub. rewrite Hub. reflexivity.
  Qed.

  (** With enough instances: the leaf solver returns the best label, unless every label is
      above the upper bound. *)
  Lemma solve_leaf_spec b ub :
    let v := restrict b root in
    mls <= vsize v ->
    leaf_inv v ub (num_labels v) (solve_leaf T G v ub).
  Proof.
    intros v Hm. unfold solve_leaf, sat_mls. rewrite Nat.mul_1_r.
    destruct (mls <=? vsize v) eqn:E; [|apply Nat.leb_gt in E; lia].
    apply leaf_fold; intro l; [apply cost_lt_worst|apply cost_tells].
  Qed.

  Lemma solve_leaf_small v ub : vsize v < mls -> solve_leaf T G v ub = (init_sol T, ub).
  Proof.
    intro H. unfold solve_leaf, sat_mls. rewrite Nat.mul_1_r.
    destruct (mls <=? vsize v) eqn:E; [apply Nat.leb_le in E; lia|reflexivity].
  Qed.
End Base.
