(** C35: the bounds used when every branching node has a constant cost. *)
From Coq Require Import List Arith Bool Lia ZArith.
From Verif Require Import Model_FeatureVector Model_Data Model_Node Model_Cache Model_Terminal Model_Solver Model_Preproc
  Model_EquivPoints Model_CostComplex Spec_Tree Spec_Examples Proofs_View Proofs_Feature Proofs_Preproc Proofs_Search Props_EquivPoints.
Import ListNotations.
Local Open Scope nat_scope.

(** The objective: the costs of the instances plus [bc] for every branching node. *)
Definition sparse_cost (c : inst -> nat -> nat -> Z) (bc : Z) (v : view) (t : tree) : Z :=
  (tree_cost c v t + bc * Z.of_nat (nodes t))%Z.

(** What a task with constant branching costs is: at every subproblem the cost of a node is
    [bc], the costs of instances are not negative, the cost of a leaf is the cost of the tree
    that is that leaf, and the tolerant comparisons are at least as strict as [<]. *)
Record sparse_task (T : task) (bc : Z) : Prop := {
  sp_bc : forall v b f, get_bc T v b f = bc;
  sp_pos : (0 <= bc)%Z;
  sp_inst : forall x k l, (0 <= tk_inst T x k l)%Z;
  sp_leaf : forall v l, tk_leaf T v l = tree_cost (tk_inst T) v (Leaf l);
  sp_sdom : forall a b, (0 <= a)%Z -> tk_sdom T a b = true -> (a <= b)%Z;
  sp_worst : (0 <= tk_worst T)%Z }.

Lemma cost_nonneg T bc v t : sparse_task T bc -> (0 <= tree_cost (tk_inst T) v t)%Z.
Proof. intro H. rewrite tree_cost_vsum. apply vsum_nonneg. intros j x _. apply (sp_inst T bc H). Qed.

(** ** The node budget *)
(** C35: a tree that fits the budgets and costs no more than the upper bound fits the reduced
    budgets. *)
Theorem C35_reduce_budget : forall T bc c v b ub d n t,
  (forall x k l, 0 <= c x k l)%Z -> (forall f, get_bc T v b f = bc) ->
  depth t <= d -> nodes t <= n -> (sparse_cost c bc v t <= nd_sol ub)%Z ->
  let r := reduce_budget T v b ub d n in
  depth t <= fst r /\ nodes t <= snd r /\ fst r <= d /\ snd r <= n.
Proof.
  intros T bc c v b ub d n t Hc Hbc Hd Hn Hcost r. subst r. unfold reduce_budget.
  destruct (tk_sparse T); [|cbn; lia]. destruct (tk_huge T (nd_sol ub)); [cbn; lia|]. rewrite Hbc.
  destruct (Z.leb_spec bc 0); [cbn; lia|].
  destruct ((Z.to_nat (nd_sol ub / bc) <? n) && (Nat.min d (Z.to_nat (nd_sol ub / bc)) <? d)) eqn:E; [|cbn; lia]. cbn [fst snd].
  assert (N : (0 <= tree_cost c v t)%Z) by (rewrite tree_cost_vsum; apply vsum_nonneg; intros; apply Hc).
  unfold sparse_cost in Hcost.
  assert (K : nodes t <= Z.to_nat (nd_sol ub / bc)).
  { apply Nat2Z.inj_le. rewrite Z2Nat.id by (apply Z.div_pos; nia). apply Z.div_le_lower_bound; nia. }
  pose proof (depth_le_nodes t) as D. set (k := Z.to_nat (nd_sol ub / bc)) in *.
  assert (P : nodes t <= 2 ^ Nat.min d k - 1).
  { assert (depth t <= Nat.min d k) by lia. clear -H0.
    assert (G : nodes t + 1 <= 2 ^ depth t).
    { clear. induction t as [l|f l IHl r IHr]; cbn [nodes depth]; [cbn; lia|].
      pose proof (Nat.pow_le_mono_r 2 (depth l) (Nat.max (depth l) (depth r)) ltac:(lia) ltac:(lia)).
      pose proof (Nat.pow_le_mono_r 2 (depth r) (Nat.max (depth l) (depth r)) ltac:(lia) ltac:(lia)).
      rewrite Nat.pow_succ_r'. lia. }
    pose proof (Nat.pow_le_mono_r 2 (depth t) (Nat.min d k) ltac:(lia) H0). lia. }
  lia.
Qed.

(** C35: the assertion after the reduction holds: the depth budget never exceeds the node
    budget. *)
Theorem C35_reduced_depth : forall T v b ub d n, d <= n ->
  let r := reduce_budget T v b ub d n in fst r <= snd r.
Proof.
  intros T v b ub d n H. unfold reduce_budget. destruct (tk_sparse T); [|exact H]. destruct (tk_huge T (nd_sol ub)); [exact H|].
  destruct (get_bc T v b 0 <=? 0)%Z; [exact H|]. set (k := Z.to_nat _).
  destruct ((k <? n) && (Nat.min d k <? d)) eqn:E; [|exact H]. cbn [fst snd].
  pose proof (Nat.pow_gt_lin_r 2 (Nat.min d k) ltac:(lia)). lia.
Qed.

(** C35: when the upper bound is below the cost of one node, only leaves can meet it; this is
    where the loop over the features is left. *)
Theorem C35_break : forall c bc v t ub,
  (forall x k l, 0 <= c x k l)%Z -> (sparse_cost c bc v t <= ub)%Z -> (0 <= bc)%Z -> (ub < bc)%Z -> exists l, t = Leaf l.
Proof.
  intros c bc v t ub Hc H Hb Hu. destruct t as [l|f l r]; [eexists; reflexivity|]. exfalso.
  assert (N : (0 <= tree_cost c v (Split f l r))%Z) by (rewrite tree_cost_vsum; apply vsum_nonneg; intros; apply Hc).
  unfold sparse_cost in H. cbn [nodes] in H. nia.
Qed.

(** ** The lower bound *)
Lemma add_sol_le a b : (nd_sol (add_sol a b) <= nd_sol a)%Z /\ (nd_sol (add_sol a b) <= nd_sol b)%Z.
Proof. unfold add_sol. destruct (Z.ltb_spec (nd_sol b) (nd_sol a)); lia. Qed.
Lemma add_sol_inv_le a b z : (nd_sol a <= z)%Z -> (nd_sol b <= z)%Z -> (nd_sol (add_sol_inv a b) <= z)%Z.
Proof. unfold add_sol_inv. destruct (_ <? _)%Z; lia. Qed.

Lemma leaf_fold T G bc v : sparse_task T bc -> forall ls p,
  (0 <= nd_sol (snd p))%Z -> (c_ub G = true -> nd_sol (fst p) <= nd_sol (snd p))%Z ->
  let r := fold_left (leaf_step T G v) ls p in
  (nd_sol (fst r) <= nd_sol (fst p))%Z /\ forall l, In l ls -> (nd_sol (fst r) <= tk_leaf T v l)%Z.
Proof.
  intros HT. induction ls as [|l ls IH]; intros p Hs Hf; cbn [fold_left]; [split; [lia|contradiction]|].
  set (q := leaf_step T G v p l).
  assert (Hq : (nd_sol (fst q) <= nd_sol (fst p))%Z /\ (nd_sol (fst q) <= tk_leaf T v l)%Z
    /\ (0 <= nd_sol (snd q))%Z /\ (c_ub G = true -> nd_sol (fst q) <= nd_sol (snd q))%Z).
  { subst q. unfold leaf_step. destruct (c_ub G && tk_sdom T (nd_sol (snd p)) (nd_sol (leaf_node l (tk_leaf T v l)))) eqn:E.
    - apply andb_prop in E. destruct E as [E1 E2]. apply (sp_sdom T bc HT) in E2; [|exact Hs]. cbn [leaf_node nd_sol] in E2. specialize (Hf E1). lia.
    - cbn [fst snd]. pose proof (add_sol_le (fst p) (leaf_node l (tk_leaf T v l))) as [A B]. cbn [leaf_node nd_sol] in B.
      assert (0 <= tk_leaf T v l)%Z by (rewrite (sp_leaf T bc HT); apply (cost_nonneg T bc); exact HT).
      unfold upd_ub. split; [exact A|]. split; [exact B|]. destruct (c_ub G).
      + split; [unfold add_sol; destruct (_ <? _)%Z; [cbn [leaf_node nd_sol]; lia|lia]|]. intros _. specialize (Hf eq_refl).
        unfold add_sol at 2. destruct (_ <? _)%Z; [cbn [leaf_node nd_sol]; lia|lia].
      + split; [exact Hs|discriminate]. }
  destruct Hq as (Q1 & Q2 & Q3 & Q4). destruct (IH q Q3 Q4) as [A B]. split; [lia|].
  intros j [<-|Hj]; [lia|apply B; exact Hj].
Qed.
Lemma solve_leaf_le T G bc v l : sparse_task T bc -> l < length v -> sat_mls G v 1 = true ->
  (nd_sol (fst (solve_leaf T G v (init_sol T))) <= tree_cost (tk_inst T) v (Leaf l))%Z.
Proof.
  intros HT Hl Hm. unfold solve_leaf. rewrite Hm.
  destruct (leaf_fold T G bc v HT (seq 0 (num_labels v)) (init_sol T, init_sol T) (sp_worst T bc HT) (fun _ => Z.le_refl _)) as [_ B].
  rewrite <- (sp_leaf T bc HT). apply B. apply in_seq. unfold num_labels. lia.
Qed.

Lemma lower_cached_some c v b n : forall k ld ln, lower_cached c v b n k = Some (ld, ln) ->
  1 <= ld <= k /\ ln = Nat.min n (2 ^ (ld - 1)) /\ c_is_optimal c v b ld ln = true.
Proof.
  induction k as [|k IH]; intros ld ln H; cbn [lower_cached] in H; [discriminate|].
  destruct (c_is_optimal c v b (S k) (Nat.min n (2 ^ k))) eqn:E.
  - injection H as <- <-. replace (S k - 1) with k by lia. repeat split; [lia|lia|exact E].
  - apply IH in H. destruct H as (H1 & H2 & H3). repeat split; [lia|lia|exact H2|exact H3].
Qed.
Lemma pow_ge k : 1 <= k -> k <= 2 ^ (k - 1).
Proof. intro H. pose proof (Nat.pow_gt_lin_r 2 (k - 1) ltac:(lia)). lia. Qed.

(** C35 (partial): at every subproblem whose depth is at least the depth of the searches that
    are finished, the lower bound is at most the cost of every allowed tree, whatever
    the caches hold, as long as what they hold is true (property C12) and the task's own bound
    is true (property C34).  Missing: subproblems less deep than the finished
    searches, see C35_bound_refuted. *)
Theorem C35_lower_bound_partial : forall T G bc ok_f s v b d n t,
  sparse_task T bc ->
  s_mdf s <= br_depth b ->
  (forall d' n' t', allowed ok_f (c_mls G) d' n' v t' ->
     (nd_sol (Model_Cache.c_lb (s_c s) v b d' n') <= sparse_cost (tk_inst T) bc v t')%Z) ->
  (forall d' n' t', c_is_optimal (s_c s) v b d' n' = true -> allowed ok_f (c_mls G) d' n' v t' ->
     (nd_sol (c_retrieve T (s_c s) v b d' n') <= sparse_cost (tk_inst T) bc v t')%Z) ->
  (forall g t', tk_lb T = Some g -> (g v b d n <= tree_cost (tk_inst T) v t')%Z) ->
  allowed ok_f (c_mls G) d n v t ->
  (nd_sol (compute_lb T G s v b d n) <= sparse_cost (tk_inst T) bc v t)%Z.
Proof.
  intros T G bc ok_f s v b d n t HT Hmdf Hlb Hopt Htl Ht.
  pose proof (cost_nonneg T bc v t HT) as N0. pose proof (sp_pos T bc HT) as Hbc.
  assert (N : (0 <= sparse_cost (tk_inst T) bc v t)%Z) by (unfold sparse_cost; nia).
  unfold compute_lb. destruct (c_lb G); [|cbn [init_lb value_node nd_sol]; exact N].
  set (custom := match tk_lb T with Some g => if c_tlb G then value_node (g v b d n) else init_lb | None => init_lb end).
  assert (HC : (nd_sol custom <= tree_cost (tk_inst T) v t)%Z).
  { subst custom. destruct (tk_lb T) as [g|] eqn:E; [destruct (c_tlb G)|]; cbn [value_node init_lb nd_sol]; try exact N0. now apply (Htl g). }
  assert (H1 : (nd_sol (add_sol_inv init_lb (Model_Cache.c_lb (s_c s) v b d n)) <= sparse_cost (tk_inst T) bc v t)%Z).
  { apply add_sol_inv_le; [exact N|]. apply Hlb. exact Ht. }
  assert (H2 : (nd_sol (add_sol_inv (add_sol_inv init_lb (Model_Cache.c_lb (s_c s) v b d n)) custom) <= sparse_cost (tk_inst T) bc v t)%Z).
  { apply add_sol_inv_le; [exact H1|]. unfold sparse_cost. nia. }
  destruct (tk_sparse T); [|exact H2].
  unfold sparse_lb. rewrite (sp_bc T bc HT).
  assert (Hmls : sat_mls G v 1 = true).
  { unfold sat_mls. apply Nat.leb_le. rewrite Nat.mul_1_r. destruct Ht as (_ & Hl & _).
    clear -Hl. unfold vsize. revert Hl. generalize (concat v). induction t as [l|f l IHl r IHr]; intros xs; cbn [leaves_ok]; [tauto|].
    intros [H1 _]. apply IHl in H1. pose proof (filter_length_split (has f) xs). lia. }
  set (leafs := fst (solve_leaf T G v (init_sol T))).
  destruct (lower_cached (s_c s) v b n (d - 1)) as [[ld ln]|] eqn:E.
  - apply lower_cached_some in E. destruct E as (E1 & E2 & E3).
    set (sols := add_sol leafs (c_retrieve T (s_c s) v b ld ln)).
    replace (Nat.max ld (s_mdf s - br_depth b)) with ld by lia.
    assert (K : (nd_sol sols <= sparse_cost (tk_inst T) bc v t)%Z \/ ld + 1 <= nodes t).
    { destruct (le_lt_dec (ld + 1) (nodes t)) as [?|Hk]; [now right|left].
      pose proof (add_sol_le leafs (c_retrieve T (s_c s) v b ld ln)) as [_ B]. eapply Z.le_trans; [exact B|]. apply Hopt; [exact E3|].
      destruct Ht as (F1 & F2 & F3 & F4). pose proof (depth_le_nodes t). pose proof (pow_ge ld ltac:(lia)).
      unfold allowed. split; [exact F1|split; [exact F2|split; lia]]. }
    destruct (Z.leb_spec (nd_sol sols) (Z.of_nat (ld + 1) * bc + nd_sol custom)) as [L|L].
    + apply add_sol_inv_le; [exact H2|]. destruct K as [K|K]; [exact K|]. unfold sparse_cost. nia.
    + apply add_sol_inv_le; [exact H2|]. cbn [branch_node nd_sol]. destruct K as [K|K]; [lia|]. unfold sparse_cost. nia.
  - replace (Nat.max 0 (s_mdf s - br_depth b)) with 0 by lia.
    assert (K : (nd_sol leafs <= sparse_cost (tk_inst T) bc v t)%Z \/ 1 <= nodes t).
    { destruct t as [l|f l r]; [left|right; cbn [nodes]; lia]. destruct Ht as (F1 & _). cbn [fits] in F1.
      pose proof (solve_leaf_le T G bc v l HT F1 Hmls). unfold sparse_cost. cbn [nodes]. subst leafs. lia. }
    destruct (Z.leb_spec (nd_sol leafs) (Z.of_nat (0 + 1) * bc + nd_sol custom)) as [L|L].
    + apply add_sol_inv_le; [exact H2|]. destruct K as [K|K]; [exact K|]. unfold sparse_cost. nia.
    + apply add_sol_inv_le; [exact H2|]. cbn [branch_node nd_sol]. destruct K as [K|K]; [lia|]. unfold sparse_cost. nia.
Qed.

(** ** Cost-complex accuracy *)
(** Cost-complex accuracy is such a task. *)
Theorem C35_accuracy : forall uid bc, (0 <= bc)%Z -> sparse_task (cca uid bc) bc.
Proof.
  intros uid bc Hbc. constructor; cbn [cca tk_inst tk_leaf tk_sdom tk_worst].
  - reflexivity.
  - exact Hbc.
  - intros x k l. destruct (k =? l); lia.
  - intros v l. apply Proofs_Base.acc_leaf_cost.
  - intros a b Ha H. unfold t_sdom in H. apply Z.ltb_lt in H. lia.
  - vm_compute. discriminate.
Qed.

(** ** The task's own bound *)
Lemma number_ids xs : forall id uid p x u, In (x, u) (cca_number id uid p xs) ->
  id <= iid x /\ nth_error (cca_number id uid p xs) (iid x - id) = Some (x, u).
Proof.
  assert (STEP : forall id l p0 (x : inst) (u : nat), iid (fst p0) = id ->
    (forall x u, In (x, u) l -> S id <= iid x /\ nth_error l (iid x - S id) = Some (x, u)) ->
    In (x, u) (p0 :: l) -> id <= iid x /\ nth_error (p0 :: l) (iid x - id) = Some (x, u)).
  { intros id l [x0 u0] x u E H [[= -> ->]|I]; cbn [fst] in E.
    - subst id. rewrite Nat.sub_diag. split; [lia|reflexivity].
    - destruct (H x u I) as [A B]. split; [lia|]. replace (iid x - id) with (S (iid x - S id)) by lia. exact B. }
  induction xs as [|y xs IH]; intros id uid p x u I; cbn [cca_number] in *; [destruct I|].
  destruct p as [p|]; [destruct (fv_equal (ifv p) (ifv y))|]; (apply STEP; [reflexivity|intros; apply IH; assumption|exact I]).
Qed.
Lemma uid_of xs x u : In (x, u) (cca_preprocess xs) -> uid_table xs (iid x) = u.
Proof.
  intro I. apply number_ids in I. destruct I as [_ I]. rewrite Nat.sub_0_r in I. unfold uid_table.
  apply (map_nth_error snd) in I. cbn [snd] in I. apply nth_error_nth. exact I.
Qed.

(** C35: the accuracy task's own bound never exceeds what any tree, of any size and with any
    features, costs without its nodes.  [xs] is the training data, [w] the
    instances as they are after the task's preprocessing, by label; the bound is asked for any
    subproblem of the data the search works on. *)
Theorem C35_task_bound : forall xs nf bc mls w b d n g t,
  Forall (inst_ok nf) xs -> (forall x, In x (concat w) -> In x (map fst (cca_preprocess xs))) ->
  let T := cca (uid_table xs) bc in let v := restrict b (snd (preprocess T mls nf w)) in
  tk_lb T = Some g -> (g v b d n <= tree_cost (fun _ org l => if Nat.eqb org l then 0 else 1) v t)%Z.
Proof.
  intros xs nf bc mls w b d n g t OK IN T v [= <-]. subst v. rewrite (Proofs_Preproc.preprocess_eq T mls nf w). cbn [snd].
  set (h := Proofs_Preproc.pg T mls nf w). unfold Proofs_Preproc.pview. fold h.
  assert (OK' : forall p, In p (cca_preprocess xs) -> inst_ok nf (fst p)).
  { intros [x u] I. apply preprocess_from in I. destruct I as (x0 & X0 & E). rewrite Forall_forall in OK. unfold inst_ok. cbn [fst]. rewrite E. apply (OK _ X0). }
  assert (HS : forall p, In p (cca_preprocess xs) -> inst_ok nf (h (fst p)) /\ iid (h (fst p)) = iid (fst p)
     /\ forall f, f < nf -> has f (h (fst p)) = if Proofs_Preproc.pdead T mls nf w f then false else xorb (Proofs_Preproc.pfl T mls nf w f) (has f (fst p))).
  { intros p I. apply OK' in I. destruct (flip_all_spec (Proofs_Preproc.pfl T mls nf w) nf _ I) as (A1 & A2 & A3).
    destruct (disable_all_spec (Proofs_Preproc.pdead T mls nf w) nf _ A1) as (B1 & B2 & B3). unfold h, Proofs_Preproc.pg. split; [exact B1|]. split; [cbn [finish on_fv iid]; congruence|].
    intros f Hf. transitivity (has f (disable_all (Proofs_Preproc.pdead T mls nf w) nf (flip_all (Proofs_Preproc.pfl T mls nf w) nf (fst p)))); [reflexivity|].
    rewrite B3 by exact Hf. rewrite A3 by exact Hf. reflexivity. }
  assert (SAME : forall p q, In p (cca_preprocess xs) -> In q (cca_preprocess xs) -> snd p = snd q -> predict t (h (fst p)) = predict t (h (fst q))).
  { intros [x u] [y u'] P Q E. cbn [snd] in E. subst u'. pose proof (preprocess_same _ _ _ _ P Q) as PR. destruct (HS _ P) as (P1 & _ & P3). destruct (HS _ Q) as (Q1 & _ & Q3).
    destruct (OK' _ P) as [_ X]. destruct (OK' _ Q) as [_ Y]. cbn [fst] in *. clear - PR P1 P3 Q1 Q3 X Y.
    induction t as [l|f l IHl r IHr]; cbn [predict]; [reflexivity|]. assert (H : has f (h x) = has f (h y)).
    { destruct (Nat.lt_ge_cases f nf) as [L|L].
      - rewrite P3, Q3 by exact L. replace (has f y) with (has f x); [reflexivity|]. apply eq_true_iff_eq. rewrite !has_present, PR by assumption. reflexivity.
      - destruct P1 as [P1 _]. destruct Q1 as [Q1 _]. unfold fv_num in P1, Q1. unfold has, fv_has. rewrite !nth_overflow by lia. reflexivity. }
    rewrite H. destruct (has f (h y)); assumption. }
  set (label := fun u => match find (fun p => snd p =? u) (cca_preprocess xs) with Some p => predict t (h (fst p)) | None => 0 end).
  assert (G : forall x, In x (concat w) -> label (uid_table xs (iid (h x))) = predict t (h x)).
  { intros x I. apply IN, in_map_iff in I. destruct I as ([y u] & <- & I). destruct (HS _ I) as (_ & E & _). cbn [fst] in *. rewrite E, (uid_of _ _ _ I).
    unfold label. destruct (find _ _) as [p|] eqn:F.
    - apply find_some in F. destruct F as [J U]. apply Nat.eqb_eq in U. apply (SAME p (y, u) J I U).
    - pose proof (find_none _ _ F _ I) as Z. cbn in Z. rewrite Nat.eqb_refl in Z. discriminate. }
  rewrite <- misclassified_cost. unfold cca_bound. cbv beta.
  set (v := restrict b (map (map h) w)).
  assert (GV : forall x, In x (concat v) -> label (uid_table xs (iid x)) = predict t x).
  { intros x I. subst v. unfold restrict in I. rewrite map_map in I. apply in_concat in I. destruct I as (l & L & I). apply in_map_iff in L. destruct L as (l0 & <- & L0).
    apply filter_In in I. destruct I as [I _]. apply in_map_iff in I. destruct I as (y & <- & Y). apply G. apply in_concat. exists l0. auto. }
  clearbody v. set (pv := map (map (fun x => (iid x, uid_table xs (iid x)))) v).
  destruct (equiv_points_bound pv) as [z|] eqn:B; [|lia]. apply Nat2Z.inj_le. etransitivity; [apply (C34_sound _ _ B label)|].
  subst pv. clear B. unfold misclassified. generalize 0. induction v as [|l v IH]; intro k; cbn [map point_errors wrong_from]; [lia|].
  apply Nat.add_le_mono; [|apply IH; intros x I; apply GV; cbn; apply in_or_app; auto].
  assert (GL : forall x, In x l -> label (uid_table xs (iid x)) = predict t x) by (intros x I; apply GV; cbn; apply in_or_app; auto). clear -GL.
  induction l as [|x l IH]; cbn [map filter]; [apply le_n|]. cbn [snd]. rewrite (GL x) by now left. specialize (IH (fun y I => GL y (or_intror I))).
  destruct (predict t x =? k); cbn [negb length]; lia.
Qed.

(** C35 (partial) for accuracy with a cost per node: the same as C35_lower_bound_partial, with
    nothing assumed of the task. *)
Theorem C35_accuracy_bound_partial : forall xs nf bc mls w G ok_f s b d n t,
  Forall (inst_ok nf) xs -> (forall x, In x (concat w) -> In x (map fst (cca_preprocess xs))) -> (0 <= bc)%Z ->
  let T := cca (uid_table xs) bc in let v := restrict b (snd (preprocess T mls nf w)) in
  let cost := sparse_cost (fun _ org l => if Nat.eqb org l then 0 else 1)%Z bc v in
  s_mdf s <= br_depth b ->
  (forall d' n' t', allowed ok_f (c_mls G) d' n' v t' -> (nd_sol (Model_Cache.c_lb (s_c s) v b d' n') <= cost t')%Z) ->
  (forall d' n' t', c_is_optimal (s_c s) v b d' n' = true -> allowed ok_f (c_mls G) d' n' v t' -> (nd_sol (c_retrieve T (s_c s) v b d' n') <= cost t')%Z) ->
  allowed ok_f (c_mls G) d n v t ->
  (nd_sol (compute_lb T G s v b d n) <= cost t)%Z.
Proof.
  intros xs nf bc mls w G ok_f s b d n t OK IN Hbc T v cost Hm Hlb Hopt Ht.
  apply (C35_lower_bound_partial T G bc ok_f s v b d n t (C35_accuracy _ _ Hbc) Hm Hlb Hopt); [|exact Ht].
  intros g t' Hg. exact (C35_task_bound xs nf bc mls w b d n g t' OK IN Hg).
Qed.

(** Thirty-two rows in four groups of the first feature and the label: left of feature 0 the
    label is feature 1, right of it the label is the conjunction of features 2 and 3. *)
Definition sparse_rows : list (list nat * nat) :=
  List.concat [ repeat ([1;1;1;1],1) 3; repeat ([1;1;1;0],0) 2; repeat ([1;1;0;1],0) 2; [([1;1;0;0],0)];
    repeat ([1;0;1;1],1) 3; repeat ([1;0;1;0],0) 2; repeat ([1;0;0;1],0) 2; [([1;0;0;0],0)];
    repeat ([0;1;1;1],1) 2; repeat ([0;1;1;0],1) 2; repeat ([0;1;0;1],1) 2; repeat ([0;1;0;0],1) 2;
    repeat ([0;0;1;1],0) 2; repeat ([0;0;1;0],0) 2; repeat ([0;0;0;1],0) 2; repeat ([0;0;0;0],0) 2 ].
Definition sparse_insts : list inst := map (fun p => mk_inst (fst p) (fst (snd p))) (combine (seq 0 32) sparse_rows).
Definition sparse_view : view := mk_view 2 sparse_rows.
(** A cost of 2 per node: cost-complexity 0.0625 with 32 instances. *)
Definition sparse_ex : task := cca (uid_table sparse_insts) 2.
Definition cheaper : tree := Split 0 (Split 1 (Leaf 0) (Leaf 1)) (Split 2 (Leaf 0) (Split 3 (Leaf 0) (Leaf 1))).

(** The rows are in the order the task's preprocessing gives them. *)
Example sparse_rows_sorted : map fst (cca_preprocess sparse_insts) = sparse_insts.
Proof. vm_compute. reflexivity. Qed.

Definition sparse_answer : fit_result := fit sparse_ex (defaults false 1) (Params 3 7 false no_bound) 4 no_limit sparse_view.

(** C35 is false at the root's children once the search of depth 2 is finished: the state is
    the one in which the search of depth 3 starts, the subproblem is the left side of the
    first feature with a depth budget of 2. *)
Definition sparse_parts : (nat -> bool) * (nat -> bool) * view := preprocess sparse_ex 1 4 sparse_view.
Definition sparse_cfg : cfg := mk_cfg (defaults false 1) 4 (snd (fst sparse_parts)) no_limit.
Definition after_depth_two : st :=
  let v := snd sparse_parts in
  let s := init_state sparse_cfg false true (vsize v) in
  let '(res, gub) := first_ub sparse_ex sparse_cfg (Params 3 7 false no_bound) v (init_sol sparse_ex) in
  o_st (fst (depth_step sparse_ex sparse_cfg (Params 3 7 false no_bound) v (Outer res gub s 3) 2)).
Theorem C35_bound_refuted : exists t,
  allowed (fun f => f < 4) 1 2 3 (split_left 0 (snd sparse_parts)) t
  /\ (sparse_cost (tk_inst sparse_ex) 2 (split_left 0 (snd sparse_parts)) t
      < nd_sol (compute_lb sparse_ex sparse_cfg after_depth_two (split_left 0 (snd sparse_parts)) (br_left [] 0) 2 3))%Z.
Proof.
  exists (Split 1 (Leaf 0) (Leaf 1)). split; [|vm_compute; reflexivity].
  unfold allowed. split; [|split; [|split]].
  - cbn [fits]. replace (length (split_left 0 (snd sparse_parts))) with 2 by (vm_compute; reflexivity). lia.
  - cbn [leaves_ok]. split; apply Nat.leb_le; vm_compute; reflexivity.
  - cbn; lia.
  - cbn; lia.
Qed.

(** C35, consequence for the user: with the default settings the returned tree of cost 10 is
    called optimal although a tree within the same limits costs 8. *)
Theorem C35_value_refuted : exists t,
  allowed (fun f => f < 4) 1 3 7 sparse_view t
  /\ (sparse_cost (tk_inst sparse_ex) 2 sparse_view t < nd_sol (fr_value sparse_answer))%Z
  /\ fr_proven sparse_answer = true.
Proof.
  exists cheaper. split; [|split; vm_compute; reflexivity].
  unfold allowed. split; [|split; [|split]].
  - cbn [fits cheaper]. replace (length sparse_view) with 2 by (vm_compute; reflexivity). lia.
  - cbn [leaves_ok cheaper]. repeat split; apply Nat.leb_le; vm_compute; reflexivity.
  - cbn; lia.
  - cbn; lia.
Qed.

(** The hypotheses of C35_lower_bound_partial are met at the start of a fit, where the bound
    is not trivial: no tree costs less than one node (2), and the best leaf errs 14 times. *)
Example c35_ex : let s := init_state sparse_cfg false true 32 in
  s_mdf s <= br_depth [] /\ nd_sol (compute_lb sparse_ex sparse_cfg s (snd sparse_parts) [] 3 7) = 2%Z
  /\ (forall d n, nd_sol (Model_Cache.c_lb (s_c s) (snd sparse_parts) [] d n) = 0%Z)
  /\ (forall d n, c_is_optimal (s_c s) (snd sparse_parts) [] d n = false).
Proof.
  split; [cbn; lia|]. split; [vm_compute; reflexivity|]. split.
  - intros d n. reflexivity.
  - intros d n. reflexivity.
Qed.
(** The data of C35_task_bound: the bound is not trivial once the informative features are gone:
    here eight rows that look the same, three of which have another label. *)
Definition alike_insts : list inst := map (fun i => mk_inst i [1; 0]) (seq 0 8).
Definition alike_view : view := [firstn 5 (map fst (cca_preprocess alike_insts)); skipn 5 (map fst (cca_preprocess alike_insts))].
Example c35_task_case : Forall (inst_ok 2) alike_insts /\ (forall x, In x (concat alike_view) -> In x (map fst (cca_preprocess alike_insts)))
  /\ cca_bound (uid_table alike_insts) (snd (preprocess (cca (uid_table alike_insts) 2) 1 2 alike_view)) = 3%Z
  /\ tree_cost (fun _ org l => if Nat.eqb org l then 0 else 1)%Z (snd (preprocess (cca (uid_table alike_insts) 2) 1 2 alike_view)) (Leaf 0) = 3%Z.
Proof.
  split; [|split; [|split; vm_compute; reflexivity]].
  - apply Forall_forall. intros x I. apply in_map_iff in I. destruct I as (i & <- & _). split; [reflexivity|apply fv_make_ok].
  - intros x I. unfold alike_view in I. cbn [concat] in I. rewrite app_nil_r, firstn_skipn in I. exact I.
Qed.
Example c35_ex_budget : reduce_budget sparse_ex (snd sparse_parts) [] (value_node 5) 4 15 = (2, 3).
Proof. vm_compute. reflexivity. Qed.

Print Assumptions C35_reduce_budget.
Print Assumptions C35_reduced_depth.
Print Assumptions C35_break.
Print Assumptions C35_lower_bound_partial.
Print Assumptions C35_accuracy.
Print Assumptions C35_task_bound.
Print Assumptions C35_accuracy_bound_partial.
Print Assumptions C35_bound_refuted.
Print Assumptions C35_value_refuted.
