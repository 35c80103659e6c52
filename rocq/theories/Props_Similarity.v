(** C18: the bound taken over from a similar data set. *)
From Coq Require Import List Arith Bool Lia ZArith QArith Qminmax Lqa.
From Verif Require Import Model_FeatureVector Model_Data Model_Node Model_Terminal Model_Solver Model_Regression Model_Similarity
  Base_Q Spec_Tree Spec_Examples Proofs_View Proofs_Diff Proofs_Search.
Import ListNotations.
Local Open Scope nat_scope.

(** Two parts of one training set: with the same labels, and an instance number stands for
    one instance. *)
Definition same_source (old new : view) : Prop :=
  length old = length new
  /\ forall k x y, In x (nth k old []) -> In y (nth k new []) -> iid x = iid y -> x = y.
(** The objective: a cost per instance plus [bc] for every branching node. *)
Definition total (c : inst -> nat -> nat -> Z) (bc : Z) (v : view) (t : tree) : Z := (tree_cost c v t + bc * Z.of_nat (nodes t))%Z.
(** No tree within the budgets and the minimum leaf size [m] costs less than [z]. *)
Definition not_below (c : inst -> nat -> nat -> Z) (bc : Z) (ok_f : nat -> Prop) (m d n : nat) (v : view) (z : Z) : Prop :=
  forall t, allowed ok_f m d n v t -> (z <= total c bc v t)%Z.

Lemma list_bound (g : inst -> Z) (w : Z) : forall new old,
  (forall x y, In x old -> In y new -> iid x = iid y -> x = y) ->
  (forall x, 0 <= g x <= w)%Z ->
  (zsum (map g old) <= zsum (map g new) + w * Z.of_nat (snd (diff_counts new old)))%Z.
Proof.
  induction new as [|x new IHn]; intros old HS Hg.
  - assert (E : diff_counts [] old = (0, length old)) by (destruct old; reflexivity). rewrite E. cbn [snd map zsum].
    clear HS E. induction old as [|y old IH]; cbn [map zsum length]; [lia|]. pose proof (Hg y). lia.
  - induction old as [|y old IHo].
    + cbn [map zsum]. assert (0 <= zsum (map g new))%Z.
      { clear IHn HS. induction new as [|z new IH]; cbn [map zsum]; [lia|]. pose proof (Hg z). lia. }
      pose proof (Hg x). change (snd (diff_counts (x :: new) [])) with 0. lia.
    + rewrite diff_counts_cons. destruct (iid x <? iid y) eqn:E1.
      * specialize (IHn (y :: old) (fun a b Ha Hb => HS a b Ha (or_intror Hb)) Hg).
        destruct (diff_counts new (y :: old)) as [a r]. cbn [snd] in *. cbn [map zsum] in *. pose proof (Hg x). lia.
      * destruct (iid y <? iid x) eqn:E2.
        -- specialize (IHo (fun a b Ha Hb => HS a b (or_intror Ha) Hb)).
           destruct (diff_counts (x :: new) old) as [a r]. cbn [snd] in *. cbn [map zsum] in *. pose proof (Hg y). lia.
        -- assert (y = x).
           { apply HS; [left; reflexivity|left; reflexivity|]. apply Nat.ltb_ge in E1, E2. lia. }
           subst y. specialize (IHn old (fun a b Ha Hb => HS a b (or_intror Ha) (or_intror Hb)) Hg). cbn [map zsum]. lia.
Qed.

Lemma view_bound (w : nat -> Z) (c : nat -> inst -> Z) : (forall j x, 0 <= c j x <= w j)%Z ->
  forall old new k, length old = length new ->
  (forall i x y, In x (nth i old []) -> In y (nth i new []) -> iid x = iid y -> x = y) ->
  (vsum_from c k old <= vsum_from c k new + wsum_from w k (diff_metrics old new))%Z.
Proof.
  intros Hc. induction old as [|xs old IH]; intros new k Hl HS; destruct new as [|ys new]; try discriminate Hl; [cbn; lia|].
  unfold diff_metrics. cbn [combine map vsum_from wsum_from fst snd].
  pose proof (list_bound (c k) (w k) ys xs (HS 0) (Hc k)).
  assert (Hl' : length old = length new) by (cbn [length] in Hl; lia).
  pose proof (IH new (S k) Hl' (fun i => HS (S i))) as H2. unfold diff_metrics in H2. lia.
Qed.

Lemma subtract_wsum T old new : length old = length new ->
  sim_subtract T (num_labels new) (diff_metrics old new) = wsum_from (tk_wpl T) 0 (diff_metrics old new).
Proof.
  intro H. unfold sim_subtract. rewrite <- (sim_subtract_wsum (tk_wpl T) (diff_metrics old new) 0).
  assert (E : length (diff_metrics old new) = num_labels new).
  { unfold diff_metrics, num_labels. rewrite map_length, combine_length. lia. }
  rewrite E. apply Proofs_Terminal.fold_left_ext. intros a j _. rewrite Nat.sub_0_r. reflexivity.
Qed.

(** C18, trees: for every tree, its cost on the old data is at most its cost on the new data
    plus the amount that is subtracted. *)
Theorem C18_tree : forall T bc old new t,
  (forall x k l, 0 <= tk_inst T x k l <= tk_wpl T k)%Z -> same_source old new ->
  (total (tk_inst T) bc old t <= total (tk_inst T) bc new t + sim_subtract T (num_labels new) (diff_metrics old new))%Z.
Proof.
  intros T bc old new t Hc [Hl HS]. unfold total. rewrite subtract_wsum by exact Hl. rewrite !tree_cost_vsum. unfold vsum.
  pose proof (view_bound (tk_wpl T) (fun j x => tk_inst T x j (predict t x)) (fun j x => Hc x j _) old new 0 Hl HS). lia.
Qed.

(** C18: with a minimum leaf size of at most one, a bound for the old data minus that amount
    (cut off at zero) is a bound for the new data, for every depth and node budget.  [bc] is
    the cost per branching node (zero for plain accuracy). *)
Theorem C18_bound : forall T bc ok_f m d n old new z,
  (forall x k l, 0 <= tk_inst T x k l <= tk_wpl T k)%Z -> (0 <= bc)%Z -> same_source old new ->
  m <= 1 -> 1 <= vsize old ->
  not_below (tk_inst T) bc ok_f m d n old z ->
  not_below (tk_inst T) bc ok_f m d n new (zsub z (sim_subtract T (num_labels new) (diff_metrics old new))).
Proof.
  intros T bc ok_f m d n old new z Hc Hbc HS Hm Hne Hz t Ht.
  destruct Ht as (Hf & _ & Hd & Hn).
  destruct (prune_tree t ok_f (length new) (concat old) Hf Hne) as (t' & A1 & A2 & A3 & A4 & A5).
  assert (Ht' : allowed ok_f m d n old t').
  { destruct HS as [Hl _]. unfold allowed. rewrite Hl. repeat split; try assumption; try lia.
    revert A2. clear -Hm. generalize (concat old). induction t' as [l|f l IHl r IHr]; intro xs; cbn [leaves_ok]; [lia|].
    intros [H1 H2]. split; [apply IHl|apply IHr]; assumption. }
  specialize (Hz t' Ht').
  assert (E : (total (tk_inst T) bc old t' <= total (tk_inst T) bc old t)%Z).
  { unfold total. assert (H1 : tree_cost (tk_inst T) old t' = tree_cost (tk_inst T) old t).
    { rewrite !tree_cost_vsum. apply vsum_ext. intros j x Hx. rewrite A5; [reflexivity|exact Hx]. }
    rewrite H1. nia. }
  pose proof (C18_tree T bc old new t Hc HS) as H.
  assert (N : (0 <= total (tk_inst T) bc new t)%Z).
  { unfold total. rewrite tree_cost_vsum. pose proof (vsum_nonneg (fun j x => tk_inst T x j (predict t x)) new (fun j x _ => proj1 (Hc x j _))). nia. }
  unfold zsub. lia.
Qed.

(** C18: when the difference is zero the two data sets are the same. *)
Theorem C18_no_difference : forall old new, same_source old new ->
  total_difference (diff_metrics old new) = 0 -> old = new.
Proof.
  intros old new [Hl HS]. revert new Hl HS. induction old as [|xs old IH]; intros [|ys new] Hl HS H; try discriminate; [reflexivity|].
  unfold diff_metrics in H. cbn [combine map total_difference fold_right fst snd] in H. f_equal.
  - assert (E : diff_counts ys xs = (0, 0)) by (destruct (diff_counts ys xs); cbn [fst snd] in H; f_equal; lia).
    specialize (HS 0). cbn [nth] in HS. clear IH H Hl. revert xs HS E. induction ys as [|y ys IHy]; intros xs HS E.
    + destruct xs; [reflexivity|]. discriminate E.
    + destruct xs as [|x xs]; [discriminate E|]. rewrite diff_counts_cons in E.
      destruct (iid y <? iid x) eqn:E1; [destruct (diff_counts ys (x :: xs)); discriminate|].
      destruct (iid x <? iid y) eqn:E2; [destruct (diff_counts (y :: ys) xs); discriminate|].
      assert (x = y) by (apply HS; [now left|now left|]; apply Nat.ltb_ge in E1, E2; lia). subst y. f_equal.
      apply IHy; [|exact E]. intros a b Ha Hb. apply HS; now right.
  - apply IH; [cbn [length] in Hl; lia|intro k; apply (HS (S k))|]. unfold total_difference, diff_metrics. lia.
Qed.

(** C18 fails for larger leaves: three instances can only be a leaf (one error), four can be
    split without errors, and nothing is subtracted because nothing was removed. *)
Definition lv (rows : list (nat * list nat * nat)) : view :=
  map (fun k => map (fun r => mk_inst (fst (fst r)) (snd (fst r))) (filter (fun r => snd r =? k) rows)) (seq 0 2).
Definition three_old : view := lv [(0, [0], 0); (1, [0], 0); (2, [1], 1)].
Definition four_new : view := lv [(0, [0], 0); (1, [0], 0); (2, [1], 1); (3, [1], 1)].
Theorem C18_leaf_size_refuted : exists old new z t,
  same_source old new
  /\ not_below (tk_inst acc) 0 (fun f => f < 1) 2 1 1 old z
  /\ allowed (fun f => f < 1) 2 1 1 new t
  /\ (total (tk_inst acc) 0 new t < zsub z (sim_subtract acc (num_labels new) (diff_metrics old new)))%Z.
Proof.
  exists three_old, four_new, 1%Z, (Split 0 (Leaf 0) (Leaf 1)). split; [|split; [|split]].
  - split; [reflexivity|]. intros k x y Hx Hy E.
    destruct k as [|[|k]]; cbn in Hx, Hy.
    + destruct Hx as [<-|[<-|[]]]; destruct Hy as [<-|[<-|[]]]; cbn in E; try discriminate; reflexivity.
    + destruct Hx as [<-|[]]; destruct Hy as [<-|[<-|[]]]; cbn in E; try discriminate; reflexivity.
    + destruct k; contradiction.
  - intros t (Hf & Hlv & Hd & _). destruct t as [l|f l r].
    + cbn [fits] in Hf. change (length three_old) with 2 in Hf. destruct l as [|[|l]]; [vm_compute; discriminate|vm_compute; discriminate|lia].
    + cbn [fits depth] in Hf, Hd. destruct l as [l|]; [|cbn [depth] in Hd; lia]. destruct r as [r|]; [|cbn [depth] in Hd; lia].
      destruct Hf as [Hf _]. assert (f = 0) by lia. subst f. cbn in Hlv. lia.
  - unfold allowed. cbn. lia.
  - vm_compute. reflexivity.
Qed.

(** ** Tasks with a bound of their own *)
(** C18: walking two lists together, for any cost per item between zero and its worst
    contribution: the cost of the old data is at most that of the new data plus the amount. *)
Theorem C18_custom : forall {A : Type} (idf : A -> nat) (worst : A -> Q) (count : A -> nat) (c : A -> Q) new old,
  (forall x y, In x old -> In y new -> idf x = idf y -> x = y) ->
  (forall x, In x new -> 0 <= c x)%Q -> (forall x, In x old -> c x <= worst x)%Q ->
  (sumQ c old <= sumQ c new + fst (custom_diff idf worst count new old))%Q.
Proof.
  intros A idf worst count c. induction new as [|x new IHn]; intros old HS Hn Ho.
  - induction old as [|y old IH]; [cbn; lra|].
    assert (E : custom_diff idf worst count [] (y :: old) = ((worst y + fst (custom_diff idf worst count [] old))%Q, count y + snd (custom_diff idf worst count [] old))) by reflexivity.
    rewrite E. cbn [fst sumQ]. pose proof (Ho y (or_introl eq_refl)).
    specialize (IH (fun a b Ha Hb => HS a b (or_intror Ha) Hb) (fun a Ha => Ho a (or_intror Ha))). cbn [sumQ] in IH. lra.
  - induction old as [|y old IHo].
    + assert (E : fst (custom_diff idf worst count (x :: new) []) = 0%Q) by reflexivity. rewrite E. cbn [sumQ].
      pose proof (Hn x (or_introl eq_refl)). pose proof (sumQ_nonneg c new (fun a Ha => Hn a (or_intror Ha))). lra.
    + assert (E : custom_diff idf worst count (x :: new) (y :: old) =
        if idf x <? idf y then let r := custom_diff idf worst count new (y :: old) in (fst r, count x + snd r)
        else if idf y <? idf x then let r := custom_diff idf worst count (x :: new) old in ((worst y + fst r)%Q, count y + snd r)
        else custom_diff idf worst count new old) by reflexivity.
      rewrite E. cbn zeta. destruct (idf x <? idf y) eqn:E1.
      * specialize (IHn (y :: old) (fun a b Ha Hb => HS a b Ha (or_intror Hb)) (fun a Ha => Hn a (or_intror Ha)) Ho).
        pose proof (Hn x (or_introl eq_refl)). cbn [fst]. cbn [sumQ] in *. lra.
      * destruct (idf y <? idf x) eqn:E2.
        -- specialize (IHo (fun a b Ha Hb => HS a b (or_intror Ha) Hb) (fun a Ha => Ho a (or_intror Ha))).
           pose proof (Ho y (or_introl eq_refl)). cbn [fst]. cbn [sumQ] in *. lra.
        -- assert (y = x) by (apply HS; [now left|now left|]; apply Nat.ltb_ge in E1, E2; lia). subst y.
           specialize (IHn old (fun a b Ha Hb => HS a b (or_intror Ha) (or_intror Hb)) (fun a Ha => Hn a (or_intror Ha)) (fun a Ha => Ho a (or_intror Ha))).
           cbn [sumQ]. lra.
Qed.

(** C18: costs per instance ([snd x] lists the costs of the labels of instance [x]); [p x] is
    the label given to [x]. *)
Lemma fold_worst r : forall m, (m <= fold_left (fun m k => if Qle_bool k m then m else k) r m)%Q
  /\ forall k, In k r -> (k <= fold_left (fun m k => if Qle_bool k m then m else k) r m)%Q.
Proof.
  induction r as [|k r IH]; intro m; cbn [fold_left]; [split; [lra|contradiction]|].
  destruct (IH (if Qle_bool k m then m else k)) as [A B]. split.
  - destruct (Qle_bool k m) eqn:E; [exact A|]. assert (~ (k <= m)%Q) by (intro H; apply Qle_bool_iff in H; congruence). lra.
  - intros j [<-|H]; [|apply B; exact H]. destruct (Qle_bool k m) eqn:E; [|exact A]. apply Qle_bool_iff in E. lra.
Qed.
Lemma ics_worst_max costs k : In k costs -> (k <= ics_worst costs)%Q.
Proof. destruct costs as [|c r]; [contradiction|]. cbn [ics_worst]. destruct (fold_worst r c) as [A B]. intros [<-|H]; [exact A|apply B; exact H]. Qed.
Theorem C18_instance_costs : forall (p : nat * list Q -> nat) new old,
  (forall x y, In x old -> In y new -> fst x = fst y -> x = y) ->
  (forall x, In x (new ++ old) -> p x < length (snd x)) -> (forall x k, In x new -> In k (snd x) -> 0 <= k)%Q ->
  let cost := fun x : nat * list Q => nth (p x) (snd x) 0%Q in
  (sumQ cost old <= sumQ cost new + fst (custom_diff fst (fun x => ics_worst (snd x)) (fun _ => 1%nat) new old))%Q.
Proof.
  intros p new old HS Hp Hk cost. apply C18_custom; [exact HS| |].
  - intros x Hx. apply (Hk x); [exact Hx|]. apply nth_In, Hp. apply in_or_app. now left.
  - intros x Hx. apply ics_worst_max. apply nth_In, Hp. apply in_or_app. now right.
Qed.

(** C18 fails for cost-complex regression: rows with equal features are put together into one
    instance, and only the distance of their mean counts as the worst contribution.  [bc] is
    the cost per node; [lo] and [hi] are the smallest and the largest label. *)
Fixpoint rnodes (t : rtree) : nat := match t with RLeaf _ => 0 | RSplit _ l r => S (rnodes l + rnodes r) end.
Definition rtotal (bc : Q) (xs : list ritem) (t : rtree) : Q := (cc_tree_cost xs t + bc * qn (rnodes t))%Q.
Lemma cc_cost_nonneg t : forall xs, (0 <= cc_tree_cost xs t)%Q.
Proof.
  induction t as [c|f l IHl r IHr]; intro xs; cbn [cc_tree_cost].
  - unfold cc_leaf_costs. destruct (cc_sums xs) as [[y q] w]. apply Q.le_max_l.
  - pose proof (IHl (filter (fun i => negb (has f (r_x i))) xs)). pose proof (IHr (filter (fun i => has f (r_x i)) xs)). lra.
Qed.
(** Eight zeros with one feature vector; the old data also has a zero and a ten that share
    another feature vector. *)
Definition zeros : ritem := RI (mk_inst 0 [0]) 0 0 0 8.
Definition pair_item : ritem := RI (mk_inst 8 [1]) 1 10 100 2.
Theorem C18_regression_refuted : exists bc lo hi old new z t,
  (forall x y, In x old -> In y new -> iid (r_x x) = iid (r_x y) -> x = y)
  /\ (forall t', z <= rtotal bc old t')%Q
  /\ (rtotal bc new t < z - fst (cc_sim lo hi old new))%Q.
Proof.
  exists 90%Q, 0%Q, 10%Q, [zeros; pair_item], [zeros], 90%Q, (RLeaf 0). split; [|split].
  - intros x y [<-|[<-|[]]] [<-|[]] E; [reflexivity|discriminate E].
  - intros t'. unfold rtotal. pose proof (cc_cost_nonneg t' [zeros; pair_item]) as N. destruct t' as [c|f l r].
    + assert (E : (cc_leaf_costs [zeros; pair_item] c == Qmax 0 (100 - 2 * c * 10 + 10 * c * c))%Q).
      { unfold cc_leaf_costs. cbn [cc_sums fold_left fst snd r_y r_q r_w zeros pair_item Nat.add]. change (qn 10) with 10%Q.
        apply Q.max_compat; [reflexivity|]. ring. }
      cbn [cc_tree_cost rnodes]. rewrite E. change (qn 0) with 0%Q.
      pose proof (Q.le_max_r 0 (100 - 2 * c * 10 + 10 * c * c)) as M.
      assert (0 <= (c - 1) * (c - 1))%Q by (destruct (Qlt_le_dec (c - 1) 0); nra). nra.
    + cbn [rnodes]. rewrite qn_S. assert (0 <= qn (rnodes l + rnodes r))%Q.
      { unfold qn. change 0%Q with (inject_Z 0). rewrite <- Zle_Qle. lia. }
      lra.
  - vm_compute. reflexivity.
Qed.

(** The hypotheses of C18_bound are met and the bound is not trivial: two of five instances
    are replaced by another one; the best leaf errs twice on the old data and once on the new. *)
Definition old_ex : view := lv [(0, [0], 0); (1, [0], 0); (2, [0], 1); (3, [0], 1); (4, [0], 0)].
Definition new_ex : view := lv [(0, [0], 0); (1, [0], 0); (3, [0], 1); (4, [0], 0); (5, [0], 0)].
Example c18_ex : same_source old_ex new_ex /\ 1 <= vsize old_ex
  /\ not_below (tk_inst acc) 1 (fun f => f < 1) 1 1 1 old_ex 2
  /\ zsub 2 (sim_subtract acc (num_labels new_ex) (diff_metrics old_ex new_ex)) = 1%Z.
Proof.
  split; [|split; [cbn; lia|split; [|reflexivity]]].
  - split; [reflexivity|]. intros k x y Hx Hy E. destruct k as [|[|k]]; cbn in Hx, Hy.
    + repeat (destruct Hx as [<-|Hx]; [repeat (destruct Hy as [<-|Hy]; [cbn in E; try discriminate; reflexivity|]); contradiction|]); contradiction.
    + repeat (destruct Hx as [<-|Hx]; [repeat (destruct Hy as [<-|Hy]; [cbn in E; try discriminate; reflexivity|]); contradiction|]); contradiction.
    + destruct k; contradiction.
  - intros t (Hf & Hlv & Hd & Hn). destruct t as [l|f l r].
    + cbn [fits] in Hf. change (length old_ex) with 2 in Hf. destruct l as [|[|l]]; [vm_compute; discriminate|vm_compute; discriminate|lia].
    + cbn [fits depth] in Hf, Hd. destruct Hf as (Hf & _). assert (f = 0) by lia. subst f.
      destruct l as [l|]; [|cbn [depth] in Hd; lia]. destruct r as [r|]; [|cbn [depth] in Hd; lia]. cbn in Hlv. lia.
Qed.

Print Assumptions C18_tree.
Print Assumptions C18_bound.
Print Assumptions C18_no_difference.
Print Assumptions C18_leaf_size_refuted.
Print Assumptions C18_custom.
Print Assumptions C18_instance_costs.
Print Assumptions C18_regression_refuted.
