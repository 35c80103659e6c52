(** Lemmas about views, splits, branches and tree costs. *)
From Coq Require Import List Arith Bool Lia ZArith Permutation Sorted.
From Verif Require Import Model_FeatureVector Model_Data Model_Terminal Spec_Tree.
Import ListNotations.

(** ** Sums over a view *)
Fixpoint zsum (l : list Z) : Z := match l with [] => 0%Z | a :: r => (a + zsum r)%Z end.
Fixpoint vsum_from (c : nat -> inst -> Z) (k : nat) (v : view) : Z :=
  match v with [] => 0%Z | xs :: r => (zsum (map (c k) xs) + vsum_from c (S k) r)%Z end.
Definition vsum (c : nat -> inst -> Z) (v : view) : Z := vsum_from c 0 v.

Lemma zsum_app a b : zsum (a ++ b) = (zsum a + zsum b)%Z.
Proof. induction a as [|x a IH]; cbn [zsum app]; [lia|rewrite IH; lia]. Qed.

Lemma zsum_filter {A} (p : A -> bool) (g : A -> Z) xs :
  zsum (map g xs) = (zsum (map g (filter (fun x => negb (p x)) xs)) + zsum (map g (filter p xs)))%Z.
Proof.
  induction xs as [|x xs IH]; [reflexivity|].
  cbn [map zsum filter]. destruct (p x); cbn [negb map zsum]; lia.
Qed.

Lemma vsum_from_split c f v k :
  vsum_from c k v = (vsum_from c k (split_left f v) + vsum_from c k (split_right f v))%Z.
Proof.
  revert k; induction v as [|xs v IH]; intro k; [reflexivity|].
  unfold split_left, split_right in *. cbn [map vsum_from].
  rewrite (IH (S k)), (zsum_filter (has f) (c k) xs). lia.
Qed.

Lemma vsum_split c f v : vsum c v = (vsum c (split_left f v) + vsum c (split_right f v))%Z.
Proof. apply vsum_from_split. Qed.

Lemma vsum_from_ext c1 c2 v k :
  (forall j xs x, In xs v -> In x xs -> c1 j x = c2 j x) -> vsum_from c1 k v = vsum_from c2 k v.
Proof.
  revert k; induction v as [|xs v IH]; intros k H; [reflexivity|].
  cbn [vsum_from]. rewrite (IH (S k)) by (intros; eapply H; [right|]; eauto).
  f_equal. f_equal. apply map_ext_in. intros x Hx. eapply H; [left; reflexivity|exact Hx].
Qed.

Lemma vsum_ext c1 c2 v :
  (forall j x, In x (concat v) -> c1 j x = c2 j x) -> vsum c1 v = vsum c2 v.
Proof.
  intro H. apply vsum_from_ext. intros j xs x Hxs Hx. apply H. apply in_concat. eauto.
Qed.

Lemma zsum_map_le {A} (g h : A -> Z) xs :
  (forall x, In x xs -> (g x <= h x)%Z) -> (zsum (map g xs) <= zsum (map h xs))%Z.
Proof.
  induction xs as [|x xs IH]; intro H; cbn [map zsum]; [lia|].
  pose proof (H x (or_introl eq_refl)). assert (zsum (map g xs) <= zsum (map h xs))%Z.
  { apply IH. intros; apply H; right; assumption. } lia.
Qed.

Lemma vsum_from_le c1 c2 v k :
  (forall j x, In x (concat v) -> (c1 j x <= c2 j x)%Z) -> (vsum_from c1 k v <= vsum_from c2 k v)%Z.
Proof.
  revert k; induction v as [|xs v IH]; intros k H; cbn [vsum_from]; [lia|].
  cbn [concat] in H.
  assert (zsum (map (c1 k) xs) <= zsum (map (c2 k) xs))%Z.
  { apply zsum_map_le. intros; apply H; apply in_or_app; left; assumption. }
  assert (vsum_from c1 (S k) v <= vsum_from c2 (S k) v)%Z.
  { apply IH. intros; apply H; apply in_or_app; right; assumption. } lia.
Qed.

(** The same when the bound is known for the instances of each label. *)
Lemma vsum_from_le_at c1 c2 v k :
  (forall j x, In x (nth j v []) -> (c1 (k + j)%nat x <= c2 (k + j)%nat x)%Z) -> (vsum_from c1 k v <= vsum_from c2 k v)%Z.
Proof.
  revert k; induction v as [|xs v IH]; intros k H; cbn [vsum_from]; [lia|].
  assert (zsum (map (c1 k) xs) <= zsum (map (c2 k) xs))%Z.
  { apply zsum_map_le. intros x Hx. specialize (H 0 x Hx). rewrite Nat.add_0_r in H. exact H. }
  assert (vsum_from c1 (S k) v <= vsum_from c2 (S k) v)%Z.
  { apply IH. intros j x Hx. specialize (H (S j) x Hx). rewrite Nat.add_succ_r in H. exact H. } lia.
Qed.

Lemma vsum_le c1 c2 v :
  (forall j x, In x (concat v) -> (c1 j x <= c2 j x)%Z) -> (vsum c1 v <= vsum c2 v)%Z.
Proof. apply vsum_from_le. Qed.

Lemma zsum_zero {A} (xs : list A) : zsum (map (fun _ => 0%Z) xs) = 0%Z.
Proof. induction xs; cbn [map zsum]; lia. Qed.

Lemma vsum_from_zero v k : vsum_from (fun _ _ => 0%Z) k v = 0%Z.
Proof. revert k; induction v as [|xs v IH]; intro k; cbn [vsum_from]; [reflexivity|rewrite zsum_zero, IH; lia]. Qed.

Lemma vsum_nonneg c v : (forall j x, In x (concat v) -> (0 <= c j x)%Z) -> (0 <= vsum c v)%Z.
Proof.
  intro H. rewrite <- (vsum_from_zero v 0). apply vsum_from_le. exact H.
Qed.

Lemma zsum_one {A} (xs : list A) : zsum (map (fun _ => 1%Z) xs) = Z.of_nat (length xs).
Proof. induction xs; cbn [map zsum length]; lia. Qed.

Lemma vsum_from_one v k : vsum_from (fun _ _ => 1%Z) k v = Z.of_nat (vsize v).
Proof.
  revert k; induction v as [|xs v IH]; intro k; [reflexivity|].
  cbn [vsum_from]. unfold vsize in *. cbn [concat]. rewrite app_length, zsum_one, IH. lia.
Qed.

(** ** Sizes *)
Lemma concat_map_filter {A} (p : A -> bool) (v : list (list A)) :
  concat (map (filter p) v) = filter p (concat v).
Proof.
  induction v as [|xs v IH]; [reflexivity|]. cbn [map concat]. rewrite IH, filter_app. reflexivity.
Qed.

Lemma concat_split_left f v : concat (split_left f v) = filter (fun x => negb (has f x)) (concat v).
Proof. apply concat_map_filter. Qed.
Lemma concat_split_right f v : concat (split_right f v) = filter (has f) (concat v).
Proof. apply concat_map_filter. Qed.

Lemma filter_length_split {A} (p : A -> bool) xs :
  length xs = length (filter (fun x => negb (p x)) xs) + length (filter p xs).
Proof. induction xs as [|x xs IH]; [reflexivity|]. cbn [filter length]. destruct (p x); cbn [negb length]; lia. Qed.

Lemma vsize_split f v : vsize v = vsize (split_left f v) + vsize (split_right f v).
Proof.
  unfold vsize. rewrite concat_split_left, concat_split_right. apply filter_length_split.
Qed.

Lemma num_labels_left f v : num_labels (split_left f v) = num_labels v.
Proof. apply map_length. Qed.
Lemma num_labels_right f v : num_labels (split_right f v) = num_labels v.
Proof. apply map_length. Qed.

(** ** Tree costs *)
Lemma cost_from_vsum c k v t : cost_from c k v t = vsum_from (fun j x => c x j (predict t x)) k v.
Proof.
  revert k; induction v as [|xs v IH]; intro k; [reflexivity|].
  cbn [cost_from vsum_from]. rewrite IH. f_equal.
  induction xs as [|x xs IHx]; [reflexivity|]. cbn [fold_right map zsum]. rewrite IHx. reflexivity.
Qed.

Lemma tree_cost_vsum c v t : tree_cost c v t = vsum (fun j x => c x j (predict t x)) v.
Proof. apply cost_from_vsum. Qed.

Lemma tree_cost_split c v f l r :
  tree_cost c v (Split f l r) = (tree_cost c (split_left f v) l + tree_cost c (split_right f v) r)%Z.
Proof.
  rewrite !tree_cost_vsum, (vsum_split _ f v). f_equal.
  - apply vsum_ext. intros j x Hx. rewrite concat_split_left in Hx. apply filter_In in Hx.
    destruct Hx as [_ Hx]. cbn [predict]. destruct (has f x); [discriminate|reflexivity].
  - apply vsum_ext. intros j x Hx. rewrite concat_split_right in Hx. apply filter_In in Hx.
    destruct Hx as [_ Hx]. cbn [predict]. rewrite Hx. reflexivity.
Qed.

Lemma misclassified_cost v t :
  Z.of_nat (misclassified v t) = tree_cost (fun _ k l => if k =? l then 0%Z else 1%Z) v t.
Proof.
  unfold misclassified, tree_cost. generalize 0. induction v as [|xs v IH]; intro k; [reflexivity|].
  cbn [wrong_from cost_from]. rewrite Nat2Z.inj_add, IH. f_equal.
  induction xs as [|x xs IHx]; [reflexivity|]. cbn [filter fold_right].
  rewrite (Nat.eqb_sym (predict t x) k).
  destruct (k =? predict t x); cbn [negb length]; rewrite <- IHx; lia.
Qed.

(** ** Allowed trees of the two sides *)
Lemma allowed_split ok_f m d n v f l r :
  allowed ok_f m d n v (Split f l r) <->
  ok_f f /\ 1 <= d /\ 1 + nodes l + nodes r <= n
  /\ allowed ok_f m (d - 1) (nodes l) (split_left f v) l
  /\ allowed ok_f m (d - 1) (nodes r) (split_right f v) r.
Proof.
  unfold allowed. cbn [fits leaves_ok depth nodes].
  change (length (split_left f v)) with (num_labels (split_left f v)).
  change (length (split_right f v)) with (num_labels (split_right f v)).
  rewrite num_labels_left, num_labels_right, concat_split_left, concat_split_right.
  unfold num_labels. intuition (try lia).
Qed.

Lemma allowed_mono ok_f m d n d' n' v t :
  allowed ok_f m d n v t -> d <= d' -> n <= n' -> allowed ok_f m d' n' v t.
Proof. unfold allowed. intuition lia. Qed.

Lemma leaves_ok_size m xs t : leaves_ok m xs t -> m <= length xs.
Proof.
  revert xs; induction t as [l|f l IHl r IHr]; intros xs H; cbn [leaves_ok] in H; [exact H|].
  destruct H as [Hl _]. apply IHl in Hl.
  rewrite (filter_length_split (has f) xs). lia.
Qed.

Lemma allowed_size ok_f m d n v t : allowed ok_f m d n v t -> m <= vsize v.
Proof. intros (_ & H & _). apply leaves_ok_size in H. exact H. Qed.

Lemma leaves_ok_split_size m xs f l r :
  leaves_ok m xs (Split f l r) ->
  m <= length (filter (fun x => negb (has f x)) xs) /\ m <= length (filter (has f) xs).
Proof. cbn [leaves_ok]. intros [Hl Hr]. split; eapply leaves_ok_size; eauto. Qed.

Lemma depth_le_nodes t : depth t <= nodes t.
Proof. induction t as [l|f l IHl r IHr]; cbn [depth nodes]; lia. Qed.

Lemma nodes_lt_pow t : nodes t < 2 ^ depth t.
Proof.
  induction t as [l|f l IHl r IHr]; cbn [depth nodes]; [cbn; lia|].
  rewrite Nat.pow_succ_r'.
  assert (2 ^ depth l <= 2 ^ Nat.max (depth l) (depth r)) by (apply Nat.pow_le_mono_r; lia).
  assert (2 ^ depth r <= 2 ^ Nat.max (depth l) (depth r)) by (apply Nat.pow_le_mono_r; lia).
  lia.
Qed.

Lemma nodes_le_full t d : depth t <= d -> nodes t <= 2 ^ d - 1.
Proof.
  intro H. pose proof (nodes_lt_pow t).
  assert (2 ^ depth t <= 2 ^ d) by (apply Nat.pow_le_mono_r; lia). lia.
Qed.

Lemma allowed_depth_nodes ok_f m d n v t :
  allowed ok_f m d n v t -> allowed ok_f m (Nat.min d n) n v t.
Proof. unfold allowed. pose proof (depth_le_nodes t). intuition lia. Qed.

(** ** Branches *)
Definition sat_code (c : nat) (x : inst) : bool := Bool.eqb (has (c / 2) x) (Nat.odd c).
Definition sat (b : branch) (x : inst) : bool := forallb (fun c => sat_code c x) b.
Definition restrict (b : branch) (root : view) : view := map (filter (sat b)) root.

Lemma restrict_nil root : restrict [] root = root.
Proof.
  unfold restrict. rewrite <- (map_id root) at 2. apply map_ext. intro xs.
  induction xs as [|x xs IH]; [reflexivity|]. cbn [filter]. unfold sat. cbn [forallb]. f_equal. exact IH.
Qed.

Lemma insert_sorted_perm x l : Permutation (insert_sorted x l) (x :: l).
Proof.
  induction l as [|y l IH]; cbn [insert_sorted]; [reflexivity|].
  destruct (x <=? y); [reflexivity|]. rewrite IH. apply perm_swap.
Qed.

Lemma sort_nat_perm l : Permutation (sort_nat l) l.
Proof.
  induction l as [|x l IH]; cbn [sort_nat]; [reflexivity|].
  rewrite insert_sorted_perm. constructor. exact IH.
Qed.

Lemma forallb_perm {A} (p : A -> bool) l1 l2 : Permutation l1 l2 -> forallb p l1 = forallb p l2.
Proof.
  induction 1 as [|x l1 l2 _ IH|x y l|l1 l2 l3 _ IH1 _ IH2]; cbn [forallb]; [reflexivity|rewrite IH; reflexivity| |congruence].
  destruct (p x), (p y); reflexivity.
Qed.

Lemma sat_code_br f p x : sat_code (br_code f p) x = Bool.eqb (has f x) p.
Proof.
  unfold sat_code, br_code. destruct p.
  - replace (2 * f + 1) with (1 + f * 2) by lia. rewrite Nat.div_add by lia.
    replace (1 / 2 + f) with f by reflexivity. rewrite Nat.mul_comm.
    replace (1 + 2 * f) with (S (2 * f)) by lia. rewrite Nat.odd_succ, Nat.even_mul. reflexivity.
  - rewrite Nat.add_0_r, Nat.mul_comm, Nat.div_mul by lia. rewrite Nat.odd_mul.
    rewrite andb_comm. reflexivity.
Qed.

Lemma sat_add b f p x : sat (br_add b f p) x = sat b x && Bool.eqb (has f x) p.
Proof.
  unfold sat, br_add. rewrite (forallb_perm _ _ _ (sort_nat_perm _)), forallb_app.
  cbn [forallb]. rewrite andb_true_r, sat_code_br. reflexivity.
Qed.

Lemma filter_filter {A} (p q : A -> bool) xs : filter p (filter q xs) = filter (fun x => q x && p x) xs.
Proof.
  induction xs as [|x xs IH]; [reflexivity|]. cbn [filter].
  destruct (q x) eqn:Hq; cbn [filter andb]; [destruct (p x); rewrite IH; reflexivity|exact IH].
Qed.

Lemma restrict_left b f root : split_left f (restrict b root) = restrict (br_left b f) root.
Proof.
  unfold split_left, restrict, br_left. rewrite map_map. apply map_ext. intro xs.
  rewrite filter_filter. apply filter_ext. intro x. rewrite sat_add. destruct (has f x); reflexivity.
Qed.

Lemma restrict_right b f root : split_right f (restrict b root) = restrict (br_right b f) root.
Proof.
  unfold split_right, restrict, br_right. rewrite map_map. apply map_ext. intro xs.
  rewrite filter_filter. apply filter_ext. intro x. rewrite sat_add. destruct (has f x); reflexivity.
Qed.

(** A feature that is already in the branch gives an empty side. *)
Lemma br_has_sat b f x : br_has b f = true -> sat b x = true ->
  (In (br_code f true) b /\ has f x = true) \/ (In (br_code f false) b /\ has f x = false).
Proof.
  intros Hb Hs. unfold br_has in Hb. apply existsb_exists in Hb. destruct Hb as (c & Hc & Heq).
  unfold sat in Hs. rewrite forallb_forall in Hs. specialize (Hs c Hc).
  apply orb_true_iff in Heq. destruct Heq as [Heq|Heq]; apply Nat.eqb_eq in Heq; subst c;
    rewrite sat_code_br in Hs; apply Bool.eqb_prop in Hs; auto.
Qed.

Lemma filter_all_false {A} (p : A -> bool) xs : (forall x, In x xs -> p x = false) -> filter p xs = [].
Proof.
  induction xs as [|x xs IH]; intro H; [reflexivity|]. cbn [filter].
  rewrite (H x (or_introl eq_refl)). apply IH. intros; apply H; right; assumption.
Qed.

Lemma in_restrict b root x : In x (concat (restrict b root)) <-> In x (concat root) /\ sat b x = true.
Proof. unfold restrict. rewrite concat_map_filter. apply filter_In. Qed.

Lemma br_has_empty b f root :
  br_has b f = true ->
  vsize (split_left f (restrict b root)) = 0 \/ vsize (split_right f (restrict b root)) = 0.
Proof.
  intro Hb. unfold vsize. rewrite concat_split_left, concat_split_right.
  unfold br_has in Hb. apply existsb_exists in Hb. destruct Hb as (c & Hc & Heq).
  apply orb_true_iff in Heq. destruct Heq as [Heq|Heq]; apply Nat.eqb_eq in Heq; subst c.
  - left. rewrite filter_all_false; [reflexivity|]. intros x Hx. apply in_restrict in Hx.
    destruct Hx as [_ Hx]. unfold sat in Hx. rewrite forallb_forall in Hx. specialize (Hx _ Hc).
    rewrite sat_code_br in Hx. apply Bool.eqb_prop in Hx. rewrite Hx. reflexivity.
  - right. rewrite filter_all_false; [reflexivity|]. intros x Hx. apply in_restrict in Hx.
    destruct Hx as [_ Hx]. unfold sat in Hx. rewrite forallb_forall in Hx. specialize (Hx _ Hc).
    rewrite sat_code_br in Hx. apply Bool.eqb_prop in Hx. exact Hx.
Qed.

(** ** Equality tests *)
Lemma list_nat_eqb_eq a b : list_nat_eqb a b = true <-> a = b.
Proof.
  revert b; induction a as [|x a IH]; intros [|y b]; cbn [list_nat_eqb]; split; intro H; try congruence; try discriminate.
  - apply andb_true_iff in H. destruct H as [H1 H2]. apply Nat.eqb_eq in H1. apply IH in H2. congruence.
  - inversion H; subst. rewrite Nat.eqb_refl. cbn [andb]. apply IH. reflexivity.
Qed.

Lemma br_eqb_eq a b : br_eqb a b = true <-> a = b.
Proof. apply list_nat_eqb_eq. Qed.

Lemma bits_eqb_eq a b : bits_eqb a b = true <-> a = b.
Proof.
  revert b; induction a as [|x a IH]; intros [|y b]; cbn [bits_eqb]; split; intro H; try congruence; try discriminate.
  - apply andb_true_iff in H. destruct H as [H1 H2]. apply Bool.eqb_prop in H1. apply IH in H2. congruence.
  - inversion H; subst. rewrite Bool.eqb_reflx. cbn [andb]. apply IH. reflexivity.
Qed.

(** ** Data-set keys determine the restricted view *)
Definition ids_ok (N : nat) (root : view) : Prop :=
  NoDup (map iid (concat root)) /\ (forall x, In x (concat root) -> iid x < N).

Lemma dkey_mem N v x :
  ids_ok N v -> forall v', In x (concat v') -> iid x < N ->
  nth (iid x) (dkey N v') false = true.
Proof.
  intros _ v' Hx Hlt. unfold dkey.
  rewrite (nth_indep _ false (existsb (fun y => iid y =? 0) (concat v'))) by (rewrite map_length, seq_length; exact Hlt).
  rewrite (map_nth (fun i => existsb (fun y => iid y =? i) (concat v')) (seq 0 N) 0).
  rewrite seq_nth by exact Hlt. cbn [Nat.add]. apply existsb_exists. exists x. split; [exact Hx|apply Nat.eqb_refl].
Qed.

Lemma dkey_mem_inv N v' i : i < N -> nth i (dkey N v') false = true -> exists x, In x (concat v') /\ iid x = i.
Proof.
  intros Hlt H. unfold dkey in H.
  rewrite (nth_indep _ false (existsb (fun y => iid y =? 0) (concat v'))) in H by (rewrite map_length, seq_length; exact Hlt).
  rewrite (map_nth (fun i => existsb (fun y => iid y =? i) (concat v')) (seq 0 N) 0) in H.
  rewrite seq_nth in H by exact Hlt. cbn [Nat.add] in H. apply existsb_exists in H.
  destruct H as (x & Hx & He). apply Nat.eqb_eq in He. eauto.
Qed.

Lemma NoDup_iid_inj xs x y : NoDup (map iid xs) -> In x xs -> In y xs -> iid x = iid y -> x = y.
Proof.
  induction xs as [|z xs IH]; intros Hnd Hx Hy Heq; [contradiction|].
  cbn [map] in Hnd. inversion Hnd as [|? ? Hni Hnd']; subst.
  destruct Hx as [->|Hx], Hy as [->|Hy]; [reflexivity| | |eauto].
  - exfalso. apply Hni. rewrite Heq. apply in_map. exact Hy.
  - exfalso. apply Hni. rewrite <- Heq. apply in_map. exact Hx.
Qed.

Lemma dkey_restrict_sat N root b1 b2 x :
  ids_ok N root -> dkey N (restrict b1 root) = dkey N (restrict b2 root) ->
  In x (concat root) -> sat b1 x = true -> sat b2 x = true.
Proof.
  intros [Hnd Hlt] Hk Hx Hs.
  assert (H1 : nth (iid x) (dkey N (restrict b1 root)) false = true).
  { apply (dkey_mem N root x); [split; assumption| |apply Hlt; exact Hx]. apply in_restrict. split; assumption. }
  rewrite Hk in H1. apply dkey_mem_inv in H1; [|apply Hlt; exact Hx].
  destruct H1 as (y & Hy & He). apply in_restrict in Hy. destruct Hy as [Hy Hsy].
  assert (y = x) by (eapply NoDup_iid_inj; eauto). subst y. exact Hsy.
Qed.

Lemma dkey_restrict_eq N root b1 b2 :
  ids_ok N root -> dkey N (restrict b1 root) = dkey N (restrict b2 root) ->
  restrict b1 root = restrict b2 root.
Proof.
  intros Hok Hk. unfold restrict. apply map_ext_in. intros xs Hxs. apply filter_ext_in. intros x Hx.
  assert (Hc : In x (concat root)) by (apply in_concat; eauto).
  destruct (sat b1 x) eqn:H1, (sat b2 x) eqn:H2; try reflexivity.
  - rewrite (dkey_restrict_sat N root b1 b2 x Hok Hk Hc H1) in H2. discriminate.
  - rewrite (dkey_restrict_sat N root b2 b1 x Hok (eq_sym Hk) Hc H2) in H1. discriminate.
Qed.
