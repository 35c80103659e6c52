(** Properties of branches, splits, dataset keys and differences: C08, C09, C10, C17. *)
From Coq Require Import List Arith Bool Lia Permutation.
From Verif Require Import Model_FeatureVector Model_Data Spec_Data Spec_Examples Proofs_View Proofs_Diff Proofs_Path.
Import ListNotations.

(** C08. Two paths get the same branch exactly when one is a rearrangement of the other. *)
Theorem C08_branch_canonical (p q : path) :
  br_eqb (path_branch p) (path_branch q) = true <-> Permutation p q.
Proof. rewrite br_eqb_eq. exact (path_branch_eq p q). Qed.
Print Assumptions C08_branch_canonical.

Example C08_example :
  path_branch [(3, true); (1, false); (2, true)] = path_branch [(2, true); (3, true); (1, false)]
  /\ path_branch [(3, true)] <> path_branch [(3, false)].
Proof. split; [reflexivity|discriminate]. Qed.

(** C09. A split puts every instance on exactly one side (absent left, present right), per
    label and in the old order, and the sizes add up. *)
Theorem C09_split_partition (f : nat) (v : view) :
  num_labels (split_left f v) = num_labels v /\ num_labels (split_right f v) = num_labels v
  /\ (forall k, merge (nth k (split_left f v) []) (nth k (split_right f v) []) (nth k v []))
  /\ (forall k x, In x (nth k (split_left f v) []) -> has f x = false)
  /\ (forall k x, In x (nth k (split_right f v) []) -> has f x = true)
  /\ vsize (split_left f v) + vsize (split_right f v) = vsize v.
Proof.
  split; [apply num_labels_left|]. split; [apply num_labels_right|].
  unfold split_left, split_right. split; [|split; [|split]].
  - intro k. rewrite !nth_map_filter. apply filter_merge.
  - intros k x. rewrite nth_map_filter, filter_In, negb_true_iff. tauto.
  - intros k x. rewrite nth_map_filter, filter_In. tauto.
  - symmetry. apply vsize_split.
Qed.
Print Assumptions C09_split_partition.

Example C09_example :
  map (map iid) (split_left 0 (mk_view 2 six_rows)) = [[1; 3]; [5]]
  /\ map (map iid) (split_right 0 (mk_view 2 six_rows)) = [[4]; [0; 2]].
Proof. split; reflexivity. Qed.

(** C10. The data reached by a path consists of the instances that agree with all its
    decisions; it only depends on the set of decisions, hence only on the branch. *)
Theorem C10_data_determined_by_branch (v : view) (p q : path) :
  (forall x, In x (concat (path_data v p)) <-> In x (concat v) /\ (forall f a, In (f, a) p -> has f x = a))
  /\ ((forall d, In d p <-> In d q) -> path_data v p = path_data v q)
  /\ (br_eqb (path_branch p) (path_branch q) = true -> path_data v p = path_data v q).
Proof.
  split; [|split].
  - intro x. apply path_data_in.
  - apply path_data_set.
  - intro H. apply br_eqb_eq in H. rewrite !path_data_restrict, H. reflexivity.
Qed.
Print Assumptions C10_data_determined_by_branch.

Example C10_example :
  path_data (mk_view 2 six_rows) [(0, true); (1, false)] = path_data (mk_view 2 six_rows) [(1, false); (0, true)]
  /\ map (map iid) (path_data (mk_view 2 six_rows) [(0, true); (1, false)]) = [[4]; [0]].
Proof. split; reflexivity. Qed.

(** C17. For two lists of instances sorted by id that are taken from the same data (equal
    ids mean equal instances): the reported additions and removals are exactly the
    differences, the reported counts are their lengths, and applying the difference to the
    old list gives the new list. *)
Theorem C17_differences_exact (new old : list inst) :
  id_sorted new -> id_sorted old -> agree new old ->
  let (add, remove) := diff_lists new old in
  (forall x, In x add <-> In x new /\ ~ In x old)
  /\ (forall x, In x remove <-> In x old /\ ~ In x new)
  /\ diff_counts new old = (length add, length remove)
  /\ Permutation (filter (fun x => negb (existsb (fun y => iid y =? iid x) remove)) old ++ add) new.
Proof.
  intros Hn Ho Ha. destruct (diff_lists new old) as [add remove] eqn:E.
  pose proof (diff_lists_spec new old Hn Ho) as Hs. rewrite E in Hs. injection Hs as H1 H2.
  split; [|split; [|split]].
  - intro x. rewrite H1, filter_In, not_in_iff. split; intros [Hx H]; (split; [exact Hx|]).
    + intro Hin. apply H. exists x. auto.
    + intros (y & Hy & He). assert (x = y) by (apply Ha; auto). subst y. contradiction.
  - intro x. rewrite H2, filter_In, not_in_iff. split; intros [Hx H]; (split; [exact Hx|]).
    + intro Hin. apply H. exists x. auto.
    + intros (y & Hy & He). assert (y = x) by (apply Ha; auto). subst y. contradiction.
  - rewrite diff_counts_lists, E. reflexivity.
  - pose proof (diff_apply new old Hn Ho Ha) as Hp. rewrite E in Hp. exact Hp.
Qed.
Print Assumptions C17_differences_exact.

(** C17 on whole views: two selections of the same training data. *)
Theorem C17_total_difference_zero (root : view) (b1 b2 : branch) :
  Forall id_sorted root ->
  total_difference (diff_metrics (restrict b1 root) (restrict b2 root)) = 0 ->
  restrict b1 root = restrict b2 root.
Proof. exact (total_difference_zero b1 b2 root). Qed.
Print Assumptions C17_total_difference_zero.

Example C17_example :
  let a := [mk_inst 1 [0;1]; mk_inst 3 [1;1]; mk_inst 4 [0;0]] in
  let b := [mk_inst 2 [1;0]; mk_inst 3 [1;1]] in
  id_sorted a /\ id_sorted b /\ agree a b
  /\ map iid (fst (diff_lists a b)) = [1; 4] /\ map iid (snd (diff_lists a b)) = [2].
Proof.
  cbn zeta. repeat split.
  - repeat constructor; unfold id_lt; cbn; lia.
  - repeat constructor; unfold id_lt; cbn; lia.
  - intros x y [<-|[<-|[<-|[]]]] [<-|[<-|[]]]; cbn; intro H; try discriminate; reflexivity.
Qed.
