(** The parts of C06, C07, C46 and C47 that hold: where the refuted claims
    (Props_Findings.v) are true of the code. *)
From Coq Require Import List Arith Bool Lia ZArith.
From Verif Require Import Model_FeatureVector Model_Data Model_Node Model_Terminal Model_Solver Model_Preproc
  Spec_Tree Spec_Examples Spec_Rows Props_Solver.
Import ListNotations.
Local Open Scope nat_scope.

(** [t] has the fewest errors among all trees within the limits. *)
Definition fewest_errors (W : switches) (P : params) (nf nl : nat) (rows : list (list nat * nat)) (t : tree) : Prop :=
  forall t', row_allowed nf nl (w_mls W) (p_depth P) (p_nodes P) rows t' -> row_errors rows t <= row_errors rows t'.

Lemma leaf_allowed W P nf nl rows : usable W P nf nl rows -> w_mls W <= length rows ->
  row_allowed nf nl (w_mls W) (p_depth P) (p_nodes P) rows (Leaf 0) .
Proof.
  intros HU Hsz. split; [cbn; apply (us_labels _ _ _ _ _ HU)|]. split; [exact Hsz|]. cbn; lia.
Qed.

Lemma exact_fit W P nf nl rows : usable W P nf nl rows -> exact W P -> rebuilds W P -> p_ub P = no_bound -> w_mls W <= length rows ->
  exists t, fr_tree (fit_rows W P nf nl no_limit rows) = Some t /\ fewest_errors W P nf nl rows t.
Proof.
  intros HU He Hr Hub Hsz. apply C01_accuracy_optimal_partial; try assumption; [apply C04_no_limit_is_proven|].
  exists (Leaf 0). split; [apply leaf_allowed; assumption|]. pose proof (errors_small W P nf nl rows HU (Leaf 0)). rewrite Hub. unfold no_bound. lia.
Qed.

(** C06: for depth two and three nodes the optimum is found for every minimum leaf size
    without the depth-two solver and the similarity bound, and with both for a minimum leaf
    size of one. *)
Theorem C06_leaf_size_partial : forall W P nf nl rows,
  usable W P nf nl rows -> p_depth P = 2 -> p_nodes P = 3 -> p_all P = false -> p_ub P = no_bound -> w_mls W <= length rows ->
  (w_term W = false /\ w_sim W = false) \/ w_mls W = 1 ->
  exists t, fr_tree (fit_rows W P nf nl no_limit rows) = Some t /\ fewest_errors W P nf nl rows t.
Proof.
  intros W P nf nl rows HU Hd Hn Ha Hub Hsz Hc. apply exact_fit; try assumption.
  - unfold exact. rewrite Hd, Hn. destruct Hc as [[-> ->]| ->]; [split; discriminate|]. split; [reflexivity|]. intros _. split; [reflexivity|]. split; [right; left; lia|]. right. split; [exact Ha|reflexivity].
  - intros _. left. lia.
Qed.
Print Assumptions C06_leaf_size_partial.

(** C07: in all-trees mode the optimum is found, for every depth and node budget, without
    the depth-two solver. *)
Theorem C07_all_trees_partial : forall W P nf nl rows,
  usable W P nf nl rows -> p_all P = true -> w_term W = false -> (w_sim W = true -> w_mls W = 1) -> p_ub P = no_bound -> w_mls W <= length rows ->
  exists t, fr_tree (fit_rows W P nf nl no_limit rows) = Some t /\ fewest_errors W P nf nl rows t.
Proof.
  intros W P nf nl rows HU Ha Ht Hs Hub Hsz. apply exact_fit; try assumption.
  - split; [exact Hs|]. rewrite Ht. discriminate.
  - intro H. congruence.
Qed.
Print Assumptions C07_all_trees_partial.

(** C46: node budgets below a full tree are searched exactly without the depth-two solver,
    for every depth; and the returned tree is within the budget up to depth three with the
    data set cache only, or without caches. *)
Theorem C46_node_budget_partial : forall W P nf nl rows,
  usable W P nf nl rows -> p_all P = false -> w_term W = false -> (w_sim W = true -> w_mls W = 1) -> p_ub P = no_bound -> w_mls W <= length rows ->
  exists t, fr_tree (fit_rows W P nf nl no_limit rows) = Some t /\ fewest_errors W P nf nl rows t
    /\ (w_branch W = false /\ (w_data W = false \/ p_depth P <= 3) -> row_allowed nf nl (w_mls W) (p_depth P) (p_nodes P) rows t).
Proof.
  intros W P nf nl rows HU Ha Ht Hs Hub Hsz. destruct (exact_fit W P nf nl rows HU) as (t & H1 & H2); try assumption.
  - split; [exact Hs|]. rewrite Ht. discriminate.
  - intro H. congruence.
  - exists t. split; [exact H1|]. split; [exact H2|]. intro H. destruct (C02_budgets_partial W P nf nl no_limit rows t HU H1) as [_ H3]. auto.
Qed.
Print Assumptions C46_node_budget_partial.

(** C47: with a minimum leaf size of one, switching the similarity bound on never makes the
    tree worse. *)
Definition with_sim (W : switches) (s : bool) : switches :=
  Switches (w_ub W) (w_lb W) (w_tlb W) (w_term W) s (w_branch W) (w_data W) (w_gini W) (w_mls W).
Theorem C47_similarity_partial : forall W P nf nl rows t0,
  usable W P nf nl rows -> w_mls W = 1 -> w_term W = false \/ (p_all P = false /\ p_nodes P = 2 ^ p_depth P - 1 /\ p_depth P <= 3) ->
  2 ^ p_depth P - 1 <= p_nodes P \/ (w_branch W = false /\ (w_data W = false \/ p_depth P <= 3)) -> p_ub P = no_bound ->
  fr_tree (fit_rows (with_sim W false) P nf nl no_limit rows) = Some t0 ->
  exists t, fr_tree (fit_rows (with_sim W true) P nf nl no_limit rows) = Some t /\ row_errors rows t = row_errors rows t0.
Proof.
  intros W P nf nl rows t0 HU Hm Hc Hn Hub H0.
  assert (U : forall s, usable (with_sim W s) P nf nl rows) by (intro s; destruct HU; constructor; assumption).
  pose proof (tree_large _ _ _ _ _ _ (U false) t0 H0) as Hsz.
  assert (E : forall s, exact (with_sim W s) P /\ rebuilds (with_sim W s) P).
  { intro s. unfold exact, rebuilds. cbn. split; [split; [auto|]|]; intro Ht; destruct Hc as [Hc|(H1 & H2 & H3)]; try congruence; auto. }
  destruct (exact_fit _ P nf nl rows (U true) (proj1 (E true)) (proj2 (E true)) Hub Hsz) as (t & A1 & A2).
  destruct (exact_fit _ P nf nl rows (U false) (proj1 (E false)) (proj2 (E false)) Hub Hsz) as (t1 & B1 & B2).
  assert (t1 = t0) by congruence. subst t1. exists t. split; [exact A1|].
  assert (L : forall s x, fr_tree (fit_rows (with_sim W s) P nf nl no_limit rows) = Some x -> row_allowed nf nl (w_mls W) (p_depth P) (p_nodes P) rows x).
  { intros s x Hx. destruct (C02_budgets_partial _ P nf nl no_limit rows x (U s) Hx) as [_ H3]. apply H3. cbn. tauto. }
  apply Nat.le_antisymm; [apply A2, (L false), H0|apply B2, (L true), A1].
Qed.
Print Assumptions C47_similarity_partial.

(** Concrete cases: the data sets of the refutations, with settings for which the claims
    hold. *)
Definition lim_W2 : switches := Switches true true true false false false true false 2.
Example lim_usable2 : usable lim_W2 ex_P2 2 2 [([1;1],1); ([0;1],0); ([1;1],1); ([1;0],0); ([0;1],0); ([0;0],0)].
Proof. constructor; [repeat constructor|lia|reflexivity|cbn; lia|]. cbn. intros [H|H]; discriminate. Qed.
Example lim_fit2 : exists t, fr_tree (fit_rows lim_W2 ex_P2 2 2 no_limit [([1;1],1); ([0;1],0); ([1;1],1); ([1;0],0); ([0;1],0); ([0;0],0)]) = Some t
  /\ row_errors [([1;1],1); ([0;1],0); ([1;1],1); ([1;0],0); ([0;1],0); ([0;0],0)] t = 0 /\ nodes t = 2.
Proof. eexists. split; [vm_compute; reflexivity|]. vm_compute. auto. Qed.
Definition lim_W1 : switches := Switches true true true false true false true false 1.
Example lim_usable1 : usable lim_W1 (Params 2 3 true no_bound) 2 2 xor_rows.
Proof. constructor; [repeat constructor|lia|reflexivity|cbn; lia|]. cbn. intros _. lia. Qed.
Example lim_fit1 : exists t, fr_tree (fit_rows lim_W1 (Params 2 3 true no_bound) 2 2 no_limit xor_rows) = Some t /\ row_errors xor_rows t = 0 /\ nodes t = 3.
Proof. eexists. split; [vm_compute; reflexivity|]. vm_compute. auto. Qed.
Example lim_fit46 : let rows := [([0;0;1;0],0); ([1;1;1;1],0); ([0;1;0;0],1); ([1;1;1;0],1)] in
  usable lim_W1 (Params 2 2 false no_bound) 4 2 rows
  /\ exists t, fr_tree (fit_rows lim_W1 (Params 2 2 false no_bound) 4 2 no_limit rows) = Some t /\ row_errors rows t = 0 /\ nodes t = 2.
Proof.
  cbn zeta. split; [constructor; [repeat constructor|lia|reflexivity|cbn; lia|]; cbn; intros [H|H]; discriminate|].
  eexists. split; [vm_compute; reflexivity|]. vm_compute. auto.
Qed.
Example lim_fit47 : usable (defaults true 1) ex_P2 3 2 six_rows
  /\ exists t, fr_tree (fit_rows (with_sim (defaults true 1) false) ex_P2 3 2 no_limit six_rows) = Some t /\ nodes t = 3.
Proof. split; [exact ex_usable2|]. eexists. split; [vm_compute; reflexivity|]. vm_compute. auto. Qed.
