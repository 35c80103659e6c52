(** Properties of the depth-two solver: C13, C14, C16.
    Data in this file is "prepared": every feature vector was made from [nf] bits, then some
    features were flipped or switched off, then the pair indices were computed - the steps
    of the preprocessing. *)
From Coq Require Import List Arith Bool Lia ZArith Sorted.
From Verif Require Import Model_FeatureVector Model_Data Model_Node Model_Terminal Model_Solver Spec_Tree Spec_Data Spec_Examples
  Proofs_View Proofs_Diff Proofs_Feature Proofs_Path Proofs_Calc Proofs_Base Proofs_Terminal Proofs_TermState.
Import ListNotations.

Definition prepared (nf : nat) (v : view) : Prop :=
  forall x, In x (concat v) -> exists bits ops,
    length bits = nf /\ (forall o, In o ops -> op_feature o < nf)
    /\ ifv x = fv_compute_pairs (fold_left fv_apply ops (fv_make bits)).

Lemma prepared_wf nf v : prepared nf v -> wf_view nf v.
Proof.
  intros H x Hx. destruct (H x Hx) as (bits & ops & Hl & Ho & He).
  destruct (fv_ops_ok ops (fv_make bits) (fv_make_ok bits)) as [H1 H2].
  { unfold fv_num. cbn [fv_bits fv_make]. rewrite Hl. exact Ho. }
  change (fv_num (fv_make bits)) with (length bits) in H2. rewrite Hl in H2.
  unfold wf_inst. rewrite He. unfold fv_compute_pairs, fv_ok, fv_num, fv_has in *. cbn [fv_bits fv_present fv_pairs].
  rewrite H2 in *. destruct H1 as [Ha Hb]. split; [reflexivity|]. split; [|reflexivity]. split; [exact Ha|exact Hb].
Qed.

(** The instances of [v] on which the two features have the given values. *)
Definition cell (f g : nat) (a c : bool) (v : view) : list inst :=
  filter (fun x => Bool.eqb (has f x) a && Bool.eqb (has g x) c) (concat v).
(** The cost of giving label [l] to the instances of [v] in that cell. *)
Definition cell_cost (T : task) (l f g : nat) (a c : bool) (v : view) : Z :=
  tree_cost (tk_inst T) (map (filter (fun x => Bool.eqb (has f x) a && Bool.eqb (has g x) c)) v) (Leaf l).

Lemma cell_splits f g v :
  length (cell f g true true v) = vsize (split_right g (split_right f v))
  /\ length (cell f g true false v) = vsize (split_left g (split_right f v))
  /\ length (cell f g false true v) = vsize (split_right g (split_left f v))
  /\ length (cell f g false false v) = vsize (split_left g (split_left f v)).
Proof.
  unfold cell, vsize. rewrite !concat_split_left, !concat_split_right, ?concat_split_left.
  rewrite !filter_filter. repeat split; f_equal; apply filter_ext; intro x; destruct (has f x), (has g x); reflexivity.
Qed.

Lemma cell_costs T l f g v :
  cell_cost T l f g true true v = tree_cost (tk_inst T) (split_right g (split_right f v)) (Leaf l)
  /\ cell_cost T l f g true false v = tree_cost (tk_inst T) (split_left g (split_right f v)) (Leaf l)
  /\ cell_cost T l f g false true v = tree_cost (tk_inst T) (split_right g (split_left f v)) (Leaf l)
  /\ cell_cost T l f g false false v = tree_cost (tk_inst T) (split_left g (split_left f v)) (Leaf l).
Proof.
  unfold cell_cost, split_left, split_right. rewrite !map_map.
  repeat split; f_equal; apply map_ext; intro xs; rewrite filter_filter; apply filter_ext; intro x;
    destruct (has f x), (has g x); reflexivity.
Qed.

(** C13. For every pair of features, the four counts and the four costs per label that the
    depth-two solver derives from its tables are the real ones. *)
Theorem C13_pair_counts_exact (T : task) (nf : nat) (v : view) (f g l : nat) :
  (tk_zero_true T = true -> forall x k, tk_inst T x k k = 0%Z) ->
  prepared nf v -> f < nf -> g < nf -> l < num_labels v ->
  let k := calc_of T nf false v in
  (count11 nf k f g = Z.of_nat (length (cell f g true true v))
   /\ count10 nf k f g = Z.of_nat (length (cell f g true false v))
   /\ count01 nf k f g = Z.of_nat (length (cell f g false true v))
   /\ count00 nf k f g = Z.of_nat (length (cell f g false false v)))
  /\ (sol11 nf k l f g = cell_cost T l f g true true v
      /\ sol10 nf k l f g = cell_cost T l f g true false v
      /\ sol01 nf k l f g = cell_cost T l f g false true v
      /\ sol00 nf k l f g = cell_cost T l f g false false v).
Proof.
  intros Ht Hp Hf Hg Hl k. pose proof (calc_of_exact T nf Ht false v (prepared_wf nf v Hp)) as E. fold k in E.
  destruct (cell_splits f g v) as (-> & -> & -> & ->). destruct (cell_costs T l f g v) as (-> & -> & -> & ->).
  refine (conj (conj _ (conj _ (conj _ _))) (conj _ (conj _ (conj _ _)))).
  - apply (rd_count11 T nf v k E); assumption.
  - apply (rd_count10 T nf v k E); assumption.
  - apply (rd_count01 T nf v k E); assumption.
  - apply (rd_count00 T nf v k E); assumption.
  - apply (rd_sol11 T nf v k E); assumption.
  - apply (rd_sol10 T nf v k E); assumption.
  - apply (rd_sol01 T nf v k E); assumption.
  - apply (rd_sol00 T nf v k E); assumption.
Qed.
Print Assumptions C13_pair_counts_exact.

(** C13 for one feature, which is all the tables hold when only one split is allowed. *)
Theorem C13_single_counts_exact (T : task) (nf : nat) (one : bool) (v : view) (f l : nat) :
  (tk_zero_true T = true -> forall x k, tk_inst T x k k = 0%Z) ->
  prepared nf v -> f < nf -> l < num_labels v ->
  let k := calc_of T nf one v in
  k_tot k = Z.of_nat (length (concat v))
  /\ k_ctot k l = tree_cost (tk_inst T) v (Leaf l)
  /\ count1 nf k f = Z.of_nat (length (filter (has f) (concat v)))
  /\ count0 nf k f = Z.of_nat (length (filter (fun x => negb (has f x)) (concat v)))
  /\ sol1 nf k l f = tree_cost (tk_inst T) (split_right f v) (Leaf l)
  /\ sol0 nf k l f = tree_cost (tk_inst T) (split_left f v) (Leaf l).
Proof.
  intros Ht Hp Hf Hl k. pose proof (calc_of_exact T nf Ht one v (prepared_wf nf v Hp)) as E. fold k in E.
  rewrite <- concat_split_left, <- concat_split_right.
  refine (conj _ (conj _ (conj _ (conj _ (conj _ _))))).
  - apply (ex_tot _ _ _ _ _ E).
  - apply (ex_ctot _ _ _ _ _ E). exact Hl.
  - apply (rd_count1 _ _ _ _ _ E). exact Hf.
  - apply (rd_count0 _ _ _ _ _ E). exact Hf.
  - apply (rd_sol1 _ _ _ _ _ E); assumption.
  - apply (rd_sol0 _ _ _ _ _ E); assumption.
Qed.
Print Assumptions C13_single_counts_exact.

Definition prep (i : nat) (b : list nat) : inst := Inst i (fv_compute_pairs (fv_make (bits_of b))).
Definition prep_view (nl : nat) (rows : list (list nat * nat)) : view :=
  map (map (fun x => Inst (iid x) (fv_compute_pairs (ifv x)))) (mk_view nl rows).

Example C13_example :
  prepared 3 (prep_view 2 six_rows)
  /\ map (fun q => q (calc_of acc 3 false (prep_view 2 six_rows)) 0 2) [count00 3; count01 3; count10 3; count11 3] = [1; 2; 2; 1]%Z.
Proof.
  split; [|reflexivity]. intros x Hx.
  repeat (destruct Hx as [<-|Hx]; [match goal with |- context [prep_view] => idtac | _ => idtac end;
    eexists _, []; split; [|split; [intros o []|cbn [fold_left ifv]; reflexivity]]; reflexivity|]).
  destruct Hx.
Qed.

(** C14. The depth-two solver keeps its tables between calls and updates them by adding and
    removing the differences.  After any history of calls on subsets of one data set, its
    answer is the answer of a new solver that counts everything afresh.  The subsets are the
    ones reached by branches (lists of decisions); each call has its own node budget. *)
Theorem C14_incremental_counts (T : task) (G : cfg) (root : view) (calls : list (branch * nat)) (b : branch) (n : nat) :
  good_task T -> 1 <= c_mls G -> view_sorted root -> prepared (c_nf G) root ->
  let s := fold_left (fun s c => snd (term_call T (c_nf G) (c_mls G) s (restrict (fst c) root) (fst c) (snd c)))
                     calls (term_state0 T) in
  fst (term_call T (c_nf G) (c_mls G) s (restrict b root) b n)
  = fst (term_call T (c_nf G) (c_mls G) (term_state0 T) (restrict b root) b n).
Proof.
  intros HT Hm Hs Hp s.
  assert (E : forall s0, fold_left (fun s c => snd (term_call T (c_nf G) (c_mls G) s (restrict (fst c) root) (fst c) (snd c))) calls s0
                         = run_calls T G root s0 calls).
  { induction calls as [|[b' n'] r IH]; intro s0; [reflexivity|]. cbn [fold_left fst snd run_calls]. apply IH. }
  unfold s. rewrite E. pose proof (prepared_wf _ _ Hp) as Hw.
  rewrite (run_call_result T G HT Hm root Hs Hw calls b n). symmetry.
  apply (run_call_result T G HT Hm root Hs Hw [] b n).
Qed.
Print Assumptions C14_incremental_counts.

(** The tables themselves are exact after any history. *)
Theorem C14_tables_exact (T : task) (G : cfg) (root : view) (calls : list (branch * nat)) (bl : branch) (n : nat) (f g l : nat) :
  good_task T -> 1 <= c_mls G -> view_sorted root -> prepared (c_nf G) root -> n <> 1 ->
  f < c_nf G -> g < c_nf G -> l < num_labels root ->
  let s := fold_left (fun s c => snd (term_call T (c_nf G) (c_mls G) s (restrict (fst c) root) (fst c) (snd c)))
                     (calls ++ [(bl, n)]) (term_state0 T) in
  let k := cs_calc (tst_calc s) in
  let v := restrict bl root in
  count11 (c_nf G) k f g = Z.of_nat (length (cell f g true true v))
  /\ sol11 (c_nf G) k l f g = cell_cost T l f g true true v.
Proof.
  intros HT Hm Hs Hp Hn Hf Hg Hl s k v.
  assert (E : forall cs s0, fold_left (fun s c => snd (term_call T (c_nf G) (c_mls G) s (restrict (fst c) root) (fst c) (snd c))) cs s0
                         = run_calls T G root s0 cs).
  { induction cs as [|[b' n'] r IH]; intro s0; [reflexivity|]. cbn [fold_left fst snd run_calls]. apply IH. }
  pose proof (prepared_wf _ _ Hp) as Hw.
  set (s1 := run_calls T G root (term_state0 T) calls).
  assert (Hs1 : state_ok T G root s1) by (apply run_ok; try assumption; exact I).
  assert (Es : s = snd (term_call T (c_nf G) (c_mls G) s1 v bl n)).
  { unfold s. rewrite fold_left_app. cbn [fold_left fst snd]. rewrite E. reflexivity. }
  pose proof (call_cells T G HT Hm root Hs s1 bl n Hs1) as Hc. fold v in Hc. rewrite <- Es in Hc. fold k in Hc.
  assert (En : (n =? 1) = false) by (apply Nat.eqb_neq; exact Hn). rewrite En in Hc.
  assert (Hwv : wf_view (c_nf G) v) by (apply wf_restrict; exact Hw).
  pose proof (cells_exact T (c_nf G) false v k Hwv Hc) as Ex.
  assert (Hlv : l < num_labels v) by (unfold v, restrict, num_labels; rewrite map_length; exact Hl).
  destruct (cell_splits f g v) as (-> & _). destruct (cell_costs T l f g v) as (-> & _). split.
  - apply (rd_count11 T _ v k Ex); assumption.
  - apply (rd_sol11 T _ v k Ex); assumption.
Qed.
Print Assumptions C14_tables_exact.

Example C14_example :
  let root := prep_view 2 six_rows in
  let s := fold_left (fun s c => snd (term_call acc 3 1 s (restrict (fst c) root) (fst c) (snd c)))
             [([], 3); ([5], 3); ([1], 2); ([], 1); ([], 3); ([4], 3)] (term_state0 acc) in
  view_sorted root /\ nd_sol (r_three (fst (term_call acc 3 1 s root [] 3))) = 0%Z
  /\ nd_sol (r_one (fst (term_call acc 3 1 s root [] 3))) = 2%Z.
Proof. split; [repeat constructor|]. split; vm_compute; reflexivity. Qed.

(** C16, for the budgets one (one split) and three (two levels), and every additive task:
    with a minimum leaf size of 1 the result is the smallest cost over all trees within the
    budget, and it is attained.  Missing: the budget of two branching nodes, for which the
    claim is false (C46_two_nodes_refuted); the third part says what does hold there. *)
Theorem C16_depth_two_optimal_partial (T : task) (nf : nat) (v : view) (n : nat) :
  good_task T -> (forall t, (tree_cost (tk_inst T) v t < tk_worst T)%Z) ->
  prepared nf v -> 1 <= num_labels v -> 1 <= vsize v -> 2 <= n ->
  let ok f := f < nf /\ tk_may T f = true in
  let r := term_solve T nf 1 v [] n in
  optimum (tk_inst T) ok 1 1 1 v (nd_sol (r_one r))
  /\ optimum (tk_inst T) ok 1 2 3 v (nd_sol (r_three r))
  /\ (exists t, allowed ok 1 2 2 v t /\ tree_cost (tk_inst T) v t = nd_sol (r_two r))
  /\ (nd_sol (r_three r) <= nd_sol (r_two r) <= nd_sol (r_one r))%Z.
Proof.
  intros HT Hlt Hp Hnl Hv Hn ok r. pose proof (prepared_wf _ _ Hp) as Hw.
  set (G := Cfg true true true true true 1 nf (fun _ => false) (fun _ => []) (fun _ => true)).
  assert (Hbr : forall f, br_has [] f = true -> vsize (split_left f v) = 0 \/ vsize (split_right f v) = 0) by (intros f Hf; discriminate).
  destruct (term_one T G HT v [] (le_n 1) Hlt Hw Hnl Hv n ltac:(lia)) as (W1 & N1 & L1).
  destruct (term_wits T G HT v [] (le_n 1) Hlt Hbr Hw Hnl Hv n Hn) as (W2 & N2 & W3 & N3 & L21 & L32 & _).
  pose proof (term_three T G HT v [] (le_n 1) Hlt Hbr Hw Hnl Hv n eq_refl Hn) as L3.
  cbn [c_nf c_mls G] in *. fold r in W1, N1, L1, W2, N2, W3, N3, L21, L32, L3.
  assert (Hget : forall d x, wit T G v d x -> forall m, num_nodes x <= m -> exists t, allowed ok 1 d m v t /\ tree_cost (tk_inst T) v t = nd_sol x).
  { intros d x W m Hm. destruct (wit_tree T G v d x W) as (t & Ht & He). exists t. split; [|exact He].
    apply (allowed_mono _ _ d (num_nodes x)); [exact Ht|lia|exact Hm]. }
  refine (conj (conj _ _) (conj (conj _ _) (conj _ (conj L32 L21)))).
  - exact (Hget 1 _ W1 1 N1).
  - exact L1.
  - exact (Hget 2 _ W3 3 N3).
  - exact L3.
  - exact (Hget 2 _ W2 2 N2).
Qed.
Print Assumptions C16_depth_two_optimal_partial.

(** The same for accuracy, in terms of training errors. *)
Theorem C16_depth_two_errors_partial (nf : nat) (v : view) :
  prepared nf v -> 1 <= num_labels v -> 1 <= vsize v -> (Z.of_nat (vsize v) < int32_max)%Z ->
  let r := term_solve acc nf 1 v [] 3 in
  (exists t, allowed (fun f => f < nf) 1 2 3 v t /\ Z.of_nat (misclassified v t) = nd_sol (r_three r))
  /\ (forall t, allowed (fun f => f < nf) 1 2 3 v t -> (nd_sol (r_three r) <= Z.of_nat (misclassified v t))%Z).
Proof.
  intros Hp Hnl Hv Hsz r.
  assert (Hlt : forall t, (tree_cost (tk_inst acc) v t < tk_worst acc)%Z).
  { intro t. rewrite tree_cost_vsum. cbn [tk_worst acc]. eapply Z.le_lt_trans; [|exact Hsz].
    rewrite <- vsum_one. apply vsum_le. intros j x _. cbn [tk_inst acc]. destruct (j =? predict t x); lia. }
  destruct (C16_depth_two_optimal_partial acc nf v 3 acc_good Hlt Hp Hnl Hv ltac:(lia)) as (_ & [(t & Ht & He) Hmin] & _).
  fold r in He, Hmin. cbn [tk_may acc] in *.
  assert (Hiff : forall t, allowed (fun f => f < nf /\ true = true) 1 2 3 v t <-> allowed (fun f => f < nf) 1 2 3 v t).
  { intro t0. unfold allowed. assert (Hf : forall m, fits (fun f => f < nf /\ true = true) m t0 <-> fits (fun f => f < nf) m t0);
      [|rewrite Hf; reflexivity]. intro m. induction t0 as [|f l IHl r0 IHr]; cbn [fits]; [reflexivity|].
    rewrite IHl, IHr. intuition. }
  split.
  - exists t. split; [apply Hiff; exact Ht|]. rewrite misclassified_cost. exact He.
  - intros t' Ht'. rewrite misclassified_cost. apply Hmin. apply Hiff. exact Ht'.
Qed.
Print Assumptions C16_depth_two_errors_partial.

Example C16_example : nd_sol (r_three (term_solve acc 3 1 (prep_view 2 six_rows) [] 3)) = 0%Z
  /\ nd_sol (r_one (term_solve acc 3 1 (prep_view 2 six_rows) [] 3)) = 2%Z.
Proof. split; reflexivity. Qed.
