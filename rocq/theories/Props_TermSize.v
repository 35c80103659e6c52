(** C103: the depth-two solver for regression trees with any minimum leaf size. *)
From Coq Require Import List Arith Bool Lia ZArith QArith Lqa Permutation Sorted.
From Verif Require Import Base_Q Model_FeatureVector Model_Data Model_Node Model_Terminal Model_Regression Model_SimpleLinear Model_RegFit Model_TermReg
  Spec_Tree Spec_Rows Spec_Reg Spec_TermReg Proofs_View Proofs_Diff Proofs_Feature Proofs_Calc Proofs_TermState Props_Regression Proofs_RegFit Props_RegFit Proofs_TermReg Proofs_TermSound Proofs_TermFull Proofs_TermBuild Proofs_TermGap Props_TermReg.
Import ListNotations.
Local Open Scope nat_scope.

(** * Weights are numbers of rows *)
Lemma stands_weight ys rows : stands ys rows -> weight ys = length rows.
Proof.
  intros (Hok & _ & Co). pose proof (Co (RLeaf 1)) as A. pose proof (Co (RLeaf (-(1)))) as B. pose proof (Co (RLeaf 0)) as C. rewrite (tree_cost_sum (RLeaf 1) ys Hok) in A. rewrite (tree_cost_sum (RLeaf (-(1))) ys Hok) in B. rewrite (tree_cost_sum (RLeaf 0) ys Hok) in C. cbn [rpredict] in *.
  assert (W : (sumQ (fun i => item_cost 1 i) ys + sumQ (fun i => item_cost (-(1)) i) ys - 2 * sumQ (fun i => item_cost 0 i) ys == 2 * qn (weight ys))%Q).
  { clear. induction ys as [|i ys IH]; cbn [sumQ weight fold_right]; [reflexivity|]. fold (weight ys). rewrite qn_add. unfold item_cost, phi in *. lra. }
  assert (R : (row_sse rows (RLeaf 1) + row_sse rows (RLeaf (-(1))) - 2 * row_sse rows (RLeaf 0) == 2 * qn (length rows))%Q).
  { clear. unfold row_sse. cbn [row_value]. induction rows as [|r rows IH]; cbn [sumQ length]; [reflexivity|]. rewrite qn_S. lra. }
  assert (E : (qn (weight ys) == qn (length rows))%Q) by lra. unfold qn in E. apply (proj1 (inject_Z_injective _ _)) in E. lia.
Qed.
Lemma stands_all cc rows : rows <> [] -> forall p, stands (filter (isat (code p)) (rt_items cc rows)) (rows_at p rows).
Proof.
  intros Hne p. unfold rt_items. destruct cc; [|apply plain_stands]. unfold ccr_items. destruct (cc_merge (reg_preprocess (rr rows))) as [ys|] eqn:HM; [apply merged_stands; exact HM|].
  exfalso. unfold cc_merge in HM. destruct (id_sort (reg_preprocess (rr rows))) eqn:E; [|discriminate]. pose proof (Permutation_length (id_sort_perm (reg_preprocess (rr rows)))) as L. rewrite E, pre_length in L. destruct rows; [apply Hne; reflexivity|discriminate].
Qed.
Fixpoint wleaves (m : nat) (ys : list ritem) (t : tree) : Prop :=
  match t with
  | Leaf _ => m <= weight ys
  | Split f l r => wleaves m (filter (fun i => negb (has f (r_x i))) ys) l /\ wleaves m (filter (fun i => has f (r_x i)) ys) r
  end.
Lemma code_more p f d xs : filter (isat (code (p ++ [(f, d)]))) xs = filter (fun i => Bool.eqb (has f (r_x i)) d) (filter (isat (code p)) xs).
Proof.
  rewrite filter_filter. apply filter_ext. intro i. unfold isat, code. rewrite map_app, forallb_app. f_equal. cbn [map forallb fst snd]. rewrite andb_true_r. exact (sat_code_br f d (r_x i)).
Qed.
Lemma rows_more p f d rows : rows_at (p ++ [(f, d)]) rows = filter (fun r => Bool.eqb (negb (nth f (fst r) 0 =? 0)) d) (rows_at p rows).
Proof. unfold rows_at. rewrite filter_filter. apply filter_ext. intro r. unfold on_path. rewrite forallb_app. f_equal. cbn [forallb fst snd]. apply andb_true_r. Qed.
Lemma weight_leaves m cc rows t : rows <> [] -> forall p, wleaves m (filter (isat (code p)) (rt_items cc rows)) (shape t) <-> rleaves m (rows_at p rows) t.
Proof.
  intro Hne. induction t as [q|f l IHl r IHr]; intro p; cbn [shape wleaves rleaves].
  - rewrite (stands_weight _ _ (stands_all cc rows Hne p)). reflexivity.
  - rewrite <- (filter_ext (fun i => Bool.eqb (has f (r_x i)) false) (fun i => negb (has f (r_x i)))) by (intro i; destruct (has f (r_x i)); reflexivity).
    rewrite <- (filter_ext (fun i => Bool.eqb (has f (r_x i)) true) (fun i => has f (r_x i))) by (intro i; destruct (has f (r_x i)); reflexivity).
    rewrite <- !code_more, IHl, IHr, !rows_more.
    rewrite (filter_ext (fun r => Bool.eqb (negb (nth f (fst r) 0 =? 0)) false) (fun r => nth f (fst r) 0 =? 0)) by (intro; destruct (_ =? _); reflexivity).
    rewrite (filter_ext (fun r => Bool.eqb (negb (nth f (fst r) 0 =? 0)) true) (fun r => negb (nth f (fst r) 0 =? 0))) by (intro; destruct (_ =? _); reflexivity). reflexivity.
Qed.
Lemma wleaves_fill m t ys : forall zs, wleaves m zs t <-> wleaves m zs (shape (fill ys t)).
Proof. revert ys. induction t as [l|f l IHl r IHr]; intros ys zs; cbn [fill shape wleaves]; [reflexivity|]. rewrite <- IHl, <- IHr. reflexivity. Qed.
Lemma tokm_items xs nf m t : forall u, inside xs u -> (tokm nf m (NN (rt_item xs)) u t <-> fits (fun f => f < nf) 1 (shape (fill [] t)) /\ wleaves m (map (rt_item xs) (concat u)) t).
Proof.
  assert (G : forall t l l', shape (fill l t) = shape (fill l' t)) by (induction t0 as [|f l IHl r IHr]; intros a a'; cbn [fill shape]; [reflexivity|]; f_equal; auto).
  induction t as [l|f l IHl r IHr]; intros u H; cbn [tokm fill shape fits wleaves].
  - unfold NN. rewrite <- Nat2Z.inj_le. split; [intro A; split; [lia|exact A]|tauto].
  - rewrite (IHl _ (inside_sd xs false f u H)), (IHr _ (inside_sd xs true f u H)). cbn [sd filter]. rewrite (items_left xs f u H), (items_right xs f u H). tauto.
Qed.

(** * C103 for any leaf size *)
Definition regression_uses_m (mls : nat) (cc : bool) (bc : Q) (nf : nat) (rows : list rrow) (uses : list (path * quse)) : qterm :=
  q_uses_m cc (rt_item (rt_items cc rows)) nf mls bc (rt_view (rt_items cc rows)) (map (fun c => (code (fst c), snd c)) uses).

Section Answer.
  Context (cc : bool) (bc : Q) (nf m : nat) (rows : list rrow) (p : path).
  Hypothesis Hne : rows <> [].
  Notation xs := (rt_items cc rows).
  Notation u := (restrict (code p) (rt_view xs)).
  Lemma items_all : Forall item_ok xs.
  Proof.
    unfold rt_items. destruct cc; [|apply plain_ok]. unfold ccr_items. destruct (cc_merge (reg_preprocess (rr rows))) as [ys|] eqn:HM; [apply (merged_ok rows ys HM)|constructor].
  Qed.
  Lemma made_rows k x : madem bc nf m (NN (rt_item xs)) (LL (rt_item xs)) u 2 k (Some x) -> of_tree bc nf m k (rows_at p rows) (n_feat x) (n_val x) (n_l x) (n_r x).
  Proof.
    intro H. destruct (H x eq_refl) as (t & (W1 & W2 & W3) & Hd & Hk). destruct (items_at xs (code p)) as [EI IS]. destruct (stands_all cc rows Hne p) as (Yok & _ & Co). set (ys := filter (isat (code p)) xs) in *.
    apply (tokm_items xs nf m t u IS) in W1. destruct W1 as [F1 F2]. rewrite EI in F2. exists (fill ys t). split; [|split].
    - split; [|split; [|rewrite fill_depth, fill_nodes; auto]].
      + apply shape_fits in F1. assert (G : forall t l l', rfits nf (fill l t) -> rfits nf (fill l' t)). { clear. induction t as [|f l IHl r IHr]; intros a a'; cbn [fill rfits]; [tauto|]. intros (A & B & C). split; [exact A|]. split; [eapply IHl; exact B|eapply IHr; exact C]. }
        eapply G. exact F1.
      + apply (weight_leaves m cc rows (fill ys t) Hne p). apply wleaves_fill. exact F2.
    - rewrite W2, (tv_items xs bc t u IS), EI. unfold priced. rewrite fill_nodes, <- (Co (fill ys t)), (terr_fill t ys Yok). reflexivity.
    - unfold describes. destruct t as [l|f l r]; cbn [fill]; [exact W3|]. rewrite !fill_nodes. exact W3.
  Qed.
  Lemma least_rows k o : (forall t, tokm nf m (NN (rt_item xs)) u t -> depth t <= 2 -> nodes t <= k -> below o (tv bc (LL (rt_item xs)) u t)) ->
    forall t, reg_allowed nf m 2 k (rows_at p rows) t -> below o (priced bc (rows_at p rows) t).
  Proof.
    intros H t (A1 & A2 & A3 & A4). destruct (items_at xs (code p)) as [EI IS]. destruct (stands_all cc rows Hne p) as (Yok & _ & Co). set (ys := filter (isat (code p)) xs) in *.
    assert (T : tokm nf m (NN (rt_item xs)) u (shape t)).
    { apply (tokm_items xs nf m (shape t) u IS). rewrite EI. split; [|apply (weight_leaves m cc rows t Hne p); exact A2].
      apply shape_fits, fill_fits, shape_fits. exact A1. }
    eapply below_le; [|apply (H (shape t) T); [rewrite shape_depth; exact A3|rewrite shape_nodes; exact A4]]. rewrite (tv_items xs bc _ u IS), EI, shape_nodes. unfold priced. rewrite <- (Co t). pose proof (terr_best t ys Yok). lra.
  Qed.
End Answer.
(** With any minimum leaf size, any price of nodes and any history, a call on enough rows answers with
    the best tree of at most one branching node; the other answers belong to trees of depth two
    with at most two and three nodes whose leaves are large enough, and more nodes are never worse. *)
Theorem C103_sizes_partial : forall mls cc bc nf rows uses p n,
  1 <= mls -> Forall (fun r => length (fst r) = nf) rows -> Forall (fun c => use_ok (snd c)) uses -> 1 <= n -> mls <= length (rows_at p rows) ->
  let r := qt_res (regression_uses_m mls cc bc nf rows (uses ++ [(p, Solve n)])) in
  exists x, q_r1 r = Some x /\ of_tree bc nf mls 1 (rows_at p rows) (n_feat x) (n_val x) (n_l x) (n_r x)
    /\ (forall t, reg_allowed nf mls 2 1 (rows_at p rows) t -> (n_val x <= priced bc (rows_at p rows) t)%Q)
    /\ (1 < n -> exists y z, q_r2 r = Some y /\ of_tree bc nf mls 2 (rows_at p rows) (n_feat y) (n_val y) (n_l y) (n_r y)
        /\ q_r3 r = Some z /\ of_tree bc nf mls 3 (rows_at p rows) (n_feat z) (n_val z) (n_l z) (n_r z) /\ (n_val z <= n_val y <= n_val x)%Q).
Proof.
  intros mls cc bc nf rows uses p n Hm Hnf Huses Hn Hsz. cbn zeta. unfold regression_uses_m. rewrite map_app. cbn [map fst snd].
  assert (Hne : rows_at p rows <> []) by (intro Z; rewrite Z in Hsz; cbn in Hsz; lia). assert (Hne' : rows <> []) by (intros ->; apply Hne; reflexivity).
  destruct (items_facts cc nf rows p Hnf Hne) as (Hok & Hfv & Hst & Hpl). set (xs := rt_items cc rows) in *. destruct (items_at xs (code p)) as [EI IS].
  destruct (uses_sound cc (rt_item xs) nf mls bc (rt_view xs) (it_ok xs Hok) Hpl Hm (root_sorted xs) (root_wf xs nf Hfv) (map (fun c => (code (fst c), snd c)) uses) (code p) n) as (G1 & G2 & G3).
  - apply Forall_map. exact Huses.
  - exact Hn.
  - unfold NN. rewrite EI, (stands_weight _ _ Hst). lia.
  - set (r := qt_res _) in *. clearbody r.
    assert (TW : forall k o x, madem bc nf mls (NN (rt_item xs)) (LL (rt_item xs)) (restrict (code p) (rt_view xs)) 2 k o -> o = Some x -> of_tree bc nf mls k (rows_at p rows) (n_feat x) (n_val x) (n_l x) (n_r x)).
    { intros k o x H E. rewrite E in H. apply (made_rows cc bc nf mls rows p Hne' k x H). }
    assert (LV : below (q_r1 r) (tv bc (LL (rt_item xs)) (restrict (code p) (rt_view xs)) (Leaf 0))).
    { apply G2; [|cbn; lia]. cbn [tokm]. unfold NN. rewrite EI, (stands_weight _ _ Hst). lia. }
    destruct LV as (x & Ex & _). exists x. split; [exact Ex|]. split; [|split].
    + apply (TW 1 (q_r1 r)); [|exact Ex]. apply (made_more bc nf mls (NN (rt_item xs)) (LL (rt_item xs)) _ 1 2 1 1); [lia|lia|exact G1].
    + intros t Ht. destruct (least_rows cc bc nf mls rows p Hne' 1 (q_r1 r) (fun t A _ B => G2 t A B) t Ht) as (x' & Ex' & A). rewrite Ex in Ex'. injection Ex' as <-. exact A.
    + intro Hn1. destruct G3 as (H2 & H3 & B2 & B3); [apply Nat.eqb_neq; lia|]. destruct (B2 (n_val x)) as (y & Ey & Ly); [exists x; split; [exact Ex|lra]|]. destruct (B3 (n_val y)) as (z & Ez & Lz); [exists y; split; [exact Ey|lra]|].
      exists y, z. split; [exact Ey|]. split; [apply (TW 2 (q_r2 r) y H2 Ey)|]. split; [exact Ez|]. split; [apply (TW 3 (q_r3 r) z H3 Ez)|]. split; assumption.
Qed.
Print Assumptions C103_sizes_partial.

(** With any minimum leaf size the solution is even the best one, unless the rows are at least three
    and less than 4 - 1/[mls] times as many as a leaf needs. *)
Definition best_answer_m (price : Q) (nf m n : nat) (rows : list rrow) (o : option qnode) : Prop :=
  exists x, o = Some x /\ of_tree price nf m n rows (n_feat x) (n_val x) (n_l x) (n_r x) /\ forall t, reg_allowed nf m 2 n rows t -> (n_val x <= priced price rows t)%Q.
Theorem C103_any_size_partial : forall mls cc bc nf rows uses p n,
  (0 <= bc)%Q -> 1 <= mls -> Forall (fun r => length (fst r) = nf) rows -> Forall (fun c => use_ok (snd c)) uses -> 1 < n -> mls <= length (rows_at p rows) ->
  length (rows_at p rows) < 3 * mls \/ 4 * mls - 1 <= length (rows_at p rows) ->
  let r := qt_res (regression_uses_m mls cc bc nf rows (uses ++ [(p, Solve n)])) in
  best_answer_m bc nf mls 3 (rows_at p rows) (q_r3 r) /\ ((0 < bc)%Q -> best_answer_m bc nf mls 2 (rows_at p rows) (q_r2 r)).
Proof.
  intros mls cc bc nf rows uses p n Hbc Hm Hnf Huses Hn Hsz Hroom. cbn zeta. destruct (C103_sizes_partial mls cc bc nf rows uses p n Hm Hnf Huses ltac:(lia) Hsz) as (x & _ & _ & _ & S). destruct (S Hn) as (y & z & Ey & Wy & Ez & Wz & _). clear S. revert Ey Ez.
  unfold regression_uses_m. rewrite map_app. cbn [map fst snd].
  assert (Hne : rows_at p rows <> []) by (intro Z; rewrite Z in Hsz; cbn in Hsz; lia). assert (Hne' : rows <> []) by (intros ->; apply Hne; reflexivity).
  destruct (items_facts cc nf rows p Hnf Hne) as (Hok & Hfv & Hst & Hpl). set (xs := rt_items cc rows) in *. destruct (items_at xs (code p)) as [EI IS].
  assert (HW : NN (rt_item xs) (restrict (code p) (rt_view xs)) = Z.of_nat (length (rows_at p rows))) by (unfold NN; rewrite EI, (stands_weight _ _ Hst); reflexivity).
  destruct (uses_full cc (rt_item xs) nf mls bc (rt_view xs) (it_ok xs Hok) Hpl Hm Hbc (root_sorted xs) (root_wf xs nf Hfv) (map (fun c => (code (fst c), snd c)) uses) (code p) n) as (_ & G).
  - apply Forall_map. exact Huses.
  - lia.
  - destruct G as [G3 G2]; [rewrite HW; lia|apply Nat.eqb_neq; lia|unfold roomy; rewrite HW; lia|]. set (r := qt_res _) in *. clearbody r. intros Ey Ez. split.
    + exists z. split; [exact Ez|]. split; [exact Wz|]. intros t Ht. destruct (least_rows cc bc nf mls rows p Hne' 3 (q_r3 r) G3 t Ht) as (z' & Ez' & A). rewrite Ez in Ez'. injection Ez' as <-. exact A.
    + intro Hp. exists y. split; [exact Ey|]. split; [exact Wy|]. intros t Ht. destruct (least_rows cc bc nf mls rows p Hne' 2 (q_r2 r) (G2 Hp) t Ht) as (y' & Ey' & A). rewrite Ey in Ey'. injection Ey' as <-. exact A.
Qed.
Print Assumptions C103_any_size_partial.

(** The tree constructed from an answer exists, its leaves are large enough, it has the root and the
    sizes of the answer and is never worse than it; where the answer is the best one it has its value. *)
Definition regression_build_m (mls : nat) (cc : bool) (bc : Q) (nf : nat) (rows : list rrow) (p : path) (x : qnode) : option rtree :=
  q_construct cc (rt_item (rt_items cc rows)) bc nf mls x (restrict (code p) (rt_view (rt_items cc rows))).
Lemma filled_m xs nf m t : forall u r, inside xs u -> filled (rt_item xs) u t r -> tokm nf m (NN (rt_item xs)) u t ->
  rfits nf r /\ rdepth r = depth t /\ rnodes r = nodes t /\ (Forall item_ok (map (rt_item xs) (concat u)) -> cc_tree_cost (map (rt_item xs) (concat u)) r == terr (map (rt_item xs) (concat u)) t)%Q
  /\ forall ys, wleaves m ys t <-> wleaves m ys (shape r).
Proof.
  induction t as [a|f l IHl r' IHr]; intros u [q|f' l2 r2] Hin; cbn [filled tokm]; try tauto.
  - intros Hq _. split; [exact I|]. split; [reflexivity|]. split; [reflexivity|]. split; [|intros; cbn [shape wleaves]; reflexivity]. intro Hok. cbn [cc_tree_cost terr]. rewrite <- (err_mean _ Hok). unfold cc_leaf_costs. destruct (cc_sums _) as [[y s2] w]. rewrite Hq. reflexivity.
  - intros (<- & F1 & F2) (Hf & T1 & T2). destruct (IHl _ _ (inside_sd xs false f u Hin) F1 T1) as (A1 & A2 & A3 & A4 & A5). destruct (IHr _ _ (inside_sd xs true f u Hin) F2 T2) as (B1 & B2 & B3 & B4 & B5). cbn [sd] in *.
    cbn [rfits rdepth depth rnodes nodes cc_tree_cost terr shape wleaves]. rewrite A2, A3, B2, B3. split; [auto|]. split; [reflexivity|]. split; [reflexivity|]. split.
    + intro Hok. rewrite (items_left xs f u Hin) in A4. rewrite (items_right xs f u Hin) in B4. rewrite A4, B4 by (apply forall_filter; exact Hok). reflexivity.
    + intros ys. rewrite A5, B5. reflexivity.
Qed.
Theorem C103_built_sizes_partial : forall mls cc bc nf rows uses p n,
  (0 <= bc)%Q -> 1 <= mls -> Forall (fun r => length (fst r) = nf) rows -> Forall (fun c => use_ok (snd c)) uses -> 1 < n -> mls <= length (rows_at p rows) ->
  let r := qt_res (regression_uses_m mls cc bc nf rows (uses ++ [(p, Solve n)])) in
  forall m x f, (m = 1 /\ q_r1 r = Some x \/ m = 2 /\ q_r2 r = Some x \/ m = 3 /\ q_r3 r = Some x) -> n_feat x = Some f ->
  exists t, regression_build_m mls cc bc nf rows p x = Some t /\ reg_allowed nf mls 2 m (rows_at p rows) t
    /\ (priced bc (rows_at p rows) t <= n_val x)%Q /\ rnodes t = n_l x + n_r x + 1 /\ (exists l r, t = RSplit f l r)
    /\ (m = 1 \/ (m = 3 \/ (0 < bc)%Q) /\ (length (rows_at p rows) < 3 * mls \/ 4 * mls - 1 <= length (rows_at p rows)) -> (priced bc (rows_at p rows) t == n_val x)%Q).
Proof.
  intros mls cc bc nf rows uses p n Hbc Hm Hnf Huses Hn Hsz. cbn zeta. intros m x f Hmx Hfx.
  assert (Hne : rows_at p rows <> []) by (intro Z; rewrite Z in Hsz; cbn in Hsz; lia). assert (Hne' : rows <> []) by (intros ->; apply Hne; reflexivity).
  pose proof (C103_any_size_partial mls cc bc nf rows uses p n Hbc Hm Hnf Huses Hn Hsz) as BEST. cbn zeta in BEST.
  destruct (items_facts cc nf rows p Hnf Hne) as (Hok & Hfv & Hst & Hpl). set (xs := rt_items cc rows) in *. destruct (items_at xs (code p)) as [EI IS].
  assert (M : madem bc nf mls (NN (rt_item xs)) (LL (rt_item xs)) (restrict (code p) (rt_view xs)) 2 m (Some x)).
  { destruct (uses_sound cc (rt_item xs) nf mls bc (rt_view xs) (it_ok xs Hok) Hpl Hm (root_sorted xs) (root_wf xs nf Hfv) (map (fun c => (code (fst c), snd c)) uses) (code p) n) as (G1 & _ & G3).
    - apply Forall_map. exact Huses.
    - lia.
    - unfold NN. rewrite EI, (stands_weight _ _ Hst). lia.
    - destruct G3 as (H2 & H3 & _); [apply Nat.eqb_neq; lia|]. unfold regression_uses_m in Hmx. rewrite map_app in Hmx. cbn [map fst snd] in Hmx. fold xs in Hmx. destruct Hmx as [[-> E]|[[-> E]|[-> E]]]; rewrite <- E; [|assumption|assumption].
      apply (made_more bc nf mls (NN (rt_item xs)) (LL (rt_item xs)) _ 1 2 1 1); [lia|lia|exact G1]. }
  destruct (build_sound cc (rt_item xs) nf mls (it_ok xs Hok) Hpl bc Hbc Hm _ m x f (wf_restrict nf _ _ (root_wf xs nf Hfv)) M Hfx) as (r & t & B1 & B2 & B3 & B4 & B5 & B6 & B7).
  destruct (filled_m xs nf mls t _ r IS B7 B2) as (C1 & C2 & C3 & C4 & C5). destruct Hst as (Yok & Al & Co). rewrite EI in C4. specialize (C4 Yok).
  assert (AL : reg_allowed nf mls 2 m (rows_at p rows) r).
  { split; [exact C1|]. split; [|rewrite C2, C3; auto]. apply (weight_leaves mls cc rows r Hne' p). fold xs. apply C5. apply (tokm_items xs nf mls t _ IS) in B2. rewrite EI in B2. apply B2. }
  assert (PR : (priced bc (rows_at p rows) r == tv bc (LL (rt_item xs)) (restrict (code p) (rt_view xs)) t)%Q) by (unfold priced; rewrite <- (Co r), C4, C3, (tv_items xs bc t _ IS), EI; reflexivity).
  exists r. split; [exact B1|]. split; [exact AL|]. split; [rewrite PR; exact B6|]. split; [rewrite C3, B5; unfold n_nodes; rewrite Hfx; reflexivity|]. split.
  - destruct t as [a|f0 l0 r0]; [unfold n_nodes in B5; rewrite Hfx in B5; cbn [nodes] in B5; lia|]. destruct r as [q|f1 l1 r1]; [destruct B7|]. unfold q_construct in B1. rewrite Hfx in B1.
    destruct (q_best_child _ _ _ _ _ _ _ false _) as [[? ?]|]; [|discriminate]. destruct (q_best_child _ _ _ _ _ _ _ true _) as [[? ?]|]; [|discriminate]. injection B1 as <- <- <-. eexists. eexists. reflexivity.
  - intros Hcase. assert (LO : (n_val x <= priced bc (rows_at p rows) r)%Q).
    { destruct Hmx as [[-> E]|[[-> E]|[-> E]]].
      - destruct (C103_sizes_partial mls cc bc nf rows uses p n Hm Hnf Huses ltac:(lia) Hsz) as (y & Ey & _ & A & _). cbn zeta in Ey. rewrite E in Ey. injection Ey as <-. apply A. exact AL.
      - destruct Hcase as [Hc|[[Hc|Hc] Hroom]]; [discriminate|discriminate|]. destruct (BEST Hroom) as [_ H2]. destruct (H2 Hc) as (y & Ey & _ & A). rewrite E in Ey. injection Ey as <-. apply A. exact AL.
      - destruct Hcase as [Hc|[_ Hroom]]; [discriminate|]. destruct (BEST Hroom) as [(y & Ey & _ & A) _]. rewrite E in Ey. injection Ey as <-. apply A. exact AL. }
    rewrite PR in *. lra.
Qed.
Print Assumptions C103_built_sizes_partial.

(** The excepted numbers of rows are exact: for every minimum leaf size of at least two and every
    number of rows between 3 * [mls] and 4 * [mls] - 2 there are rows on which the answer misses a
    perfect tree of two nodes.  Both sides of its second feature are too small for two leaves, so
    that the feature is not tried below the first one. *)
Lemma side_rows cc rows p f s : rows <> [] -> NN (rt_item (rt_items cc rows)) (sd s f (restrict (code p) (rt_view (rt_items cc rows)))) = Z.of_nat (length (rows_at (p ++ [(f, s)]) rows)).
Proof.
  intro Hne. set (xs := rt_items cc rows). destruct (items_at xs (code p)) as [EI IS]. unfold NN. rewrite <- (stands_weight _ _ (stands_all cc rows Hne (p ++ [(f, s)]))). fold xs. rewrite code_more, <- EI. f_equal. f_equal.
  destruct s; cbn [sd]; [rewrite (items_right xs f _ IS)|rewrite (items_left xs f _ IS)]; apply filter_ext; intro i; destruct (has f (r_x i)); reflexivity.
Qed.
Definition gap_rows (m n : nat) : list rrow := ([0;0],0%Z) :: repeat ([0;1],0%Z) (m - 1) ++ repeat ([1;0],0%Z) (n - 2 * m) ++ repeat ([1;1],1%Z) m.
Lemma sse_zero rows t : (row_sse rows t <= 0)%Q -> forall r, In r rows -> (row_value t (fst r) == inject_Z (snd r))%Q.
Proof.
  unfold row_sse. induction rows as [|r0 rows IH]; cbn [sumQ]; intros H r; [intros []|]. 
  assert (P : forall z : Q, (0 <= z * z)%Q) by (intro z; destruct (Qlt_le_dec z 0); nra).
  assert (S : (0 <= sumQ (fun r : rrow => (inject_Z (snd r) - row_value t (fst r)) * (inject_Z (snd r) - row_value t (fst r))) rows)%Q) by (apply sumQ_nonneg; intros; apply P).
  pose proof (P (inject_Z (snd r0) - row_value t (fst r0))%Q) as P0. intros [<-|Hr]; [|apply IH; [lra|exact Hr]].
  assert (Z : ((inject_Z (snd r0) - row_value t (fst r0)) * (inject_Z (snd r0) - row_value t (fst r0)) == 0)%Q) by lra. apply Qmult_integral in Z. lra.
Qed.
Theorem C103_range_refuted : forall mls n cc, 2 <= mls -> 3 * mls <= n -> n <= 4 * mls - 2 ->
  exists rows t x, length rows = n /\ Forall (fun r => length (fst r) = 2) rows
    /\ q_r3 (qt_res (regression_uses_m mls cc 0 2 rows [([], Solve 3)])) = Some x /\ reg_allowed 2 mls 2 2 rows t /\ (priced 0 rows t < n_val x)%Q.
Proof.
  intros mls n cc Hm Hlo Hhi. set (rows := gap_rows mls n).
  assert (Hlen : length rows = n) by (unfold rows, gap_rows; cbn [length]; rewrite !app_length, !repeat_length; lia).
  assert (Hall : Forall (fun r => length (fst r) = 2) rows). { unfold rows, gap_rows. constructor; [reflexivity|]. rewrite !Forall_app. repeat split; apply Forall_forall; intros r Hr; apply repeat_spec in Hr; subst r; reflexivity. }
  assert (Hne : rows <> []) by discriminate. assert (Hat : rows_at [] rows = rows) by (unfold rows_at; clearbody rows; clear; induction rows as [|r l IH]; cbn [filter on_path forallb]; [reflexivity|f_equal; exact IH]).
  destruct (C103_sizes_partial mls cc 0 2 rows [] [] 3) as (x & Ex & (t' & A' & V' & _) & _ & _); [lia|exact Hall|constructor|lia|rewrite Hat; lia|]. rewrite Hat in *. cbn [app] in Ex.
  exists rows, (RSplit 0 (RLeaf 0) (RSplit 1 (RLeaf 0) (RLeaf 1))), x. split; [exact Hlen|]. split; [exact Hall|]. split; [|split].
  - rewrite <- Ex. unfold regression_uses_m, q_uses_m. cbn [map fold_left fst snd q_use]. unfold q_call, qterm0. cbn [qt_data qt_res code map].
    assert (NZ : rows_at [] rows <> []) by (rewrite Hat; exact Hne). destruct (items_facts cc 2 rows [] Hall NZ) as (Hok & Hfv & _ & Hpl).
    assert (RE : rexact 2 (NN (rt_item (rt_items cc rows))) (LL (rt_item (rt_items cc rows))) (restrict (code []) (rt_view (rt_items cc rows))) (reads_of cc 2 (qcalc_of cc (rt_item (rt_items cc rows)) 2 (3 =? 1) (restrict (code []) (rt_view (rt_items cc rows))))) (3 =? 1)).
    { apply reads_exact; [apply it_ok; exact Hok|apply wf_restrict, root_wf; exact Hfv|]. apply fresh_cells; [apply it_ok; exact Hok|exact Hpl]. }
    apply lonely; [lia|]. unfold q_features. cbn [seq filter code map] in *.
    assert (F1 : forall s, (rd_n1 (reads_of cc 2 (qcalc_of cc (rt_item (rt_items cc rows)) 2 (3 =? 1)%nat (restrict [] (rt_view (rt_items cc rows))))) s 1 <? 2 * Z.of_nat mls)%Z = true).
    { intro s. apply Z.ltb_lt. rewrite (re_n1 _ _ _ _ _ _ RE s 1 ltac:(lia)). pose proof (side_rows cc rows [] 1 s Hne) as SR. cbn [code map] in SR. rewrite SR. clear SR. unfold rows_at, rows, gap_rows. destruct s; cbn [app filter on_path forallb fst snd nth Nat.eqb negb Bool.eqb andb];
        rewrite !filter_app, !filter_repeat; cbn [app filter on_path forallb fst snd nth Nat.eqb negb Bool.eqb andb length]; rewrite ?app_length, ?repeat_length; cbn [length]; lia. }
    rewrite (F1 false), (F1 true), (andb_false_r (_ && _)). destruct (_ && _); cbn [length]; lia.
  - split; [cbn; lia|]. split; [|cbn; lia]. unfold rows, gap_rows. cbn [rleaves filter fst nth Nat.eqb negb]. rewrite !filter_app, !filter_repeat. cbn [fst nth Nat.eqb negb app filter]. rewrite ?app_nil_r, ?filter_app, ?filter_repeat. cbn [fst nth Nat.eqb negb app filter length]. rewrite ?app_nil_r, ?app_length, ?repeat_length. lia.
  - assert (Z : (priced 0 rows (RSplit 0 (RLeaf 0) (RSplit 1 (RLeaf 0) (RLeaf 1))) == 0)%Q).
    { unfold priced, row_sse. setoid_replace (sumQ (fun r : rrow => (inject_Z (snd r) - row_value (RSplit 0 (RLeaf 0) (RSplit 1 (RLeaf 0) (RLeaf 1))) (fst r)) * (inject_Z (snd r) - row_value (RSplit 0 (RLeaf 0) (RSplit 1 (RLeaf 0) (RLeaf 1))) (fst r)))%Q rows) with 0%Q; [ring|].
      assert (G : forall l : list rrow, (forall r, In r l -> (inject_Z (snd r) == row_value (RSplit 0 (RLeaf 0) (RSplit 1 (RLeaf 0) (RLeaf 1))) (fst r))%Q) -> (sumQ (fun r : rrow => (inject_Z (snd r) - row_value (RSplit 0 (RLeaf 0) (RSplit 1 (RLeaf 0) (RLeaf 1))) (fst r)) * (inject_Z (snd r) - row_value (RSplit 0 (RLeaf 0) (RSplit 1 (RLeaf 0) (RLeaf 1))) (fst r))) l == 0)%Q).
      { induction l as [|r l IH]; intro H; cbn [sumQ]; [reflexivity|]. rewrite IH by (intros; apply H; right; assumption). rewrite (H r (or_introl eq_refl)). ring. }
      apply G. intros r Hr. unfold rows, gap_rows in Hr. destruct Hr as [<-|Hr]; [reflexivity|]. rewrite !in_app_iff in Hr. destruct Hr as [Hr|[Hr|Hr]]; apply repeat_spec in Hr; subst r; reflexivity. }
    rewrite Z. apply Qnot_le_lt. intro Hx. rewrite V' in Hx. destruct A' as (B1 & _ & _ & B4).
    assert (S0 : (row_sse rows t' <= 0)%Q) by (unfold priced in Hx; lra).
    assert (In1 : In ([0;1],0%Z) rows) by (unfold rows, gap_rows; right; rewrite !in_app_iff; left; destruct (mls - 1) eqn:K; [lia|left; reflexivity]).
    assert (In2 : In ([1;0],0%Z) rows) by (unfold rows, gap_rows; right; rewrite !in_app_iff; right; left; destruct (n - 2 * mls) eqn:K; [lia|left; reflexivity]).
    assert (In3 : In ([1;1],1%Z) rows) by (unfold rows, gap_rows; right; rewrite !in_app_iff; right; right; destruct mls; [lia|left; reflexivity]).
    pose proof (sse_zero rows t' S0 _ In1) as Y1. pose proof (sse_zero rows t' S0 _ In2) as Y2. pose proof (sse_zero rows t' S0 _ In3) as Y3. cbn [fst snd] in *. change (inject_Z 0) with 0%Q in *. change (inject_Z 1) with 1%Q in *.
    destruct t' as [q|f [a|] [c|]]; cbn [rnodes] in B4; try lia; cbn [row_value] in *; [lra|]. cbn [rfits] in B1. destruct f as [|[|f]]; [| |lia]; cbn [nth Nat.eqb] in *; lra.
Qed.
Print Assumptions C103_range_refuted.
Example C103_range_case : 2 <= 3 /\ 3 * 3 <= 10 /\ 10 <= 4 * 3 - 2
  /\ forall cc, option_map (fun x => (n_feat x, Qred (n_val x))) (q_r3 (qt_res (regression_uses_m 3 cc 0 2 (gap_rows 3 10) [([], Solve 3)]))) = Some (Some 1, (6 # 5)%Q).
Proof. split; [lia|]. split; [lia|]. split; [lia|]. intros []; vm_compute; reflexivity. Qed.

(** Non-vacuity: eight rows and leaves of at least two rows, after a call on another part. *)
Definition eight : list rrow := [([0;0],(-3)%Z);([0;0],(-2)%Z);([0;1],4%Z);([0;1],4%Z);([1;0],1%Z);([1;0],1%Z);([1;1],9%Z);([1;1],9%Z)].
Example C103_sizes_case : 2 <= length (rows_at [] eight) /\ 4 * 2 - 1 <= length (rows_at [] eight) /\ (forall cc,
  shown3 (qt_res (regression_uses_m 2 cc (1 # 2) 2 eight [([(0, true)], Solve 3); ([], Solve 3)]))
    = (Some (Some 1, (153 # 4)%Q, 0, 0), Some (Some 1, (55 # 4)%Q, 0, 1), Some (Some 0, 2%Q, 1, 1))
  /\ (match q_r3 (qt_res (regression_uses_m 2 cc (1 # 2) 2 eight [([], Solve 3)])) with Some x => regression_build_m 2 cc (1 # 2) 2 eight [] x | None => None end) <> None).
Proof. split; [cbn; lia|]. split; [cbn; lia|]. intros []; (split; [vm_compute; reflexivity|vm_compute; discriminate]). Qed.
