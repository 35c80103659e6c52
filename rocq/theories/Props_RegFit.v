(** C89: fits of regression trees. *)
From Coq Require Import List Arith Bool Lia ZArith QArith Qround Qminmax Lqa Permutation.
From Verif Require Import Base_Q Model_FeatureVector Model_Data Model_Node Model_Cache Model_Terminal Model_Heap Model_Solver Model_Preproc Model_CostComplex Model_Regression Model_Tasks
  Spec_Tree Spec_Rows Spec_Tasks Spec_Reg Proofs_View Proofs_Feature Proofs_Base Proofs_Preproc Proofs_Rows Props_Regression Props_Costs Model_RegFit Proofs_RegFit.
Import ListNotations.
Local Open Scope nat_scope.

(** * From items to rows *)
Lemma f2_length {A B} (R : A -> B -> Prop) l l' : Forall2 R l l' -> length l = length l'.
Proof. induction 1; cbn; congruence. Qed.
Arguments f2_length {A B R l l'}.
Lemma shape_fill u : forall a b, shape (fill a u) = shape (fill b u).
Proof. induction u as [l|f l IHl r IHr]; intros a b; cbn [fill shape]; [reflexivity|]. rewrite (IHl _ (filter (fun i => negb (has f (r_x i))) b)), (IHr _ (filter (fun i => has f (r_x i)) b)). reflexivity. Qed.
Lemma ileaves_fill m u : forall xs ys, ileaves m ys u <-> ileaves m ys (shape (fill xs u)).
Proof. induction u as [l|f l IHl r IHr]; intros xs ys; cbn [fill shape ileaves]; [reflexivity|]. rewrite <- IHl, <- IHr. reflexivity. Qed.
Notation rr := Model_RegFit.reg_rows.
Definition like (i : inst) (r : rrow) : Prop := ifv i = fv_make (map (fun k => negb (k =? 0)) (fst r)).
Lemma like_has i r f : like i r -> has f i = negb (nth f (fst r) 0 =? 0).
Proof. unfold like, has. intros ->. unfold fv_has, fv_make. cbn [fv_bits]. change false with ((fun k => negb (k =? 0)) 0). rewrite map_nth. reflexivity. Qed.
Lemma like_value t i r : like i r -> rpredict t i = row_value t (fst r).
Proof. intro H. induction t as [c|f l IHl r' IHr]; cbn [rpredict row_value]; [reflexivity|]. rewrite (like_has _ _ f H). destruct (_ =? _); assumption. Qed.
Lemma rr_like rows : Forall2 (fun p r => like (fst p) r /\ snd p = inject_Z (snd r)) (rr rows) rows.
Proof.
  unfold rr. assert (G : forall l s, Forall2 (fun p r => like (fst p) r /\ snd p = inject_Z (snd r)) (map (fun p : nat * rrow => (Inst (fst p) (fv_make (map (fun k => negb (k =? 0)) (fst (snd p)))), inject_Z (snd (snd p)))) (combine (seq s (length l)) l)) l).
  { induction l as [|r l IH]; intro s; cbn [length seq combine map]; constructor; [|apply IH]. cbn. split; reflexivity. }
  apply G.
Qed.
Lemma rr_sse rows t : (tree_sse (rr rows) t == row_sse rows t)%Q.
Proof. unfold tree_sse, row_sse. induction (rr_like rows) as [|p r ps rs [H E] _ IH]; cbn [sumQ]; [reflexivity|]. rewrite IH, (like_value t _ _ H), E. reflexivity. Qed.
Lemma rr_ok rows : rows_ok (rr rows).
Proof. unfold rows_ok. induction (rr_like rows) as [|p r ps rs [H E] _ IH]; constructor; [|exact IH]. rewrite H. apply fv_make_ok. Qed.
Lemma rr_length rows : length (rr rows) = length rows.
Proof. apply (f2_length (rr_like rows)). Qed.
Lemma rr_in rows p : In p (rr rows) -> exists r, In r rows /\ like (fst p) r /\ snd p = inject_Z (snd r).
Proof. induction (rr_like rows) as [|q r ps rs H _ IH]; [intros []|]. intros [->|Hp]; [exists r; split; [left; reflexivity|exact H]|]. destruct (IH Hp) as (r' & A & B). exists r'. split; [right; exact A|exact B]. Qed.
Lemma rr_back rows r : In r rows -> exists p, In p (rr rows) /\ like (fst p) r.
Proof. induction (rr_like rows) as [|q r' ps rs H _ IH]; [intros []|]. intros [->|Hp]; [exists q; split; [left; reflexivity|apply H]|]. destruct (IH Hp) as (p & A & B). exists p. split; [right; exact A|exact B]. Qed.

Lemma plain_sse rows t : (cc_tree_cost (plain_items rows) t == row_sse rows t)%Q.
Proof.
  rewrite tree_cost_sum.
  - rewrite <- rr_sse. unfold plain_items, tree_sse. induction (rr rows) as [|p ps IH]; cbn [map sumQ]; [reflexivity|]. rewrite IH. unfold item_cost, phi. cbn [r_x r_y r_q r_w]. change (qn 1) with 1%Q. ring.
  - unfold plain_items. apply Forall_map, Forall_forall. intros p _. split; [cbn; lia|]. cbn [r_y r_q r_w]. change (qn 1) with 1%Q. lra.
Qed.
Lemma plain_weight rows : weight (plain_items rows) = length rows.
Proof. rewrite <- rr_length. unfold plain_items. induction (rr rows) as [|p ps IH]; [reflexivity|]. cbn [map weight fold_right length r_w]. unfold weight in IH. lia. Qed.
Lemma plain_like rows : Forall2 (fun i r => like (r_x i) r) (plain_items rows) rows.
Proof. unfold plain_items. induction (rr_like rows) as [|p r ps rs [H E] _ IH]; cbn [map]; constructor; auto. Qed.
Lemma same_leaves m t : forall ys rows, Forall2 (fun i r => like (r_x i) r) ys rows -> (ileaves m ys (shape t) <-> rleaves m rows t).
Proof.
  induction t as [c|f l IHl r IHr]; intros ys rows H; cbn [shape ileaves rleaves]; [rewrite (f2_length H); reflexivity|].
  assert (F : forall (g : ritem -> bool) (h : rrow -> bool), (forall i r, like (r_x i) r -> g i = h r) -> Forall2 (fun i r => like (r_x i) r) (filter g ys) (filter h rows)).
  { intros g h E. induction H as [|i r' ys rows Hi _ IH]; cbn [filter]; [constructor|]. rewrite (E _ _ Hi). destruct (h r'); [constructor|]; assumption. }
  rewrite <- (IHl _ _ (F _ (fun p => nth f (fst p) 0 =? 0) (fun i r' Hi => eq_trans (f_equal negb (like_has _ _ f Hi)) (negb_involutive _)))).
  rewrite <- (IHr _ _ (F _ (fun p => negb (nth f (fst p) 0 =? 0)) (fun i r' Hi => like_has _ _ f Hi))). reflexivity.
Qed.
(** The same tests, with different numbers of rows. *)
Definition alike (ys : list ritem) (rows : list rrow) : Prop :=
  (forall i, In i ys -> exists r, In r rows /\ forall f, has f (r_x i) = negb (nth f (fst r) 0 =? 0))
  /\ (forall r, In r rows -> exists i, In i ys /\ forall f, has f (r_x i) = negb (nth f (fst r) 0 =? 0)).
Lemma alike_leaves t : forall ys rows, alike ys rows -> (ileaves 1 ys (shape t) <-> rleaves 1 rows t).
Proof.
  induction t as [c|f l IHl r IHr]; intros ys rows [H1 H2]; cbn [shape ileaves rleaves].
  - split; intro L.
    + destruct ys as [|i ys]; [cbn in L; lia|]. destruct (H1 i (or_introl eq_refl)) as (r & Hr & _). destruct rows; [destruct Hr|cbn; lia].
    + destruct rows as [|r rows]; [cbn in L; lia|]. destruct (H2 r (or_introl eq_refl)) as (i & Hi & _). destruct ys; [destruct Hi|cbn; lia].
  - rewrite (IHl _ (filter (fun p => nth f (fst p) 0 =? 0) rows)), (IHr _ (filter (fun p => negb (nth f (fst p) 0 =? 0)) rows)); [reflexivity| |]; split; intros x Hx; apply filter_In in Hx; destruct Hx as [Hx E];
      [destruct (H1 _ Hx) as (y & Hy & Hh)|destruct (H2 _ Hx) as (y & Hy & Hh)|destruct (H1 _ Hx) as (y & Hy & Hh)|destruct (H2 _ Hx) as (y & Hy & Hh)]; exists y; (split; [apply filter_In; split; [exact Hy|]|exact Hh]);
      rewrite Hh in *; rewrite ?negb_involutive in *; exact E.
Qed.

(** Groups keep what single items have and sums keep. *)
Lemma group_all (P : inst -> nat -> Q -> Q -> nat -> Prop) (Hadd : forall x u y q n x' u' y' q' n', P x u y q n -> P x' u' y' q' n' -> P x u (y + y')%Q (q + q')%Q (n + n')) rest :
  forall cur y q n w, P (r_x cur) (r_uid cur) y q n -> Forall (fun i => P (r_x i) (r_uid i) (r_y i) (r_q i) (r_w i)) (cur :: rest) ->
  Forall (fun i => P (r_x i) (r_uid i) (r_y i) (r_q i) (r_w i)) (cc_group cur y q n w rest).
Proof.
  induction rest as [|c rest IH]; intros cur y q n w H F; inversion F as [|? ? Hc Hr]; subst; cbn [cc_group]; [constructor; [exact H|constructor]|]. inversion Hr as [|? ? Hc' Hr']; subst.
  destruct (_ =? _).
  - apply IH; [eapply Hadd; eauto|constructor; assumption].
  - constructor; [unfold close_item; destruct (_ <? _); [exact H|exact Hc]|]. apply IH; [exact Hc'|exact Hr].
Qed.
Lemma group_uid rest : forall cur y q n w c, In c (cur :: rest) -> exists i, In i (cc_group cur y q n w rest) /\ r_uid i = r_uid c.
Proof.
  induction rest as [|d rest IH]; intros cur y q n w c Hc; cbn [cc_group].
  - destruct Hc as [<-|[]]. eexists. split; [left; reflexivity|reflexivity].
  - destruct (Nat.eqb_spec (r_uid cur) (r_uid d)) as [E|N].
    + destruct Hc as [<-|[<-|Hc]]; [apply IH; left; reflexivity| |apply IH; right; exact Hc].
      destruct (IH cur (y + r_y d)%Q (q + r_q d)%Q (n + r_w d) (r_w d) cur (or_introl eq_refl)) as (i & A & B). exists i. split; [exact A|congruence].
    + destruct Hc as [<-|Hc].
      * exists (close_item cur y q n w). split; [left; reflexivity|]. unfold close_item. destruct (_ <? _); reflexivity.
      * destruct (IH d (r_y d) (r_q d) (r_w d) (r_w d) c Hc) as (i & A & B). exists i. split; [right; exact A|exact B].
Qed.
Lemma pre_in rows i : In i (reg_preprocess (rr rows)) -> exists r, In r rows /\ like (r_x i) r /\ r_y i = inject_Z (snd r) /\ r_q i = (inject_Z (snd r) * inject_Z (snd r))%Q /\ r_w i = 1.
Proof.
  intro Hi. unfold reg_preprocess in Hi. pose proof (number_rows (reg_sort (rr rows)) 0 0 None) as F. pose proof (reg_sort_perm (rr rows)) as HP.
  assert (G : exists p, In p (reg_sort (rr rows)) /\ ifv (r_x i) = ifv (fst p) /\ r_y i = snd p /\ r_q i = (snd p * snd p)%Q /\ r_w i = 1).
  { clear HP. induction F as [|p j ps js H _ IH]; [destruct Hi|]. destruct Hi as [->|Hi]; [exists p; split; [left; reflexivity|exact H]|]. destruct (IH Hi) as (q & A & B). exists q. split; [right; exact A|exact B]. }
  destruct G as (p & Hp & E1 & E2 & E3 & E4). apply (Permutation_in p HP) in Hp. destruct (rr_in rows p Hp) as (r & Hr & L & Y). exists r. split; [exact Hr|]. unfold like in *. rewrite E1, E2, E3, <- Y. auto.
Qed.
Lemma pre_back rows r : In r rows -> exists i, In i (reg_preprocess (rr rows)) /\ like (r_x i) r.
Proof.
  intro Hr. destruct (rr_back rows r Hr) as (p & Hp & L). apply (Permutation_in p (Permutation_sym (reg_sort_perm (rr rows)))) in Hp. unfold reg_preprocess.
  pose proof (number_rows (reg_sort (rr rows)) 0 0 None) as F. induction F as [|q j ps js (E & _) _ IH]; [destruct Hp|]. destruct Hp as [->|Hp].
  - exists j. split; [left; reflexivity|]. unfold like in *. rewrite E. exact L.
  - destruct (IH Hp) as (i & A & B). exists i. split; [right; exact A|exact B].
Qed.
Lemma pre_length rows : length (reg_preprocess (rr rows)) = length rows.
Proof. unfold reg_preprocess. rewrite <- (f2_length (number_rows (reg_sort (rr rows)) 0 0 None)), (Permutation_length (reg_sort_perm (rr rows))). apply rr_length. Qed.

Definition squares (rows : list rrow) : Z := fold_right (fun r a => snd r * snd r + a)%Z 0%Z rows.
Lemma squares_sse rows : (row_sse rows (RLeaf 0) == inject_Z (squares rows))%Q.
Proof. unfold row_sse. induction rows as [|r rows IH]; cbn [sumQ squares fold_right]; [reflexivity|]. fold (squares rows). rewrite IH, inject_Z_plus, inject_Z_mult. cbn [row_value]. ring. Qed.
Lemma squares_nonneg rows : (0 <= squares rows)%Z.
Proof. unfold squares. induction rows as [|r rows IH]; cbn [fold_right]; [lia|]. nia. Qed.
Lemma squares_in rows r : In r rows -> (snd r * snd r <= squares rows)%Z.
Proof.
  induction rows as [|r' rows IH]; [intros []|]. cbn [squares fold_right]. fold (squares rows). pose proof (squares_nonneg rows). intros [->|H1]; [lia|]. apply IH in H1. nia.
Qed.
Lemma item_q_nonneg i : item_ok i -> (0 <= r_q i)%Q.
Proof.
  intros [H1 H2]. apply qn_pos in H1. pose proof (sq_nonneg (r_y i)). destruct (Qlt_le_dec (r_q i) 0) as [L|L]; [|exact L]. exfalso.
  assert (qn (r_w i) * r_q i < 0)%Q; [|lra]. setoid_replace 0%Q with (qn (r_w i) * 0)%Q by ring. apply Qmult_lt_l; assumption.
Qed.
Lemma sum_ge {A} (g : A -> Q) l x : (forall y, In y l -> (0 <= g y)%Q) -> In x l -> (g x <= sumQ g l)%Q.
Proof.
  induction l as [|y l IH]; intros H Hx; [destruct Hx|]. cbn [sumQ]. assert (0 <= sumQ g l)%Q by (apply sumQ_nonneg; intros z Hz; apply H; right; exact Hz).
  destruct Hx as [->|Hx]; [lra|]. pose proof (H y (or_introl eq_refl)). assert (g x <= sumQ g l)%Q by (apply IH; [intros z Hz; apply H; right; exact Hz|exact Hx]). lra.
Qed.
Lemma length_weight xs : Forall item_ok xs -> length xs <= weight xs.
Proof. induction 1 as [|i xs [H _] _ IH]; cbn [length weight fold_right]; [lia|]. unfold weight in IH. lia. Qed.

(** * Inputs *)
(** Rows of [nf] features and whole targets whose size stays below the label for "no label";
    depth-two solver and lower bounds off; a node limit of 1 or all node numbers only up to
    2^depth - 1; the errors are below the upper bound and 2^1023. *)
Record reg_usable (lam : Q) (W : switches) (P : params) (nf : nat) (rows : list rrow) : Prop := RegUsable {
  gu_bits : Forall (fun r => length (fst r) = nf) rows;
  gu_label : Forall (fun r => (Z.abs (snd r) < 2147483647)%Z) rows;
  gu_leaf : 1 <= w_mls W <= length rows;
  gu_nodes : p_all P = true \/ p_nodes P = 1 -> p_nodes P <= 2 ^ p_depth P - 1;
  gu_most : ((1 + lam * qn (2 ^ p_depth P - 1)) * inject_Z (reg_top rows) <= inject_Z (Z.min (upper_bound (p_ub P)) (2 ^ 1023)))%Q;
  gu_plain : plain_search W }.

Lemma top_squares rows : reg_top rows = (Z.of_nat (length rows) * squares rows)%Z.
Proof. reflexivity. Qed.
Lemma qn_Z n : qn n = inject_Z (Z.of_nat n).
Proof. reflexivity. Qed.
Lemma q_most e a a' b b' : (a == a' -> b == b' -> q_at_most e a b -> q_at_most e a' b')%Q.
Proof. unfold q_at_most. intros E1 E2 H. rewrite <- E1, <- E2. exact H. Qed.
Lemma q_most_le e a b b' : (b <= b')%Q -> q_at_most e a b -> q_at_most e a b'.
Proof.
  unfold q_at_most. intros H1 H2. eapply Qle_trans; [exact H2|]. apply Qmult_le_compat_r; [exact H1|]. change 0%Q with (inject_Z 0). rewrite <- Zle_Qle. apply Z.pow_nonneg. lia.
Qed.

(** * C89 *)
(** Regression: a fit that is proven optimal returns a tree within the limits, with the mean of
    its rows at every leaf; the score is the mean squared error; and no tree within the limits,
    with whatever numbers at its leaves, has a squared error that is smaller by more than the
    factor (10001/10000)^e with e = (d+1)(d+2)/2 for depth d. *)
Theorem C89_regression_partial : forall W P nf clk rows, reg_usable 0 W P nf rows ->
  let R := fit_reg W P nf clk rows in rg_proven R = true ->
  rg_walks R = true /\
  exists t, rg_tree R = Some t
    /\ reg_allowed nf (w_mls W) (p_depth P) (2 ^ p_depth P - 1) rows t
    /\ (exists s, rg_score R = Some s /\ s == row_sse rows t / qn (length rows))%Q
    /\ forall t', reg_allowed nf (w_mls W) (p_depth P) (p_nodes P) rows t' -> q_at_most (slack (p_depth P)) (row_sse rows t) (row_sse rows t').
Proof.
  intros W P nf clk rows HU R Hp. subst R. unfold fit_reg in *. set (xs := plain_items rows) in *.
  pose proof (gu_leaf _ _ _ _ _ HU) as Hm. destruct (gu_plain _ _ _ _ _ HU) as [P1 P2].
  assert (Hlen : length xs = length rows) by (unfold xs, plain_items; rewrite map_length; apply rr_length).
  assert (Hin : forall i, In i xs -> exists r, In r rows /\ like (r_x i) r /\ r_y i = inject_Z (snd r) /\ r_q i = (inject_Z (snd r) * inject_Z (snd r))%Q /\ r_w i = 1).
  { intros i Hi. apply in_map_iff in Hi. destruct Hi as (p & <- & Hi). destruct (rr_in rows p Hi) as (r & A & B & C). exists r. cbn [r_x r_y r_q r_w]. rewrite C. auto. }
  assert (Hok : Forall item_ok xs).
  { apply Forall_forall. intros i Hi. destruct (Hin i Hi) as (r & _ & _ & B & C & D). unfold item_ok. rewrite B, C, D. change (qn 1) with 1%Q. split; [lia|lra]. }
  destruct (items_fit (zfact (length rows)) xs None nf (squares rows)) with (W := W) (P := P) (clk := clk) as (t & R1 & Rw & R2 & R3 & R4 & R5 & (s & R6 & R7) & R8).
  - apply zfact_pos.
  - intros w Hw. apply zfact_div. unfold xs in Hw. rewrite plain_weight in Hw. exact Hw.
  - exact Hok.
  - apply Forall_forall. intros i Hi. destruct (Hin i Hi) as (r & _ & _ & B & C & _). split; [exists (snd r); rewrite B; reflexivity|exists (snd r * snd r)%Z; rewrite C, inject_Z_mult; reflexivity].
  - apply Forall_forall. intros i Hi. destruct (Hin i Hi) as (r & A & B & _). eexists. split; [|exact B]. rewrite map_length. apply (proj1 (Forall_forall _ _) (gu_bits _ _ _ _ _ HU) r A).
  - lia.
  - apply Forall_forall. intros i Hi. destruct (Hin i Hi) as (r & A & _ & _ & C & _). rewrite C, <- inject_Z_mult, <- Zle_Qle. apply squares_in. exact A.
  - apply squares_nonneg.
  - rewrite Hlen. exact Hm.
  - exact P1.
  - exact P2.
  - congruence.
  - exact (gu_nodes _ _ _ _ _ HU).
  - pose proof (gu_most _ _ _ _ _ HU) as G. setoid_replace ((1 + 0 * qn (2 ^ p_depth P - 1)) * inject_Z (reg_top rows))%Q with (inject_Z (reg_top rows)) in G by ring.
    rewrite <- Zle_Qle, top_squares in G. rewrite Hlen, Z.add_0_r. apply Z.mul_le_mono_nonneg_l; [pose proof (zfact_pos (length rows)); lia|exact G].
  - apply Forall_forall. intros i Hi. destruct (Hin i Hi) as (r & A & _ & B & _ & D). rewrite B, D. change (qn 1) with 1%Q. rewrite Qmult_1_r, <- Zlt_Qlt.
    pose proof (proj1 (Forall_forall _ _) (gu_label _ _ _ _ _ HU) r A) as L. cbn beta in L. unfold int32_max. lia.
  - exact Hp.
  - split; [exact Rw|]. exists (fill xs t). split; [exact R1|].
    assert (Hterr : forall u, (terr xs u == row_sse rows (fill xs u))%Q) by (intro u; rewrite <- (plain_sse rows (fill xs u)); symmetry; apply terr_fill; exact Hok).
    change (inject_Z 0 / inject_Z (zfact (length rows)))%Q with (0 / inject_Z (zfact (length rows)))%Q in *.
    assert (Hz : (0 / inject_Z (zfact (length rows)) == 0)%Q) by (unfold Qdiv; ring).
    split.
    { split; [apply fill_fits; exact R2|]. split; [apply (same_leaves (w_mls W) _ xs rows (plain_like rows)), ileaves_fill; exact R3|]. rewrite fill_depth, fill_nodes. auto. }
    split.
    { exists s. split; [exact R6|]. rewrite R7, Hterr. unfold xs. rewrite plain_weight. reflexivity. }
    intros t' (A1 & A2 & A3 & A4). rewrite <- shape_depth in A3. rewrite <- shape_nodes in A4.
    specialize (R8 (shape t') (proj2 (shape_fits nf t') A1) (proj2 (same_leaves (w_mls W) t' xs rows (plain_like rows)) A2) A3 A4).
    eapply q_most_le; [|eapply q_most; [| |exact R8]]; [|rewrite Hz, Hterr; ring|rewrite Hz; instantiate (1 := terr xs (shape t')); ring].
    rewrite <- (plain_sse rows t'). apply terr_best. exact Hok.
Qed.

(** The squared error around the mean. *)
Lemma pre_ok rows : Forall item_ok (reg_preprocess (rr rows)).
Proof. apply Forall_forall. intros i Hi. apply (items_fv (rr rows) i (rr_ok rows) Hi). Qed.
Lemma pre_weight rows : weight (reg_preprocess (rr rows)) = length rows.
Proof.
  rewrite <- pre_length. assert (G : forall l, (forall i, In i l -> r_w i = 1) -> weight l = length l).
  { induction l as [|i l IH]; intro H; [reflexivity|]. cbn [weight fold_right length]. fold (weight l). rewrite IH by (intros j Hj; apply H; right; exact Hj). rewrite (H i (or_introl eq_refl)). reflexivity. }
  apply G. intros i Hi. destruct (pre_in rows i Hi) as (r & _ & _ & _ & _ & E). exact E.
Qed.
Lemma pre_mean rows : (item_mean (reg_preprocess (rr rows)) == row_mean rows)%Q.
Proof.
  rewrite (proj2 (err_sums _)), pre_weight. unfold row_mean.
  assert (E : (sumQ r_y (reg_preprocess (rr rows)) == sumQ (fun r => inject_Z (snd r)) rows)%Q); [|rewrite E; reflexivity].
  transitivity (sumQ (@snd inst Q) (rr rows)).
  - rewrite <- (sumQ_perm _ _ _ (reg_sort_perm (rr rows))). unfold reg_preprocess. pose proof (number_rows (reg_sort (rr rows)) 0 0 None) as F.
    induction F as [|r j rs js (_ & Y & _) F IH]; cbn [sumQ]; [reflexivity|]. rewrite IH, Y. reflexivity.
  - induction (rr_like rows) as [|p r ps rs [_ E] _ IH]; cbn [sumQ]; [reflexivity|]. rewrite IH, E. reflexivity.
Qed.
Lemma leaf_sse_ext rows c c' : (c == c')%Q -> (row_sse rows (RLeaf c) == row_sse rows (RLeaf c'))%Q.
Proof. intro E. unfold row_sse. induction rows as [|r rows IH]; cbn [sumQ row_value]; [reflexivity|]. rewrite IH, E. reflexivity. Qed.
Lemma pre_sse rows t : (cc_tree_cost (reg_preprocess (rr rows)) t == row_sse rows t)%Q.
Proof. rewrite (tree_cost_sum t _ (pre_ok rows)), items_cost. apply rr_sse. Qed.
Lemma base_err rows : (item_err (reg_preprocess (rr rows)) == row_sse rows (RLeaf (row_mean rows)))%Q.
Proof. rewrite <- (err_mean _ (pre_ok rows)). rewrite <- (leaf_sse_ext rows _ _ (pre_mean rows)). exact (pre_sse rows (RLeaf _)). Qed.

(** Cost-complex regression: the same for the squared error plus, for every branching node, [lam]
    times the squared error around the mean of all targets; the score is the mean squared error,
    without the costs of nodes.  Only for a minimum leaf size of 1 (the
    code counts the rows behind a merged item, the model of the search counts items: for 1 they
    agree), and with upper bounds on. *)
Theorem C89_cost_complex_partial : forall lam W P nf clk rows, (0 <= lam)%Q -> reg_usable lam W P nf rows -> w_mls W = 1 -> w_ub W = true ->
  let R := fit_ccr lam W P nf clk rows in rg_proven R = true ->
  rg_walks R = true /\
  exists t, rg_tree R = Some t
    /\ reg_allowed nf 1 (p_depth P) (2 ^ p_depth P - 1) rows t
    /\ (exists s, rg_score R = Some s /\ s == row_sse rows t / qn (length rows))%Q
    /\ forall t', reg_allowed nf 1 (p_depth P) (p_nodes P) rows t' -> q_at_most (slack (p_depth P)) (reg_total lam rows t) (reg_total lam rows t').
Proof.
  intros lam W P nf clk rows Hlam HU Hm1 Hub R Hp. subst R. unfold fit_ccr in *. set (S := (zfact (length rows) * Zpos (Qden lam))%Z) in *.
  pose proof (gu_leaf _ _ _ _ _ HU) as Hm. destruct (gu_plain _ _ _ _ _ HU) as [P1 P2].
  set (pre := reg_preprocess (rr rows)) in *. set (B := Qfloor (inject_Z S * (lam * item_err pre))) in *.
  assert (HS : (0 < S)%Z) by (unfold S; pose proof (zfact_pos (length rows)); lia).
  assert (HSq : (0 < inject_Z S)%Q) by (change 0%Q with (inject_Z 0); rewrite <- Zlt_Qlt; exact HS).
  assert (Hfact : forall w, 1 <= w <= length rows -> exists k, zfact (length rows) = (k * Z.of_nat w)%Z) by (intros w Hw; apply zfact_div; exact Hw).
  assert (Hdiv : forall w, 1 <= w <= length rows -> exists k, S = (k * Z.of_nat w)%Z).
  { intros w Hw. destruct (Hfact w Hw) as (k & E). exists (k * Zpos (Qden lam))%Z. unfold S. rewrite E. ring. }
  assert (Hbase : (0 <= item_err pre)%Q) by apply err_nonneg, pre_ok.
  assert (Hpw : Forall whole pre).
  { apply Forall_forall. intros i Hi. destruct (pre_in rows i Hi) as (r & _ & _ & Y & Q & _). split; [exists (snd r); rewrite Y; reflexivity|exists (snd r * snd r)%Z; rewrite Q, inject_Z_mult; reflexivity]. }
  assert (HB : (inject_Z B == inject_Z S * (lam * item_err pre))%Q).
  { destruct (leaf_whole (zfact (length rows)) pre) with (ys := pre) as (z & Hz); [intros w Hw; unfold pre in Hw; rewrite pre_weight in Hw; apply Hfact; exact Hw|apply pre_ok|exact Hpw|lia|].
    assert (E : (inject_Z S * (lam * item_err pre) == inject_Z (Qnum lam * z))%Q).
    { unfold S. rewrite !inject_Z_mult, <- Hz. assert (L : (lam * inject_Z (Zpos (Qden lam)) == inject_Z (Qnum lam))%Q) by (destruct lam as [a b]; unfold Qeq, inject_Z; cbn; lia). rewrite <- L. ring. }
    unfold B. rewrite (qfloor_int _ _ E). symmetry. exact E. }
  assert (HB0 : (0 <= B)%Z).
  { rewrite Zle_Qle, HB. change (inject_Z 0) with 0%Q. apply Qmult_le_0_compat; [lra|]. apply Qmult_le_0_compat; assumption. }
  assert (HBS : (inject_Z B / inject_Z S == lam * row_sse rows (RLeaf (row_mean rows)))%Q) by (rewrite HB; unfold pre; rewrite base_err; field; lra).
  unfold ccr_items in *. fold pre in Hp |- *. destruct (cc_merge pre) as [xs|] eqn:HM.
  2:{ exfalso. unfold cc_merge in HM. destruct (id_sort pre) eqn:E; [|discriminate]. pose proof (Permutation_length (id_sort_perm pre)) as L. rewrite E in L. unfold pre in L. rewrite pre_length in L. cbn in L. lia. }
  assert (Hsse : forall t, (cc_tree_cost xs t == row_sse rows t)%Q) by (intro t; destruct (C39_merge (rr rows) xs t (rr_ok rows) HM) as [E _]; rewrite E; apply rr_sse).
  assert (Hw : weight xs = length rows) by (destruct (C39_merge (rr rows) xs (RLeaf 0) (rr_ok rows) HM) as (_ & _ & E); rewrite E; apply rr_length).
  assert (Hgrp : forall (Q : inst -> nat -> Q -> Q -> nat -> Prop), (forall x u y q n x' u' y' q' n', Q x u y q n -> Q x' u' y' q' n' -> Q x u (y + y')%Q (q + q')%Q (n + n')) ->
    Forall (fun i => Q (r_x i) (r_uid i) (r_y i) (r_q i) (r_w i)) pre -> Forall (fun i => Q (r_x i) (r_uid i) (r_y i) (r_q i) (r_w i)) xs).
  { intros Q HA HF. unfold cc_merge in HM. pose proof (id_sort_perm pre) as HP. destruct (id_sort pre) as [|c rest]; [discriminate|]. injection HM as <-.
    assert (F : Forall (fun i => Q (r_x i) (r_uid i) (r_y i) (r_q i) (r_w i)) (c :: rest)) by (apply (Permutation_Forall (Permutation_sym HP)); exact HF).
    apply group_all; [exact HA| |exact F]. inversion F; assumption. }
  assert (Hok : Forall item_ok xs).
  { apply (Hgrp (fun _ _ y q n => 0 < n /\ (y * y <= qn n * q)%Q)); [|exact (pre_ok rows)]. intros x u y q n x' u' y' q' n' [A1 A2] [B1 B2]. split; [lia|]. apply item_ok_add; assumption. }
  assert (Hwh : Forall whole xs).
  { apply (Hgrp (fun _ _ y q n => (exists a, y == inject_Z a)%Q /\ (exists b, q == inject_Z b)%Q)); [|exact Hpw].
    intros x u y q n x' u' y' q' n' [(a & A) (b & B1)] [(a' & A') (b' & B')]. split; [exists (a + a')%Z; rewrite A, A', inject_Z_plus; reflexivity|exists (b + b')%Z; rewrite B1, B', inject_Z_plus; reflexivity]. }
  assert (Hfrom : Forall (fun i => exists j, In j pre /\ r_x i = r_x j /\ r_uid i = r_uid j) xs).
  { apply (Hgrp (fun x u _ _ _ => exists j, In j pre /\ x = r_x j /\ u = r_uid j)); [auto|]. apply Forall_forall. intros i Hi. exists i. auto. }
  assert (Hlab : Forall (fun i => (r_y i < inject_Z int32_max * qn (r_w i))%Q) xs).
  { apply (Hgrp (fun _ _ y _ n => y < inject_Z int32_max * qn n)%Q); [intros x u y q n x' u' y' q' n' A1 A2; rewrite qn_add; lra|].
    apply Forall_forall. intros i Hi. destruct (pre_in rows i Hi) as (r & A & _ & Y & _ & D). rewrite Y, D. change (qn 1) with 1%Q. rewrite Qmult_1_r, <- Zlt_Qlt.
    pose proof (proj1 (Forall_forall _ _) (gu_label _ _ _ _ _ HU) r A) as L. cbn beta in L. unfold int32_max. lia. }
  assert (Hal : alike xs rows).
  { split.
    - intros i Hi. destruct (proj1 (Forall_forall _ _) Hfrom i Hi) as (j & Hj & E & _). destruct (pre_in rows j Hj) as (r & Hr & L & _). exists r. split; [exact Hr|]. intro f. rewrite E. apply like_has. exact L.
    - intros r Hr. destruct (pre_back rows r Hr) as (j & Hj & L).
      assert (G : exists i, In i xs /\ r_uid i = r_uid j).
      { unfold cc_merge in HM. pose proof (id_sort_perm pre) as HP. destruct (id_sort pre) as [|c rest]; [discriminate|]. injection HM as <-. apply group_uid. apply (Permutation_in j (Permutation_sym HP)). exact Hj. }
      destruct G as (i & Hi & U). exists i. split; [exact Hi|]. intro f. rewrite <- (like_has _ _ f L). destruct (proj1 (Forall_forall _ _) Hfrom i Hi) as (k & Hk & E1 & E2). rewrite E1.
      pose proof (preprocess_class (rr rows) k j Hk Hj (eq_trans (eq_sym E2) U)) as C. apply eq_true_iff_eq.
      rewrite !has_present, C by (apply (items_fv (rr rows)); [apply rr_ok|assumption]). reflexivity. }
  assert (Hqs : (sumQ r_q xs == inject_Z (squares rows))%Q).
  { rewrite <- squares_sse, <- Hsse. cbn [cc_tree_cost]. rewrite (leaf_costs_sum xs 0 Hok). apply sumQ_ext. intros i _. unfold item_cost, phi. ring. }
  assert (Hlen : 1 <= length xs <= length rows).
  { split; [|rewrite <- Hw; apply length_weight; exact Hok]. destruct xs; [cbn in Hw; lia|cbn; lia]. }
  destruct (items_fit S xs (Some B) nf (squares rows)) with (W := W) (P := P) (clk := clk) as (t & R1 & Rw & R2 & R3 & R4 & R5 & (s & R6 & R7) & R8).
  - exact HS.
  - rewrite Hw. exact Hdiv.
  - exact Hok.
  - exact Hwh.
  - apply Forall_forall. intros i Hi. destruct (proj1 (Forall_forall _ _) Hfrom i Hi) as (j & Hj & E & _). destruct (pre_in rows j Hj) as (r & Hr & L & _). eexists. rewrite E. split; [|exact L].
    rewrite map_length. apply (proj1 (Forall_forall _ _) (gu_bits _ _ _ _ _ HU) r Hr).
  - exact HB0.
  - apply Forall_forall. intros i Hi. rewrite <- Hqs. apply sum_ge; [|exact Hi]. intros j Hj. apply item_q_nonneg. apply (proj1 (Forall_forall _ _) Hok j Hj).
  - apply squares_nonneg.
  - rewrite Hm1. lia.
  - exact P1.
  - exact P2.
  - intros _. exact Hub.
  - exact (gu_nodes _ _ _ _ _ HU).
  - pose proof (gu_most _ _ _ _ _ HU) as G. rewrite top_squares in G. set (K := 2 ^ p_depth P - 1) in *. set (m := Z.min (upper_bound (p_ub P)) (2 ^ 1023)) in *. clearbody m.
    rewrite Zle_Qle, inject_Z_plus, !inject_Z_mult, HB. rewrite inject_Z_mult in G. change (inject_Z (Z.of_nat (length rows))) with (qn (length rows)) in G.
    change (inject_Z (Z.of_nat (length xs))) with (qn (length xs)). change (inject_Z (Z.of_nat K)) with (qn K).
    assert (Q0 : (0 <= inject_Z (squares rows))%Q) by (change 0%Q with (inject_Z 0); rewrite <- Zle_Qle; apply squares_nonneg).
    assert (Q1 : (qn (length xs) <= qn (length rows))%Q) by (rewrite !qn_Z, <- Zle_Qle; lia).
    assert (Q2 : (1 <= qn (length rows))%Q) by (change 1%Q with (inject_Z 1); rewrite qn_Z, <- Zle_Qle; lia).
    assert (Q3 : (0 <= qn K)%Q) by (change 0%Q with (inject_Z 0); rewrite qn_Z, <- Zle_Qle; lia).
    assert (Q4 : (item_err pre <= inject_Z (squares rows))%Q) by (rewrite <- squares_sse, <- (pre_sse rows); apply err_best, pre_ok).
    assert (Q5 : (qn (length xs) * inject_Z (squares rows) <= qn (length rows) * inject_Z (squares rows))%Q) by (apply Qmult_le_compat_r; assumption).
    assert (Q6 : (inject_Z (squares rows) <= qn (length rows) * inject_Z (squares rows))%Q) by (setoid_replace (inject_Z (squares rows)) with (1 * inject_Z (squares rows))%Q at 1 by ring; apply Qmult_le_compat_r; assumption).
    assert (Q7 : (lam * qn K * item_err pre <= lam * qn K * (qn (length rows) * inject_Z (squares rows)))%Q).
    { rewrite !(Qmult_comm (lam * qn K)). apply Qmult_le_compat_r; [lra|]. apply Qmult_le_0_compat; assumption. }
    setoid_replace (inject_Z S * (qn (length xs) * inject_Z (squares rows)) + inject_Z S * (lam * item_err pre) * qn K)%Q
      with ((qn (length xs) * inject_Z (squares rows) + lam * qn K * item_err pre) * inject_Z S)%Q by ring.
    rewrite (Qmult_comm (inject_Z S)). apply Qmult_le_compat_r; [|lra]. lra.
  - exact Hlab.
  - exact Hp.
  - split; [exact Rw|]. exists (fill xs t). split; [exact R1|]. rewrite Hm1 in *.
    assert (Hterr : forall u, (terr xs u == row_sse rows (fill xs u))%Q) by (intro u; rewrite <- Hsse; symmetry; apply terr_fill; exact Hok).
    split.
    { split; [apply fill_fits; exact R2|]. split; [apply (alike_leaves (fill xs t) xs rows Hal), ileaves_fill; exact R3|]. rewrite fill_depth, fill_nodes. auto. }
    split.
    { exists s. split; [exact R6|]. rewrite R7, Hterr, Hw. reflexivity. }
    intros t' (A1 & A2 & A3 & A4). rewrite <- shape_depth in A3. rewrite <- shape_nodes in A4.
    specialize (R8 (shape t') (proj2 (shape_fits nf t') A1) (proj2 (alike_leaves t' xs rows Hal) A2) A3 A4).
    eapply q_most_le; [|eapply q_most; [| |exact R8]]; [|rewrite HBS, Hterr; unfold reg_total; rewrite fill_nodes; reflexivity|reflexivity].
    rewrite HBS, shape_nodes. unfold reg_total. pose proof (terr_best t' xs Hok) as TB. rewrite Hsse in TB. lra.
Qed.

(** A leaf whose mean is 2147483647 is taken for a node without label: the walk through the tree
    reads a null pointer, although all other conditions hold. *)
Theorem C89_sentinel_refuted : exists W P nf rows,
  Forall (fun r : rrow => length (fst r) = nf) rows /\ 1 <= w_mls W <= length rows /\ plain_search W
  /\ ((1 + 0 * qn (2 ^ p_depth P - 1)) * inject_Z (reg_top rows) <= inject_Z (Z.min (upper_bound (p_ub P)) (2 ^ 1023)))%Q
  /\ rg_proven (fit_reg W P nf (fun _ => true) rows) = true
  /\ rg_tree (fit_reg W P nf (fun _ => true) rows) = Some (RLeaf 2147483647)
  /\ rg_walks (fit_reg W P nf (fun _ => true) rows) = false.
Proof.
  exists (Switches true false false false true false true false 1), (Params 0 0 false 2147483647), 2, [([0; 1], 2147483647%Z)].
  split; [repeat constructor|]. split; [cbn; lia|]. split; [split; reflexivity|]. split; [vm_compute; discriminate|]. split; [vm_compute; reflexivity|]. split; vm_compute; reflexivity.
Qed.

(** With lower bounds on (and the depth-two solver off) both claims are false.  Regression with a
    minimum leaf size of 2 and the similarity bound: the bound of a part of the data is taken for
    a larger part, although trees with large enough leaves exist only for the larger one; the
    returned tree has 4/3 of the least error. *)
Definition seven : list rrow := [([0; 1; 0], 0%Z); ([1; 0; 0], 0%Z); ([1; 0; 1], 2%Z); ([0; 1; 0], 4%Z); ([1; 1; 1], 2%Z); ([0; 1; 0], 2%Z); ([0; 0; 0], 0%Z)].
Theorem C89_similarity_refuted : exists W P nf rows t t',
  w_term W = false /\ Forall (fun r : rrow => length (fst r) = nf) rows /\ 1 <= w_mls W <= length rows
  /\ rg_proven (fit_reg W P nf (fun _ => true) rows) = true
  /\ rg_tree (fit_reg W P nf (fun _ => true) rows) = Some t
  /\ reg_allowed nf (w_mls W) (p_depth P) (p_nodes P) rows t'
  /\ (row_sse rows t == (4 # 3) * row_sse rows t')%Q.
Proof.
  exists (Switches true true false false true false true false 2), (Params 2 3 false 2147483647), 3, seven.
  eexists. exists (RSplit 2 (RSplit 1 (RLeaf 0) (RLeaf 2)) (RLeaf 2)).
  split; [reflexivity|]. split; [repeat constructor|]. split; [cbn; lia|]. split; [vm_compute; reflexivity|]. split; [vm_compute; reflexivity|].
  split; [|vm_compute; reflexivity]. unfold reg_allowed. repeat split; vm_compute; repeat constructor.
Qed.
(** Cost-complex regression with leaves of any size, upper bounds and stored lower bounds: the
    bound of a branch that was not finished may exceed the cost of its leaf (as in C84); a leaf
    is returned although a tree of four nodes costs less. *)
Definition six : list rrow := [([0; 0; 1], 4%Z); ([0; 1; 0], 4%Z); ([1; 0; 0], 4%Z); ([0; 1; 1], 3%Z); ([0; 0; 0], 1%Z); ([1; 1; 1], 1%Z)].
Theorem C89_lower_bound_refuted : exists W P nf rows t t', let lam := (3 # 13)%Q in
  w_term W = false /\ w_sim W = false /\ w_tlb W = false /\ w_ub W = true /\ w_mls W = 1
  /\ Forall (fun r : rrow => length (fst r) = nf) rows /\ 1 <= length rows
  /\ rg_proven (fit_ccr lam W P nf (fun _ => true) rows) = true
  /\ rg_tree (fit_ccr lam W P nf (fun _ => true) rows) = Some t
  /\ reg_allowed nf 1 (p_depth P) (p_nodes P) rows t'
  /\ (reg_total lam rows t == (65 # 63) * reg_total lam rows t')%Q.
Proof.
  exists (Switches true true false false false true true false 1), (Params 3 7 false 2147483647), 3, six.
  eexists. exists (RSplit 0 (RSplit 1 (RSplit 2 (RLeaf 1) (RLeaf 4)) (RLeaf (7 # 2))) (RSplit 1 (RLeaf 4) (RLeaf 1))). cbv zeta.
  do 5 (split; [reflexivity|]). split; [repeat constructor|]. split; [cbn; lia|]. split; [vm_compute; reflexivity|]. split; [vm_compute; reflexivity|].
  split; [|vm_compute; reflexivity]. unfold reg_allowed. repeat split; vm_compute; repeat constructor.
Qed.

(** * Example *)
Definition houses : list rrow := [([1; 0], 30%Z); ([0; 0], 10%Z); ([1; 1], 50%Z); ([0; 1], 12%Z); ([1; 0], 34%Z); ([0; 0], 10%Z)].
Definition reg_switches : switches := Switches true false false false true false true false 1.
Example C89_ex : let P := Params 2 3 false 2147483647 in
  (forall lam, In lam [0; 1 # 10]%Q -> reg_usable lam reg_switches P 2 houses)
  /\ rg_proven (fit_reg reg_switches P 2 (fun _ => true) houses) = true
  /\ rg_tree (fit_reg reg_switches P 2 (fun _ => true) houses) = Some (RSplit 0 (RSplit 1 (RLeaf (20 # 2)) (RLeaf 12)) (RSplit 1 (RLeaf (64 # 2)) (RLeaf 50)))
  /\ rg_proven (fit_ccr (1 # 10) reg_switches P 2 (fun _ => true) houses) = true
  /\ rg_tree (fit_ccr (1 # 10) reg_switches P 2 (fun _ => true) houses) = Some (RSplit 0 (RLeaf (32 # 3)) (RSplit 1 (RLeaf (64 # 2)) (RLeaf 50))).
Proof.
  cbv zeta. split.
  { intros lam [<-|[<-|[]]]; (constructor; [repeat constructor| |cbn; lia|intros [H|H]; discriminate|vm_compute; discriminate|split; reflexivity]);
      unfold houses; repeat (apply Forall_cons; [cbn [snd]; lia|]); apply Forall_nil. }
  split; [vm_compute; reflexivity|]. split; [vm_compute; reflexivity|]. split; vm_compute; reflexivity.
Qed.

Print Assumptions C89_regression_partial.
Print Assumptions C89_cost_complex_partial.
Print Assumptions C89_sentinel_refuted.
Print Assumptions C89_similarity_refuted.
Print Assumptions C89_lower_bound_refuted.
