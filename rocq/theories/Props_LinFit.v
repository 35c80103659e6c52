(** C98: fits of simple piecewise linear regression trees. *)
From Coq Require Import List Arith Bool Lia ZArith QArith Qround Qminmax Lqa Permutation.
From Verif Require Import Base_Q Model_FeatureVector Model_Data Model_Node Model_Cache Model_Terminal Model_Heap Model_Solver Model_Preproc Model_CostComplex Model_Regression Model_Tasks Model_SimpleLinear Model_RegFit Model_LinFit
  Spec_Tree Spec_Rows Spec_Tasks Spec_Reg Spec_Lin Proofs_View Proofs_Feature Proofs_Base Proofs_Preproc Proofs_Rows Proofs_RegFit Proofs_Custom Props_Costs.
From Verif Require Import Props_SimpleLinear.
Import ListNotations.
Local Open Scope nat_scope.
Local Notation lin_rows := Model_LinFit.lin_rows.

(** * Rows of the user and of the model *)
Definition rel (x : lrow) (u : urow) : Prop := ifv (fst x) = fv_make (map (fun k => negb (k =? 0)) (fst u)) /\ snd x = snd u.
Lemma rel_has x u f : rel x u -> has f (fst x) = bit f u.
Proof. intros [H _]. unfold has. rewrite H. unfold fv_has, fv_make, bit. cbn [fv_bits]. change false with ((fun k => negb (k =? 0)) 0). rewrite map_nth. reflexivity. Qed.
Lemma rel_rows rows : Forall2 rel (lin_rows rows) rows.
Proof.
  unfold Model_LinFit.lin_rows. assert (G : forall l s, Forall2 rel (map (fun p : nat * urow => (Inst (fst p) (fv_make (map (fun k => negb (k =? 0)) (fst (snd p)))), snd (snd p))) (combine (seq s (length l)) l)) l).
  { induction l as [|r l IH]; intro s; cbn [length seq combine map]; constructor; [|apply IH]. split; reflexivity. }
  apply G.
Qed.
Lemma f2_len {A B} (R : A -> B -> Prop) l l' : Forall2 R l l' -> length l = length l'.
Proof. induction 1; cbn; congruence. Qed.
Lemma f2_sum {A B} (R : A -> B -> Prop) (F : A -> Q) (G : B -> Q) l l' : Forall2 R l l' -> (forall x y, R x y -> F x == G y)%Q -> (sumQ F l == sumQ G l')%Q.
Proof. intros H E. induction H as [|x y l l' Hx _ IH]; cbn [sumQ]; [reflexivity|]. rewrite IH, (E x y Hx). reflexivity. Qed.
Lemma f2_filter {A B} (R : A -> B -> Prop) (g : A -> bool) (h : B -> bool) l l' : Forall2 R l l' -> (forall x y, R x y -> g x = h y) -> Forall2 R (filter g l) (filter h l').
Proof. intros H E. induction H as [|x y l l' Hx _ IH]; cbn [filter]; [constructor|]. rewrite (E x y Hx). destruct (h y); [constructor|]; assumption. Qed.
Lemma rel_left f rs us : Forall2 rel rs us -> Forall2 rel (filter (fun x => negb (has f (fst x))) rs) (filter (fun p => negb (bit f p)) us).
Proof. intro H. apply (f2_filter rel _ _ _ _ H). intros x u E. rewrite (rel_has x u f E). reflexivity. Qed.
Lemma rel_right f rs us : Forall2 rel rs us -> Forall2 rel (filter (fun x => has f (fst x)) rs) (filter (bit f) us).
Proof. intro H. apply (f2_filter rel _ _ _ _ H). intros x u E. apply rel_has. exact E. Qed.
Lemma rel_cont x u j : rel x u -> cont x j = column j u.
Proof. intros [_ H]. unfold cont, column. rewrite H. reflexivity. Qed.
Lemma rel_goal x u : rel x u -> target x = goal u.
Proof. intros [_ H]. unfold target, goal. rewrite H. reflexivity. Qed.

(** * Means and variances *)
Lemma var_sums (g : urow -> Q) us : us <> [] ->
  (qn (length us) * (qn (length us) * variance g us) == qn (length us) * sumQ (fun r => g r * g r) us - sumQ g us * sumQ g us)%Q.
Proof.
  intro NE. assert (N : (0 < qn (length us))%Q) by (apply qn_pos; destruct us; [congruence|cbn; lia]). unfold variance. unfold mean at 1.
  set (m := mean g us). assert (E : (sumQ (fun r => (g r - m) * (g r - m)) us == sumQ (fun r => g r * g r) us - 2 * m * sumQ g us + qn (length us) * m * m)%Q).
  { clear. generalize m. intro u. induction us as [|r us IH]; cbn [sumQ length]; [change (qn 0) with 0%Q; ring|]. rewrite IH, qn_S. ring. }
  rewrite E. unfold m, mean. field. lra.
Qed.
Lemma var_nonneg (g : urow -> Q) us : (0 <= variance g us)%Q.
Proof.
  unfold variance, mean at 1. unfold Qdiv. apply Qmult_le_0_compat; [apply sumQ_nonneg; intros r _; apply sq_nn|]. apply Qinv_le_0_compat. unfold qn. change 0%Q with (inject_Z 0). rewrite <- Zle_Qle. lia.
Qed.
Lemma items_sum c rs : (sumQ (item_val c) (map (row_item 0) rs) == sumQ (row_val c) rs)%Q.
Proof. induction rs as [|r rs IH]; cbn [map sumQ]; [reflexivity|]. rewrite IH, row_item_val. reflexivity. Qed.
Lemma items_weight rs : total_weight (map (row_item 0) rs) = length rs.
Proof.
  unfold total_weight. assert (G : forall l a, fold_left (fun a i => a + li_w i) (map (row_item 0) l) a = a + length l); [|rewrite G; reflexivity].
  induction l as [|r l IH]; intro a; cbn [map fold_left length]; [lia|]. rewrite IH. cbn [row_item li_w]. lia.
Qed.
Lemma model_var rows us f : Forall2 rel rows us -> us <> [] -> (lin_var rows f == variance (column f) us)%Q.
Proof.
  intros H NE. assert (N : (0 < qn (length us))%Q) by (apply qn_pos; destruct us; [congruence|cbn; lia]).
  unfold lin_var, sl_variance, all_items. cbv zeta. rewrite items_weight, (f2_len _ _ _ H).
  assert (X : forall l a, let s := fold_left (fun a i => mom_add a (mget (li_m i) f)) (map (row_item 0) l) a in (m_x s == m_x a + sumQ (fun r => cont r f) l /\ m_xx s == m_xx a + sumQ (fun r => cont r f * cont r f) l)%Q).
  { induction l as [|i l IH]; intros a; cbn [map fold_left sumQ]; [split; ring|]. destruct (IH (mom_add a (mget (li_m (row_item 0 i)) f))) as [H1 H2]. cbn zeta in *.
    cbn [row_item li_m] in *. destruct (mget_row i f) as (A & B & _). cbn zeta in A, B. fold (target i) in *.
    split; [rewrite H1|rewrite H2]; cbn [mom_add m_x m_xx]; [rewrite A|rewrite B]; ring. }
  destruct (X rows (Mom 0 0 0)) as [X1 X2]. cbn zeta in *. cbn [m_x m_xx] in *. rewrite X1, X2.
  rewrite (f2_sum rel (fun r => cont r f) (column f) _ _ H) by (intros x u E; rewrite (rel_cont _ _ _ E); reflexivity).
  rewrite (f2_sum rel (fun r => cont r f * cont r f)%Q (fun u => column f u * column f u)%Q _ _ H) by (intros x u E; rewrite (rel_cont _ _ _ E); reflexivity).
  pose proof (var_sums (column f) us NE) as V. set (n := qn (length us)) in *. set (v := variance (column f) us) in *. set (a := sumQ (fun u => column f u * column f u)%Q us) in *. set (b := sumQ (column f) us) in *.
  assert (E : (v == (n * a - b * b) / (n * n))%Q) by (rewrite <- V; field; lra). rewrite E. field. lra.
Qed.
Lemma fold_add {A} (g : A -> Q) l : forall a, (fold_left (fun a i => a + g i)%Q l a == a + sumQ g l)%Q.
Proof. induction l as [|x l IH]; intro a; cbn [fold_left sumQ]; [ring|]. rewrite IH. ring. Qed.
Lemma model_branching ccp rows us : Forall2 rel rows us -> us <> [] -> (sl_branching ccp (all_items rows) == ccp * (qn (length us) * variance goal us))%Q.
Proof.
  intros H NE. assert (N : (0 < qn (length us))%Q) by (apply qn_pos; destruct us; [congruence|cbn; lia]).
  unfold sl_branching, all_items. cbv zeta. rewrite items_weight, (f2_len _ _ _ H), !fold_add.
  assert (E1 : (sumQ li_y (map (row_item 0) rows) == sumQ goal us)%Q).
  { transitivity (sumQ target rows); [|apply (f2_sum rel _ _ _ _ H); intros x u E; rewrite (rel_goal _ _ E); reflexivity]. clear. induction rows as [|r rows IH]; cbn [map sumQ]; [reflexivity|]. rewrite IH. reflexivity. }
  assert (E2 : (sumQ li_q (map (row_item 0) rows) == sumQ (fun r => goal r * goal r) us)%Q).
  { transitivity (sumQ (fun r => target r * target r)%Q rows); [|apply (f2_sum rel _ _ _ _ H); intros x u E; rewrite (rel_goal _ _ E); reflexivity]. clear. induction rows as [|r rows IH]; cbn [map sumQ]; [reflexivity|]. rewrite IH. reflexivity. }
  change (fun i : litem => li_y i) with li_y. change (fun i : litem => li_q i) with li_q. rewrite E1, E2.
  pose proof (var_sums goal us NE) as V. set (n := qn (length us)) in *. set (v := variance goal us) in *. set (a := sumQ (fun u => goal u * goal u)%Q us) in *. set (b := sumQ goal us) in *.
  assert (E : (v == (n * a - b * b) / (n * n))%Q) by (rewrite <- V; field; lra). rewrite E. field. lra.
Qed.

(** * Leaves *)
Lemma leaf_line ncols pen mls var rs : (0 <= pen)%Q -> (forall f, 0 <= var f)%Q -> 0 < mls -> 0 < ncols ->
  match sl_leaf ncols pen mls var (map (row_item 0) rs) with
  | None => length rs < mls
  | Some (m, e) => mls <= length rs /\ exists f a b, f < ncols /\ m = lm_one ncols f a b /\ (e == pen_err pen var rs f a b)%Q /\
      forall f' a' b', f' < ncols -> (a' == 0)%Q \/ (1 # 1000 <= spread pen var rs f')%Q -> (e <= pen_err pen var rs f' a' b')%Q
  end.
Proof.
  intros R V ML NC. pose proof (leaf_sums_eq ncols (map (row_item 0) rs)) as LS.
  unfold sl_leaf. destruct rs as [|r rs']; [cbn; exact ML|]. set (rs := r :: rs') in *. assert (NE : rs <> []) by discriminate.
  change (map (row_item 0) rs) with (row_item 0 r :: map (row_item 0) rs') at 1. cbv iota.
  change (row_item 0 r :: map (row_item 0) rs') with (map (row_item 0) rs).
  destruct (leaf_sums ncols (map (row_item 0) rs)) as [[[y q] w] mm].
  assert (SO : sums_of rs y q (qn w) mm) by (apply sums_by_val; intro c; rewrite LS; apply items_sum). pose proof SO as ((_ & _ & Wq) & _). apply qn_inj in Wq. subst w.
  destruct (Nat.ltb_spec (length rs) mls) as [L|L]; [exact L|].
  pose proof (loop_min ncols (mA pen (qn (length rs)) y q mm var) (mB pen (qn (length rs)) y q mm var) (mE pen (qn (length rs)) y q mm var) (fun f => mE_nonneg pen var rs _ y q mm f R V NE SO)
    (leaf_step ncols pen var (qn (length rs)) y q mm)) as LM. specialize (LM ltac:(intros best f; unfold leaf_step, mE, mA, mB; destruct (leaf_model _ _ _ _ _ _) as [[a b] e]; reflexivity) ncols).
  destruct (fold_left _ _ _) as [[m s]|]; [|lia]. destruct LM as (f & (F1 & F2 & F3) & -> & ->). split; [exact L|].
  exists f, (mA pen (qn (length rs)) y q mm var f), (mB pen (qn (length rs)) y q mm var f). split; [exact F1|]. split; [reflexivity|].
  pose proof (Q.max_r _ _ (mE_nonneg pen var rs _ y q mm f R V NE SO)) as MX. destruct (leaf_model_parts ncols pen var rs _ y q mm f R V NE SO F1) as [B1 B2].
  split; [rewrite MX; exact B1|]. intros f' a' b' F' C. rewrite MX. eapply Qle_trans; [apply (F2 f' F')|]. apply (leaf_model_parts ncols pen var rs _ y q mm f' R V NE SO F'). exact C.
Qed.
(** A line as a leaf of the specification. *)
Lemma sum_one (F : nat -> Q) f n : f < n -> (forall j, j <> f -> F j == 0)%Q -> (sumQ F (seq 0 n) == F f)%Q.
Proof. apply sum_single. Qed.
Lemma one_length ncols f a b : length (lm_b (lm_one ncols f a b)) = ncols.
Proof. unfold lm_one. cbn [lm_b]. assert (G : forall (l : list Q) k x, length (set_nth k x l) = length l) by (induction l as [|y l IH]; intros [|k] x; cbn; auto). rewrite G. apply repeat_length. Qed.
Lemma one_value ncols f a b u : f < ncols -> (lin_value (LLeaf (lm_one ncols f a b)) u == b + a * column f u)%Q.
Proof.
  intro F. cbn [lin_value]. rewrite one_length, (sum_one _ f ncols F); [rewrite coef_one, Nat.eqb_refl by exact F; reflexivity|]. intros j J. rewrite coef_one by exact F. destruct (Nat.eqb_spec j f); [congruence|]. ring.
Qed.
Lemma one_ridge pen var ncols f a b : f < ncols -> (lin_ridge pen var (LLeaf (lm_one ncols f a b)) == pen * var f * (a * a))%Q.
Proof.
  intro F. cbn [lin_ridge]. rewrite one_length, (sum_one _ f ncols F); [rewrite coef_one, Nat.eqb_refl by exact F; reflexivity|]. intros j J. rewrite coef_one by exact F. destruct (Nat.eqb_spec j f); [congruence|]. ring.
Qed.
(** Errors and penalties of trees on the rows of the user. *)
Definition loss (pen : Q) (var : nat -> Q) (us : list urow) (t : ltree) : Q := (lin_sse us t + lin_ridge pen var t)%Q.
Lemma loss_leaf pen var rs us ncols f a b : Forall2 rel rs us -> f < ncols -> (loss pen var us (LLeaf (lm_one ncols f a b)) == pen_err pen var rs f a b)%Q.
Proof.
  intros H F. unfold loss, pen_err, lin_sse, line_err. rewrite (one_ridge _ _ _ _ _ _ F). rewrite (f2_sum rel (fun r => (target r - (a * cont r f + b)) * (target r - (a * cont r f + b)))%Q (fun u => (goal u - lin_value (LLeaf (lm_one ncols f a b)) u) * (goal u - lin_value (LLeaf (lm_one ncols f a b)) u))%Q _ _ H); [ring|].
  intros x u E. rewrite (rel_goal _ _ E), (rel_cont _ _ f E), (one_value _ _ _ _ _ F). ring.
Qed.
Lemma loss_split pen var us f l r : (loss pen var us (LSplit f l r) == loss pen var (filter (fun p => negb (bit f p)) us) l + loss pen var (filter (bit f) us) r)%Q.
Proof.
  unfold loss. cbn [lin_ridge]. unfold lin_sse. rewrite (sum_parts (bit f) _ us).
  rewrite (sumQ_ext (fun x => (goal x - lin_value (LSplit f l r) x) * (goal x - lin_value (LSplit f l r) x))%Q (fun x => (goal x - lin_value l x) * (goal x - lin_value l x))%Q (filter (fun p => negb (bit f p)) us)).
  2:{ intros x X. apply filter_In in X. destruct X as [_ X]. apply negb_true_iff in X. cbn [lin_value]. rewrite X. reflexivity. }
  rewrite (sumQ_ext (fun x => (goal x - lin_value (LSplit f l r) x) * (goal x - lin_value (LSplit f l r) x))%Q (fun x => (goal x - lin_value r x) * (goal x - lin_value r x))%Q (filter (bit f) us)).
  2:{ intros x X. apply filter_In in X. destruct X as [_ X]. cbn [lin_value]. rewrite X. reflexivity. }
  ring.
Qed.
Lemma spread_var pen var rs us j : Forall2 rel rs us -> us <> [] -> (spread pen var rs j == qn (length us) * (qn (length us) * variance (column j) us + pen * var j))%Q.
Proof.
  intros H NE. pose proof (var_sums (column j) us NE) as V. unfold spread. rewrite (f2_len _ _ _ H).
  rewrite (f2_sum rel (fun r => cont r j * cont r j)%Q (fun u => column j u * column j u)%Q _ _ H) by (intros x u E; rewrite (rel_cont _ _ _ E); reflexivity).
  rewrite (f2_sum rel (fun r => cont r j) (column j) _ _ H) by (intros x u E; rewrite (rel_cont _ _ _ E); reflexivity).
  assert (E : (qn (length us) * (qn (length us) * variance (column j) us + pen * var j) == qn (length us) * (qn (length us) * variance (column j) us) + qn (length us) * var j * pen)%Q) by ring. rewrite E, V. ring.
Qed.

(** The tree without its lines. *)
Fixpoint lshape (t : ltree) : tree := match t with LLeaf _ => Leaf 0 | LSplit f l r => Split f (lshape l) (lshape r) end.
Lemma lshape_depth t : depth (lshape t) = ldepth t.
Proof. induction t; cbn; congruence. Qed.
Lemma lshape_nodes t : nodes (lshape t) = lnodes t.
Proof. induction t; cbn; congruence. Qed.
Lemma lshape_fits nf t : fits (fun f => f < nf) 1 (lshape t) <-> lfits nf t.
Proof. induction t as [c|f l IHl r IHr]; cbn [lshape fits lfits]; [lia|]. rewrite IHl, IHr. reflexivity. Qed.

Section Fill.
  Context (ncols : nat) (pen : Q) (mls : nat) (rows : list lrow).
  Notation var := (lin_var rows).
  Notation cost := (lin_cost ncols pen mls rows).
  Notation fill := (lin_fill ncols pen mls rows).
  Hypothesis Hpen : (0 <= pen)%Q.
  Hypothesis Hvar : forall f, (0 <= var f)%Q.
  Hypothesis Hmls : 0 < mls.
  Hypothesis Hnc : 0 < ncols.

  Fixpoint rerr (rs : list lrow) (t : tree) : Q :=
    match t with
    | Leaf _ => cost rs
    | Split f l r => (rerr (filter (fun x => negb (has f (fst x))) rs) l + rerr (filter (fun x => has f (fst x)) rs) r)%Q
    end.
  Lemma fill_depth' t : forall rs, ldepth (fill rs t) = depth t.
  Proof. induction t as [l|f l IHl r IHr]; intro rs; cbn [lin_fill ldepth depth]; [reflexivity|]. rewrite IHl, IHr. reflexivity. Qed.
  Lemma fill_nodes' t : forall rs, lnodes (fill rs t) = nodes t.
  Proof. induction t as [l|f l IHl r IHr]; intro rs; cbn [lin_fill lnodes nodes]; [reflexivity|]. rewrite IHl, IHr. reflexivity. Qed.
  Lemma fill_fits' nf t : forall rs, fits (fun f => f < nf) 1 t -> lfits nf (fill rs t).
  Proof. induction t as [l|f l IHl r IHr]; intro rs; cbn [lin_fill lfits fits]; [trivial|]. intros (A & B & C). auto. Qed.
  Lemma map_left f rs : filter (fun x => negb (has f x)) (map fst rs) = map fst (filter (fun x : lrow => negb (has f (fst x))) rs).
  Proof. rewrite filter_map_comm. reflexivity. Qed.
  Lemma map_right f rs : filter (has f) (map fst rs) = map fst (filter (fun x : lrow => has f (fst x)) rs).
  Proof. rewrite filter_map_comm. reflexivity. Qed.
  Lemma fill_leaves t : forall rs us, Forall2 rel rs us -> leaves_ok mls (map fst rs) t -> lleaves mls us (fill rs t).
  Proof.
    induction t as [l|f l IHl r IHr]; intros rs us H; cbn [lin_fill lleaves leaves_ok]; [rewrite map_length; apply f2_len in H; unfold lrow in *; lia|].
    rewrite map_left, map_right. intros [A B]. split; [apply IHl; [apply rel_left|]|apply IHr; [apply rel_right|]]; assumption.
  Qed.
  Lemma shape_leaves m t : forall rs us, Forall2 rel rs us -> lleaves m us t -> leaves_ok m (map fst rs) (lshape t).
  Proof.
    induction t as [c|f l IHl r IHr]; intros rs us H; cbn [lshape lleaves leaves_ok]; [rewrite map_length; apply f2_len in H; unfold lrow in *; lia|].
    rewrite map_left, map_right. intros [A B]. split; [eapply IHl; [apply rel_left; exact H|exact A]|eapply IHr; [apply rel_right; exact H|exact B]].
  Qed.
  Lemma fill_loss t : forall rs us, Forall2 rel rs us -> leaves_ok mls (map fst rs) t -> (loss pen var us (fill rs t) == rerr rs t)%Q /\ lines ncols (fill rs t).
  Proof.
    induction t as [l|f l IHl r IHr]; intros rs us H; cbn [lin_fill rerr leaves_ok].
    - rewrite map_length. intro L. change (mls <= @length lrow rs) in L. unfold lin_model, lin_cost, lin_leaf. pose proof (leaf_line ncols pen mls var rs Hpen Hvar Hmls Hnc) as X. destruct (sl_leaf _ _ _ _ _) as [[m e]|]; [|lia].
      destruct X as (_ & f & a & b & F & -> & E & _). split; [rewrite E; apply loss_leaf; assumption|]. split; [apply one_length|]. exists f. intros k K. rewrite coef_one by exact F. destruct (Nat.eqb_spec k f); [congruence|reflexivity].
    - rewrite map_left, map_right. intros [A B]. destruct (IHl _ _ (rel_left f _ _ H) A) as [E1 O1]. destruct (IHr _ _ (rel_right f _ _ H) B) as [E2 O2]. split; [rewrite loss_split, E1, E2; reflexivity|split; assumption].
  Qed.
  Lemma fill_test t : forall rs, leaves_ok mls (map fst rs) t -> (lin_test ncols pen rows rs (fill rs t) == rerr rs t)%Q.
  Proof.
    induction t as [l|f l IHl r IHr]; intro rs; cbn [lin_fill lin_test rerr leaves_ok].
    - rewrite map_length. intro L. change (mls <= @length lrow rs) in L. unfold lin_model, lin_cost, lin_leaf. pose proof (leaf_line ncols pen mls var rs Hpen Hvar Hmls Hnc) as X. destruct (sl_leaf _ _ _ _ _) as [[m e]|]; [|lia].
      destruct X as (_ & f & a & b & F & -> & E & _). rewrite E, (leaf_costs_val _ _ _ _ _ _ _ F), items_sum. unfold pen_err, line_err. rewrite (sumQ_ext (row_val (err_lin f a b)) _ _ (fun r _ => row_val_err f a b r)). ring.
    - rewrite map_left, map_right. intros [A B]. rewrite (IHl _ A), (IHr _ B). reflexivity.
  Qed.
  (** The best line of a leaf is no worse than any other. *)
  Lemma line_form m : length (lm_b m) = ncols -> (exists j, forall k, k <> j -> (nth k (lm_b m) 0 == 0)%Q) -> exists f, f < ncols /\ forall k, k <> f -> (nth k (lm_b m) 0 == 0)%Q.
  Proof.
    intros L (j & J). destruct (Nat.lt_ge_cases j ncols) as [K|K]; [exists j; auto|]. exists 0. split; [exact Hnc|]. intros k _. destruct (Nat.eq_dec k j) as [->|N]; [|apply J; exact N]. rewrite nth_overflow by lia. reflexivity.
  Qed.
  Lemma shape_loss t : forall rs us, Forall2 rel rs us -> lleaves mls us t -> lines ncols t -> apart pen var us t -> (rerr rs (lshape t) <= loss pen var us t)%Q.
  Proof.
    induction t as [m|f l IHl r IHr]; intros rs us H; cbn [lshape rerr lleaves lines apart].
    - intros L (ML & MJ) A. destruct (line_form m ML MJ) as (f & F & Z). set (a := nth f (lm_b m) 0%Q).
      assert (NE : us <> []) by (intro E; rewrite E in L; cbn in L; lia).
      assert (E : (loss pen var us (LLeaf m) == pen_err pen var rs f a (lm_b0 m))%Q).
      { rewrite <- (loss_leaf pen var rs us ncols f a (lm_b0 m) H F). unfold loss, lin_sse. rewrite (one_ridge _ _ _ _ _ _ F). cbn [lin_ridge]. rewrite ML, (sum_one _ f ncols F) by (intros j J; rewrite (Z j J); ring). fold a.
        rewrite (sumQ_ext _ (fun u => (goal u - lin_value (LLeaf (lm_one ncols f a (lm_b0 m))) u) * (goal u - lin_value (LLeaf (lm_one ncols f a (lm_b0 m))) u))%Q); [reflexivity|].
        intros u _. rewrite (one_value _ _ _ _ _ F). cbn [lin_value]. rewrite ML, (sum_one _ f ncols F) by (intros j J; rewrite (Z j J); ring). fold a. reflexivity. }
      rewrite E. unfold lin_cost, lin_leaf. pose proof (leaf_line ncols pen mls var rs Hpen Hvar Hmls Hnc) as X. rewrite (f2_len _ _ _ H) in X. destruct (sl_leaf _ _ _ _ _) as [[m' e]|]; [|lia].
      destruct X as (_ & f' & a' & b' & _ & _ & _ & B). apply B; [exact F|]. destruct (Qeq_dec a 0) as [E0|N0]; [left; exact E0|right]. rewrite (spread_var pen var rs us f H NE). apply A. exact N0.
    - intros [L1 L2] [O1 O2] [A1 A2]. rewrite loss_split. pose proof (IHl _ _ (rel_left f _ _ H) L1 O1 A1). pose proof (IHr _ _ (rel_right f _ _ H) L2 O2 A2). lra.
  Qed.
  (** The cost of a leaf lies between 0 and the sum of the squared targets. *)
  Lemma cost_range rs : (0 <= cost rs <= sumQ (fun r => target r * target r) rs)%Q.
  Proof.
    unfold lin_cost, lin_leaf. pose proof (leaf_line ncols pen mls var rs Hpen Hvar Hmls Hnc) as X. destruct (sl_leaf _ _ _ _ _) as [[m e]|].
    - destruct X as (_ & f & a & b & F & _ & E & B). split; [rewrite E; apply pen_nonneg; assumption|].
      eapply Qle_trans; [apply (B 0 0%Q 0%Q Hnc); left; reflexivity|]. unfold pen_err, line_err. rewrite (sumQ_ext _ (fun r => target r * target r)%Q) by (intros r _; ring). lra.
    - split; [lra|]. apply sumQ_nonneg. intros r _. apply sq_nn.
  Qed.
End Fill.

(** * Inputs *)
(** Units in which the values of the search are whole numbers: the cost of a node and the costs of the
    leaves of all parts of the data chosen by the binary features. *)
Definition lin_units (S : Z) (ccp pen : Q) (ncols m : nat) (rows : list lrow) : Prop :=
  (0 < S)%Z /\ (exists z, inject_Z S * sl_branching ccp (all_items rows) == inject_Z z)%Q
  /\ forall g : fvec -> bool, exists z, (inject_Z S * lin_cost ncols pen m rows (filter (fun r => g (ifv (fst r))) rows) == inject_Z z)%Q.
(** [nf] binary features and [ncols] columns in every row; parameters in their ranges; enough rows
    for one leaf; upper bounds on, lower bounds and depth-two solver off; a node limit of 1 or all
    node numbers only up to 2^depth - 1; the errors are below the upper bound and 2^1023. *)
Record lin_usable (S : Z) (ccp lasso : Q) (W : switches) (P : params) (nf ncols : nat) (rows : list urow) : Prop := LinUsable {
  lu_bits : Forall (fun r => length (fst r) = nf /\ length (snd (snd r)) = ncols) rows;
  lu_cols : 0 < ncols;
  lu_params : (0 <= ccp /\ 0 <= lasso)%Q;
  lu_leaf : Nat.max (w_mls W) 5 <= length rows;
  lu_nodes : p_all P = true \/ p_nodes P = 1 -> p_nodes P <= 2 ^ p_depth P - 1;
  lu_most : ((1 + ccp * qn (2 ^ p_depth P - 1)) * (qn (length rows) * sumQ (fun r => goal r * goal r) rows) <= inject_Z (Z.min (upper_bound (p_ub P)) (2 ^ 1023)))%Q;
  lu_search : plain_search W /\ w_ub W = true;
  lu_units : lin_units S ccp lasso ncols (Nat.max (w_mls W) 5) (lin_rows rows) }.

(** Such units exist for all data. *)
Theorem C98_units : forall ccp pen ncols m rows, exists S, lin_units S ccp pen ncols m rows.
Proof.
  intros ccp pen ncols m rows. set (qs := sl_branching ccp (all_items rows) :: map (lin_cost ncols pen m rows) (parts rows)). exists (dens qs). split; [apply dens_pos|]. split.
  - apply dens_whole. left. reflexivity.
  - intro g. apply dens_whole. right. apply in_map, filter_parts.
Qed.

(** * The fit *)
Lemma rows_place us r : In r (lin_rows us) -> nth (iid (fst r)) (lin_rows us) no_lrow = r /\ iid (fst r) < length us.
Proof.
  unfold Model_LinFit.lin_rows. set (F := fun p : nat * urow => (Inst (fst p) (fv_make (map (fun k => negb (k =? 0)) (fst (snd p)))), snd (snd p)) : lrow).
  assert (G : forall l s r, In r (map F (combine (seq s (length l)) l)) -> s <= iid (fst r) < s + length l /\ nth (iid (fst r) - s) (map F (combine (seq s (length l)) l)) no_lrow = r).
  { induction l as [|u l IH]; intros s r0; cbn [length seq combine map]; [intros []|]. intros [<-|H].
    - cbn [F fst iid]. split; [lia|]. rewrite Nat.sub_diag. reflexivity.
    - destruct (IH _ _ H) as [A B]. split; [lia|]. replace (iid (fst r0) - s) with (Datatypes.S (iid (fst r0) - Datatypes.S s)) by lia. exact B. }
  intro H. destruct (G us 0 r H) as [A B]. rewrite Nat.sub_0_r in B. split; [exact B|lia].
Qed.
Lemma rows_ids us : map iid (map fst (lin_rows us)) = seq 0 (length us).
Proof.
  unfold Model_LinFit.lin_rows. assert (G : forall (l : list urow) s, map iid (map fst (map (fun p : nat * urow => (Inst (fst p) (fv_make (map (fun k => negb (k =? 0)) (fst (snd p)))), snd (snd p)) : lrow) (combine (seq s (length l)) l))) = seq s (length l)).
  { induction l as [|u l IH]; intro s; cbn [length seq combine map]; [reflexivity|]. rewrite IH. reflexivity. }
  apply G.
Qed.
Lemma at_rows us rs : incl rs (lin_rows us) -> rows_at (lin_rows us) (map fst rs) = rs.
Proof.
  intro H. unfold rows_at. rewrite map_map. rewrite <- (map_id rs) at 2. apply map_ext_in. intros r Hr. apply (rows_place us r (H r Hr)).
Qed.
Lemma rows_loaded nf us : Forall (fun r : urow => length (fst r) = nf) us -> loaded nf [map fst (lin_rows us)].
Proof.
  intro H. assert (C : concat [map fst (lin_rows us)] = map fst (lin_rows us)) by (cbn [concat]; apply app_nil_r).
  assert (L : length (map fst (lin_rows us)) = length us) by (rewrite map_length; apply (f2_len _ _ _ (rel_rows us))).
  constructor.
  - rewrite C. intros x Hx. apply in_map_iff in Hx. destruct Hx as (r & <- & Hr). pose proof (rel_rows us) as F. clear C L. induction F as [|r' u rs us' [E _] _ IH]; [destruct Hr|]. inversion H as [|? ? H1 H2]; subst. destruct Hr as [->|Hr]; [|auto].
    eexists. split; [|exact E]. rewrite map_length. reflexivity.
  - rewrite C, rows_ids. apply seq_NoDup.
  - unfold vsize. rewrite C. intros x Hx. apply (in_map iid) in Hx. rewrite rows_ids in Hx. apply in_seq in Hx. lia.
  - constructor; [|constructor]. apply (seq_sorted _ 0). rewrite rows_ids, L. reflexivity.
Qed.
Lemma sum_incl {A} (g : A -> Q) (d : A) (l : list A) (F : inst -> A) L : (forall x, 0 <= g x)%Q -> (g d == 0)%Q -> (forall x, In (F x) l \/ F x = d) -> (sumQ g (map F L) <= qn (length L) * sumQ g l)%Q.
Proof.
  intros N D H. assert (P : (0 <= sumQ g l)%Q) by (apply sumQ_nonneg; auto).
  assert (E : forall x, In x l -> (g x <= sumQ g l)%Q).
  { clear - N. induction l as [|y l IH]; [intros x []|]. intros x [->|Hx]; cbn [sumQ]; [assert (0 <= sumQ g l)%Q by (apply sumQ_nonneg; auto); lra|]. pose proof (IH x Hx). pose proof (N y). lra. }
  induction L as [|x L IH]; cbn [map sumQ length]; [change (qn 0) with 0%Q; lra|]. rewrite qn_S. assert (g (F x) <= sumQ g l)%Q by (destruct (H x) as [X|X]; [apply E; exact X|rewrite X, D; exact P]). lra.
Qed.

(** A fit that is proven optimal returns a tree within the limits, with a line over one column in
    every leaf and at least five rows per leaf; the score is the total of squared errors and
    penalties per row, without the costs of nodes; and no tree within the limits, with whatever
    lines over columns whose values are apart, has a total that is smaller by more than the factor
    (10001/10000)^e with e = (d+1)(d+2)/2 for depth d.  The penalty is the parameter lasso_penalty. *)
Theorem C98_simple_partial : forall S ccp lasso ridge W P nf ncols clk rows, lin_usable S ccp lasso W P nf ncols rows ->
  let R := fit_lin S ccp lasso ridge W P nf ncols clk rows in ln_proven R = true ->
  exists t, ln_tree R = Some t
    /\ lines ncols t
    /\ lin_allowed nf (Nat.max (w_mls W) 5) (p_depth P) (2 ^ p_depth P - 1) rows t
    /\ (exists s, ln_score R = Some s /\ s == (lin_sse rows t + lin_ridge lasso (fun j => variance (column j) rows) t) / qn (length rows))%Q
    /\ forall t', lines ncols t' -> lin_allowed nf (Nat.max (w_mls W) 5) (p_depth P) (p_nodes P) rows t' -> apart lasso (fun j => variance (column j) rows) rows t' ->
         q_at_most (slack (p_depth P)) (lin_total ccp lasso rows t) (lin_total ccp lasso rows t').
Proof.
  intros S ccp lasso ridge W P nf ncols clk us HU R Hp. subst R. unfold fit_lin in *. cbv zeta in *. cbn [ln_proven ln_tree ln_score] in *.
  change (lin_min_leaf true ncols (w_mls W)) with (Nat.max (w_mls W) 5) in *. change (simple_penalty lasso ridge) with lasso in *.
  destruct HU as [HB HC [Hccp Hpen] HL HN HM [[Hlb Htm] Hub] (HS & (zb & Hzb) & HG)]. set (m := Nat.max (w_mls W) 5) in *.
  set (rows := lin_rows us) in *. set (W' := Switches (w_ub W) (w_lb W) (w_tlb W) (w_term W) (w_sim W) (w_branch W) (w_data W) (w_gini W) m) in *.
  assert (Hm : 5 <= m) by (unfold m; lia). assert (NE : us <> []) by (intro E; rewrite E in HL; cbn in HL; lia).
  pose proof (rel_rows us : Forall2 rel rows us) as Hrel. assert (Hlen : length rows = length us) by apply (f2_len _ _ _ Hrel).
  assert (HSq : (0 < inject_Z S)%Q) by (change 0%Q with (inject_Z 0); rewrite <- Zlt_Qlt; exact HS).
  assert (Hn : (0 < qn (length us))%Q) by (apply qn_pos; lia).
  set (V := fun j => variance (column j) us). assert (HV : forall j, (lin_var rows j == V j)%Q) by (intro j; apply model_var; assumption).
  assert (Hvar : forall j, (0 <= lin_var rows j)%Q) by (intro j; rewrite HV; apply var_nonneg).
  set (Bq := (ccp * (qn (length us) * variance goal us))%Q). assert (HBq : (sl_branching ccp (all_items rows) == Bq)%Q) by (apply model_branching; assumption).
  set (bc := Qfloor (inject_Z S * sl_branching ccp (all_items rows))) in *. assert (Hbc : (inject_Z bc == inject_Z S * Bq)%Q) by (unfold bc; rewrite (qfloor_int _ _ Hzb), <- Hzb, HBq; reflexivity).
  assert (HB0 : (0 <= Bq)%Q) by (unfold Bq; apply Qmult_le_0_compat; [exact Hccp|]; apply Qmult_le_0_compat; [lra|apply var_nonneg]).
  assert (HBS : (inject_Z bc / inject_Z S == Bq)%Q) by (rewrite Hbc; field; lra).
  set (q := sumQ (fun r => goal r * goal r)%Q us) in *. assert (Hq0 : (0 <= q)%Q) by (apply sumQ_nonneg; intros r _; apply sq_nn).
  assert (Hqt : (sumQ (fun r => target r * target r)%Q rows == q)%Q) by (apply (f2_sum rel _ _ _ _ Hrel); intros x u E; rewrite (rel_goal _ _ E); reflexivity).
  set (cost := fun L => lin_cost ncols lasso m rows (rows_at rows L)) in *.
  set (good := fun L => exists g : fvec -> bool, L = map fst (filter (fun r : lrow => g (ifv (fst r))) rows)).
  assert (Hcerr : forall t rs, incl rs rows -> (cerr cost (map fst rs) t == rerr ncols lasso m rows rs t)%Q).
  { induction t as [l|f l IHl r IHr]; intros rs Hrs; cbn [cerr rerr]; [unfold cost; unfold rows; rewrite at_rows by exact Hrs; reflexivity|].
    rewrite map_left, map_right, IHl, IHr by (intros x Hx; apply filter_In in Hx; apply Hrs; apply Hx). reflexivity. }
  destruct (custom_fit S cost (Some bc) (map fst rows) nf q good) with (W := W') (P := P) (clk := clk) as (t & R1 & R2 & R3 & R4 & R5 & (z & R6 & R7) & R8).
  - exact HS.
  - intros L L' E. unfold cost, rows_at. assert (Y : forall L, map (fun x => nth (iid x) rows no_lrow) L = map (fun k => nth k rows no_lrow) (map iid L)) by (intro; rewrite map_map; reflexivity). rewrite !Y, E. reflexivity.
  - intro L. unfold cost. destruct (cost_range ncols lasso m rows Hpen Hvar ltac:(lia) HC (rows_at rows L)) as [A B]. split; [exact A|]. eapply Qle_trans; [exact B|]. rewrite <- Hqt.
    apply (sum_incl (fun r => target r * target r)%Q no_lrow); [intro; apply sq_nn|reflexivity|]. intro x. destruct (nth_in_or_default (iid x) rows no_lrow); auto.
  - intros L (g & ->). unfold cost, rows. rewrite at_rows by (intros x Hx; apply filter_In in Hx; apply Hx). apply HG.
  - exists (fun _ => true). f_equal. clear. induction rows as [|r rs IH]; cbn; congruence.
  - intros f L (g & ->). split; [exists (fun x => g x && negb (fv_has x f))|exists (fun x => g x && fv_has x f)]; [rewrite map_left|rewrite map_right]; f_equal; apply filter_two.
  - apply rows_loaded. eapply Forall_impl; [|exact HB]. intros r [A _]. exact A.
  - rewrite Zle_Qle, Hbc. change (inject_Z 0) with 0%Q. apply Qmult_le_0_compat; lra.
  - exact Hq0.
  - cbn [W' w_mls]. rewrite map_length. change (1 <= m <= @length lrow rows). lia.
  - exact Hlb.
  - exact Htm.
  - intros _. exact Hub.
  - exact HN.
  - rewrite map_length. change (@length (inst * (Q * list Q)) rows) with (@length lrow rows). rewrite Hlen, Hbc.
    set (M := inject_Z (Z.min _ _)) in *. set (K := qn (2 ^ p_depth P - 1)) in *. assert (HK : (0 <= K)%Q) by (unfold K, qn; change 0%Q with (inject_Z 0); rewrite <- Zle_Qle; lia).
    assert (Hv : (qn (length us) * variance goal us <= q)%Q).
    { pose proof (var_sums goal us NE) as X. fold q in X. set (n := qn (length us)) in *. set (v := variance goal us) in *. pose proof (sq_nn (sumQ goal us)) as Y. apply (Qmult_le_l _ _ n Hn). lra. }
    assert (Hn1 : (1 <= qn (length us))%Q) by (change 1%Q with (qn 1); unfold qn; rewrite <- Zle_Qle; lia).
    assert (Hqn : (q <= qn (length us) * q)%Q) by (setoid_replace q with (1 * q)%Q at 1 by ring; apply Qmult_le_compat_r; assumption).
    assert (X1 : (Bq <= ccp * (qn (length us) * q))%Q) by (unfold Bq; rewrite !(Qmult_comm ccp); apply Qmult_le_compat_r; lra).
    assert (X2 : (Bq * K <= ccp * (qn (length us) * q) * K)%Q) by (apply Qmult_le_compat_r; assumption).
    setoid_replace (inject_Z S * (qn (length us) * q) + inject_Z S * Bq * K)%Q with ((qn (length us) * q + Bq * K) * inject_Z S)%Q by ring.
    rewrite (Qmult_comm (inject_Z S)). apply Qmult_le_compat_r; [|lra]. lra.
  - exact Hp.
  - cbn [W' w_mls] in R3, R8. cbn [node_cost] in R7, R8. rewrite R1. cbn [option_map]. exists (lin_fill ncols lasso m rows rows t). split; [reflexivity|].
    assert (Hlv : leaves_ok m (map fst rows) t) by exact R3.
    destruct (fill_loss ncols lasso m rows Hpen Hvar ltac:(lia) HC t rows us Hrel Hlv) as [E1 O1].
    assert (Hext : forall u, (lin_ridge lasso (lin_var rows) u == lin_ridge lasso V u)%Q).
    { induction u as [mm|f l IHl r IHr]; cbn [lin_ridge]; [apply sumQ_ext; intros j _; rewrite HV; reflexivity|rewrite IHl, IHr; reflexivity]. }
    assert (Htot : forall u, (lin_total ccp lasso us u == loss lasso (lin_var rows) us u + Bq * qn (lnodes u))%Q) by (intro u; unfold lin_total, loss; rewrite Hext; reflexivity).
    assert (HT : (cerr cost (map fst rows) t + inject_Z bc / inject_Z S * qn (nodes t) == lin_total ccp lasso us (lin_fill ncols lasso m rows rows t))%Q).
    { rewrite Htot, E1, HBS, fill_nodes', (Hcerr t rows (incl_refl _)). reflexivity. }
    split; [exact O1|]. split; [|split].
    + split; [apply fill_fits'; exact R2|]. split; [apply (fill_leaves ncols lasso m rows ltac:(lia) HC t rows us Hrel Hlv)|]. rewrite fill_depth', fill_nodes'. auto.
    + eexists. split; [reflexivity|]. rewrite (fill_test ncols lasso m rows Hpen Hvar ltac:(lia) HC t rows Hlv), <- E1, Hlen. unfold loss. rewrite Hext. reflexivity.
    + intros t' L' (A1 & A2 & A3 & A4) A5. rewrite <- lshape_depth in A3. rewrite <- lshape_nodes in A4.
      specialize (R8 (lshape t') (proj2 (lshape_fits nf t') A1) ltac:(apply (fun H1 H2 => shape_leaves ncols m H1 H2 m t' rows us Hrel A2); lia) A3 A4).
      assert (A5' : apart lasso (lin_var rows) us t').
      { assert (HH : forall u t, apart lasso V u t -> apart lasso (lin_var rows) u t); [|apply HH; exact A5]. intros u t0. revert u. induction t0 as [mm|f l IHl r IHr]; intro u; cbn [apart]; [intros X j J; rewrite HV; apply X; exact J|intros [X Y]; auto]. }
      pose proof (shape_loss ncols lasso m rows Hpen Hvar ltac:(lia) HC t' rows us Hrel A2 L' A5') as B.
      unfold q_at_most in *. rewrite <- HT. eapply Qle_trans; [exact R8|]. apply Qmult_le_compat_r; [|change 0%Q with (inject_Z 0); rewrite <- Zle_Qle; apply Z.pow_nonneg; lia].
      rewrite Htot, HBS, lshape_nodes, (Hcerr _ rows (incl_refl _)). lra.
Qed.

(** * A case *)
(** Ten rows with one binary feature and two columns: where the feature is absent the target is twice
    the first column, elsewhere 10 plus three times the second. *)
Definition slopes : list urow :=
  [([0%nat], (-(2), [-(1); 1])); ([0%nat], (2, [1; 0])); ([0%nat], (-(2), [-(1); 0])); ([0%nat], (2, [1; -(1)])); ([0%nat], (0, [0; 0]));
   ([1%nat], (13, [-(1); 1])); ([1%nat], (7, [1; -(1)])); ([1%nat], (13, [0; 1])); ([1%nat], (7, [-(1); -(1)])); ([1%nat], (10, [1; 0]))]%Q.
Definition lin_switches : switches := Switches true false false false true true true false 1.
Definition lin_params : params := Params 1 1 false 2147483647.

Lemma slopes_usable : lin_usable 30 (1 # 10) 0 lin_switches lin_params 1 2 slopes.
Proof.
  constructor; try (cbn; lia).
  - repeat constructor.
  - split; unfold Qle; cbn; lia.
  - vm_compute. discriminate.
  - split; [split|]; reflexivity.
  - split; [reflexivity|]. split; [exists 906%Z; vm_compute; reflexivity|]. intro g.
    set (A := fv_make [false]). set (B := fv_make [true]).
    assert (E : filter (fun r : lrow => g (ifv (fst r))) (lin_rows slopes) = filter (fun r : lrow => if fv_has (ifv (fst r)) 0 then g B else g A) (lin_rows slopes)).
    { apply filter_ext_in. intros r Hr. cbn in Hr. repeat (destruct Hr as [<-|Hr]; [reflexivity|]). destruct Hr. }
    change (exists z, (inject_Z 30 * lin_cost 2 0 (Nat.max (w_mls lin_switches) 5) (lin_rows slopes) (filter (fun r : lrow => g (ifv (fst r))) (lin_rows slopes)) == inject_Z z)%Q).
    rewrite E. destruct (g A), (g B); [exists 8740%Z|exists 0%Z|exists 0%Z|exists 0%Z]; vm_compute; reflexivity.
Qed.
Example C98_ex : lin_usable 30 (1 # 10) 0 lin_switches lin_params 1 2 slopes
  /\ ln_proven (fit_lin 30 (1 # 10) 0 10 lin_switches lin_params 1 2 (fun _ => true) slopes) = true
  /\ ln_tree (fit_lin 30 (1 # 10) 0 10 lin_switches lin_params 1 2 (fun _ => true) slopes) = Some (LSplit 0 (LLeaf (LM [4000 # 2000; 0] (0 # 10000))) (LLeaf (LM [0; 6000 # 2000] (100000 # 10000))))%Q
  /\ match ln_score (fit_lin 30 (1 # 10) 0 10 lin_switches lin_params 1 2 (fun _ => true) slopes) with Some s => s == 0 | None => False end%Q
  /\ (lin_total (1 # 10) 0 slopes (LSplit 0 (LLeaf (LM [2; 0] 0)) (LLeaf (LM [0; 3] 10))) == 302 # 10)%Q
  /\ (lin_total (1 # 10) 0 slopes (LLeaf (LM [0; 0] 5)) == 302)%Q.
Proof. split; [exact slopes_usable|]. split; [vm_compute; reflexivity|]. split; [vm_compute; reflexivity|]. split; [vm_compute; reflexivity|]. split; vm_compute; reflexivity. Qed.

(** The parameter ridge_penalty has no effect: for the penalty asked for, the tree is not near the
    optimum. *)
Theorem C98_ridge_refuted : ~ forall S ccp lasso ridge W P nf ncols clk rows, lin_usable S ccp lasso W P nf ncols rows -> (0 <= ridge)%Q ->
  let R := fit_lin S ccp lasso ridge W P nf ncols clk rows in ln_proven R = true ->
  exists t, ln_tree R = Some t
    /\ forall t', lines ncols t' -> lin_allowed nf (Nat.max (w_mls W) 5) (p_depth P) (p_nodes P) rows t' -> apart ridge (fun j => variance (column j) rows) rows t' ->
         q_at_most (slack (p_depth P)) (lin_total ccp ridge rows t) (lin_total ccp ridge rows t').
Proof.
  intro H. destruct (H 30%Z (1 # 10)%Q 0%Q 10%Q lin_switches lin_params 1 2 (fun _ => true) slopes slopes_usable ltac:(unfold Qle; cbn; lia) ltac:(vm_compute; reflexivity)) as (t & E & B). clear H.
  rewrite (proj1 (proj2 (proj2 C98_ex))) in E. injection E as <-.
  assert (X := B (LSplit 0 (LLeaf (LM [0; 0]%Q 0)) (LLeaf (LM [0; 0]%Q 10)))). clear B.
  assert (Z0 : forall j, (nth j [0; 0]%Q 0 == 0)%Q) by (intros [|[|[|j]]]; reflexivity).
  assert (Y : (lin_total (1 # 10) 10 slopes (LSplit 0 (LLeaf (LM [0; 0]%Q 0)) (LLeaf (LM [0; 0]%Q 10))) == 822 # 10)%Q) by (vm_compute; reflexivity).
  assert (Y' : (lin_total (1 # 10) 10 slopes (LSplit 0 (LLeaf (LM [4000 # 2000; 0] (0 # 10000))) (LLeaf (LM [0; 6000 # 2000] (100000 # 10000))))%Q == 1162 # 10)%Q) by (vm_compute; reflexivity).
  unfold q_at_most in X. rewrite Y, Y' in X. specialize (X ltac:(split; (split; [reflexivity|]; exists 0%nat; intros; apply Z0))).
  specialize (X ltac:(split; [cbn; auto|]; split; [cbn; lia|]; cbn; lia) ltac:(split; intros j J; destruct (J (Z0 j)))).
  revert X. vm_compute. intro X. apply X. reflexivity.
Qed.

(** With stored lower bounds on the claim is false, with all other conditions met: the bound of a
    branch that was not finished may exceed the cost of its leaf (as in C84 and C89), and a leaf is
    returned although a tree of five nodes costs less.  The leaves are made of whole groups of five
    equal rows, so that 60 makes all values whole. *)
Definition thirty : list urow := flat_map (fun r => repeat (fst r, (inject_Z (snd r), [0%Q])) 5)
  [([0; 0; 1], 4%Z); ([0; 1; 0], 4%Z); ([1; 0; 0], 4%Z); ([0; 1; 1], 3%Z); ([0; 0; 0], 1%Z); ([1; 1; 1], 1%Z)].
Theorem C98_lower_bound_refuted : exists W P t t', let ccp := (3 # 13)%Q in let R := fit_lin 60 ccp 0 0 W P 3 1 (fun _ => true) thirty in
  w_term W = false /\ w_sim W = false /\ w_tlb W = false /\ w_ub W = true
  /\ Forall (fun r => length (fst r) = 3 /\ length (snd (snd r)) = 1) thirty
  /\ ln_proven R = true /\ ln_tree R = Some t
  /\ lines 1 t' /\ lin_allowed 3 (Nat.max (w_mls W) 5) (p_depth P) (p_nodes P) thirty t' /\ apart 0 (fun j => variance (column j) thirty) thirty t'
  /\ (lin_total ccp 0 thirty t == (65 # 63) * lin_total ccp 0 thirty t')%Q.
Proof.
  exists (Switches true true false false false true true false 1), (Params 3 7 false 2147483647). eexists.
  exists (LSplit 0 (LSplit 1 (LSplit 2 (LLeaf (LM [0%Q] 1)) (LLeaf (LM [0%Q] 4))) (LLeaf (LM [0%Q] (7 # 2)))) (LSplit 1 (LLeaf (LM [0%Q] 4)) (LLeaf (LM [0%Q] 1)))). cbv zeta.
  assert (Z0 : forall j, (nth j [0]%Q 0 == 0)%Q) by (intros [|[|j]]; reflexivity).
  do 4 (split; [reflexivity|]). split; [repeat constructor|]. split; [vm_compute; reflexivity|]. split; [vm_compute; reflexivity|].
  split; [cbn [lines lm_b]; repeat split; exists 0; intros; apply Z0|].
  split; [unfold lin_allowed; repeat split; vm_compute; repeat constructor|].
  split; [cbn [apart lm_b]; repeat split; intros j Hj; destruct Hj; apply Z0|]. vm_compute. reflexivity.
Qed.

Print Assumptions C98_units.
Print Assumptions C98_simple_partial.
Print Assumptions C98_ridge_refuted.
Print Assumptions C98_lower_bound_refuted.
