(** C83: fits of prescriptive policies. *)
From Coq Require Import List Arith Bool Lia ZArith QArith Qminmax Qabs Qround Lqa Permutation.
From Verif Require Import Model_FeatureVector Model_Data Model_Node Model_Cache Model_Terminal Model_Heap Model_Solver Model_Preproc Model_Predict
  Model_CostComplex Model_CostSensitive Model_Policy Model_Tasks
  Spec_Tree Spec_Examples Spec_Rows Spec_Tasks Base_Q Proofs_View Proofs_Base Proofs_Rows Proofs_Fit Proofs_Preproc Proofs_Predict Proofs_Task Props_Solver
  Props_Policy Props_Tasks.
Import ListNotations.
Local Open Scope list_scope.
Local Open Scope nat_scope.

(** * Specification *)
(** The estimated outcomes of the treatments that the policy gives to the rows, added up. *)
Definition policy_total (m : teacher) (rows : list prow) (t : tree) : Q := sumQ (fun r => outcome m (pr_e r) (row_predict t (pr_bits r))) rows.
(** The number of treatments the solver considers: one more than the largest historic one. *)
Definition treatments (rows : list prow) : nat := label_count (map (fun r => p_hist (pr_e r)) rows).
(** What the data and settings must satisfy.  The outcomes are multiples of [1/D] between [lo]
    and [hi]; together they span less than 10000 units; no propensity is tiny; there is a
    prediction for every treatment. *)
Record policy_usable (D : positive) (lo hi : Q) (m : teacher) (W : switches) (P : params) (nf : nat) (rows : list prow) : Prop := PolicyUsable {
  pu_bits : Forall (fun r => length (pr_bits r) = nf) rows;
  pu_some : rows <> [];
  pu_hat : Forall (fun r => treatments rows <= length (p_yhat (pr_e r))) rows;
  pu_mu : m <> DM -> Forall (fun r => 1 # 1000000 < Qabs (p_mu (pr_e r)))%Q rows;
  pu_whole : forall r k, In r rows -> k < treatments rows -> exists z, (inject_Z (Zpos D) * outcome m (pr_e r) k == inject_Z z)%Q;
  pu_range : forall r k, In r rows -> k < treatments rows -> (lo <= outcome m (pr_e r) k <= hi)%Q;
  pu_low : (lo <= 2147483647 # 1)%Q;
  pu_high : (-1 <= hi)%Q;
  pu_unit : (Zpos D <= 1000000)%Z;
  pu_span : (inject_Z (Z.of_nat (length rows)) * (inject_Z (Zpos D) * (hi - lo)) < inject_Z 10000)%Q;
  pu_bound : (10000 <= p_ub P)%Z;
  pu_leaf : 1 <= w_mls W;
  pu_nodes : p_all P = true \/ p_nodes P = 1 -> p_nodes P <= 2 ^ p_depth P - 1 }.

(** * Units *)
Lemma units_le D a b : (a <= b)%Q -> (units D a <= units D b)%Z.
Proof. intro H. unfold units. apply Qfloor_resp_le. apply Qmult_le_l; [reflexivity|exact H]. Qed.
Lemma units_nonneg D a : (0 <= a)%Q -> (0 <= units D a)%Z.
Proof. intro H. replace 0%Z with (units D 0); [apply units_le; exact H|]. unfold units. rewrite (Qfloor_comp _ (inject_Z 0)) by (change (inject_Z 0) with 0%Q; lra). apply Qfloor_Z. Qed.
Lemma units_whole D a z : (inject_Z (Zpos D) * a == inject_Z z)%Q -> units D a = z.
Proof. intro H. unfold units. rewrite (Qfloor_comp _ _ H). apply Qfloor_Z. Qed.
Lemma units_floor D a : (inject_Z (units D a) <= inject_Z (Zpos D) * a)%Q.
Proof. apply Qfloor_le. Qed.

(** * The table *)
Lemma set_nth_all {A} (R : A -> Prop) k x l : R x -> Forall R l -> Forall R (set_nth k x l).
Proof. intros Hx H. revert k. induction H; intros [|k]; cbn; constructor; auto. Qed.
Lemma table_rows m nl d : Forall (fun r => length r = nl /\ Forall (fun q => 0 <= q)%Q r) (cost_table m nl d).
Proof.
  unfold cost_table. assert (H : forall l T, (forall i, In i l -> In i (concat d)) -> Forall (fun r => length r = nl /\ Forall (fun q => 0 <= q)%Q r) T ->
    Forall (fun r => length r = nl /\ Forall (fun q => 0 <= q)%Q r) (fold_left (fun T i => set_nth (pid i) (map (fun k => score m (pi_e i) k - min_score m nl d)%Q (seq 0 nl)) T) l T)).
  { induction l as [|i l IH]; intros T Hs HT; [exact HT|]. cbn [fold_left]. apply IH; [intros j Hj; apply Hs; right; exact Hj|].
    apply set_nth_all; [|exact HT]. split; [rewrite map_length; apply seq_length|]. apply Forall_map. apply Forall_forall. intros k Hk. apply in_seq in Hk.
    pose proof (proj2 (min_le m nl d) i k (Hs i (or_introl eq_refl)) ltac:(lia)). lra. }
  apply H; [auto|]. apply Forall_forall. intros r Hr. apply repeat_spec in Hr. subst r. split; [apply repeat_length|].
  apply Forall_forall. intros q Hq. apply repeat_spec in Hq. subst q. apply Qle_refl.
Qed.
Lemma table_row m nl d id : nth id (cost_table m nl d) [] = [] \/ (length (nth id (cost_table m nl d) []) = nl /\ Forall (fun q => 0 <= q)%Q (nth id (cost_table m nl d) [])).
Proof. destruct (nth_in_or_default id (cost_table m nl d) []) as [H|H]; [|left; exact H]. right. apply (proj1 (Forall_forall _ _) (table_rows m nl d)). exact H. Qed.
Lemma table_nonneg m nl d id l : (0 <= table_get (cost_table m nl d) id l)%Q.
Proof.
  unfold table_get. destruct (table_row m nl d id) as [E|[_ H]]; [rewrite E; destruct l; apply Qle_refl|].
  destruct (nth_in_or_default l (nth id (cost_table m nl d) []) 0%Q) as [I|I]; [apply (proj1 (Forall_forall _ _) H); exact I|rewrite I; apply Qle_refl].
Qed.
Lemma table_above m nl d id l : nl <= l -> table_get (cost_table m nl d) id l = 0%Q.
Proof.
  intro H. unfold table_get. destruct (table_row m nl d id) as [E|[E _]]; [rewrite E; destruct l; reflexivity|]. apply nth_overflow. lia.
Qed.
(** The smallest score is 1 or one of the scores. *)
Lemma min_attained m nl d : min_score m nl d = 1%Q \/ exists i k, In i (concat d) /\ k < nl /\ min_score m nl d = score m (pi_e i) k.
Proof.
  unfold min_score. assert (Q0 : forall (f : nat -> Q) ks a, fold_left (fun a k => Qmin (f k) a) ks a = a \/ exists k, In k ks /\ fold_left (fun a k => Qmin (f k) a) ks a = f k).
  { induction ks as [|x ks IH]; intro a; cbn [fold_left]; [left; reflexivity|]. destruct (IH (Qmin (f x) a)) as [E|(k & Hk & E)]; [|right; exists k; split; [right; exact Hk|exact E]].
    rewrite E. unfold Qmin, GenericMinMax.gmin. destruct (f x ?= a)%Q; [right|right|left; reflexivity]; exists x; split; try reflexivity; left; reflexivity. }
  assert (H : forall l a, (forall i, In i l -> In i (concat d)) -> let r := fold_left (fun a i => fold_left (fun a k => Qmin (score m (pi_e i) k) a) (seq 0 nl) a) l a in
    r = a \/ exists i k, In i (concat d) /\ k < nl /\ r = score m (pi_e i) k).
  { induction l as [|i l IH]; intros a Hs; cbn [fold_left]; [left; reflexivity|].
    destruct (IH (fold_left (fun a k => Qmin (score m (pi_e i) k) a) (seq 0 nl) a) (fun j Hj => Hs j (or_intror Hj))) as [E|E]; [|right; exact E].
    cbv zeta. rewrite E. destruct (Q0 (score m (pi_e i)) (seq 0 nl) a) as [F|(k & Hk & F)]; [left; exact F|]. right. exists i, k.
    split; [apply Hs; left; reflexivity|]. split; [apply in_seq in Hk; lia|exact F]. }
  apply H. auto.
Qed.
(** An upper bound of worst_per_label. *)
Lemma wscan_le (f : nat -> Q) B ks : forall w, (w <= B)%Q -> (forall k, In k ks -> f k <= B)%Q -> (fold_left (fun w k => if Qle_bool (f k) w then w else f k) ks w <= B)%Q.
Proof.
  induction ks as [|x ks IH]; intros w Hw Hk; cbn [fold_left]; [exact Hw|]. apply IH; [|intros k H; apply Hk; right; exact H].
  destruct (Qle_bool (f x) w); [exact Hw|apply Hk; left; reflexivity].
Qed.
Lemma worst_scan_le m nl B l : forall w, (w <= B)%Q -> (forall i k, In i l -> (k < nl)%nat -> score m (pi_e i) k <= B)%Q -> (worst_scan m nl l w <= B)%Q.
Proof.
  unfold worst_scan. induction l as [|i l IH]; intros w Hw H; cbn [fold_left]; [exact Hw|]. apply IH; [|intros j k Hj; apply H; right; exact Hj].
  apply wscan_le; [exact Hw|]. intros k Hk. apply in_seq in Hk. apply H; [left; reflexivity|lia].
Qed.
Lemma worst_pass_le m nl B d : forall k0 w, (int_min_q <= B)%Q -> (forall i k, In i (concat d) -> (k < nl)%nat -> score m (pi_e i) k <= B)%Q -> k0 <= length w ->
  Forall (fun q => q <= B)%Q w -> Forall (fun q => q <= B)%Q (worst_pass m nl k0 d w).
Proof.
  induction d as [|l d IH]; intros k0 w HB H Hk Hw; cbn [worst_pass]; [exact Hw|].
  assert (H1 : Forall (fun q => q <= B)%Q (w ++ [int_min_q])) by (apply Forall_app; split; [exact Hw|]; repeat constructor; exact HB).
  apply IH; [exact HB|intros i k Hi; apply H; cbn [concat]; apply in_or_app; right; exact Hi|rewrite set_nth_length, app_length; cbn; lia|].
  apply set_nth_all; [|exact H1]. apply worst_scan_le.
  - apply (proj1 (Forall_forall _ _) H1). apply nth_In. rewrite app_length. cbn. lia.
  - intros i k Hi. apply H. cbn [concat]. apply in_or_app. left. exact Hi.
Qed.
Lemma worst_upper m d B j : (int_min_q <= B)%Q -> (forall i k, In i (concat d) -> (k < length d)%nat -> score m (pi_e i) k <= B)%Q -> j < length d ->
  (nth j (worst_history m [d]) 0 <= B - min_score m (length d) d)%Q.
Proof.
  intros HB H Hj. unfold worst_history. cbn [fold_left]. unfold worst_train. set (w1 := worst_pass m (length d) 0 d []).
  assert (L : length w1 = length d) by (destruct (worst_pass_spec m (length d) d 0 [] ltac:(cbn; lia)) as (A & _); exact A).
  set (h := fun p : nat * Q => if fst p <? length d then (snd p - min_score m (length d) d)%Q else snd p).
  rewrite (nth_indep _ 0%Q (h (0, 0%Q))) by (rewrite map_length, combine_length, seq_length; lia).
  rewrite map_nth, combine_nth by apply seq_length. rewrite seq_nth by lia. unfold h. cbn [fst snd plus]. destruct (Nat.ltb_spec j (length d)); [|lia].
  assert (Forall (fun q => q <= B)%Q w1) as F by (apply worst_pass_le; [exact HB|exact H|cbn; lia|constructor]).
  pose proof (proj1 (Forall_forall _ _) F (nth j w1 0%Q) ltac:(apply nth_In; lia)). cbn beta in *. lra.
Qed.

(** * The task *)
Section PF.
  Context (D : positive) (lo hi : Q) (m : teacher) (W : switches) (P : params) (nf : nat) (clk : nat -> bool) (rows : list prow).
  Hypothesis HU : policy_usable D lo hi m W P nf rows.
  Notation nl := (treatments rows).
  Notation rs := (map pr_row rows).
  Notation d := (policy_data rows).
  Notation v := (mk_view nl rs).
  Notation T := (policy D m d).

  Lemma pf_labels : labels_of rs = nl.
  Proof. rewrite labels_count, map_map. reflexivity. Qed.
  Lemma pf_load : load rs = v.
  Proof. rewrite load_mk_view, pf_labels. reflexivity. Qed.
  Lemma pf_len : length d = nl.
  Proof. unfold policy_data. rewrite map_length, pf_load. apply rows_labels. Qed.
  Lemma pf_rows : good_rows nf nl rs.
  Proof. rewrite <- pf_labels. apply load_good. apply Forall_map. exact (pu_bits _ _ _ _ _ _ _ _ HU). Qed.
  Lemma pf_some : 1 <= nl.
  Proof.
    pose proof (pu_some _ _ _ _ _ _ _ _ HU) as H. unfold treatments. destruct rows as [|p r]; [congruence|]. cbn [map label_count fold_right]. unfold label_count. cbn [fold_right]. clear. lia.
  Qed.
  Lemma pf_concat : concat d = map (fun x => PI x (nth (iid x) (map pr_e rows) (PPG 0 0 0 []))) (concat v).
  Proof. unfold policy_data. rewrite pf_load. rewrite concat_map. reflexivity. Qed.
  Lemma pf_ids : NoDup (map pid (concat d)).
  Proof.
    rewrite pf_concat, map_map. unfold pid. cbn [pi_x]. apply (ld_ids nf v). apply rows_loaded. exact pf_rows.
  Qed.
  Lemma pf_in i : In i (concat d) -> exists r, In r rows /\ pi_e i = pr_e r.
  Proof.
    rewrite pf_concat. intro H. apply in_map_iff in H. destruct H as (x & <- & Hx). cbn [pi_e].
    pose proof (ld_lt nf v (rows_loaded nf nl rs pf_rows) x Hx) as L. rewrite (rows_size nf nl rs pf_rows), map_length in L.
    destruct (nth_error rows (iid x)) as [r|] eqn:E; [|apply nth_error_None in E; lia].
    exists r. split; [apply nth_error_In with (iid x); exact E|]. apply nth_map_error. exact E.
  Qed.
  Lemma pf_score r k : In r rows -> (score m (pr_e r) k == - outcome m (pr_e r) k)%Q.
  Proof.
    intro Hr. pose proof (pu_mu _ _ _ _ _ _ _ _ HU) as MU. destruct m; cbn [score outcome]; [reflexivity| |].
    all: assert (TN : tiny (pr_e r) = false) by (specialize (MU ltac:(discriminate)); pose proof (proj1 (Forall_forall _ _) MU r Hr); unfold tiny; apply not_true_is_false; intros Q; apply Qle_bool_iff in Q; cbn beta in *; lra).
    all: rewrite TN; reflexivity.
  Qed.
  Notation low := (min_score m nl d).
  Lemma pf_low : (- hi <= low <= 1)%Q /\ exists z, (inject_Z (Zpos D) * low == inject_Z z)%Q.
  Proof.
    split; [split|].
    - destruct (min_attained m nl d) as [E|(i & k & Hi & Hk & E)]; rewrite E; [pose proof (pu_high _ _ _ _ _ _ _ _ HU); lra|].
      destruct (pf_in i Hi) as (r & Hr & Er). rewrite Er, (pf_score r k Hr). pose proof (pu_range _ _ _ _ _ _ _ _ HU r k Hr Hk). lra.
    - apply min_le.
    - destruct (min_attained m nl d) as [E|(i & k & Hi & Hk & E)]; rewrite E; [exists (Zpos D); lra|].
      destruct (pf_in i Hi) as (r & Hr & Er). destruct (pu_whole _ _ _ _ _ _ _ _ HU r k Hr Hk) as [z Hz]. exists (- z)%Z.
      rewrite Er, (pf_score r k Hr), inject_Z_opp. lra.
  Qed.
  Lemma pf_good : good_task T.
  Proof.
    constructor; try reflexivity; cbn [policy tk_sim tk_inst tk_wpl tk_mindiff tk_leaf tk_zero_true tk_sdom tk_dom tk_eq]; try lia.
    - intros v0 l. apply ics_leaf_cost.
    - intros x k l. apply units_nonneg. apply table_nonneg.
    - intros k x. unfold wc. cbn [policy tk_sim tk_wpl]. lia.
    - exact t_sdom_lt.
    - exact t_dom_refl.
    - exact t_eq_refl.
    - exact t_eq_0.
  Qed.
  Lemma pf_entry i r k : nth_error rows i = Some r -> k < nl -> table_get (cost_table m nl d) i k = (score m (pr_e r) k - low)%Q.
  Proof.
    intros Hi Hk. assert (L : i < length rows) by (apply nth_error_Some; congruence).
    assert (Hx : exists x, In x (concat v) /\ iid x = i).
    { exists (row_inst (i, pr_row r)). split; [|reflexivity]. apply (Permutation_in _ (Permutation_sym (view_perm nf nl rs pf_rows))). apply in_map.
      unfold numbered. rewrite map_length. assert (G : forall l k0 j, nth_error l j = Some r -> In (k0 + j, pr_row r) (combine (seq k0 (length l)) (map pr_row l))).
      { induction l as [|y l IH]; intros k0 [|j] H; try discriminate; cbn in *; [injection H as ->; left; rewrite Nat.add_0_r; reflexivity|]. right.
        rewrite Nat.add_succ_r. apply (IH (S k0) j H). }
      exact (G rows 0 i Hi). }
    destruct Hx as (x & Hx & Ex). assert (HP : In (PI x (pr_e r)) (concat d)).
    { rewrite pf_concat. apply in_map_iff. exists x. split; [|exact Hx]. rewrite Ex. f_equal. apply nth_map_error. exact Hi. }
    pose proof (table_spec m nl d (PI x (pr_e r)) k pf_ids HP Hk) as H. unfold pid in H. cbn [pi_x pi_e] in H. rewrite Ex in H. exact H.
  Qed.
  Lemma pf_span : (lo <= hi)%Q.
  Proof.
    pose proof (pu_some _ _ _ _ _ _ _ _ HU) as H. destruct rows as [|r q] eqn:E; [congruence|]. rewrite <- E in *.
    pose proof (pu_range _ _ _ _ _ _ _ _ HU r 0 ltac:(rewrite E; left; reflexivity) pf_some). lra.
  Qed.
  Lemma pf_vsum : (vsum (wc T) v < 10000)%Z.
  Proof.
    set (B := units D (hi - lo)). apply Z.le_lt_trans with (Z.of_nat (vsize v) * B)%Z.
      - apply vsum_bound. intros j x Hx. cbn [plus]. unfold wc. cbn [policy tk_sim tk_wpl].
        assert (Hj : j < length d). { rewrite pf_len, <- (rows_labels nl rs). destruct (Nat.lt_ge_cases j (length v)) as [L|L]; [exact L|]. rewrite nth_overflow in Hx by exact L. destruct Hx. }
        apply Z.max_lub; [apply units_nonneg; pose proof pf_span; lra|]. apply units_le.
        eapply Qle_trans; [apply (worst_upper m d (- lo)); [| |exact Hj]|].
        + pose proof (pu_low _ _ _ _ _ _ _ _ HU). unfold int_min_q. lra.
        + rewrite pf_len. intros i k Hi Hk. destruct (pf_in i Hi) as (r & Hr & Er). rewrite Er, (pf_score r k Hr). pose proof (pu_range _ _ _ _ _ _ _ _ HU r k Hr Hk). lra.
        + rewrite pf_len. pose proof pf_low as [[? _] _]. lra.
      - rewrite (rows_size nf nl rs pf_rows), map_length. rewrite Zlt_Qlt, inject_Z_mult. eapply Qle_lt_trans; [|exact (pu_span _ _ _ _ _ _ _ _ HU)]. rewrite !(Qmult_comm (inject_Z (Z.of_nat (length rows)))). apply Qmult_le_compat_r; [apply units_floor|]. change 0%Q with (inject_Z 0). rewrite <- Zle_Qle. lia.
  Qed.
  Lemma pf_within : within T v.
  Proof.
    pose proof pf_vsum as E. constructor.
    - eapply Z.lt_trans; [exact E|]. cbn [policy tk_worst]. unfold int32_max. lia.
    - apply t_tells; [reflexivity|reflexivity|exact E].
    - intros k x l Hx. unfold wc. cbn [policy tk_sim tk_inst tk_wpl]. rewrite pf_len.
      destruct (Nat.lt_ge_cases l nl) as [Hl|Hl]; [|rewrite table_above by exact Hl; unfold units; rewrite (Qfloor_comp _ (inject_Z 0)) by (change (inject_Z 0) with 0%Q; lra); rewrite Qfloor_Z; lia].
      eapply Z.le_trans; [apply units_le|apply Z.le_max_r].
      pose proof (C37_worst m [] d k (PI x (nth (iid x) (map pr_e rows) (PPG 0 0 0 []))) l pf_ids) as H. rewrite pf_len in H. cbn [app] in H. unfold pid in H. cbn [pi_x] in H.
      apply H; [|exact Hl]. unfold policy_data. rewrite pf_load. set (g := fun x0 : inst => _).
      change (In (g x) (nth k (map (map g) v) [])). change [] with (map g []) at 1. rewrite map_nth. apply in_map. exact Hx.
  Qed.
  Lemma pf_small t : (tree_cost (tk_inst T) v t < 10000)%Z.
  Proof.
    eapply Z.le_lt_trans; [|exact pf_vsum]. rewrite tree_cost_vsum. apply vsum_from_le_at. intros j x Hx. apply (wi_inst _ _ pf_within). exact Hx.
  Qed.
  Lemma pf_predict t bits : fits (fun f => f < nf) nl t -> row_predict t bits < nl.
  Proof. induction t as [l|f l IHl r IHr]; cbn [fits row_predict]; [auto|]. intros (_ & A & B). destruct (nth f bits 0 =? 0); auto. Qed.
  Lemma pf_cost t : fits (fun f => f < nf) nl t ->
    (inject_Z (tree_cost (tk_inst T) v t) == inject_Z (Zpos D) * (- policy_total m rows t - inject_Z (Z.of_nat (length rows)) * low))%Q.
  Proof.
    intro Ht. rewrite (rows_cost nf nl rs pf_rows).
    rewrite (numbered_sum pr_row _ (fun r => units D (score m (pr_e r) (row_predict t (pr_bits r)) - low)) rows).
    2:{ intros i r Hi. cbn [policy tk_inst]. rewrite pf_len, (row_predict_inst t). cbn [row_inst mk_inst iid fst snd pr_row]. f_equal. apply pf_entry; [exact Hi|].
        apply pf_predict. exact Ht. }
    unfold policy_total. destruct pf_low as [_ [zl Hz]].
    assert (S : forall l, (forall r, In r l -> In r rows) -> (inject_Z (total (fun r => units D (score m (pr_e r) (row_predict t (pr_bits r)) - low)) l)
      == inject_Z (Zpos D) * (- sumQ (fun r => outcome m (pr_e r) (row_predict t (pr_bits r))) l - inject_Z (Z.of_nat (length l)) * low))%Q); [|apply S; auto].
    induction l as [|r l IH]; intro S; cbn [total fold_right sumQ length]; [change (inject_Z (Z.of_nat 0)) with 0%Q; change (inject_Z 0) with 0%Q; lra|].
    unfold total in IH. rewrite inject_Z_plus, (IH (fun q Hq => S q (or_intror Hq))). set (k := row_predict t (pr_bits r)).
    assert (Hr : In r rows) by (apply S; left; reflexivity).
    destruct (pu_whole _ _ _ _ _ _ _ _ HU r k Hr (pf_predict t _ Ht)) as [z Hw].
    rewrite (units_whole D _ (- z - zl)%Z) by (rewrite (pf_score r k Hr); unfold Z.sub; rewrite inject_Z_plus, !inject_Z_opp; rewrite <- Hw, <- Hz; ring).
    unfold Z.sub. rewrite inject_Z_plus, !inject_Z_opp, <- Hw, <- Hz, Nat2Z.inj_succ, <- Z.add_1_l, inject_Z_plus. change (inject_Z 1) with 1%Q. ring.
  Qed.
  Lemma pf_inst : forall x y k l, iid x = iid y -> tk_inst T x k l = tk_inst T y k l.
  Proof. intros x y k l E. cbn [policy tk_inst]. rewrite E. reflexivity. Qed.
  Lemma pf_fit : fit_policy D m W P nf clk rows = fit T W P nf clk v.
  Proof. unfold fit_policy. rewrite pf_load. reflexivity. Qed.
  Lemma pf_order t t' : fits (fun f => f < nf) nl t -> fits (fun f => f < nf) nl t' ->
    (tree_cost (tk_inst T) v t <= tree_cost (tk_inst T) v t')%Z -> (policy_total m rows t' <= policy_total m rows t)%Q.
  Proof.
    intros Ht Ht' H. rewrite Zle_Qle, (pf_cost t Ht), (pf_cost t' Ht') in H. apply Qmult_le_l in H; [lra|reflexivity].
  Qed.
End PF.

(** * Theorems *)
(** A fit that is proven optimal returns a policy of highest estimated outcome among all trees
    within the limits that give the considered treatments. *)
Theorem C83_optimal_partial : forall D lo hi m W P nf clk rows, policy_usable D lo hi m W P nf rows -> exact W P -> rebuilds W P ->
  fr_proven (fit_policy D m W P nf clk rows) = true ->
  (exists t0, row_allowed nf (treatments rows) (w_mls W) (p_depth P) (p_nodes P) (map pr_row rows) t0) ->
  exists t, fr_tree (fit_policy D m W P nf clk rows) = Some t
    /\ forall t', row_allowed nf (treatments rows) (w_mls W) (p_depth P) (p_nodes P) (map pr_row rows) t' -> (policy_total m rows t' <= policy_total m rows t)%Q.
Proof.
  intros D lo hi m W P nf clk rows HU Hex Hr Hp (t0 & H0). rewrite pf_fit in *.
  pose proof (pf_rows D lo hi m W P nf rows HU) as Hg. pose proof (pf_good D m rows) as HT. pose proof (pf_within D lo hi m W P nf rows HU) as HW.
  destruct (task_optimal _ HT W P nf _ clk _ (fun _ _ => eq_refl) Hg (pf_some D lo hi m W P nf rows HU)
    (pu_leaf _ _ _ _ _ _ _ _ HU) (pu_nodes _ _ _ _ _ _ _ _ HU) (pf_inst D m rows) (fun _ _ _ _ => eq_refl) HW Hex Hr Hp) as (t & H1 & H2).
  { exists t0. split; [exact H0|]. pose proof (pu_bound _ _ _ _ _ _ _ _ HU). pose proof (pf_small D lo hi m W P nf rows HU t0). lia. }
  exists t. split; [exact H1|]. intros t' H'. apply (pf_order D lo hi m W P nf rows HU); [|apply H'|apply H2; exact H'].
  destruct (task_score _ HT W P nf _ clk _ (fun _ _ => eq_refl) Hg (pf_some D lo hi m W P nf rows HU)
    (pu_leaf _ _ _ _ _ _ _ _ HU) (pu_nodes _ _ _ _ _ _ _ _ HU) (pf_inst D m rows) (fun _ _ _ _ => eq_refl) HW t H1) as [_ A]. apply A.
Qed.
(** For every setting, the training value is the total estimated outcome, negated, counted in
    units and shifted by a constant of the data. *)
Theorem C83_value : forall D m rows, exists c : Q, forall lo hi W P nf clk t, policy_usable D lo hi m W P nf rows ->
  fr_tree (fit_policy D m W P nf clk rows) = Some t ->
  (exists z, option_map fst (fr_train (fit_policy D m W P nf clk rows)) = Some z /\ (inject_Z z == - (inject_Z (Zpos D) * policy_total m rows t) - c)%Q)
  /\ row_allowed nf (treatments rows) (w_mls W) (p_depth P) (2 ^ p_depth P - 1) (map pr_row rows) t.
Proof.
  intros D m rows. exists (inject_Z (Zpos D) * (inject_Z (Z.of_nat (length rows)) * min_score m (treatments rows) (policy_data rows)))%Q.
  intros lo hi W P nf clk t HU Ht. rewrite pf_fit in *.
  pose proof (pf_rows D lo hi m W P nf rows HU) as Hg. pose proof (pf_good D m rows) as HT. pose proof (pf_within D lo hi m W P nf rows HU) as HW.
  destruct (task_score _ HT W P nf _ clk _ (fun _ _ => eq_refl) Hg (pf_some D lo hi m W P nf rows HU)
    (pu_leaf _ _ _ _ _ _ _ _ HU) (pu_nodes _ _ _ _ _ _ _ _ HU) (pf_inst D m rows) (fun _ _ _ _ => eq_refl) HW t Ht) as [A B].
  split; [|exact B]. eexists. split; [exact A|]. rewrite (pf_cost D lo hi m W P nf rows HU t (proj1 B)). ring.
Qed.
(** The reported training score is the share of the rows that get the treatment that is given as
    the optimal one. *)
Definition well_treated (opt : list nat) (rows : list prow) (t : tree) : nat :=
  length (filter (fun p => row_predict t (pr_bits (fst p)) =? snd p) (combine rows opt)).
Theorem C83_share : forall opt D m W P nf clk rows t, Forall (fun r => length (pr_bits r) = nf) rows -> rows <> [] -> length opt = length rows ->
  fr_tree (fit_policy D m W P nf clk rows) = Some t ->
  (exists s, policy_score opt D m W P nf clk rows = Some s /\ s == inject_Z (Z.of_nat (well_treated opt rows t)) / inject_Z (Z.of_nat (length rows)))%Q.
Proof.
  intros opt D m W P nf clk rows t HB NE HO Ht. unfold policy_score. cbv zeta. rewrite Ht. cbn [option_map]. eexists. split; [reflexivity|].
  set (w := fun (x : inst) (l : nat) => if nth (iid x) opt 0 =? l then 0%Z else 1%Z).
  assert (TV : forall t v, test_value (ics_leaf w) v t = tree_cost (fun x _ l => w x l) v t).
  { induction t0 as [l|f l IHl r IHr]; intro v; cbn [test_value]; [apply ics_leaf_cost|]. rewrite IHl, IHr, tree_cost_split. reflexivity. }
  assert (HB' : Forall (fun p => length (fst p) = nf) (map pr_row rows)) by (apply Forall_map; exact HB).
  rewrite TV, load_mk_view, labels_count, (rows_cost nf (label_count (map snd (map pr_row rows))) (map pr_row rows)) by (rewrite <- labels_count; apply load_good; exact HB').
  assert (E : fold_right (fun p a => w (row_inst p) (predict t (row_inst p)) + a)%Z 0%Z (numbered (map pr_row rows)) = (Z.of_nat (length rows) - Z.of_nat (well_treated opt rows t))%Z).
  { unfold numbered, well_treated. assert (G : forall rs os pre, length os = length rs -> opt = pre ++ os ->
      fold_right (fun p a => w (row_inst p) (predict t (row_inst p)) + a)%Z 0%Z (combine (seq (length pre) (length (map pr_row rs))) (map pr_row rs))
      = (Z.of_nat (length rs) - Z.of_nat (length (filter (fun p => (row_predict t (pr_bits (fst p)) =? snd p)%nat) (combine rs os))))%Z).
    { induction rs as [|r rs IH]; intros [|o os] pre HL E; cbn [length] in HL; try discriminate; [reflexivity|]. cbn [map length seq combine fold_right].
      assert (EO : opt = (pre ++ [o]) ++ os) by (rewrite <- app_assoc; exact E). specialize (IH os (pre ++ [o]) ltac:(lia) EO). rewrite app_length in IH. cbn [length] in IH. rewrite Nat.add_1_r in IH. rewrite IH.
      rewrite row_predict_inst. unfold w at 1. cbn [row_inst fst mk_inst iid snd pr_row]. rewrite E, app_nth2, Nat.sub_diag by lia. cbn [nth filter fst snd].
      rewrite (Nat.eqb_sym o). destruct (row_predict t (pr_bits r) =? o); cbn [length]; lia. }
    apply (G rows opt []); [exact HO|reflexivity]. }
  rewrite E. assert (X : forall a b : Z, (a - (a - b) = b)%Z) by (intros; lia). rewrite X. reflexivity.
Qed.

(** * Cases *)
(** Two treatments; the propensities are one half; doubly robust estimates. *)
Definition pf_row (a b h : nat) (y y0 y1 : Z) : prow := PRow [a;b] (PPG h (inject_Z y) (1 # 2) [inject_Z y0; inject_Z y1]).
Definition pf_ex : list prow := [pf_row 0 0 0 5 4 2; pf_row 0 1 1 1 3 2; pf_row 1 0 1 7 1 6; pf_row 1 1 0 2 1 4].
Example C83_ex : let P := Params 3 7 false (2 * int32_max)%Z in
  policy_usable 2 (-10) 20 DR (defaults true 1) P 2 pf_ex /\ exact (defaults true 1) P /\ rebuilds (defaults true 1) P
  /\ fr_proven (fit_policy 2 DR (defaults true 1) P 2 (fun _ => true) pf_ex) = true
  /\ row_allowed 2 2 1 3 7 (map pr_row pf_ex) (Leaf 0)
  /\ exists t, fr_tree (fit_policy 2 DR (defaults true 1) P 2 (fun _ => true) pf_ex) = Some t /\ nodes t = 3 /\ (policy_total DR pf_ex (Leaf 0) < policy_total DR pf_ex t)%Q.
Proof.
  cbv zeta. split.
  { constructor; try (repeat constructor; cbn; lia); try discriminate; try reflexivity.
    - intros r k Hr Hk. change (treatments pf_ex) with 2 in Hk. exists (units 2 (outcome DR (pr_e r) k)). cbn [pf_ex In] in Hr. destruct Hr as [<-|[<-|[<-|[<-|[]]]]]; destruct k as [|[|k]]; try lia; vm_compute; reflexivity.
    - intros r k Hr Hk. change (treatments pf_ex) with 2 in Hk. cbn [pf_ex In] in Hr. destruct Hr as [<-|[<-|[<-|[<-|[]]]]]; destruct k as [|[|k]]; try lia; split; vm_compute; discriminate. }
  split. { split; [reflexivity|]. intros _. split; [reflexivity|]. split; [left; reflexivity|right; split; reflexivity]. }
  split; [left; cbn; lia|]. split; [vm_compute; reflexivity|]. split; [split; [cbn; lia|]; split; [cbn; lia|]; split; cbn; lia|].
  eexists. split; [vm_compute; reflexivity|]. split; vm_compute; reflexivity.
Qed.
Definition pf_swapped : list prow := [pf_row 0 0 1 5 2 4; pf_row 0 1 0 1 2 3; pf_row 1 0 0 7 6 1; pf_row 1 1 1 2 4 1].
(** The score does not rank policies by their outcome: for a table without optimal treatments it
    is the share of the rows that get treatment 0, so that the better policy of a deeper tree has the
    lower score. *)
Theorem C83_ranking_refuted : exists rows, let P d := Params d 7 false (2 * int32_max)%Z in let W := defaults true 1 in let opt := repeat 0 (length rows) in
  (forall d, d <= 3 -> policy_usable 2 (-10) 20 DR W (P d) 2 rows)
  /\ fr_proven (fit_policy 2 DR W (P 0) 2 (fun _ => true) rows) = true /\ fr_proven (fit_policy 2 DR W (P 3) 2 (fun _ => true) rows) = true
  /\ exists t t' s s', fr_tree (fit_policy 2 DR W (P 0) 2 (fun _ => true) rows) = Some t /\ fr_tree (fit_policy 2 DR W (P 3) 2 (fun _ => true) rows) = Some t'
    /\ policy_score opt 2 DR W (P 0) 2 (fun _ => true) rows = Some s /\ policy_score opt 2 DR W (P 3) 2 (fun _ => true) rows = Some s'
    /\ (policy_total DR rows t < policy_total DR rows t')%Q /\ (s' < s)%Q.
Proof.
  exists pf_swapped. cbv zeta. split.
  { intros d Hd. constructor; try (repeat constructor; cbn; lia); try discriminate; try reflexivity; try (cbn; lia).
    - intros r k Hr Hk. change (treatments pf_swapped) with 2 in Hk. exists (units 2 (outcome DR (pr_e r) k)). cbn [pf_swapped In] in Hr. destruct Hr as [<-|[<-|[<-|[<-|[]]]]]; destruct k as [|[|k]]; try lia; vm_compute; reflexivity.
    - intros r k Hr Hk. change (treatments pf_swapped) with 2 in Hk. cbn [pf_swapped In] in Hr. destruct Hr as [<-|[<-|[<-|[<-|[]]]]]; destruct k as [|[|k]]; try lia; split; vm_compute; discriminate. }
  split; [vm_compute; reflexivity|]. split; [vm_compute; reflexivity|]. do 4 eexists.
  split; [vm_compute; reflexivity|]. split; [vm_compute; reflexivity|]. split; [vm_compute; reflexivity|]. split; [vm_compute; reflexivity|]. split; vm_compute; reflexivity.
Qed.
(** With a wider span a better policy is not told apart from the one found before. *)
Definition wide_policy (a b c : nat) : prow :=
  if (a =? 1) && (b =? 1) && (c =? 1) then PRow [a;b;c] (PPG 1 0 (1 # 2) [-2501 # 1; -2500 # 1]) else PRow [a;b;c] (PPG 0 0 (1 # 2) [-2500 # 1; -9000 # 1]).
Theorem C83_large_span_refuted : exists rows t', let P := Params 3 7 false int32_max in
  Forall (fun r => length (pr_bits r) = 3 /\ length (p_yhat (pr_e r)) = treatments rows) rows /\ exact (defaults true 1) P /\ rebuilds (defaults true 1) P
  /\ fr_proven (fit_policy 1 DM (defaults true 1) P 3 (fun _ => true) rows) = true
  /\ row_allowed 3 2 1 3 7 (map pr_row rows) t'
  /\ exists t, fr_tree (fit_policy 1 DM (defaults true 1) P 3 (fun _ => true) rows) = Some t
     /\ (policy_total DM rows t < policy_total DM rows t')%Q.
Proof.
  exists [wide_policy 0 0 0; wide_policy 0 0 1; wide_policy 0 1 0; wide_policy 0 1 1; wide_policy 1 0 0; wide_policy 1 0 1; wide_policy 1 1 0; wide_policy 1 1 1],
    (Split 0 (Leaf 0) (Split 1 (Leaf 0) (Split 2 (Leaf 0) (Leaf 1)))). cbv zeta. split; [repeat constructor|]. split.
  { split; [reflexivity|]. intros _. split; [reflexivity|]. split; [left; reflexivity|right; split; reflexivity]. }
  split; [left; cbn; lia|]. split; [vm_compute; reflexivity|]. split.
  { split; [cbn; lia|]. split; [cbn; lia|]. split; cbn; lia. }
  exists (Leaf 0). split; vm_compute; reflexivity.
Qed.

Print Assumptions C83_optimal_partial.
Print Assumptions C83_value.
Print Assumptions C83_share.
Print Assumptions C83_ranking_refuted.
Print Assumptions C83_large_span_refuted.
