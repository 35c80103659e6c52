(** C84, C85: fits with costs for testing features and for branching nodes. *)
From Coq Require Import List Arith Bool Lia ZArith QArith String Permutation.
From Verif Require Import Model_FeatureVector Model_Data Model_Node Model_Cache Model_Terminal Model_Heap Model_Solver Model_Preproc Model_Predict
  Model_EquivPoints Model_CostComplex Model_CostSensitive Model_Tasks
  Spec_Tree Spec_Examples Spec_Rows Spec_Tasks Proofs_View Proofs_Base Proofs_Rows Proofs_Preproc Proofs_Predict Proofs_Task
  Proofs_Plain Proofs_PlainFit Props_CostSensitive Props_Solver Props_Tasks Props_Sparse.
Import ListNotations.
Local Open Scope list_scope.
Local Open Scope nat_scope.

(** * Specification *)
(** The total cost of a tree: every row pays the cost of its prediction and the bill of the
    features it is tested on ([bill]: an original feature is paid once; the first one of its
    group at the full price, the others at the discount price). *)
Definition bill_total (M : list (list Z)) (specs : list fcs) (rows : list (list nat * nat)) (t : tree) : Z :=
  (mis_total M rows t + total (fun p => bill specs [] (row_path t (fst p))) rows)%Z.
(** Two columns of the rows that are neither equal nor complementary. *)
Definition is_one (p : list nat * nat) (f : nat) : bool := negb (nth f (fst p) 0 =? 0).
Definition columns_differ (rows : list (list nat * nat)) (f g : nat) : Prop :=
  (exists p, In p rows /\ is_one p f = is_one p g) /\ (exists p, In p rows /\ is_one p f <> is_one p g).
(** Errors plus a fixed cost for every branching node. *)
Definition sparse_total (cost : Z) (rows : list (list nat * nat)) (t : tree) : Z :=
  (Z.of_nat (row_errors rows t) + cost * Z.of_nat (nodes t))%Z.
(** Settings without lower bounds and without the depth-two solver. *)
Definition plain_search (W : switches) : Prop := w_lb W = false /\ w_term W = false.

(** * Costs of trees *)
Lemma tcost_search M t : forall (T : tree) v b, tcost (cost_sensitive M t) v b T = search_cost M t v b T.
Proof. induction T as [l|f l IHl r IHr]; intros v b; [reflexivity|]. cbn [tcost search_cost]. rewrite IHl, IHr. reflexivity. Qed.
Lemma tests_row t p : tests t (row_inst p) = row_path t (fst (snd p)).
Proof.
  induction t as [l|f l IHl r IHr]; [reflexivity|]. cbn [tests row_path]. rewrite row_has, IHl, IHr. destruct (nth f _ 0 =? 0); reflexivity.
Qed.
Lemma total_plus {A} (f g : A -> Z) l : total (fun x => (f x + g x)%Z) l = (total f l + total g l)%Z.
Proof. unfold total. induction l as [|x l IH]; [reflexivity|]. cbn [fold_right]. rewrite IH. lia. Qed.

(** * C84 *)
(** At least [nf] features per row; the specifications divide the features; costs are not
    negative, none for the right label; no two columns that are equal or complementary; in
    total less than [most] even if every row is tested on a most expensive feature at every
    node of its path. *)
Record costs_below (most : Z) (M : list (list Z)) (specs : list fcs) (W : switches) (P : params) (nf : nat) (rows : list (list nat * nat)) : Prop := CostsUsable {
  ku_bits : Forall (fun p => List.length (fst p) = nf) rows;
  ku_some : rows <> [];
  ku_specs : divides specs /\ num_binary specs = nf;
  ku_fees : Forall (fun s => (0 <= fc_cost s)%Z /\ (0 <= fc_disc s)%Z) specs;
  ku_matrix : label_count (map snd rows) <= List.length M /\ Forall (fun c => List.length c = List.length M /\ Forall (fun z => (0 <= z)%Z) c) M;
  ku_diag : forall k, nth k (nth k M []) 0%Z = 0%Z;
  ku_distinct : forall f g, f < g < nf -> columns_differ rows f g;
  ku_most : (Z.of_nat (List.length rows) * (fold_right Z.max 0 (List.concat M) + Z.of_nat (p_depth P) * fold_right Z.max 0 (map fc_cost specs ++ map fc_disc specs)) < most)%Z;
  ku_leaf : 1 <= w_mls W;
  ku_nodes : p_all P = true \/ p_nodes P = 1 -> p_nodes P <= 2 ^ p_depth P - 1;
  ku_plain : plain_search W /\ w_data W = false }.
Arguments ku_bits {most}. Arguments ku_some {most}. Arguments ku_specs {most}. Arguments ku_fees {most}. Arguments ku_matrix {most}. Arguments ku_diag {most}.
Arguments ku_distinct {most}. Arguments ku_most {most}. Arguments ku_leaf {most}. Arguments ku_nodes {most}. Arguments ku_plain {most}.
(** Less than 10000 units in total: the comparisons tell all costs apart. *)
Definition costs_usable := costs_below 10000.

(** Entries of the cost tables are entries of the specifications or zero. *)
Lemma table_entries specs (Q : Z -> Prop) : Q 0%Z -> Forall (fun s => Q (fc_cost s) /\ Q (fc_disc s)) specs ->
  Forall Q (tb_cost (initialize specs)) /\ Forall Q (tb_disc (initialize specs)).
Proof.
  intros Q0 H. unfold initialize. set (n := num_binary specs).
  assert (S : forall k z (l : list Z), Q z -> Forall Q l -> Forall Q (set_nth k z l)).
  { intros k z l Hz Hl. revert k. induction Hl; intros [|k]; cbn; constructor; auto. }
  set (ok := fun st : tables * gmap => Forall Q (tb_cost (fst st)) /\ Forall Q (tb_disc (fst st))).
  assert (F : forall s st f, Q (fc_cost s) /\ Q (fc_disc s) -> ok st -> ok (init_feature n s st f)).
  { intros s [t m] f [E1 E2] [O1 O2]. unfold init_feature. destruct (n <=? f); [split; assumption|]. unfold ok. cbn [fst tb_cost tb_disc]. split; apply S; assumption. }
  assert (G : forall s st, Q (fc_cost s) /\ Q (fc_disc s) -> ok st -> ok (init_spec n st s)).
  { intros s st E. unfold init_spec. revert st. induction (range s) as [|f fs IH]; intros st O; cbn [fold_left]; [exact O|]. apply IH. apply F; assumption. }
  assert (R : forall l st, Forall (fun s => Q (fc_cost s) /\ Q (fc_disc s)) l -> ok st -> ok (fold_left (init_spec n) l st)).
  { induction l as [|s l IH]; intros st Hl O; cbn [fold_left]; [exact O|]. inversion Hl; subst. apply IH; [assumption|]. apply G; assumption. }
  apply (R specs _ H). split; cbn [fst tb_cost tb_disc]; apply Forall_forall; intros x Hx; apply repeat_spec in Hx; subst; exact Q0.
Qed.
Lemma charge_entries specs (Q : Z -> Prop) b f : Q 0%Z -> Forall (fun s => Q (fc_cost s) /\ Q (fc_disc s)) specs -> Q (charge (initialize specs) b f).
Proof.
  intros Q0 H. destruct (table_entries specs Q Q0 H) as [A B].
  assert (E : forall l, Forall Q l -> Q (nth f l 0%Z)).
  { intros l Hl. destruct (nth_in_or_default f l 0%Z) as [I|I]; [apply (proj1 (Forall_forall _ _) Hl); exact I|rewrite I; exact Q0]. }
  unfold charge. destruct (existsb _ b); [exact Q0|]. destruct (existsb _ b); apply E; assumption.
Qed.
Lemma existsb_half (p : nat -> bool) b b' : same_tests b b' -> existsb (fun c => p (c / 2)) b = existsb (fun c => p (c / 2)) b'.
Proof.
  intro H. assert (E : forall a a', same_tests a a' -> existsb (fun c => p (c / 2)) a = true -> existsb (fun c => p (c / 2)) a' = true).
  { intros a a' Ha. rewrite !existsb_exists. intros (c & Hc & Hp).
    assert (I : In (half c) (map half a')) by (apply Ha; apply in_map; exact Hc). apply in_map_iff in I. destruct I as (c' & E1 & E2).
    exists c'. split; [exact E2|]. unfold half in E1. rewrite E1. exact Hp. }
  destruct (existsb (fun c => p (c / 2)) b) eqn:E1; [symmetry; apply (E b b' H E1)|].
  destruct (existsb (fun c => p (c / 2)) b') eqn:E2; [|reflexivity]. rewrite (E b' b) in E1; [discriminate| |exact E2]. intro g. specialize (H g). tauto.
Qed.
Lemma sat_size b (u : view) : vsize (restrict b u) <= vsize u.
Proof.
  unfold vsize, restrict. induction u as [|xs u IH]; [cbn; lia|]. cbn [map List.concat]. rewrite !app_length.
  pose proof (filter_length_split (sat b) xs). lia.
Qed.
Lemma iid_lengths (u u' : view) : map (map iid) u = map (map iid) u' -> map (@List.length inst) u = map (@List.length inst) u'.
Proof.
  intro H. assert (E : forall w : view, map (@List.length inst) w = map (@List.length nat) (map (map iid) w)).
  { intro w. rewrite map_map. apply map_ext. intro xs. rewrite map_length. reflexivity. }
  rewrite !E, H. reflexivity.
Qed.
Lemma leaf_costs_lengths M l u : forall u' k, map (@List.length inst) u = map (@List.length inst) u' -> leaf_costs_from M l k u = leaf_costs_from M l k u'.
Proof.
  induction u as [|xs u IH]; intros [|ys u'] k H; try discriminate; [reflexivity|]. cbn [map] in H. injection H as H1 H2.
  cbn [leaf_costs_from]. rewrite H1, (IH u' (S k) H2). reflexivity.
Qed.
Lemma leaf_costs_range M l B : (forall k, (0 <= mis M k l <= B)%Z) -> forall v k, (0 <= leaf_costs_from M l k v <= Z.of_nat (vsize v) * B)%Z.
Proof.
  intros H. induction v as [|xs v IH]; intro k; [cbn; lia|]. cbn [leaf_costs_from]. specialize (IH (S k)). specialize (H k).
  unfold vsize in *. cbn [List.concat]. rewrite app_length. destruct (k =? l); nia.
Qed.

Section CS.
  Context {most : Z} (M : list (list Z)) (specs : list fcs) (W : switches) (P : params) (nf : nat) (clk : nat -> bool) (rows : list (list nat * nat)).
  Hypothesis HU : costs_below most M specs W P nf rows.
  Notation tb := (initialize specs).
  Notation T := (cost_sensitive M tb).
  Notation nl := (label_count (map snd rows)).
  Notation v := (mk_view nl rows).
  Notation maxM := (fold_right Z.max 0 (List.concat M))%Z.
  Notation maxF := (fold_right Z.max 0 (map fc_cost specs ++ map fc_disc specs))%Z.
  Notation Z0 := (Z.of_nat (List.length rows) * (maxM + Z.of_nat (p_depth P) * maxF))%Z.

  Lemma tc_rows : good_rows nf nl rows.
  Proof. rewrite <- labels_count. apply load_good. exact (ku_bits _ _ _ _ _ _ HU). Qed.
  Lemma tc_charge b f : (0 <= charge tb b f <= maxF)%Z.
  Proof.
    apply charge_entries; [pose proof (max_ge (map fc_cost specs ++ map fc_disc specs) 0); lia|].
    pose proof (ku_fees _ _ _ _ _ _ HU) as H. rewrite Forall_forall in *. intros s Hs. specialize (H s Hs).
    assert (E : forall z, In z (map fc_cost specs ++ map fc_disc specs) -> (z <= maxF)%Z).
    { intros z Hz. destruct (In_nth _ _ 0%Z Hz) as (k & _ & <-). apply max_ge. }
    pose proof (E (fc_cost s) ltac:(apply in_or_app; left; apply in_map; exact Hs)). pose proof (E (fc_disc s) ltac:(apply in_or_app; right; apply in_map; exact Hs)). lia.
  Qed.
  Lemma tc_mis k l : (0 <= mis M k l <= maxM)%Z.
  Proof.
    split; [apply matrix_nonneg; apply (ku_matrix _ _ _ _ _ _ HU)|]. pose proof (max_mis_ge M k l). pose proof (max_mis_max M). lia.
  Qed.
  Lemma tc_bc n b f : bcost T n b f = (Z.of_nat n * charge tb b f)%Z.
  Proof. reflexivity. Qed.
  Lemma tc_plain : plain_task T.
  Proof.
    constructor; cbn [cost_sensitive tk_leaf tk_mindiff tk_sdom tk_dom tk_eq].
    - intros u l. unfold leaf_costs. pose proof (leaf_costs_range M l maxM (fun k => tc_mis k l) u 0). lia.
    - intros n b f. rewrite tc_bc. pose proof (tc_charge b f). nia.
    - lia.
    - exact t_sdom_lt.
    - exact t_dom_refl.
    - exact t_eq_0.
  Qed.
  Lemma tc_bound t : forall u b, (tcost T u b t <= Z.of_nat (vsize u) * (maxM + Z.of_nat (depth t) * maxF))%Z.
  Proof.
    induction t as [l|f l IHl r IHr]; intros u b; cbn [tcost depth].
    - cbn [cost_sensitive tk_leaf]. unfold leaf_costs. pose proof (leaf_costs_range M l maxM (fun k => tc_mis k l) u 0). lia.
    - specialize (IHl (split_left f u) (br_left b f)). specialize (IHr (split_right f u) (br_right b f)). rewrite tc_bc.
      pose proof (tc_charge b f). pose proof (vsize_split f u) as E. pose proof (max_ge (List.concat M) 0) as [_ ?].
      set (dm := Nat.max (depth l) (depth r)).
      assert (X1 : (Z.of_nat (depth l) * maxF <= Z.of_nat dm * maxF)%Z) by (apply Z.mul_le_mono_nonneg_r; lia).
      assert (X2 : (Z.of_nat (depth r) * maxF <= Z.of_nat dm * maxF)%Z) by (apply Z.mul_le_mono_nonneg_r; lia).
      replace (Z.of_nat (S dm)) with (Z.of_nat dm + 1)%Z by lia. rewrite E, Nat2Z.inj_add.
      set (a := Z.of_nat (vsize (split_left f u))) in *. set (c := Z.of_nat (vsize (split_right f u))) in *. assert (0 <= a)%Z by lia. assert (0 <= c)%Z by lia.
      assert (a * (maxM + Z.of_nat (depth l) * maxF) <= a * (maxM + Z.of_nat dm * maxF))%Z by (apply Z.mul_le_mono_nonneg_l; lia).
      assert (c * (maxM + Z.of_nat (depth r) * maxF) <= c * (maxM + Z.of_nat dm * maxF))%Z by (apply Z.mul_le_mono_nonneg_l; lia).
      assert ((a + c) * charge tb b f <= (a + c) * maxF)%Z by (apply Z.mul_le_mono_nonneg_l; lia). lia.
  Qed.
  Lemma tc_cost t : fits (fun f => f < nf) nl t -> tcost T v [] t = bill_total M specs rows t.
  Proof.
    intro Hf. rewrite tcost_search. destruct (ku_specs _ _ _ _ _ _ HU) as [Hd Hn].
    rewrite (C36_tree_cost specs Hd).
    2:{ pose proof (proj1 (ku_matrix _ _ _ _ _ _ HU)) as Hm. rewrite Hn. clear - Hf Hm. induction t as [l|f l IHl r IHr]; cbn [fits] in *; [lia|]. tauto. }
    pose proof (rows_cost nf nl rows tc_rows (fun x k _ => instance_cost specs M t k x) (Leaf 0)) as H. rewrite tree_cost_vsum in H.
    transitivity (vsum (fun j x => instance_cost specs M t j x) v); [reflexivity|]. rewrite H. unfold bill_total.
    rewrite Z.add_comm. unfold mis_total. rewrite <- total_plus. rewrite <- (map_id rows) at 1.
    apply (numbered_sum (fun p => p)). intros i r Hi. unfold instance_cost. rewrite tests_row, (row_predict_inst t). cbn [snd]. f_equal. unfold mis, row_label. cbn [snd].
    destruct (Nat.eqb_spec (row_predict t (fst r)) (snd r)) as [->|N]; [|reflexivity]. symmetry. apply (ku_diag _ _ _ _ _ _ HU).
  Qed.
  Lemma tc_distinct f f1 p q : f < nf -> f1 < nf -> (forall x, In x (List.concat v) -> xorb p (has f x) = xorb q (has f1 x)) -> f = f1.
  Proof.
    intros H1 H2 H. assert (X : forall r, In r rows -> xorb p (is_one r f) = xorb q (is_one r f1)).
    { intros r Hr. rewrite <- (numbered_snd rows) in Hr. apply in_map_iff in Hr. destruct Hr as ([i r'] & E & Hin). cbn [snd] in E. subst r'.
      assert (Hx : In (row_inst (i, r)) (List.concat v)).
      { apply (Permutation_in _ (Permutation_sym (view_perm nf nl rows tc_rows))). apply in_map. exact Hin. }
      specialize (H _ Hx). rewrite !row_has in H. exact H. }
    assert (Y : forall f f1, f < f1 < nf -> (forall r, In r rows -> xorb p (is_one r f) = xorb q (is_one r f1)) \/ (forall r, In r rows -> xorb q (is_one r f) = xorb p (is_one r f1)) -> False).
    { intros g g1 Hg Hr. destruct (ku_distinct _ _ _ _ _ _ HU g g1 Hg) as [(r1 & I1 & E1) (r2 & I2 & E2)].
      destruct Hr as [Hr|Hr]; pose proof (Hr r1 I1) as A1; pose proof (Hr r2 I2) as A2; rewrite E1 in A1;
        destruct p, q, (is_one r1 g1), (is_one r2 g), (is_one r2 g1); cbn in *; congruence. }
    destruct (Nat.lt_trichotomy f f1) as [Hl|[Hl|Hl]]; [exfalso; apply (Y f f1); [lia|left; exact X]|exact Hl|exfalso; apply (Y f1 f); [lia|right; intros r Hr; symmetry; apply X; exact Hr]].
  Qed.
  Lemma tc_some : 1 <= nl.
  Proof. pose proof (ku_some _ _ _ _ _ _ HU) as H. destruct rows as [|p r]; [congruence|]. unfold label_count. cbn [map fold_right]. clear. lia. Qed.
  Definition tc_fit (Hs : w_mls W <= List.length rows) := plain_fit_spec T tc_plain W P nf clk v Z0 (ku_leaf _ _ _ _ _ _ HU) (fun _ _ => eq_refl) (rows_loaded nf nl rows tc_rows)
      (eq_ind_r (fun n => 1 <= n) tc_some (rows_labels nl rows)) (eq_ind_r (fun n => w_mls W <= n) Hs (rows_size nf nl rows tc_rows))
      (fun u u' l E => leaf_costs_lengths M l u u' 0 (iid_lengths u u' E)).
End CS.

(** Without lower bounds and depth-two solver a fit that is proven optimal returns a tree of
    least total cost, within the depth limit, and reports its cost. *)
Theorem C84_test_costs_partial : forall M specs W P nf clk rows, costs_usable M specs W P nf rows ->
  let nl := label_count (map snd rows) in let R := fit_cost_sensitive M specs W P nf clk rows in
  fr_proven R = true ->
  (exists t0, row_allowed nf nl (w_mls W) (p_depth P) (p_nodes P) rows t0 /\ (bill_total M specs rows t0 <= p_ub P)%Z) ->
  exists t, fr_tree R = Some t
    /\ row_allowed nf nl (w_mls W) (p_depth P) (2 ^ p_depth P - 1) rows t
    /\ option_map fst (fr_train R) = Some (bill_total M specs rows t)
    /\ forall t', row_allowed nf nl (w_mls W) (p_depth P) (p_nodes P) rows t' -> (bill_total M specs rows t <= bill_total M specs rows t')%Z.
Proof.
  intros M specs W P nf clk rows HU nl R Hp (t0 & H0 & Hub). subst nl R.
  pose proof (tc_rows M specs W P nf rows HU) as Hg.
  unfold fit_cost_sensitive in *. rewrite load_mk_view, labels_count in *. set (nl := label_count (map snd rows)) in *.
  pose proof (row_allowed_size _ _ _ _ _ _ _ H0) as Hs. pose proof (ku_plain _ _ _ _ _ _ HU) as [[Hlb Htm] Hdc].
  pose proof (ku_most _ _ _ _ _ _ HU) as Hmost. pose proof (max_ge (map fc_cost specs ++ map fc_disc specs) 0) as [_ HF]. pose proof (max_ge (List.concat M) 0) as [_ HM].
  assert (HB : forall u b t, vsize u <= vsize (mk_view nl rows) -> depth t <= p_depth P ->
    (tcost (cost_sensitive M (initialize specs)) u b t <= Z.of_nat (List.length rows) * (fold_right Z.max 0 (List.concat M) + Z.of_nat (p_depth P) * fold_right Z.max 0 (map fc_cost specs ++ map fc_disc specs)))%Z).
  { intros u b t Hu Ht. rewrite (rows_size nf nl rows Hg) in Hu. eapply Z.le_trans; [apply (tc_bound M specs W P nf rows HU)|].
    assert (X : (Z.of_nat (depth t) * fold_right Z.max 0 (map fc_cost specs ++ map fc_disc specs) <= Z.of_nat (p_depth P) * fold_right Z.max 0 (map fc_cost specs ++ map fc_disc specs))%Z) by (apply Z.mul_le_mono_nonneg_r; lia).
    pose proof (Z.mul_nonneg_nonneg (Z.of_nat (depth t)) _ ltac:(lia) HF). apply Z.mul_le_mono_nonneg; lia. }
  assert (FA : forall d n t, allowed (fun f => f < nf) (w_mls W) d n (mk_view nl rows) t -> tcost (cost_sensitive M (initialize specs)) (mk_view nl rows) [] t = bill_total M specs rows t).
  { intros d n t Ht. apply (tc_cost M specs W P nf rows HU). apply (rows_allowed nf nl rows Hg) in Ht. apply Ht. }
  destruct (tc_fit M specs W P nf clk rows HU Hs) as [[N1 N2]|(t & R1 & R2 & _ & R3 & R4 & R5 & R6)].
  - intros n b b' f E. change (bcost _ n b f) with (Z.of_nat n * charge (initialize specs) b f)%Z. change (bcost _ n b' f) with (Z.of_nat n * charge (initialize specs) b' f)%Z.
    f_equal. unfold charge. rewrite (existsb_half (fun c => same_bin (initialize specs) c f) b b' E), (existsb_half (fun c => same_group (initialize specs) c f) b b' E). reflexivity.
  - right. exact (tc_distinct M specs W P nf rows HU).
  - exact Hlb.
  - exact Htm.
  - discriminate.
  - rewrite Hdc. discriminate.
  - exact HB.
  - apply t_tells; [reflexivity|reflexivity|exact Hmost].
  - eapply Z.lt_trans; [exact Hmost|reflexivity].
  - exact (ku_nodes _ _ _ _ _ _ HU).
  - exact Hp.
  - subst nl. exfalso. apply (rows_allowed nf _ rows Hg) in H0. specialize (N2 t0 H0).
    pose proof (HB (mk_view _ rows) [] t0 (le_n _) (proj1 (proj2 (proj2 H0)))) as HB0. rewrite (FA _ _ _ H0) in N2, HB0.
    unfold pbound in N2. change (tk_worst _) with int32_max in N2. unfold int32_max in N2. lia.
  - subst nl. rewrite (FA _ _ _ R2) in R3, R6. exists t. split; [exact R1|]. split; [|split; [exact R3|]].
    + apply (rows_allowed nf _ rows Hg). destruct R2 as (F1 & F2 & F3 & F4). split; [exact F1|]. split; [exact F2|].
      pose proof (Nat.pow_le_mono_r 2 (Nat.min (p_depth P) (p_nodes P)) (p_depth P) ltac:(lia) ltac:(lia)). lia.
    + intros t' H'. apply (rows_allowed nf _ rows Hg) in H'. apply (rows_allowed nf _ rows Hg) in H0.
      pose proof (HB (mk_view _ rows) [] t0 (le_n _) (proj1 (proj2 (proj2 H0)))) as HB0. pose proof (R5 t0 H0) as B0. rewrite (FA _ _ _ H0) in HB0, B0.
      destruct (R5 t' H') as [X|X]; rewrite (FA _ _ _ H') in X; [|lia]. unfold pbound in *. change (tk_worst _) with int32_max in *. unfold int32_max in *. lia.
Qed.

(** A data set with a group discount: the tests of the first two original features (binary
    features 0-1 and 2) share a preparation. *)
Definition bill_specs : list fcs := [FCS 3 1 "blood" 0 1; FCS 4 1 "blood" 2 2; FCS 2 2 "xray" 3 3].
Definition bill_rows : list (list nat * nat) :=
  [([0;0;0;0],0); ([0;0;0;1],0); ([0;0;1;0],1); ([0;1;1;1],1); ([0;1;0;0],0); ([1;1;0;1],1); ([1;1;0;0],1); ([1;1;1;1],0); ([1;0;1;0],0); ([1;0;0;1],1)].
Definition plain_defaults (g : bool) (m : nat) : switches := Switches true false false false false true false g m.
Example C84_test_costs_ex : let P := Params 3 7 false no_bound in let W := plain_defaults true 1 in let M := [[0;15];[27;0]]%Z in
  costs_usable M bill_specs W P 4 bill_rows
  /\ fr_proven (fit_cost_sensitive M bill_specs W P 4 (fun _ => true) bill_rows) = true
  /\ row_allowed 4 2 1 3 7 bill_rows (Leaf 0) /\ (bill_total M bill_specs bill_rows (Leaf 0) = 135)%Z
  /\ exists t, fr_tree (fit_cost_sensitive M bill_specs W P 4 (fun _ => true) bill_rows) = Some t /\ nodes t = 3 /\ (bill_total M bill_specs bill_rows t = 40)%Z.
Proof.
  cbv zeta. split.
  { constructor; try (repeat constructor; cbn; lia); try discriminate; try reflexivity.
    - intros [|[|[|k]]]; reflexivity.
    - assert (X : forallb (fun f => forallb (fun g => negb (f <? g) || (existsb (fun p => Bool.eqb (is_one p f) (is_one p g)) bill_rows && existsb (fun p => negb (Bool.eqb (is_one p f) (is_one p g))) bill_rows)) (seq 0 4)) (seq 0 4) = true) by (vm_compute; reflexivity).
      intros f g H. rewrite forallb_forall in X. specialize (X f ltac:(apply in_seq; lia)). rewrite forallb_forall in X. specialize (X g ltac:(apply in_seq; lia)).
      destruct (Nat.ltb_spec f g); [|lia]. cbn [negb orb] in X. apply andb_prop in X. destruct X as [X1 X2]. rewrite existsb_exists in X1, X2.
      destruct X1 as (p & I1 & E1). destruct X2 as (q & I2 & E2). split; [exists p; split; [exact I1|apply Bool.eqb_prop; exact E1]|].
      exists q. split; [exact I2|]. intro E. rewrite E in E2. destruct (is_one q g); discriminate. }
  split; [vm_compute; reflexivity|]. split; [split; [cbn; lia|]; split; [cbn; lia|]; split; cbn; lia|].
  split; [vm_compute; reflexivity|]. eexists. split; [vm_compute; reflexivity|]. split; [vm_compute; reflexivity|vm_compute; reflexivity].
Qed.

(** * C85 *)
Record nodes_below (most bc : Z) (W : switches) (P : params) (nf : nat) (rows : list (list nat * nat)) : Prop := NodesUsable {
  nu_bits : Forall (fun p => List.length (fst p) = nf) rows;
  nu_cost : (0 <= bc)%Z;
  nu_most : (Z.of_nat (List.length rows) + bc * Z.of_nat (2 ^ p_depth P - 1) < most)%Z;
  nu_leaf : 1 <= w_mls W;
  nu_nodes : p_all P = true \/ p_nodes P = 1 -> p_nodes P <= 2 ^ p_depth P - 1;
  nu_plain : plain_search W /\ w_ub W = true }.
Arguments nu_bits {most}. Arguments nu_cost {most}. Arguments nu_most {most}. Arguments nu_leaf {most}. Arguments nu_nodes {most}. Arguments nu_plain {most}.
Definition nodes_usable := nodes_below 10000.

Lemma nodes_depth t : nodes t <= 2 ^ depth t - 1.
Proof.
  induction t as [l|f l IHl r IHr]; cbn [nodes depth]; [cbn; lia|].
  pose proof (Nat.pow_le_mono_r 2 (depth l) (Nat.max (depth l) (depth r)) ltac:(lia) ltac:(lia)).
  pose proof (Nat.pow_le_mono_r 2 (depth r) (Nat.max (depth l) (depth r)) ltac:(lia) ltac:(lia)).
  rewrite Nat.pow_succ_r'. pose proof (Nat.pow_nonzero 2 (depth l)). pose proof (Nat.pow_nonzero 2 (depth r)). lia.
Qed.
Lemma nc_cost uid bc t : forall u b, tcost (cca uid bc) u b t = sparse_cost (tk_inst acc) bc u t.
Proof.
  induction t as [l|f l IHl r IHr]; intros u b; unfold sparse_cost in *.
  - cbn [tcost nodes]. change (tk_leaf (cca uid bc) u l) with (tk_leaf (cca uid 0) u l).
    rewrite (sp_leaf _ _ (C35_accuracy uid 0 ltac:(lia)) u l). cbn [cca tk_inst acc]. lia.
  - cbn [tcost nodes]. rewrite IHl, IHr, tree_cost_split. change (bcost (cca uid bc) (vsize u) b f) with bc. lia.
Qed.

Section CCA.
  Context {most : Z} (uid : nat -> nat) (bc : Z) (W : switches) (P : params) (nf : nat) (clk : nat -> bool) (rows : list (list nat * nat)).
  Hypothesis HU : nodes_below most bc W P nf rows.
  Notation T := (cca uid bc).
  Notation nl := (label_count (map snd rows)).
  Notation v := (mk_view nl rows).
  Notation Z0 := (Z.of_nat (List.length rows) + bc * Z.of_nat (2 ^ p_depth P - 1))%Z.
  Lemma nc_rows : good_rows nf nl rows.
  Proof. rewrite <- labels_count. apply load_good. exact (nu_bits _ _ _ _ _ HU). Qed.
  Lemma nc_total t : tcost T v [] t = sparse_total bc rows t.
  Proof. rewrite nc_cost. unfold sparse_cost, sparse_total. rewrite (rows_errors nf nl rows nc_rows). reflexivity. Qed.
  Lemma nc_bound u b t : vsize u <= vsize v -> depth t <= p_depth P -> (tcost T u b t <= Z0)%Z.
  Proof.
    intros Hu Ht. rewrite (rows_size nf nl rows nc_rows) in Hu. rewrite nc_cost. unfold sparse_cost.
    assert (E : (tree_cost (tk_inst acc) u t <= Z.of_nat (vsize u) * 1)%Z).
    { rewrite tree_cost_vsum. apply vsum_bound. intros j x _. cbn [acc tk_inst]. destruct (0 + j =? predict t x); lia. }
    pose proof (nodes_depth t). pose proof (Nat.pow_le_mono_r 2 (depth t) (p_depth P) ltac:(lia) Ht). pose proof (nu_cost _ _ _ _ _ HU).
    assert (bc * Z.of_nat (nodes t) <= bc * Z.of_nat (2 ^ p_depth P - 1))%Z by (apply Z.mul_le_mono_nonneg_l; lia). lia.
  Qed.
  Lemma nc_plain : plain_task T.
  Proof.
    constructor; try (cbn [cca tk_mindiff tk_sdom tk_dom tk_eq]; first [lia|exact t_sdom_lt|exact t_dom_refl|exact t_eq_0]).
    - intros u l. rewrite (sp_leaf _ _ (C35_accuracy uid bc (nu_cost _ _ _ _ _ HU)) u l). apply (cost_nonneg _ _ _ _ (C35_accuracy uid bc (nu_cost _ _ _ _ _ HU))).
    - intros n b f. exact (nu_cost _ _ _ _ _ HU).
  Qed.
End CCA.

(** The preprocessing keeps the rows. *)
Lemma cca_insert_perm x l : Permutation (cca_insert x l) (x :: l).
Proof.
  induction l as [|y l IH]; cbn [cca_insert]; [reflexivity|]. destruct (fv_gt (ifv x) (ifv y)); [reflexivity|].
  rewrite IH. apply perm_swap.
Qed.
Lemma cca_sort_perm l : Permutation (cca_sort l) l.
Proof. induction l as [|x l IH]; cbn [cca_sort fold_right]; [reflexivity|]. change (fold_right cca_insert [] l) with (cca_sort l). rewrite cca_insert_perm, IH. reflexivity. Qed.
Lemma cca_rows_perm rows : Permutation (cca_rows rows) rows.
Proof.
  unfold cca_rows. rewrite (cca_sort_perm (row_insts rows)). unfold row_insts. rewrite map_map. cbn [iid].
  rewrite <- (map_map fst (fun i => nth i rows ([], 0))). change (combine (seq 0 (List.length rows)) rows) with (numbered rows). rewrite numbered_fst.
  replace (map (fun i => nth i rows ([], 0)) (seq 0 (List.length rows))) with rows; [reflexivity|].
  symmetry. apply (nth_ext _ _ ([], 0) ([], 0)); [rewrite map_length, seq_length; reflexivity|].
  intros i Hi. rewrite map_length, seq_length in Hi. rewrite (nth_indep _ _ (nth 0 rows ([], 0))) by (rewrite map_length, seq_length; exact Hi).
  rewrite (map_nth (fun i => nth i rows ([], 0))). rewrite seq_nth by exact Hi. reflexivity.
Qed.
Lemma row_leaves_perm m t : forall xs ys, Permutation xs ys -> row_leaves m xs t -> row_leaves m ys t.
Proof.
  induction t as [l|f l IHl r IHr]; intros xs ys H; cbn [row_leaves]; [rewrite (Permutation_length H); auto|].
  intros [A B]. split; [eapply IHl; [|exact A]|eapply IHr; [|exact B]]; apply perm_filter; exact H.
Qed.
Lemma label_count_perm l l' : Permutation l l' -> label_count l = label_count l'.
Proof. unfold label_count. induction 1; cbn [fold_right]; lia. Qed.
Lemma row_errors_perm rows rows' t : Permutation rows rows' -> row_errors rows t = row_errors rows' t.
Proof. intro H. unfold row_errors. apply Permutation_length. apply perm_filter. exact H. Qed.
Lemma row_allowed_perm nf m d n rows rows' t : Permutation rows rows' ->
  row_allowed nf (label_count (map snd rows)) m d n rows t -> row_allowed nf (label_count (map snd rows')) m d n rows' t.
Proof.
  intros H (A & B & C). rewrite <- (label_count_perm _ _ (Permutation_map snd H)). split; [exact A|]. split; [|exact C]. eapply row_leaves_perm; eassumption.
Qed.

(** Without lower bounds and depth-two solver a fit that is proven optimal returns a tree with
    the least sum of errors and costs of nodes; the training value is that sum. *)
Theorem C85_optimal_partial : forall bc W P nf clk rows, nodes_usable bc W P nf rows ->
  let nl := label_count (map snd rows) in let R := fit_cca bc W P nf clk rows in
  fr_proven R = true ->
  (exists t0, row_allowed nf nl (w_mls W) (p_depth P) (p_nodes P) rows t0 /\ (sparse_total bc rows t0 <= p_ub P)%Z) ->
  exists t, fr_tree R = Some t
    /\ row_allowed nf nl (w_mls W) (p_depth P) (2 ^ p_depth P - 1) rows t
    /\ option_map fst (fr_train R) = Some (sparse_total bc rows t)
    /\ forall t', row_allowed nf nl (w_mls W) (p_depth P) (p_nodes P) rows t' -> (sparse_total bc rows t <= sparse_total bc rows t')%Z.
Proof.
  intros bc W P nf clk rows0 HU nl R Hp (t0 & H0 & Hub). subst nl R. unfold fit_cca in *.
  revert Hp. generalize (uid_table (row_insts rows0)) as uid. intros uid Hp.
  pose proof (cca_rows_perm rows0) as HP. revert Hp HP. generalize (cca_rows rows0) as rows. intros rows Hp HP.
  assert (ST : forall t, sparse_total bc rows0 t = sparse_total bc rows t) by (intro t; unfold sparse_total; rewrite (row_errors_perm _ _ _ HP); reflexivity).
  rewrite ST in Hub. apply (row_allowed_perm _ _ _ _ _ _ _ (Permutation_sym HP)) in H0.
  assert (HU' : nodes_usable bc W P nf rows).
  { destruct HU as [U1 U2 U3 U4 U5 U6]. constructor; try assumption; [eapply Permutation_Forall; [apply Permutation_sym; exact HP|exact U1]|rewrite (Permutation_length HP); exact U3]. }
  pose proof (nc_rows bc W P nf rows HU') as Hg. rewrite load_mk_view, labels_count in *.
  pose proof (row_allowed_size _ _ _ _ _ _ _ H0) as Hs. pose proof (nu_plain _ _ _ _ _ HU') as [[Hlb Htm] Hw].
  pose proof (nu_most _ _ _ _ _ HU') as Hmost. pose proof (nc_total uid bc W P nf rows HU') as NT. pose proof (nc_bound uid bc W P nf rows HU') as NB.
  assert (Hnl : 1 <= label_count (map snd rows)).
  { pose proof (nu_leaf _ _ _ _ _ HU'). destruct rows as [|p r]; [cbn in Hs; lia|]. unfold label_count. cbn [map fold_right]. clear. lia. }
  destruct (plain_fit_spec (cca uid bc) (nc_plain uid bc W P nf rows HU') W P nf clk (mk_view (label_count (map snd rows)) rows) (Z.of_nat (List.length rows) + bc * Z.of_nat (2 ^ p_depth P - 1))%Z (nu_leaf _ _ _ _ _ HU') (fun _ _ => eq_refl) (rows_loaded nf _ rows Hg)
      (eq_ind_r (fun n => 1 <= n) Hnl (rows_labels _ rows)) (eq_ind_r (fun n => w_mls W <= n) Hs (rows_size nf _ rows Hg))) as [[N1 N2]|(t & R1 & R2 & _ & R3 & R4 & R5 & R6)].
  - intros u u' l E. change (acc_leaf u l = acc_leaf u' l). unfold acc_leaf. apply iid_lengths in E. clear -E. revert u' E. generalize 0.
    induction u as [|xs u IH]; intros k [|ys u'] E; try discriminate; [reflexivity|]. cbn [map] in E. injection E as E1 E2. cbn [acc_leaf_from]. rewrite E1, (IH (S k) u' E2). reflexivity.
  - reflexivity.
  - left. reflexivity.
  - exact Hlb.
  - exact Htm.
  - intros _. split; [exact Hw|]. exists bc. reflexivity.
  - reflexivity.
  - exact NB.
  - apply t_tells; [reflexivity|reflexivity|exact Hmost].
  - eapply Z.lt_trans; [exact Hmost|reflexivity].
  - exact (nu_nodes _ _ _ _ _ HU').
  - exact Hp.
  - exfalso. apply (rows_allowed nf _ rows Hg) in H0. specialize (N2 t0 H0).
    pose proof (NB (mk_view _ rows) [] t0 (le_n _) (proj1 (proj2 (proj2 H0)))) as HB0. rewrite NT in N2, HB0.
    unfold pbound in N2. change (tk_worst _) with int32_max in N2. unfold int32_max in N2. lia.
  - rewrite NT in R3, R6. exists t. split; [exact R1|]. split; [|split; [rewrite ST; exact R3|]].
    + apply (row_allowed_perm _ _ _ _ _ _ _ HP). apply (rows_allowed nf _ rows Hg). destruct R2 as (F1 & F2 & F3 & F4). split; [exact F1|]. split; [exact F2|].
      pose proof (Nat.pow_le_mono_r 2 (Nat.min (p_depth P) (p_nodes P)) (p_depth P) ltac:(lia) ltac:(lia)). lia.
    + intros t' H'. apply (row_allowed_perm _ _ _ _ _ _ _ (Permutation_sym HP)) in H'. rewrite !ST. apply (rows_allowed nf _ rows Hg) in H'. apply (rows_allowed nf _ rows Hg) in H0.
      pose proof (NB (mk_view _ rows) [] t0 (le_n _) (proj1 (proj2 (proj2 H0)))) as HB0. pose proof (R5 t0 H0) as B0. rewrite NT in HB0, B0.
      destruct (R5 t' H') as [X|X]; rewrite NT in X; [|lia]. unfold pbound in *. change (tk_worst _) with int32_max in *. unfold int32_max in *. lia.
Qed.
(** The reported training score is the share of the rows that the tree labels right; the costs of
    nodes are not part of it. *)
Theorem C85_score : forall bc W P nf clk rows t, Forall (fun p => List.length (fst p) = nf) rows -> rows <> [] ->
  fr_tree (fit_cca bc W P nf clk rows) = Some t ->
  (exists s, cca_score bc W P nf clk rows = Some s /\ s == 1 - inject_Z (Z.of_nat (row_errors rows t)) / inject_Z (Z.of_nat (List.length rows)))%Q.
Proof.
  intros bc W P nf clk rows t HB NE Ht. unfold cca_score. cbv zeta. rewrite Ht. cbn [option_map]. eexists. split; [reflexivity|].
  assert (TV : forall t v, test_value acc_leaf v t = tree_cost (tk_inst acc) v t).
  { induction t0 as [l|f l IHl r IHr]; intro v; cbn [test_value]; [apply acc_leaf_cost|]. rewrite IHl, IHr, tree_cost_split. reflexivity. }
  change (tk_leaf (cca _ bc)) with acc_leaf.
  pose proof (cca_rows_perm rows) as HP. rewrite TV, (row_errors_perm _ _ t (Permutation_sym HP)).
  assert (HB' : Forall (fun p => List.length (fst p) = nf) (cca_rows rows)) by (eapply Permutation_Forall; [apply Permutation_sym; exact HP|exact HB]).
  rewrite load_mk_view, labels_count. rewrite (rows_errors nf (label_count (map snd (cca_rows rows))) (cca_rows rows)) by (rewrite <- labels_count; apply load_good; exact HB').
  assert (N : ~ (inject_Z (Z.of_nat (List.length rows)) == 0)%Q) by (destruct rows; [congruence|]; unfold Qeq; cbn; lia).
  unfold Z.sub. rewrite inject_Z_plus, inject_Z_opp. field. exact N.
Qed.
(** The rows in another order than the sorted one. *)
Definition shuffled : list (list nat * nat) := rev sparse_rows.
Example C85_ex : let P := Params 3 7 false no_bound in let W := Switches true false false false false false true true 1 in
  nodes_usable 2 W P 4 shuffled /\ cca_rows shuffled <> shuffled
  /\ fr_proven (fit_cca 2 W P 4 (fun _ => true) shuffled) = true
  /\ row_allowed 4 2 1 3 7 shuffled cheaper /\ sparse_total 2 shuffled cheaper = 8%Z
  /\ option_map Qred (cca_score 2 W P 4 (fun _ => true) shuffled) = Some (1 # 1)%Q
  /\ exists t, fr_tree (fit_cca 2 W P 4 (fun _ => true) shuffled) = Some t /\ sparse_total 2 shuffled t = 8%Z.
Proof.
  cbv zeta. split.
  { split; [|lia|vm_compute; reflexivity|cbn; lia|intros [H|H]; discriminate|repeat split].
    apply Forall_forall. intros p Hp. assert (X : forallb (fun p => List.length (fst p) =? 4) shuffled = true) by (vm_compute; reflexivity).
    rewrite forallb_forall in X. apply Nat.eqb_eq. apply X. exact Hp. }
  split; [vm_compute; discriminate|]. split; [vm_compute; reflexivity|]. split.
  { split; [cbn; lia|]. split; [vm_compute; repeat split; lia|]. split; cbn; lia. }
  split; [vm_compute; reflexivity|]. split; [vm_compute; reflexivity|]. eexists. split; [vm_compute; reflexivity|vm_compute; reflexivity].
Qed.

(** With the default settings. *)
Theorem C85_default_refuted : exists rows t', let P := Params 3 7 false no_bound in let W := defaults true 1 in
  Forall (fun p => List.length (fst p) = 4 /\ snd p < 2) rows
  /\ fr_proven (fit_cca 2 W P 4 (fun _ => true) rows) = true
  /\ row_allowed 4 2 1 3 7 rows t'
  /\ exists t, fr_tree (fit_cca 2 W P 4 (fun _ => true) rows) = Some t /\ (sparse_total 2 rows t' < sparse_total 2 rows t)%Z.
Proof.
  exists shuffled, cheaper. cbv zeta. split.
  { apply Forall_forall. intros p Hp. assert (X : forallb (fun p => (List.length (fst p) =? 4) && (snd p <? 2)) shuffled = true) by (vm_compute; reflexivity).
    rewrite forallb_forall in X. specialize (X p Hp). apply andb_prop in X. destruct X as [X1 X2]. apply Nat.eqb_eq in X1. apply Nat.ltb_lt in X2. split; assumption. }
  split; [vm_compute; reflexivity|]. split.
  { split; [cbn; lia|]. split; [vm_compute; repeat split; lia|]. split; cbn; lia. }
  eexists. split; [vm_compute; reflexivity|vm_compute; reflexivity].
Qed.

Print Assumptions C84_test_costs_partial.
Print Assumptions C85_optimal_partial.
Print Assumptions C85_score.
Print Assumptions C85_default_refuted.
