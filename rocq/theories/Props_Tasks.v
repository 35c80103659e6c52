(** C82, C83, C84: fits with costs per instance, policies and misclassification costs. *)
From Coq Require Import List Arith Bool Lia ZArith String.
From Verif Require Import Model_FeatureVector Model_Data Model_Node Model_Cache Model_Terminal Model_Heap Model_Solver Model_Preproc Model_Predict
  Model_CostComplex Model_CostSensitive Model_Tasks
  Spec_Tree Spec_Examples Spec_Rows Spec_Tasks Proofs_View Proofs_Base Proofs_Rows Proofs_Fit Proofs_Preproc Proofs_Predict Proofs_Task Props_Solver.
Import ListNotations.
Local Open Scope list_scope.
Local Open Scope nat_scope.

(** * Rows *)
Lemma labels_count rows : labels_of rows = label_count (map snd rows).
Proof.
  unfold labels_of. rewrite load_eq.
  assert (E : forall L v, List.length (fold_left load_step L v) = Nat.max (List.length v) (fold_right (fun p a => Nat.max (S (row_label p)) a) 0 L)).
  { induction L as [|p L IH]; intro v; cbn [fold_left fold_right]; [lia|]. rewrite IH. unfold load_step. rewrite push_len. lia. }
  rewrite E. cbn [List.length]. unfold label_count. rewrite <- (numbered_snd rows) at 2. rewrite Nat.max_0_l.
  induction (numbered rows) as [|p L IH]; [reflexivity|]. cbn [map fold_right]. rewrite IH. reflexivity.
Qed.
(** Sums over the numbered rows. *)
Lemma numbered_sum {A} (f : A -> list nat * nat) (F : nat * (list nat * nat) -> Z) (H : A -> Z) l :
  (forall i r, nth_error l i = Some r -> F (i, f r) = H r) ->
  fold_right (fun p a => (F p + a)%Z) 0%Z (numbered (map f l)) = total H l.
Proof.
  intro E. unfold numbered, total. rewrite map_length.
  assert (G : forall k l', (forall i r, nth_error l' i = Some r -> F (k + i, f r) = H r) ->
    fold_right (fun p a => (F p + a)%Z) 0%Z (combine (seq k (List.length l')) (map f l')) = fold_right (fun x a => (H x + a)%Z) 0%Z l').
  { intros k l'. revert k. induction l' as [|r l' IH]; intros k Hk; [reflexivity|]. cbn [List.length seq map combine fold_right].
    rewrite IH; [specialize (Hk 0 r eq_refl); rewrite Nat.add_0_r in Hk; rewrite Hk; reflexivity|].
    intros i q Hi. specialize (Hk (S i) q Hi). rewrite Nat.add_succ_r in Hk. exact Hk. }
  apply (G 0 l). exact E.
Qed.
Lemma zsum_total {A} (w : A -> Z) l : zsum (map w l) = total w l.
Proof. induction l as [|x l IH]; [reflexivity|]. cbn [map zsum total fold_right]. rewrite IH. reflexivity. Qed.
Lemma nth_map_error {A B} (g : A -> B) l i r d : nth_error l i = Some r -> nth i (map g l) d = g r.
Proof. revert l. induction i as [|i IH]; intros [|x l] H; try discriminate; cbn in *; [injection H as ->; reflexivity|]. apply IH. exact H. Qed.

(** * C82: costs per instance *)
(** What the settings and the data must satisfy: [nf] features per row, a non-negative cost for
    every label below [n], and in total less than 10000 units of cost; [n] is the number of
    labels, at least the parameter num-extra-cols. *)
Record ics_usable (W : switches) (P : params) (nf extra : nat) (rows : list crow) : Prop := ICSUsable {
  iu_bits : Forall (fun r => List.length (cr_bits r) = nf) rows;
  iu_some : 1 <= Nat.max extra (label_count (map cr_label rows));
  iu_costs : Forall (fun r => Nat.max extra (label_count (map cr_label rows)) <= List.length (cr_costs r) /\ Forall (fun c => (0 <= c)%Z) (cr_costs r)) rows;
  iu_most : (ics_most rows < 10000)%Z;
  iu_leaf : 1 <= w_mls W;
  iu_nodes : p_all P = true \/ p_nodes P = 1 -> p_nodes P <= 2 ^ p_depth P - 1 }.

Lemma worst_cost_max c : Forall (fun z => (0 <= z)%Z) c -> worst_cost c = fold_right Z.max 0%Z c.
Proof.
  destruct c as [|c r]; [reflexivity|]. intro H. inversion H as [|? ? Hc Hr]; subst. cbn [worst_cost fold_right].
  assert (E : forall r a, (0 <= a)%Z -> fold_left Z.max r a = Z.max a (fold_right Z.max 0%Z r)).
  { clear. induction r as [|x r IH]; intros a Ha; cbn [fold_left fold_right]; [lia|]. rewrite IH by lia. lia. }
  apply E. exact Hc.
Qed.
Lemma max_ge c l : (nth l c 0 <= fold_right Z.max 0 c)%Z /\ (0 <= fold_right Z.max 0 c)%Z.
Proof. revert l. induction c as [|x c IH]; intros [|l]; cbn [nth fold_right]; try lia; [destruct (IH 0); lia|destruct (IH l); lia]. Qed.
Lemma nth_nonneg c l : Forall (fun z => (0 <= z)%Z) c -> (0 <= nth l c 0)%Z.
Proof. intro H. revert l. induction H as [|x c Hx Hc IH]; intros [|l]; cbn [nth]; try lia. apply IH. Qed.

Lemma ics_good table : Forall (Forall (fun z => (0 <= z)%Z)) table -> good_task (ics table).
Proof.
  intro H. assert (Hr : forall i, Forall (fun z => (0 <= z)%Z) (nth i table [])).
  { intro i. destruct (nth_in_or_default i table []) as [Hi|Hi]; [apply (proj1 (Forall_forall _ _) H); exact Hi|rewrite Hi; constructor]. }
  constructor; try reflexivity; cbn [ics tk_sim tk_inst tk_wpl tk_mindiff tk_leaf tk_zero_true tk_sdom tk_dom tk_eq]; try lia.
  - intros v l. apply ics_leaf_cost.
  - intros x k l. apply nth_nonneg. apply Hr.
  - intros k x. unfold wc. cbn [ics tk_sim]. rewrite worst_cost_max by apply Hr. apply (max_ge _ 0).
  - exact t_sdom_lt.
  - exact t_dom_refl.
  - exact t_eq_refl.
  - exact t_eq_0.
Qed.

Section ICS.
  Context (W : switches) (P : params) (nf extra : nat) (clk : nat -> bool) (rows : list crow).
  Hypothesis HU : ics_usable W P nf extra rows.
  Notation nl := (Nat.max extra (label_count (map cr_label rows))).
  Notation R := (fit_ics W P nf extra clk rows).
  Notation T := (ics (map cr_costs rows)).
  Notation rs := (map cr_row rows).
  Notation v := (mk_view nl rs).

  Lemma ics_nl : Nat.max extra (labels_of rs) = nl.
  Proof. rewrite labels_count, map_map. reflexivity. Qed.
  Lemma ics_fit : R = fit T W P nf clk v.
  Proof. unfold fit_ics. rewrite resize_view, ics_nl. reflexivity. Qed.
  Lemma ics_nonneg : Forall (Forall (fun z => (0 <= z)%Z)) (map cr_costs rows).
  Proof. apply Forall_map. eapply Forall_impl; [|apply (iu_costs _ _ _ _ _ HU)]. intros r [_ H]. exact H. Qed.
  Lemma ics_rows : good_rows nf nl rs.
  Proof.
    assert (H : rows_of_len nf rs) by (apply Forall_map; exact (iu_bits _ _ _ _ _ HU)).
    apply load_good in H. eapply Forall_impl; [|exact H]. intros p [A B]. split; [exact A|]. rewrite <- ics_nl. lia.
  Qed.
  Lemma ics_cost t : tree_cost (tk_inst T) v t = ics_total rows t.
  Proof.
    rewrite (rows_cost nf nl rs ics_rows). apply numbered_sum. intros i r Hi. cbn [ics tk_inst]. unfold label_cost.
    rewrite (row_predict_inst t). cbn [row_inst mk_inst iid fst snd cr_row]. rewrite (nth_map_error cr_costs rows i r [] Hi). reflexivity.
  Qed.
  Lemma ics_within : within T v.
  Proof.
    assert (E : vsum (wc T) v = ics_most rows).
    { unfold vsum. unfold wc. cbn [ics tk_sim]. rewrite (vsum_const_from (fun x => worst_cost (nth (iid x) (map cr_costs rows) []))).
      rewrite (zsum_perm _ _ (Permutation.Permutation_map _ (view_perm nf nl rs ics_rows))), map_map.
      rewrite zsum_total. unfold total. apply (numbered_sum cr_row (fun p => worst_cost (nth (iid (row_inst p)) (map cr_costs rows) []))).
      intros i r Hi. cbn [row_inst mk_inst iid fst]. rewrite (nth_map_error cr_costs rows i r [] Hi). apply worst_cost_max.
      apply (proj1 (Forall_forall _ _) ics_nonneg). apply in_map. apply nth_error_In with i. exact Hi. }
    pose proof (iu_most _ _ _ _ _ HU) as Hm. constructor.
    - rewrite E. eapply Z.lt_trans; [exact Hm|]. reflexivity.
    - rewrite E. apply t_tells; [reflexivity|reflexivity|exact Hm].
    - intros k x l _. unfold wc. cbn [ics tk_sim tk_inst]. unfold label_cost. rewrite worst_cost_max; [apply max_ge|].
      destruct (nth_in_or_default (iid x) (map cr_costs rows) []) as [Hi|Hi]; [apply (proj1 (Forall_forall _ _) ics_nonneg); exact Hi|rewrite Hi; constructor].
  Qed.
  Lemma ics_inst : forall x y k l, iid x = iid y -> tk_inst T x k l = tk_inst T y k l.
  Proof. intros x y k l E. cbn [ics tk_inst]. unfold label_cost. rewrite E. reflexivity. Qed.
  Lemma ics_wc : forall k x y, iid x = iid y -> wc T k x = wc T k y.
  Proof. intros k x y E. unfold wc. cbn [ics tk_sim]. rewrite E. reflexivity. Qed.
End ICS.

(** A fit that is proven optimal returns a tree of least total cost among all trees within the
    limits with the labels of the data, if one does not exceed the user's upper bound. *)
Theorem C82_optimal_partial : forall W P nf extra clk rows, ics_usable W P nf extra rows -> exact W P -> rebuilds W P ->
  let nl := Nat.max extra (label_count (map cr_label rows)) in
  fr_proven (fit_ics W P nf extra clk rows) = true ->
  (exists t0, row_allowed nf nl (w_mls W) (p_depth P) (p_nodes P) (map cr_row rows) t0 /\ (ics_total rows t0 <= p_ub P)%Z) ->
  exists t, fr_tree (fit_ics W P nf extra clk rows) = Some t
    /\ forall t', row_allowed nf nl (w_mls W) (p_depth P) (p_nodes P) (map cr_row rows) t' -> (ics_total rows t <= ics_total rows t')%Z.
Proof.
  intros W P nf extra clk rows HU Hex Hr nl Hp (t0 & H0 & Hub). subst nl. rewrite ics_fit in *.
  pose proof (ics_rows W P nf extra rows HU) as Hg.
  destruct (task_optimal _ (ics_good _ (ics_nonneg W P nf extra rows HU)) W P nf _ clk _ (fun _ _ => eq_refl) Hg (iu_some _ _ _ _ _ HU)
    (iu_leaf _ _ _ _ _ HU) (iu_nodes _ _ _ _ _ HU) (ics_inst rows) (ics_wc rows) (ics_within W P nf extra rows HU) Hex Hr Hp) as (t & H1 & H2).
  { exists t0. split; [exact H0|]. rewrite (ics_cost W P nf extra rows HU). exact Hub. }
  exists t. split; [exact H1|]. intros t' H'. specialize (H2 t' H'). rewrite !(ics_cost W P nf extra rows HU) in H2. exact H2.
Qed.
(** If no tree is returned, every tree within the limits exceeds the upper bound. *)
Theorem C82_no_tree : forall W P nf extra clk rows, ics_usable W P nf extra rows -> exact W P ->
  fr_proven (fit_ics W P nf extra clk rows) = true -> fr_tree (fit_ics W P nf extra clk rows) = None ->
  forall t, row_allowed nf (Nat.max extra (label_count (map cr_label rows))) (w_mls W) (p_depth P) (p_nodes P) (map cr_row rows) t -> (p_ub P < ics_total rows t)%Z.
Proof.
  intros W P nf extra clk rows HU Hex Hp Hn t Ht. rewrite ics_fit in *. pose proof (ics_rows W P nf extra rows HU) as Hg.
  rewrite <- (ics_cost W P nf extra rows HU).
  exact (task_none _ (ics_good _ (ics_nonneg W P nf extra rows HU)) W P nf _ clk _ (fun _ _ => eq_refl) Hg (iu_some _ _ _ _ _ HU)
    (iu_leaf _ _ _ _ _ HU) (iu_nodes _ _ _ _ _ HU) (ics_inst rows) (ics_wc rows) (ics_within W P nf extra rows HU) Hex Hp Hn t Ht).
Qed.
(** For every setting the reported training score is what the returned tree costs, and the tree
    is within the limits of depth and leaf size. *)
Theorem C82_score : forall W P nf extra clk rows t, ics_usable W P nf extra rows -> fr_tree (fit_ics W P nf extra clk rows) = Some t ->
  option_map fst (fr_train (fit_ics W P nf extra clk rows)) = Some (ics_total rows t)
  /\ row_allowed nf (Nat.max extra (label_count (map cr_label rows))) (w_mls W) (p_depth P) (2 ^ p_depth P - 1) (map cr_row rows) t.
Proof.
  intros W P nf extra clk rows t HU Ht. rewrite ics_fit in *. pose proof (ics_rows W P nf extra rows HU) as Hg.
  rewrite <- (ics_cost W P nf extra rows HU).
  exact (task_score _ (ics_good _ (ics_nonneg W P nf extra rows HU)) W P nf _ clk _ (fun _ _ => eq_refl) Hg (iu_some _ _ _ _ _ HU)
    (iu_leaf _ _ _ _ _ HU) (iu_nodes _ _ _ _ _ HU) (ics_inst rows) (ics_wc rows) (ics_within W P nf extra rows HU) t Ht).
Qed.

(** ** From Python *)
Lemma argmin_from_spec cs : forall k best bc full, k = List.length full -> best < k -> nth best full 0%Z = bc -> (forall j, j < k -> (bc <= nth j full 0)%Z) ->
  let m := argmin_from k best bc cs in m < k + List.length cs /\ forall j, j < k + List.length cs -> (nth m (full ++ cs) 0 <= nth j (full ++ cs) 0)%Z.
Proof.
  induction cs as [|c cs IH]; intros k best bc full Hk Hb Hn Hle; cbn [argmin_from List.length].
  - rewrite app_nil_r, Nat.add_0_r. split; [exact Hb|]. intros j Hj. rewrite Hn. auto.
  - assert (E : full ++ c :: cs = (full ++ [c]) ++ cs) by (rewrite <- app_assoc; reflexivity). rewrite E, Nat.add_succ_r.
    assert (L : S k = List.length (full ++ [c])) by (rewrite app_length; cbn; lia).
    destruct (Z.ltb_spec c bc) as [H|H].
    + apply (IH (S k) k c (full ++ [c]) L); [lia|rewrite app_nth2 by lia; rewrite <- Hk, Nat.sub_diag; reflexivity|].
      intros j Hj. destruct (Nat.eq_dec j k) as [->|N]; [rewrite app_nth2 by lia; rewrite <- Hk, Nat.sub_diag; cbn; lia|].
      rewrite app_nth1 by lia. specialize (Hle j ltac:(lia)). lia.
    + apply (IH (S k) best bc (full ++ [c]) L); [lia|rewrite app_nth1 by lia; exact Hn|].
      intros j Hj. destruct (Nat.eq_dec j k) as [->|N]; [rewrite app_nth2 by lia; rewrite <- Hk, Nat.sub_diag; cbn; lia|].
      rewrite app_nth1 by lia. apply Hle. lia.
Qed.
Lemma argmin_spec cs : cs <> [] -> argmin cs < List.length cs /\ forall j, j < List.length cs -> (nth (argmin cs) cs 0 <= nth j cs 0)%Z.
Proof.
  destruct cs as [|c cs]; [congruence|]. intros _. cbn [argmin List.length].
  apply (argmin_from_spec cs 1 0 c [c]); [reflexivity|lia|reflexivity|]. intros [|j] Hj; [cbn; lia|lia].
Qed.
Definition py_rows (data : list (list nat * list Z)) : list crow := map (fun p => CRow (fst p) (argmin (snd p)) (snd p)) data.
(** Every row states the same number [K] of costs. *)
Definition cost_table_ok (nf K : nat) (data : list (list nat * list Z)) : Prop :=
  Forall (fun p => List.length (fst p) = nf /\ List.length (snd p) = K /\ Forall (fun c => (0 <= c)%Z) (snd p)) data.

Lemma label_count_le ls K : Forall (fun l => l < K) ls -> label_count ls <= K.
Proof. induction 1 as [|l ls H _ IH]; cbn [label_count fold_right]; [lia|]. unfold label_count in IH. lia. Qed.
Lemma label_count_ge ls l : In l ls -> l < label_count ls.
Proof. induction ls as [|x ls IH]; [intros []|]. cbn [label_count fold_right]. unfold label_count in IH. intros [->|H]; [lia|]. specialize (IH H). lia. Qed.

(** If the last label is the cheapest one for some row, all [K] labels are considered. *)
Theorem C82_python_partial : forall W P nf K clk data,
  cost_table_ok nf K data -> 1 <= w_mls W -> (p_all P = true \/ p_nodes P = 1 -> p_nodes P <= 2 ^ p_depth P - 1) ->
  (ics_most (py_rows data) < 10000)%Z -> exact W P -> rebuilds W P ->
  (exists p, In p data /\ forall l, S l < K -> (nth (K - 1) (snd p) 0 < nth l (snd p) 0)%Z) -> 1 <= K ->
  fr_proven (fit_ics_py W P nf clk data) = true ->
  (exists t0, row_allowed nf K (w_mls W) (p_depth P) (p_nodes P) (map cr_row (py_rows data)) t0 /\ (ics_total (py_rows data) t0 <= p_ub P)%Z) ->
  exists t, fr_tree (fit_ics_py W P nf clk data) = Some t
    /\ forall t', row_allowed nf K (w_mls W) (p_depth P) (p_nodes P) (map cr_row (py_rows data)) t' -> (ics_total (py_rows data) t <= ics_total (py_rows data) t')%Z.
Proof.
  intros W P nf K clk data HD Hmls Hn Hm Hex Hr (p & Hp & Hlast) HK Hpr H0.
  assert (Hlab : Forall (fun l => l < K) (map cr_label (py_rows data))).
  { unfold py_rows. rewrite map_map. cbn [cr_label]. apply Forall_map. eapply Forall_impl; [|exact HD]. intros q (_ & L & _).
    rewrite <- L. apply argmin_spec. intro E. rewrite E in L. cbn in L. lia. }
  assert (E : Nat.max 0 (label_count (map cr_label (py_rows data))) = K).
  { rewrite Nat.max_0_l. apply Nat.le_antisymm; [apply label_count_le; exact Hlab|].
    assert (Hin : In (K - 1) (map cr_label (py_rows data))); [|apply label_count_ge in Hin; lia].
    unfold py_rows. rewrite map_map. apply in_map_iff. exists p. split; [|exact Hp]. cbn [cr_label].
    destruct (proj1 (Forall_forall _ _) HD p Hp) as (_ & L & _).
    destruct (argmin_spec (snd p)) as [A B]; [intro Q; rewrite Q in L; cbn in L; lia|].
    destruct (Nat.eq_dec (argmin (snd p)) (K - 1)) as [Q|Q]; [exact Q|]. specialize (Hlast (argmin (snd p)) ltac:(lia)). specialize (B (K - 1) ltac:(lia)). lia. }
  assert (HU : ics_usable W P nf 0 (py_rows data)).
  { constructor.
    - unfold py_rows. apply Forall_map. cbn [cr_bits]. eapply Forall_impl; [|exact HD]. intros q (L & _). exact L.
    - rewrite E. exact HK.
    - rewrite E. unfold py_rows. apply Forall_map. cbn [cr_costs]. eapply Forall_impl; [|exact HD]. intros q (_ & L & N). split; [lia|exact N].
    - exact Hm.
    - exact Hmls.
    - exact Hn. }
  pose proof (C82_optimal_partial W P nf 0 clk (py_rows data) HU Hex Hr) as C. cbv zeta in C. rewrite E in C. apply C; assumption.
Qed.

(** ** Cases *)
Definition ics_ex : list (list nat * list Z) := [([0;0], [0;4;7]%Z); ([0;1], [5;1;9]%Z); ([1;0], [6;6;2]%Z); ([1;1], [3;8;8]%Z)].
Example C82_ex : let P := Params 2 3 false no_bound in
  cost_table_ok 2 3 ics_ex /\ (ics_most (py_rows ics_ex) < 10000)%Z /\ exact (defaults true 1) P /\ rebuilds (defaults true 1) P
  /\ (exists p, In p ics_ex /\ forall l, S l < 3 -> (nth 2 (snd p) 0 < nth l (snd p) 0)%Z)
  /\ fr_proven (fit_ics_py (defaults true 1) P 2 (fun _ => true) ics_ex) = true
  /\ row_allowed 2 3 1 2 3 (map cr_row (py_rows ics_ex)) (Leaf 0)
  /\ fr_tree (fit_ics_py (defaults true 1) P 2 (fun _ => true) ics_ex) = Some (Split 0 (Split 1 (Leaf 0) (Leaf 1)) (Split 1 (Leaf 2) (Leaf 0))).
Proof.
  cbv zeta. split; [repeat constructor; cbn; lia|]. split; [reflexivity|]. split.
  { split; [reflexivity|]. intros _. split; [reflexivity|]. split; [left; reflexivity|right; split; reflexivity]. }
  split; [left; cbn; lia|]. split.
  { exists ([1;0], [6;6;2]%Z). split; [cbn; tauto|]. intros [|[|l]] H; [reflexivity|reflexivity|lia]. }
  split; [vm_compute; reflexivity|]. split; [|vm_compute; reflexivity].
  split; [cbn; lia|]. split; [cbn; lia|]. split; cbn; lia.
Qed.

(** From Python, a label that is not the cheapest one of any row and lies above all cheapest
    labels is never considered, although it can be the best label for the rows together. *)
Theorem C82_last_label_refuted : exists data t', let P := Params 3 7 false no_bound in
  cost_table_ok 1 3 data /\ (ics_most (py_rows data) < 10000)%Z /\ exact (defaults true 1) P /\ rebuilds (defaults true 1) P
  /\ fr_proven (fit_ics_py (defaults true 1) P 1 (fun _ => true) data) = true
  /\ row_allowed 1 3 1 3 7 (map cr_row (py_rows data)) t'
  /\ exists t, fr_tree (fit_ics_py (defaults true 1) P 1 (fun _ => true) data) = Some t
     /\ (ics_total (py_rows data) t' < ics_total (py_rows data) t)%Z.
Proof.
  exists [([0], [0;9;1]%Z); ([0], [9;0;1]%Z)], (Leaf 2). cbv zeta. split; [repeat constructor; cbn; lia|]. split; [reflexivity|]. split.
  { split; [reflexivity|]. intros _. split; [reflexivity|]. split; [left; reflexivity|right; split; reflexivity]. }
  split; [left; cbn; lia|]. split; [vm_compute; reflexivity|]. split.
  { split; [cbn; lia|]. split; [cbn; lia|]. split; cbn; lia. }
  exists (Leaf 0). split; vm_compute; reflexivity.
Qed.
(** With larger costs a better tree is not told apart from the tree found before. *)
Definition wide_row (a b c : nat) : list nat * list Z := ([a;b;c], if (a =? 1) && (b =? 1) && (c =? 1) then [2501; 2500]%Z else [2500; 9000]%Z).
Theorem C82_large_costs_refuted : exists data t', let P := Params 3 7 false no_bound in
  cost_table_ok 3 2 data /\ exact (defaults true 1) P /\ rebuilds (defaults true 1) P
  /\ fr_proven (fit_ics_py (defaults true 1) P 3 (fun _ => true) data) = true
  /\ row_allowed 3 2 1 3 7 (map cr_row (py_rows data)) t'
  /\ exists t, fr_tree (fit_ics_py (defaults true 1) P 3 (fun _ => true) data) = Some t
     /\ (ics_total (py_rows data) t' < ics_total (py_rows data) t)%Z.
Proof.
  exists [wide_row 0 0 0; wide_row 0 0 1; wide_row 0 1 0; wide_row 0 1 1; wide_row 1 0 0; wide_row 1 0 1; wide_row 1 1 0; wide_row 1 1 1],
    (Split 0 (Leaf 0) (Split 1 (Leaf 0) (Split 2 (Leaf 0) (Leaf 1)))). cbv zeta. split; [repeat constructor; vm_compute; discriminate|]. split.
  { split; [reflexivity|]. intros _. split; [reflexivity|]. split; [left; reflexivity|right; split; reflexivity]. }
  split; [left; cbn; lia|]. split; [vm_compute; reflexivity|]. split.
  { split; [cbn; lia|]. split; [cbn; lia|]. split; cbn; lia. }
  exists (Leaf 0). split; vm_compute; reflexivity.
Qed.

(** * C84: misclassification and test costs *)
Lemma leaf_costs_from_vsum M l v : (forall k, mis M k k = 0%Z) -> forall k,
  leaf_costs_from M l k v = vsum_from (fun k _ => mis M k l) k v.
Proof.
  intro Hd. induction v as [|xs v IH]; intro k; [reflexivity|].
  cbn [leaf_costs_from vsum_from]. rewrite IH. f_equal. destruct (Nat.eqb_spec k l) as [->|N].
  - rewrite Hd. induction xs as [|x xs IHx]; [reflexivity|]. cbn [map zsum]. lia.
  - induction xs as [|x xs IHx]; [reflexivity|]. cbn [map zsum List.length]. lia.
Qed.
Lemma leaf_costs_cost M v l : (forall k, mis M k k = 0%Z) -> leaf_costs M v l = tree_cost (fun _ k l => mis M k l) v (Leaf l).
Proof. intro Hd. rewrite tree_cost_vsum. unfold vsum, leaf_costs. cbn [predict]. apply leaf_costs_from_vsum. exact Hd. Qed.
Lemma max_mis_ge M k l : (mis M k l <= max_mis 0 M)%Z /\ (0 <= max_mis 0 M)%Z.
Proof.
  unfold max_mis. assert (E : forall cs m, (m <= fold_left (fun m c => if (m <? c)%Z then c else m) cs m)%Z
    /\ forall c, In c cs -> (c <= fold_left (fun m c => if (m <? c)%Z then c else m) cs m)%Z).
  { induction cs as [|c cs IH]; intro m; cbn [fold_left]; [split; [lia|intros c []]|]. destruct (IH (if (m <? c)%Z then c else m)) as [A B].
    split; [destruct (Z.ltb_spec m c); lia|]. intros c' [<-|H]; [destruct (Z.ltb_spec m c); lia|apply B; exact H]. }
  destruct (E (List.concat M) 0%Z) as [A B]. split; [|exact A]. unfold mis.
  destruct (nth_in_or_default l (nth k M []) 0%Z) as [H|H]; [|rewrite H; exact A]. apply B. apply in_concat. exists (nth k M []). split; [|exact H].
  destruct (nth_in_or_default k M []) as [Hk|Hk]; [exact Hk|]. rewrite Hk in H. destruct H.
Qed.

(** A square matrix of non-negative costs for at least the labels of the data, without costs for
    the right label; no test costs; in total less than 10000 units. *)
Record cs_usable (M : list (list Z)) (specs : list fcs) (W : switches) (P : params) (nf : nat) (rows : list (list nat * nat)) : Prop := CSUsable {
  cu_bits : Forall (fun p => List.length (fst p) = nf) rows;
  cu_some : rows <> [];
  cu_matrix : label_count (map snd rows) <= List.length M /\ Forall (fun c => List.length c = List.length M /\ Forall (fun z => (0 <= z)%Z) c) M;
  cu_diag : forall k, nth k (nth k M []) 0%Z = 0%Z;
  cu_free : Forall (fun s => fc_cost s = 0%Z /\ fc_disc s = 0%Z) specs;
  cu_most : (Z.of_nat (List.length rows) * fold_right Z.max 0 (List.concat M) < 10000)%Z;
  cu_leaf : 1 <= w_mls W;
  cu_nodes : p_all P = true \/ p_nodes P = 1 -> p_nodes P <= 2 ^ p_depth P - 1 }.

(** Without test costs in the specification the tables hold zeros. *)
Lemma free_tables specs : Forall (fun s => fc_cost s = 0%Z /\ fc_disc s = 0%Z) specs ->
  Forall (eq 0%Z) (tb_cost (initialize specs)) /\ Forall (eq 0%Z) (tb_disc (initialize specs)).
Proof.
  intro H. unfold initialize. set (n := num_binary specs).
  assert (S : forall k (l : list Z), Forall (eq 0%Z) l -> Forall (eq 0%Z) (set_nth k 0%Z l)).
  { intros k l Hl. revert k. induction Hl; intros [|k]; cbn; constructor; auto. }
  set (ok := fun st : tables * gmap => Forall (eq 0%Z) (tb_cost (fst st)) /\ Forall (eq 0%Z) (tb_disc (fst st))).
  assert (F : forall s st f, fc_cost s = 0%Z /\ fc_disc s = 0%Z -> ok st -> ok (init_feature n s st f)).
  { intros s [t m] f [E1 E2] [O1 O2]. unfold init_feature. destruct (n <=? f); [split; assumption|]. unfold ok. cbn [fst tb_cost tb_disc]. rewrite E1, E2. split; apply S; assumption. }
  assert (G : forall s st, fc_cost s = 0%Z /\ fc_disc s = 0%Z -> ok st -> ok (init_spec n st s)).
  { intros s st E. unfold init_spec. revert st. induction (range s) as [|f fs IH]; intros st O; cbn [fold_left]; [exact O|]. apply IH. apply F; assumption. }
  assert (R : forall l st, Forall (fun s => fc_cost s = 0%Z /\ fc_disc s = 0%Z) l -> ok st -> ok (fold_left (init_spec n) l st)).
  { induction l as [|s l IH]; intros st Hl O; cbn [fold_left]; [exact O|]. inversion Hl; subst. apply IH; [assumption|]. apply G; assumption. }
  apply (R specs _ H). split; cbn [fst tb_cost tb_disc]; apply Forall_forall; intros x Hx; apply repeat_spec in Hx; auto.
Qed.
Lemma nth_zero l k : Forall (eq 0%Z) l -> nth k l 0%Z = 0%Z.
Proof. intro H. destruct (nth_in_or_default k l 0%Z) as [I|I]; [symmetry; apply (proj1 (Forall_forall _ _) H); exact I|exact I]. Qed.
Lemma free_total t : Forall (eq 0%Z) (tb_cost t) -> Forall (eq 0%Z) (tb_disc t) -> total_test_costs t = 0%Z.
Proof.
  intros H1 H2. unfold total_test_costs. generalize (repeat false (num_features t)) at 2. generalize (repeat false (num_features t)). generalize 0 at 1.
  induction (num_features t) as [|k IH]; intros f bd gd; cbn [total_from]; [reflexivity|]. destruct (nth f bd false); [apply IH|]. rewrite IH.
  rewrite !nth_zero by assumption. destruct (nth f gd false); reflexivity.
Qed.
Lemma free_charge t b f : Forall (eq 0%Z) (tb_cost t) -> Forall (eq 0%Z) (tb_disc t) -> charge t b f = 0%Z.
Proof. intros H1 H2. unfold charge. rewrite !nth_zero by assumption. destruct (existsb _ b); [reflexivity|]. destruct (existsb _ b); reflexivity. Qed.

Lemma cs_good M t : (forall k l, (0 <= mis M k l)%Z) -> (forall k, mis M k k = 0%Z) ->
  Forall (eq 0%Z) (tb_cost t) -> Forall (eq 0%Z) (tb_disc t) -> good_task (cost_sensitive M t).
Proof.
  intros Hn Hd H1 H2. constructor; try reflexivity; cbn [cost_sensitive tk_sim tk_inst tk_wpl tk_mindiff tk_leaf tk_zero_true tk_sdom tk_dom tk_eq tk_bc]; try lia.
  - intros v l. apply leaf_costs_cost. exact Hd.
  - intros x k l. apply Hn.
  - intros k x. unfold wc. cbn [cost_sensitive tk_sim tk_wpl]. unfold max_instance_costs. rewrite free_total by assumption. pose proof (max_mis_ge M 0 0). lia.
  - exact t_sdom_lt.
  - exact t_dom_refl.
  - exact t_eq_refl.
  - exact t_eq_0.
  - intros n b f. rewrite free_charge by assumption. lia.
Qed.
Lemma matrix_nonneg M : Forall (fun c => List.length c = List.length M /\ Forall (fun z => (0 <= z)%Z) c) M -> forall k l, (0 <= mis M k l)%Z.
Proof.
  intros H k l. unfold mis. apply nth_nonneg. destruct (nth_in_or_default k M []) as [I|I]; [|rewrite I; constructor]. apply (proj1 (Forall_forall _ _) H _ I).
Qed.
Lemma max_mis_max M : (max_mis 0 M <= fold_right Z.max 0 (List.concat M))%Z.
Proof.
  unfold max_mis. assert (E : forall cs m B, (m <= B)%Z -> (fold_right Z.max 0 cs <= B)%Z -> (fold_left (fun m c => if (m <? c)%Z then c else m) cs m <= B)%Z).
  { induction cs as [|c cs IH]; intros m B Hm Hc; cbn [fold_left fold_right] in *; [exact Hm|]. apply IH; [destruct (Z.ltb_spec m c); lia|lia]. }
  apply E; [apply (max_ge _ 0)|lia].
Qed.

Section CS.
  Context (M : list (list Z)) (specs : list fcs) (W : switches) (P : params) (nf : nat) (clk : nat -> bool) (rows : list (list nat * nat)).
  Hypothesis HU : cs_usable M specs W P nf rows.
  Notation T := (cost_sensitive M (initialize specs)).
  Notation nl := (label_count (map snd rows)).
  Notation v := (mk_view nl rows).

  Lemma cs_fit : fit_cost_sensitive M specs W P nf clk rows = fit T W P nf clk v.
  Proof. unfold fit_cost_sensitive. rewrite load_mk_view, labels_count. reflexivity. Qed.
  Lemma cs_rows : good_rows nf nl rows.
  Proof. rewrite <- labels_count. apply load_good. exact (cu_bits _ _ _ _ _ _ HU). Qed.
  Lemma cs_task : good_task T.
  Proof. destruct (free_tables specs (cu_free _ _ _ _ _ _ HU)) as [A B]. apply cs_good; [apply matrix_nonneg; apply (cu_matrix _ _ _ _ _ _ HU)|apply (cu_diag _ _ _ _ _ _ HU)|exact A|exact B]. Qed.
  Lemma cs_some : 1 <= nl.
  Proof. pose proof (cu_some _ _ _ _ _ _ HU) as H. destruct rows as [|p r]; [congruence|]. cbn [map label_count fold_right]. unfold label_count. cbn [fold_right]. clear. lia. Qed.
  Lemma cs_cost t : tree_cost (tk_inst T) v t = mis_total M rows t.
  Proof.
    rewrite (rows_cost nf nl rows cs_rows). rewrite <- (map_id rows) at 1. unfold mis_total. apply (numbered_sum (fun p => p)). intros i r Hi. cbn [cost_sensitive tk_inst].
    rewrite (row_predict_inst t). reflexivity.
  Qed.
  Lemma cs_within : within T v.
  Proof.
    destruct (free_tables specs (cu_free _ _ _ _ _ _ HU)) as [A B].
    assert (E : (vsum (wc T) v < 10000)%Z).
    { eapply Z.le_lt_trans; [|exact (cu_most _ _ _ _ _ _ HU)]. rewrite <- (rows_size nf nl rows cs_rows). apply vsum_bound. intros j x _.
      unfold wc. cbn [cost_sensitive tk_sim tk_wpl]. unfold max_instance_costs. rewrite free_total by assumption. apply max_mis_max. }
    constructor.
    - eapply Z.lt_trans; [exact E|]. reflexivity.
    - apply t_tells; [reflexivity|reflexivity|exact E].
    - intros k x l _. unfold wc. cbn [cost_sensitive tk_sim tk_inst tk_wpl]. unfold max_instance_costs. rewrite free_total by assumption. pose proof (max_mis_ge M k l). lia.
  Qed.
End CS.

(** Without test costs a fit that is proven optimal returns a tree of least total cost. *)
Theorem C84_no_test_costs_partial : forall M specs W P nf clk rows, cs_usable M specs W P nf rows -> exact W P -> rebuilds W P ->
  let nl := label_count (map snd rows) in
  fr_proven (fit_cost_sensitive M specs W P nf clk rows) = true ->
  (exists t0, row_allowed nf nl (w_mls W) (p_depth P) (p_nodes P) rows t0 /\ (mis_total M rows t0 <= p_ub P)%Z) ->
  exists t, fr_tree (fit_cost_sensitive M specs W P nf clk rows) = Some t
    /\ forall t', row_allowed nf nl (w_mls W) (p_depth P) (p_nodes P) rows t' -> (mis_total M rows t <= mis_total M rows t')%Z.
Proof.
  intros M specs W P nf clk rows HU Hex Hr nl Hp (t0 & H0 & Hub). subst nl. rewrite cs_fit in *.
  pose proof (cs_rows M specs W P nf rows HU) as Hg.
  destruct (task_optimal _ (cs_task M specs W P nf rows HU) W P nf _ clk _ (fun _ _ => eq_refl) Hg (cs_some M specs W P nf rows HU)
    (cu_leaf _ _ _ _ _ _ HU) (cu_nodes _ _ _ _ _ _ HU) (fun _ _ _ _ _ => eq_refl) (fun _ _ _ _ => eq_refl) (cs_within M specs W P nf rows HU) Hex Hr Hp) as (t & H1 & H2).
  { exists t0. split; [exact H0|]. rewrite (cs_cost M specs W P nf rows HU). exact Hub. }
  exists t. split; [exact H1|]. intros t' H'. specialize (H2 t' H'). rewrite !(cs_cost M specs W P nf rows HU) in H2. exact H2.
Qed.
(** The settings of the Python estimator: branch cache, no data set cache, no similarity bound. *)
Definition cs_defaults (g : bool) (m : nat) : switches := Switches true true true true false true false g m.
Definition cs_ex_rows : list (list nat * nat) := [([0;0],0); ([0;1],1); ([1;0],1); ([1;1],0); ([1;1],1)].
Definition cs_ex_matrix : list (list Z) := [[0;5]; [9;0]]%Z.
Definition one_each (n : nat) (fee : nat -> Z) : list fcs := map (fun f => FCS (fee f) (fee f) "" f f) (seq 0 n).
Example C84_ex : let P := Params 3 7 false no_bound in let W := cs_defaults true 1 in let specs := one_each 2 (fun _ => 0%Z) in
  cs_usable cs_ex_matrix specs W P 2 cs_ex_rows /\ exact W P /\ rebuilds W P
  /\ fr_proven (fit_cost_sensitive cs_ex_matrix specs W P 2 (fun _ => true) cs_ex_rows) = true
  /\ row_allowed 2 2 1 3 7 cs_ex_rows (Leaf 0) /\ (mis_total cs_ex_matrix cs_ex_rows (Leaf 0) <= p_ub P)%Z
  /\ exists t, fr_tree (fit_cost_sensitive cs_ex_matrix specs W P 2 (fun _ => true) cs_ex_rows) = Some t /\ nodes t = 2.
Proof.
  cbv zeta. split.
  { constructor; try (repeat constructor; cbn; lia); try discriminate; try reflexivity.
    intros [|[|[|k]]]; reflexivity. }
  split. { split; [reflexivity|]. intros _. split; [reflexivity|]. split; [left; reflexivity|right; split; reflexivity]. }
  split; [left; cbn; lia|]. split; [vm_compute; reflexivity|]. split; [split; [cbn; lia|]; split; [cbn; lia|]; split; cbn; lia|].
  split; [vm_compute; discriminate|]. eexists. split; [vm_compute; reflexivity|vm_compute; reflexivity].
Qed.

(** With test costs: of two features with the same values the later one is switched off, even if
    testing it is cheaper. *)
Theorem C84_duplicate_refuted : exists M fee rows t', let P := Params 3 7 false no_bound in let W := cs_defaults true 1 in
  Forall (fun p => List.length (fst p) = 2 /\ snd p < 2) rows
  /\ List.length M = 2 /\ Forall (fun c => List.length c = 2 /\ Forall (fun z => (0 <= z)%Z) c) M /\ (forall k, nth k (nth k M []) 0%Z = 0%Z)
  /\ (forall f, (0 <= fee f)%Z)
  /\ fr_proven (fit_cost_sensitive M (one_each 2 fee) W P 2 (fun _ => true) rows) = true
  /\ row_allowed 2 2 1 3 7 rows t'
  /\ exists t, fr_tree (fit_cost_sensitive M (one_each 2 fee) W P 2 (fun _ => true) rows) = Some t
     /\ (cost_total M fee rows t' < cost_total M fee rows t)%Z.
Proof.
  exists [[0;10];[10;0]]%Z, (fun f => if f =? 0 then 4%Z else 1%Z), [([0;0],0); ([1;1],1)], (Split 1 (Leaf 0) (Leaf 1)). cbv zeta.
  split; [repeat constructor|]. split; [reflexivity|]. split; [repeat constructor; cbn; lia|]. split; [intros [|[|[|k]]]; reflexivity|].
  split; [intro f; destruct (f =? 0); lia|]. split; [vm_compute; reflexivity|].
  split; [split; [cbn; lia|]; split; [cbn; lia|]; split; cbn; lia|].
  exists (Split 0 (Leaf 0) (Leaf 1)). split; vm_compute; reflexivity.
Qed.

(** The command line program keeps data sets in its cache for this task too (the Python
    estimator switches that off); its entries do not depend on the path, although the test costs
    below a node do. *)
Definition dc_rows : list (list nat * nat) :=
  [([0;0;0;0;0],0); ([0;0;1;0;0],1); ([0;1;0;0;0],1); ([0;1;1;0;0],0); ([1;0;0;1;0],1); ([1;0;1;1;0],0); ([1;1;0;1;0],0); ([1;1;1;1;0],1);
   ([0;0;0;1;1],1); ([1;1;0;0;1],1); ([0;1;1;1;1],1); ([1;0;1;0;1],1)].
Definition dc_specs : list fcs := [FCS 4 4 "first" 0 2; FCS 2 2 "second" 3 3; FCS 1 1 "third" 4 4].
Definition dc_orig (f : nat) : nat := nth f [0;0;0;1;2] 3.
Definition dc_fee (f : nat) : Z := nth f [4;2;1]%Z 0%Z.
Theorem C84_data_cache_refuted : exists M t', let P := Params 4 15 false no_bound in
  Forall (fun p => List.length (fst p) = 5 /\ snd p < 2) dc_rows
  /\ List.length M = 2 /\ Forall (fun c => List.length c = 2 /\ Forall (fun z => (0 <= z)%Z) c) M /\ (forall k, nth k (nth k M []) 0%Z = 0%Z)
  /\ fr_proven (fit_cost_sensitive M dc_specs (defaults true 1) P 5 (fun _ => true) dc_rows) = true
  /\ row_allowed 5 2 1 4 15 dc_rows t'
  /\ exists t, fr_tree (fit_cost_sensitive M dc_specs (defaults true 1) P 5 (fun _ => true) dc_rows) = Some t
     /\ (orig_total M dc_orig dc_fee dc_rows t' < orig_total M dc_orig dc_fee dc_rows t)%Z
     /\ exists t2, fr_tree (fit_cost_sensitive M dc_specs (cs_defaults true 1) P 5 (fun _ => true) dc_rows) = Some t2
        /\ orig_total M dc_orig dc_fee dc_rows t2 = orig_total M dc_orig dc_fee dc_rows t'.
Proof.
  exists [[0;50];[50;0]]%Z, (Split 4 (Split 0 (Split 1 (Split 2 (Leaf 0) (Leaf 1)) (Split 2 (Leaf 1) (Leaf 0))) (Split 1 (Split 2 (Leaf 1) (Leaf 0)) (Split 2 (Leaf 0) (Leaf 1)))) (Leaf 1)). cbv zeta.
  split; [repeat constructor|]. split; [reflexivity|]. split; [repeat constructor; cbn; lia|]. split; [intros [|[|[|k]]]; reflexivity|].
  split; [vm_compute; reflexivity|].
  split; [split; [cbn; lia|]; split; [cbn; lia|]; vm_compute; repeat split; lia|].
  eexists. split; [vm_compute; reflexivity|]. split; [vm_compute; reflexivity|]. eexists. split; [vm_compute; reflexivity|vm_compute; reflexivity].
Qed.

(** With the estimator's settings. A search that finds nothing below its upper bound keeps the
    largest bound it met for its branch, even if the leaf of that branch costs less than the
    splits with their test costs; a later visit with more to spend is cut off by it. *)
Definition lb_rows : list (list nat * nat) :=
  [([1;1;0;1;0;0],1); ([1;1;1;1;1;0],1); ([1;0;1;0;1;1],0); ([1;0;0;1;1;1],0); ([0;1;0;0;1;1],0); ([1;0;1;1;1;1],1); ([0;0;1;1;0;1],0);
   ([1;1;0;1;1;1],1); ([1;1;0;0;0;0],0); ([0;1;0;0;1;1],0); ([0;1;1;1;1;0],0); ([0;1;0;0;0;0],1); ([0;1;0;1;0;1],0); ([0;0;1;1;1;0],1);
   ([1;0;1;1;0;1],0); ([1;0;0;1;0;1],1); ([1;1;0;0;1;0],1); ([0;1;1;0;1;1],0); ([0;1;0;1;0;1],1); ([0;0;1;1;0;1],0); ([1;0;0;0;1;0],1);
   ([0;0;0;1;1;0],1); ([0;0;0;0;0;0],0); ([1;0;0;1;0;1],0); ([0;0;1;1;1;0],0); ([0;1;1;1;1;0],0); ([0;1;1;1;1;0],1)].
Definition lb_fee (f : nat) : Z := nth f [2;1;4;2;1;2]%Z 0%Z.
Theorem C84_lower_bound_refuted : exists M t', let P := Params 5 31 false no_bound in let W := cs_defaults true 1 in
  Forall (fun p => List.length (fst p) = 6 /\ snd p < 2) lb_rows
  /\ List.length M = 2 /\ Forall (fun c => List.length c = 2 /\ Forall (fun z => (0 <= z)%Z) c) M /\ (forall k, nth k (nth k M []) 0%Z = 0%Z)
  /\ (forall f, (0 <= lb_fee f)%Z)
  /\ fr_proven (fit_cost_sensitive M (one_each 6 lb_fee) W P 6 (fun _ => true) lb_rows) = true
  /\ row_allowed 6 2 1 5 31 lb_rows t'
  /\ exists t, fr_tree (fit_cost_sensitive M (one_each 6 lb_fee) W P 6 (fun _ => true) lb_rows) = Some t
     /\ (cost_total M lb_fee lb_rows t' < cost_total M lb_fee lb_rows t)%Z
     /\ exists t2, fr_tree (fit_cost_sensitive M (one_each 6 lb_fee) (Switches true false true true false true false true 1) P 6 (fun _ => true) lb_rows) = Some t2
        /\ cost_total M lb_fee lb_rows t2 = cost_total M lb_fee lb_rows t'.
Proof.
  exists [[0;15];[27;0]]%Z, (Split 4 (Split 1 (Leaf 0) (Split 0 (Leaf 1) (Split 3 (Leaf 0) (Leaf 1)))) (Split 5 (Leaf 1) (Split 3 (Leaf 0) (Split 1 (Split 2 (Leaf 0) (Leaf 1)) (Leaf 1))))). cbv zeta.
  split; [repeat constructor|]. split; [reflexivity|]. split; [repeat constructor; cbn; lia|]. split; [intros [|[|[|k]]]; reflexivity|].
  split; [do 6 (intros [|f]; [discriminate|revert f]); intros [|f]; discriminate|].
  split; [vm_compute; reflexivity|].
  split; [split; [cbn; lia|]; split; [cbn; lia|]; vm_compute; repeat split; lia|].
  eexists. split; [vm_compute; reflexivity|]. split; [vm_compute; reflexivity|]. eexists. split; [vm_compute; reflexivity|vm_compute; reflexivity].
Qed.

Print Assumptions C82_optimal_partial.
Print Assumptions C82_no_tree.
Print Assumptions C82_score.
Print Assumptions C82_python_partial.
Print Assumptions C82_last_label_refuted.
Print Assumptions C82_large_costs_refuted.
Print Assumptions C84_no_test_costs_partial.
Print Assumptions C84_duplicate_refuted.
Print Assumptions C84_data_cache_refuted.
Print Assumptions C84_lower_bound_refuted.
