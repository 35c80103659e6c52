(** The depth-two solver keeps its counts between calls; the results do not depend on it. *)
From Coq Require Import List Arith Bool Lia ZArith Sorted.
From Verif Require Import Model_FeatureVector Model_Data Model_Node Model_Cache Model_Terminal Model_Solver Spec_Tree
  Proofs_View Proofs_Diff Proofs_Feature Proofs_Calc Proofs_Base Proofs_Terminal.
Import ListNotations.
Local Open Scope nat_scope.

(** ** Differences of two selections of the same data *)
Lemma diff_lists_filter p q xs :
  id_sorted xs ->
  diff_lists (filter p xs) (filter q xs) = (filter (fun x => p x && negb (q x)) xs, filter (fun x => q x && negb (p x)) xs).
Proof.
  intro Hs. rewrite diff_lists_spec by (apply id_sorted_filter; exact Hs).
  rewrite !filter_filter. f_equal; apply filter_ext_in; intros x Hx; rewrite not_in_filter by assumption; reflexivity.
Qed.

Lemma diff_add_restrict b1 b2 root : view_sorted root ->
  diff_add (restrict b1 root) (restrict b2 root) = map (filter (fun x => sat b2 x && negb (sat b1 x))) root.
Proof.
  unfold diff_add, restrict, view_sorted. induction root as [|xs root IH]; intro H; [reflexivity|].
  inversion H; subst. cbn [map combine fst snd]. rewrite diff_lists_filter by assumption. cbn [fst]. f_equal. apply IH. assumption.
Qed.

Lemma diff_remove_restrict b1 b2 root : view_sorted root ->
  diff_remove (restrict b1 root) (restrict b2 root) = map (filter (fun x => sat b1 x && negb (sat b2 x))) root.
Proof.
  unfold diff_remove, restrict, view_sorted. induction root as [|xs root IH]; intro H; [reflexivity|].
  inversion H; subst. cbn [map combine fst snd]. rewrite diff_lists_filter by assumption. cbn [snd]. f_equal. apply IH. assumption.
Qed.

Lemma vsum_diff c p q root : forall k,
  (vsum_from c k (map (filter p) root) + vsum_from c k (map (filter (fun x => q x && negb (p x))) root)
   - vsum_from c k (map (filter (fun x => p x && negb (q x))) root) = vsum_from c k (map (filter q) root))%Z.
Proof.
  induction root as [|xs root IH]; intro k; cbn [map vsum_from]; [reflexivity|].
  rewrite <- (IH (S k)).
  assert (zsum (map (c k) (filter p xs)) + zsum (map (c k) (filter (fun x => q x && negb (p x)) xs))
          - zsum (map (c k) (filter (fun x => p x && negb (q x)) xs)) = zsum (map (c k) (filter q xs)))%Z; [|lia].
  clear IH. induction xs as [|x xs IH]; cbn [filter map zsum]; [reflexivity|].
  destruct (p x), (q x); cbn [andb negb map zsum]; lia.
Qed.

Lemma vsize_filter_zero (p : inst -> bool) root : vsize (map (filter p) root) = 0 -> forall x, In x (concat root) -> p x = false.
Proof.
  unfold vsize. rewrite concat_map_filter. intros H x Hx. apply length_zero_iff_nil in H.
  destruct (p x) eqn:E; [|reflexivity]. assert (In x (filter p (concat root))) by (apply filter_In; auto). rewrite H in H0. contradiction.
Qed.

Lemma diff_none b1 b2 root : view_sorted root ->
  vsize (diff_add (restrict b1 root) (restrict b2 root)) = 0 -> vsize (diff_remove (restrict b1 root) (restrict b2 root)) = 0 ->
  restrict b1 root = restrict b2 root.
Proof.
  intros Hs Ha Hr. rewrite diff_add_restrict in Ha by exact Hs. rewrite diff_remove_restrict in Hr by exact Hs.
  pose proof (vsize_filter_zero _ _ Ha) as Ha'. pose proof (vsize_filter_zero _ _ Hr) as Hr'. cbn beta in *.
  unfold restrict. apply map_ext_in. intros xs Hxs. apply filter_ext_in. intros x Hx.
  assert (Hc : In x (concat root)) by (apply in_concat; eauto).
  specialize (Ha' x Hc). specialize (Hr' x Hc). destruct (sat b1 x), (sat b2 x); cbn in *; congruence.
Qed.

Section Calls.
  Context (T : task) (G : cfg) (HT : good_task T).
  Notation nf := (c_nf G).
  Notation mls := (c_mls G).
  Hypothesis Hmls : 1 <= mls.

  (** ** The incremental update is exact *)
  Lemma cells_incremental one root b1 b2 k :
    view_sorted root -> cells T nf one (restrict b1 root) k ->
    cells T nf one (restrict b2 root)
      (update_costs T nf one (diff_remove (restrict b1 root) (restrict b2 root)) (-1)
         (update_costs T nf one (diff_add (restrict b1 root) (restrict b2 root)) 1 k)).
  Proof.
    intros Hs (C1 & C2 & C3 & C4).
    rewrite diff_add_restrict, diff_remove_restrict by exact Hs.
    set (da := map (filter (fun x => sat b2 x && negb (sat b1 x))) root).
    set (dr := map (filter (fun x => sat b1 x && negb (sat b2 x))) root).
    destruct (update_costs_spec T nf (gt_true T HT) one da 1 k) as (A1 & A2 & A3 & A4).
    destruct (update_costs_spec T nf (gt_true T HT) one dr (-1) (update_costs T nf one da 1 k)) as (B1 & B2 & B3 & B4).
    assert (Nda : num_labels da = num_labels (restrict b2 root)) by (unfold num_labels, da, restrict; rewrite !map_length; reflexivity).
    assert (Ndr : num_labels dr = num_labels (restrict b2 root)) by (unfold num_labels, dr, restrict; rewrite !map_length; reflexivity).
    assert (N1 : num_labels (restrict b1 root) = num_labels (restrict b2 root)) by (unfold num_labels, restrict; rewrite !map_length; reflexivity).
    assert (V : forall c, (vsum c (restrict b1 root) + vsum c da - vsum c dr = vsum c (restrict b2 root))%Z).
    { intro c. apply (vsum_diff c (sat b1) (sat b2) root 0). }
    repeat split.
    - intro j. rewrite B1, A1, C1, <- V. ring.
    - rewrite B2, A2, C2. pose proof (V (fun _ _ => 1%Z)) as Vs. rewrite !vsum_one in Vs. lia.
    - intros l j Hl. rewrite B3, A3, C3 by congruence. rewrite <- V. ring.
    - intros l Hl. rewrite B4, A4, C4 by congruence. rewrite <- V. ring.
  Qed.

  (** ** The results depend only on the data *)
  Lemma bc_root b c f : tbc_root T b c f = 0%Z.
  Proof. unfold tbc_root. apply (gt_bc T HT). Qed.
  Lemma bc_child b c f g : tbc_child T b c f g = 0%Z.
  Proof. unfold tbc_child. apply (gt_bc T HT). Qed.

  Definition blind (b : branch) (v : view) : Prop :=
    forall f, br_has b f = true -> vsize (split_left f v) = 0 \/ vsize (split_right f v) = 0.

  Lemma blind_restrict b root : blind b (restrict b root).
  Proof. intros f Hf. apply br_has_empty. exact Hf. Qed.

  Section TwoTables.
    Context (one : bool) (v : view) (k k' : calc) (E : exact T nf one v k) (E' : exact T nf one v k').
    Context (b b' : branch) (Hb : blind b v) (Hb' : blind b' v).
    Notation nl := (num_labels v).

    Lemma eq_one_split r f : f < nf -> one_split T nf mls k b nl r f = one_split T nf mls k' b' nl r f.
    Proof.
      intro Hf. unfold one_split.
      rewrite (rd_count0 _ _ _ _ _ E), (rd_count1 _ _ _ _ _ E), (rd_count0 _ _ _ _ _ E'), (rd_count1 _ _ _ _ _ E') by exact Hf.
      destruct (tk_may T f && _ && _); [|reflexivity]. apply fold_left_ext. intros r' [a c] Hp. apply in_la in Hp. cbn [fst snd].
      rewrite (rd_sol0 _ _ _ _ _ E), (rd_sol1 _ _ _ _ _ E), (rd_sol0 _ _ _ _ _ E'), (rd_sol1 _ _ _ _ _ E'), !bc_root by tauto. reflexivity.
    Qed.

    Lemma eq_solve_one : solve_one T nf mls k b nl = solve_one T nf mls k' b' nl.
    Proof.
      unfold solve_one.
      assert (H : one_leaf k nl (init_sol T) = one_leaf k' nl (init_sol T)).
      { unfold one_leaf. apply fold_left_ext. intros r l Hl. apply in_seq in Hl.
        rewrite (ex_ctot _ _ _ _ _ E), (ex_ctot _ _ _ _ _ E') by lia. reflexivity. }
      rewrite H. apply fold_left_ext. intros r f Hf. apply in_seq in Hf. apply eq_one_split. lia.
    Qed.

    Lemma eq_pair_features : pair_features T nf mls k b = pair_features T nf mls k' b'.
    Proof.
      unfold pair_features. apply filter_ext_in. intros f Hf. apply in_seq in Hf. assert (Hf' : f < nf) by lia.
      rewrite (rd_count0 _ _ _ _ _ E), (rd_count1 _ _ _ _ _ E), (rd_count0 _ _ _ _ _ E'), (rd_count1 _ _ _ _ _ E') by exact Hf'.
      destruct (tk_may T f); [|reflexivity]. cbn [andb].
      destruct (br_has b f) eqn:B1, (br_has b' f) eqn:B2; cbn [negb andb]; try reflexivity.
      - destruct (Hb f B1) as [Hz|Hz]; rewrite Hz; cbn [ge_mls Z.of_nat]; unfold ge_mls;
          destruct (Z.of_nat mls <=? 0)%Z eqn:Ez; try (apply Z.leb_le in Ez; lia); rewrite ?andb_false_r; reflexivity.
      - destruct (Hb' f B2) as [Hz|Hz]; rewrite Hz; cbn [ge_mls Z.of_nat]; unfold ge_mls;
          destruct (Z.of_nat mls <=? 0)%Z eqn:Ez; try (apply Z.leb_le in Ez; lia); rewrite ?andb_false_r; reflexivity.
    Qed.

    Lemma eq_best_child g cl cr cl' cr' cur :
      (forall l, l < nl -> cl l = cl' l) -> (forall l, l < nl -> cr l = cr' l) ->
      best_child g nl cl cr 0 cur = best_child g nl cl' cr' 0 cur.
    Proof.
      intros H1 H2. unfold best_child. apply fold_left_ext. intros r [a c] Hp. apply in_la in Hp. cbn [fst snd].
      rewrite H1, H2 by tauto. reflexivity.
    Qed.

    Lemma eq_best_leaf c c' : (forall l, l < nl -> c l = c' l) -> best_leaf T nl c = best_leaf T nl c'.
    Proof. intro H. unfold best_leaf. apply fold_left_ext. intros r l Hl. apply in_seq in Hl. rewrite H by lia. reflexivity. Qed.
  End TwoTables.

  Section TwoTables2.
    Context (v : view) (k k' : calc) (E : exact T nf false v k) (E' : exact T nf false v k').
    Context (b b' : branch) (Hb : blind b v) (Hb' : blind b' v).
    Notation nl := (num_labels v).

    Lemma eq_pair_step f1 f2 s : f1 < nf -> f2 < nf ->
      pair_step T nf mls k b nl f1 s f2 = pair_step T nf mls k' b' nl f1 s f2.
    Proof.
      intros H1 H2. unfold pair_step. rewrite !bc_child.
      rewrite (rd_count00 _ _ _ _ E), (rd_count01 _ _ _ _ E), (rd_count10 _ _ _ _ E), (rd_count11 _ _ _ _ E) by assumption.
      rewrite (rd_count00 _ _ _ _ E'), (rd_count01 _ _ _ _ E'), (rd_count10 _ _ _ _ E'), (rd_count11 _ _ _ _ E') by assumption.
      assert (Q00 : forall l, l < nl -> sol00 nf k l f1 f2 = sol00 nf k' l f1 f2) by (intros; rewrite (rd_sol00 _ _ _ _ E), (rd_sol00 _ _ _ _ E') by assumption; reflexivity).
      assert (Q01 : forall l, l < nl -> sol01 nf k l f1 f2 = sol01 nf k' l f1 f2) by (intros; rewrite (rd_sol01 _ _ _ _ E), (rd_sol01 _ _ _ _ E') by assumption; reflexivity).
      assert (Q10 : forall l, l < nl -> sol10 nf k l f1 f2 = sol10 nf k' l f1 f2) by (intros; rewrite (rd_sol10 _ _ _ _ E), (rd_sol10 _ _ _ _ E') by assumption; reflexivity).
      assert (Q11 : forall l, l < nl -> sol11 nf k l f1 f2 = sol11 nf k' l f1 f2) by (intros; rewrite (rd_sol11 _ _ _ _ E), (rd_sol11 _ _ _ _ E') by assumption; reflexivity).
      pose proof (fun cur => eq_best_child v f2 _ _ _ _ cur Q00 Q01) as R1.
      pose proof (fun cur => eq_best_child v f2 _ _ _ _ cur Q10 Q11) as R2.
      pose proof (fun cur => eq_best_child v f1 _ _ _ _ cur Q00 Q10) as R3.
      pose proof (fun cur => eq_best_child v f1 _ _ _ _ cur Q01 Q11) as R4.
      cbn zeta. rewrite !R1, !R2, !R3, !R4. reflexivity.
    Qed.

    Lemma eq_update f s : f < nf ->
      update_three T k b (update_two T nf mls k b nl s f) f = update_three T k' b' (update_two T nf mls k' b' nl s f) f.
    Proof.
      intro Hf. unfold update_three, update_two. rewrite !bc_root.
      rewrite (rd_count0 _ _ _ _ _ E), (rd_count1 _ _ _ _ _ E), (rd_count0 _ _ _ _ _ E'), (rd_count1 _ _ _ _ _ E') by exact Hf.
      rewrite (eq_best_leaf v (fun l => sol0 nf k l f) (fun l => sol0 nf k' l f)) by (intros; rewrite (rd_sol0 _ _ _ _ _ E), (rd_sol0 _ _ _ _ _ E') by assumption; reflexivity).
      rewrite (eq_best_leaf v (fun l => sol1 nf k l f) (fun l => sol1 nf k' l f)) by (intros; rewrite (rd_sol1 _ _ _ _ _ E), (rd_sol1 _ _ _ _ _ E') by assumption; reflexivity).
      reflexivity.
    Qed.

    Lemma eq_pair_loop fs : (forall f, In f fs -> f < nf) -> forall s,
      pair_loop T nf mls k b nl fs s = pair_loop T nf mls k' b' nl fs s.
    Proof.
      induction fs as [|f1 r IH]; intros Hfs s; cbn [pair_loop]; [reflexivity|].
      destruct (tk_eq T 0 _); [reflexivity|].
      rewrite (fold_left_ext (pair_step T nf mls k b nl f1) (pair_step T nf mls k' b' nl f1))
        by (intros; apply eq_pair_step; apply Hfs; [left; reflexivity|right; assumption]).
      rewrite eq_update by (apply Hfs; left; reflexivity). apply IH. intros; apply Hfs; right; assumption.
    Qed.
  End TwoTables2.

  Lemma eq_results v k k' b b' n n' :
    (n =? 1) = (n' =? 1) -> exact T nf (n =? 1) v k -> exact T nf (n =? 1) v k' -> blind b v -> blind b' v ->
    term_results T nf mls k b (num_labels v) n = term_results T nf mls k' b' (num_labels v) n'.
  Proof.
    intros Hn E E' Hb Hb'. unfold term_results.
    rewrite (ex_tot _ _ _ _ _ E), (ex_tot _ _ _ _ _ E'). destruct (Z.of_nat (vsize v) <? Z.of_nat mls)%Z; [reflexivity|].
    rewrite (eq_solve_one (n =? 1) v k k' E E' b b'). rewrite <- Hn. destruct (n =? 1) eqn:E1; [reflexivity|].
    destruct (tk_eq T 0 _); [reflexivity|].
    rewrite (eq_pair_features false v k k' E E' b b' Hb Hb').
    rewrite (eq_pair_loop v k k' E E' b b').
    - reflexivity.
    - intros f Hf. unfold pair_features in Hf. apply filter_In in Hf. destruct Hf as [Hf _]. apply in_seq in Hf. lia.
  Qed.

  (** ** Sequences of calls *)
  Context (root : view).
  Hypothesis Hsorted : view_sorted root.
  Hypothesis Hwf : wf_view nf root.

  Definition state_ok (s : term_state) : Prop :=
    match cs_data (tst_calc s) with
    | None => True
    | Some old => exists bo no, old = restrict bo root /\ cs_nodes (tst_calc s) = Some no
        /\ cells T nf (no =? 1) old (cs_calc (tst_calc s))
        /\ tst_res s = term_solve T nf mls old bo no
    end.

  Lemma cells_ex one bo k : cells T nf one (restrict bo root) k -> exact T nf one (restrict bo root) k.
  Proof. apply cells_exact. apply wf_restrict. exact Hwf. Qed.
  Lemma calc_ex one bo : exact T nf one (restrict bo root) (calc_of T nf one (restrict bo root)).
  Proof. apply cells_ex, calc_of_cells. apply (gt_true T HT). Qed.

  Lemma call_ok s b n :
    state_ok s ->
    let v := restrict b root in
    fst (term_call T nf mls s v b n) = term_solve T nf mls v b n /\ state_ok (snd (term_call T nf mls s v b n)).
  Proof.
    intro Hs. cbn zeta. set (v := restrict b root).
    assert (Fresh : forall cs, cs_data cs = Some v -> cs_nodes cs = Some n -> cells T nf (n =? 1) v (cs_calc cs) ->
      term_results T nf mls (cs_calc cs) b (num_labels v) n = term_solve T nf mls v b n
      /\ state_ok (TermState cs (term_results T nf mls (cs_calc cs) b (num_labels v) n))).
    { intros cs Hd Hn Hc.
      assert (He : term_results T nf mls (cs_calc cs) b (num_labels v) n = term_solve T nf mls v b n).
      { unfold term_solve. apply eq_results; [reflexivity|apply cells_ex; exact Hc|apply calc_ex|apply blind_restrict|apply blind_restrict]. }
      split; [exact He|]. unfold state_ok. cbn [tst_calc tst_res]. rewrite Hd. exists b, n. repeat split; try assumption; apply Hc. }
    assert (Cf : cells T nf (n =? 1) v (calc_of T nf (n =? 1) v)) by (apply calc_of_cells; apply (gt_true T HT)).
    unfold term_call, calc_init, state_ok in *.
    destruct (cs_data (tst_calc s)) as [old|] eqn:Ed.
    - destruct Hs as (bo & no & -> & Hno & Hc & Hr). rewrite Hno.
      destruct (Bool.eqb (n =? 1) (no =? 1)) eqn:Eq.
      + apply Bool.eqb_prop in Eq.
        destruct ((vsize (diff_add (restrict bo root) v) =? 0) && (vsize (diff_remove (restrict bo root) v) =? 0)) eqn:Ez.
        * apply andb_true_iff in Ez. destruct Ez as [Ea Er]. apply Nat.eqb_eq in Ea, Er.
          assert (Hv : restrict bo root = v) by (apply diff_none; assumption).
          cbn [fst snd]. split.
          -- rewrite Hr, Hv. unfold term_solve. rewrite Eq. apply eq_results; try (rewrite Eq; reflexivity); try reflexivity; try apply calc_ex.
             ++ rewrite <- Hv. apply blind_restrict.
             ++ apply blind_restrict.
          -- rewrite Ed. exists bo, no. auto.
        * destruct (vsize (diff_add (restrict bo root) v) + vsize (diff_remove (restrict bo root) v) <? vsize v); cbn [fst snd]; apply Fresh; try reflexivity.
          -- cbn [cs_calc]. apply cells_incremental; [exact Hsorted|]. rewrite Eq. exact Hc.
          -- exact Cf.
      + cbn [fst snd]. apply Fresh; try reflexivity. exact Cf.
    - cbn [fst snd]. apply Fresh; try reflexivity. exact Cf.
  Qed.

  (** After a call the tables describe the data of that call. *)
  Lemma call_cells s b n :
    state_ok s -> cells T nf (n =? 1) (restrict b root) (cs_calc (tst_calc (snd (term_call T nf mls s (restrict b root) b n)))).
  Proof.
    intro Hs. set (v := restrict b root).
    assert (Cf : cells T nf (n =? 1) v (calc_of T nf (n =? 1) v)) by (apply calc_of_cells; apply (gt_true T HT)).
    unfold term_call, calc_init, state_ok in *.
    destruct (cs_data (tst_calc s)) as [old|] eqn:Ed; [|exact Cf].
    destruct Hs as (bo & no & -> & Hno & Hc & Hr). rewrite Hno.
    destruct (Bool.eqb (n =? 1) (no =? 1)) eqn:Eq; [|exact Cf]. apply Bool.eqb_prop in Eq.
    destruct ((vsize (diff_add (restrict bo root) v) =? 0) && (vsize (diff_remove (restrict bo root) v) =? 0)) eqn:Ez.
    - apply andb_true_iff in Ez. destruct Ez as [Ea Er]. apply Nat.eqb_eq in Ea, Er.
      assert (Hv : restrict bo root = v) by (apply diff_none; assumption).
      cbn [snd]. rewrite Eq, <- Hv. exact Hc.
    - destruct (vsize (diff_add (restrict bo root) v) + vsize (diff_remove (restrict bo root) v) <? vsize v); cbn [snd tst_calc cs_calc]; [|exact Cf].
      apply cells_incremental; [exact Hsorted|]. rewrite Eq. exact Hc.
  Qed.

  (** A history of calls: branch and node budget of each. *)
  Fixpoint run_calls (s : term_state) (calls : list (branch * nat)) : term_state :=
    match calls with
    | [] => s
    | (b, n) :: r => run_calls (snd (term_call T nf mls s (restrict b root) b n)) r
    end.

  Lemma run_ok calls : forall s, state_ok s -> state_ok (run_calls s calls).
  Proof.
    induction calls as [|[b n] r IH]; intros s Hs; cbn [run_calls]; [exact Hs|].
    apply IH. apply call_ok. exact Hs.
  Qed.

  Lemma run_call_result calls b n :
    fst (term_call T nf mls (run_calls (term_state0 T) calls) (restrict b root) b n) = term_solve T nf mls (restrict b root) b n.
  Proof. apply call_ok. apply run_ok. exact I. Qed.
End Calls.
