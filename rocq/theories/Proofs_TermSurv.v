(** The depth-two solver for survival analysis finds the best trees. *)
From Coq Require Import List Arith Bool Lia ZArith QArith Qabs Qminmax Lqa Permutation Sorted.
From Verif Require Import Proofs_RecCalc Base_Q Model_FeatureVector Model_Data Model_Node Model_Terminal Model_Regression Model_SimpleLinear Model_TermReg Model_TermSurv Spec_Tree
  Proofs_View Proofs_Diff Proofs_Feature Proofs_Calc Proofs_TermState Props_Regression Model_RegFit Proofs_RegFit Proofs_TermReg.
Import ListNotations.
Local Open Scope nat_scope.

Section Counts.
  Context (lg : Q -> Q) (hz : inst -> Q) (ev : inst -> bool) (nf : nat).
  Hypothesis Hlg : forall a b, (a == b -> lg a == lg b)%Q.

  Definition oc (idx : inst -> list nat) (x : inst) (j : nat) : Q := inject_Z (occ (idx x) j).
  Definition wt (x : inst) : Q := 1.
  Definition ew (x : inst) : Q := if ev x then 1 else 0.
  Definition nl (x : inst) : Q := if ev x then - lg (hz x) else 0.
  Definition ctr (idx : inst -> list nat) (i : field) (x : inst) : Q :=
    match i with
    | Tot => wt x | Cnt j => (wt x * oc idx x j)%Q
    | Cy j => (hz x * oc idx x j)%Q | Cq j => (nl x * oc idx x j)%Q | Cw j => (ew x * oc idx x j)%Q
    | Sy => hz x | Sq => nl x | Sw => ew x end.

  Lemma inst_sums x m : let d := su_inst lg hz ev x m in (s_y d == inject_Z m * hz x /\ s_q d == inject_Z m * nl x /\ inject_Z (s_w d) == inject_Z m * ew x)%Q.
  Proof. cbn zeta. unfold su_inst, nl, ew. cbn [s_y s_q s_w]. destruct (ev x); repeat split; try ring; change (inject_Z 0) with 0%Q; ring. Qed.
  Lemma upd_comp one m k x i : (comp (su_upd lg hz ev nf one m k x) i == comp k i + inject_Z m * ctr (touched nf one) i x)%Q.
  Proof.
    unfold su_upd. destruct (inst_sums x m) as (C1 & C2 & C3). cbn zeta in C1, C2, C3. set (d := su_inst lg hz ev x m) in *.
    destruct i; cbn [comp ctr g_tot g_cnt g_cell g_sum ds_add s_y s_q s_w]; unfold wt;
      try (destruct (ds_all d (touched nf one x) (g_cell k) j) as (D1 & D2 & D3); cbn zeta in D1, D2, D3; rewrite ?D1, ?D2, ?D3);
      rewrite ?add_all_occ, ?inject_Z_plus, ?inject_Z_mult; unfold oc; rewrite ?C1, ?C2, ?C3; ring.
  Qed.
  Lemma update_comp one m i l : forall k, (comp (fold_left (su_upd lg hz ev nf one m) l k) i == comp k i + inject_Z m * sumQ (ctr (touched nf one) i) l)%Q.
  Proof. induction l as [|x l IH]; intro k; cbn [fold_left sumQ]; [ring|]. rewrite IH, (upd_comp one m k x i). ring. Qed.

  Definition qcells (one : bool) (v : view) (k : qcalc) : Prop := forall i, (comp k i == sumQ (ctr (touched nf one) i) (concat v))%Q.
  Lemma fresh_cells one v : qcells one v (su_calc lg hz ev nf one v).
  Proof. intros i. unfold su_calc, su_update. rewrite (update_comp one 1 i). change (inject_Z 1) with 1%Q. destruct i; cbn [comp qcalc_zero g_tot g_cnt g_cell g_sum ds_zero s_y s_q s_w]; change (inject_Z 0) with 0%Q; ring. Qed.
  Lemma more_cells one root b1 b2 k : view_sorted root -> qcells one (restrict b1 root) k ->
    qcells one (restrict b2 root) (su_update lg hz ev nf one (diff_remove (restrict b1 root) (restrict b2 root)) (-1) (su_update lg hz ev nf one (diff_add (restrict b1 root) (restrict b2 root)) 1 k)).
  Proof.
    intros Hs H i. unfold su_update. rewrite (update_comp one (-1) i), (update_comp one 1 i), (H i).
    rewrite diff_add_restrict, diff_remove_restrict by exact Hs. unfold restrict. rewrite !concat_map_filter, <- (sum_diff (ctr (touched nf one) i) (sat b1) (sat b2) (concat root)). change (inject_Z 1) with 1%Q. change (inject_Z (-1)) with (-1)%Q. ring.
  Qed.

  (** ** Reading the counts *)
  Definition NN (u : view) : Z := Z.of_nat (length (concat u)).
  Definition LLf (l : list inst) : Q := Qmax 0 (sumQ nl l - sumQ ew l * lg (Qmax (1 # 2) (sumQ ew l) / sumQ hz l))%Q.
  Definition LL (u : view) : Q := LLf (concat u).
  Lemma NN_split u f : NN u = (NN (split_left f u) + NN (split_right f u))%Z.
  Proof.
    unfold NN. rewrite concat_split_left, concat_split_right. rewrite <- Nat2Z.inj_add. f_equal. induction (concat u) as [|x l IH]; cbn [filter length]; [reflexivity|].
    destruct (has f x); cbn [negb length]; lia.
  Qed.
  Lemma NN_nonneg u : (0 <= NN u)%Z.
  Proof. unfold NN. lia. Qed.
  Lemma NN_pos u : (1 <= NN u)%Z <-> 1 <= vsize u.
  Proof. unfold NN, vsize. lia. Qed.
  Lemma LL_nonneg u : (0 <= LL u)%Q.
  Proof. apply Q.le_max_l. Qed.
  Lemma sum_one l : (qn (length l) == sumQ wt l)%Q.
  Proof. induction l as [|x l IH]; cbn [sumQ length]; [reflexivity|]. rewrite qn_S, IH. unfold wt. ring. Qed.
  Definition sums_to (d : dsum) (l : list inst) : Prop := (s_y d == sumQ hz l /\ s_q d == sumQ nl l /\ inject_Z (s_w d) == sumQ ew l)%Q.
  Lemma label_sums d l : sums_to d l -> (su_label d == Qmax (1 # 2) (sumQ ew l) / sumQ hz l)%Q.
  Proof. intros (Y & _ & W). unfold su_label. rewrite Y, W. reflexivity. Qed.
  Lemma cost_exact d u : sums_to d (concat u) -> (su_cost lg d == LL u)%Q.
  Proof.
    intros H. pose proof (label_sums d _ H) as E. unfold su_label in E. destruct H as (Y & Q & W). unfold su_cost, LL, LLf. rewrite (Hlg _ _ E), Q, W. reflexivity.
  Qed.

  Section Read.
    Context (idx : inst -> list nat) (okp : nat -> nat -> Prop) (v : view) (k : qcalc).
    Hypothesis Hd : forall x f, In x (concat v) -> f < nf -> occ (idx x) (ixd nf f) = b2z (has f x).
    Hypothesis Hp : forall x f g, In x (concat v) -> okp f g -> f < nf -> g < nf -> occ (idx x) (ix11 nf f g) = b2z (has f x && has g x).
    Hypothesis Hc : forall i, (comp k i == sumQ (ctr idx i) (concat v))%Q.
    Lemma diag_sum (F : inst -> Q) f : f < nf -> (sumQ (fun x => F x * oc idx x (ixd nf f)) (concat v) == sumQ F (filter (sel true f) (concat v)))%Q.
    Proof. intro Hf. unfold sel. rewrite <- (sum_ind F (has f)). apply sumQ_ext. intros x Hx. unfold oc. rewrite (Hd x f Hx Hf). reflexivity. Qed.
    Lemma pair_sum (F : inst -> Q) f g : okp f g -> f < nf -> g < nf -> (sumQ (fun x => F x * oc idx x (ix11 nf f g)) (concat v) == sumQ F (filter (fun x => sel true f x && sel true g x) (concat v)))%Q.
    Proof. intros Ho Hf Hg. unfold sel. rewrite <- (sum_ind F (fun x => has f x && has g x)). apply sumQ_ext. intros x Hx. unfold oc. rewrite (Hp x f g Hx Ho Hf Hg). reflexivity. Qed.
    Lemma z_eq z l : (inject_Z z == sumQ wt l)%Q -> z = Z.of_nat (length l).
    Proof. intro H. rewrite <- sum_one in H. unfold qn in H. apply (proj1 (inject_Z_injective _ _)) in H. exact H. Qed.

    Lemma cT : (inject_Z (g_tot k) == sumQ wt (concat v))%Q. Proof. exact (Hc Tot). Qed.
    Lemma cY : (s_y (g_sum k) == sumQ hz (concat v))%Q. Proof. exact (Hc Sy). Qed.
    Lemma cQ : (s_q (g_sum k) == sumQ nl (concat v))%Q. Proof. exact (Hc Sq). Qed.
    Lemma cW : (inject_Z (s_w (g_sum k)) == sumQ ew (concat v))%Q. Proof. exact (Hc Sw). Qed.
    Lemma read_tot : g_tot k = NN v.
    Proof. apply z_eq. exact (Hc Tot). Qed.
    Lemma read_n1 s f : f < nf -> q_cnt1 nf k s f = NN (sd s f v).
    Proof.
      intro Hf. pose proof (Hc (Cnt (ixd nf f))) as A. cbn [comp ctr] in A. rewrite (diag_sum wt f Hf) in A. pose proof cT as B. cbn [comp ctr] in B.
        destruct (parts wt f f (concat v)) as (P1 & _). cbn zeta in P1. unfold NN. rewrite sd_filter. apply z_eq. unfold q_cnt1. destruct s; [exact A|]. unfold Z.sub. rewrite inject_Z_plus, inject_Z_opp, A, B. lra.
    Qed.
    Lemma read_n2 s t f g : okp f g -> f < nf -> g < nf -> q_cnt2 nf k s t f g = NN (sd t g (sd s f v)).
    Proof.
      intros Ho Hf Hg. pose proof (Hc (Cnt (ixd nf f))) as A. pose proof (Hc (Cnt (ixd nf g))) as A'. pose proof (Hc (Cnt (ix11 nf f g))) as A2. pose proof cT as B. cbn [comp ctr] in A, A', A2, B.
        rewrite (diag_sum wt f Hf) in A. rewrite (diag_sum wt g Hg) in A'. rewrite (pair_sum wt f g Ho Hf Hg) in A2.
        destruct (parts wt f g (concat v)) as (P1 & P2 & P3 & P4). cbn zeta in P1, P2, P3, P4. unfold NN. rewrite sd_filter2. apply z_eq.
        unfold q_cnt2. destruct s, t; unfold Z.sub; rewrite ?inject_Z_plus, ?inject_Z_opp, ?A, ?A', ?A2, ?B; lra.
    Qed.
    Lemma read_s1 s f : f < nf -> sums_to (q_sum1 nf k s f) (filter (sel s f) (concat v)).
    Proof.
      intro Hf. unfold sums_to, q_sum1. split; [|split].
        - pose proof (Hc (Cy (ixd nf f))) as A. pose proof cY as B. cbn [comp ctr] in A, B. rewrite (diag_sum hz f Hf) in A. destruct (parts hz f f (concat v)) as (P1 & _). cbn zeta in P1.
          destruct s; [exact A|]. cbn [ds_sub s_y]. rewrite A, B. lra.
        - pose proof (Hc (Cq (ixd nf f))) as A. pose proof cQ as B. cbn [comp ctr] in A, B. rewrite (diag_sum nl f Hf) in A. destruct (parts nl f f (concat v)) as (P1 & _). cbn zeta in P1.
          destruct s; [exact A|]. cbn [ds_sub s_q]. rewrite A, B. lra.
        - pose proof (Hc (Cw (ixd nf f))) as A. pose proof cW as B. cbn [comp ctr] in A, B. rewrite (diag_sum ew f Hf) in A. destruct (parts ew f f (concat v)) as (P1 & _). cbn zeta in P1.
          destruct s; [exact A|]. cbn [ds_sub s_w]. unfold Z.sub. rewrite inject_Z_plus, inject_Z_opp, A, B. lra.
    Qed.
    Lemma read_s2 s t f g : okp f g -> f < nf -> g < nf -> sums_to (q_sum2 nf k s t f g) (filter (fun x => sel s f x && sel t g x) (concat v)).
    Proof.
      intros Ho Hf Hg. unfold sums_to, q_sum2. split; [|split].
        - pose proof (Hc (Cy (ixd nf f))) as A. pose proof (Hc (Cy (ixd nf g))) as A'. pose proof (Hc (Cy (ix11 nf f g))) as A2. pose proof cY as B. cbn [comp ctr] in A, A', A2, B.
          rewrite (diag_sum hz f Hf) in A. rewrite (diag_sum hz g Hg) in A'. rewrite (pair_sum hz f g Ho Hf Hg) in A2.
          destruct (parts hz f g (concat v)) as (P1 & P2 & P3 & P4). cbn zeta in P1, P2, P3, P4. destruct s, t; cbn [ds_sub s_y]; rewrite ?A, ?A', ?A2, ?B; lra.
        - pose proof (Hc (Cq (ixd nf f))) as A. pose proof (Hc (Cq (ixd nf g))) as A'. pose proof (Hc (Cq (ix11 nf f g))) as A2. pose proof cQ as B. cbn [comp ctr] in A, A', A2, B.
          rewrite (diag_sum nl f Hf) in A. rewrite (diag_sum nl g Hg) in A'. rewrite (pair_sum nl f g Ho Hf Hg) in A2.
          destruct (parts nl f g (concat v)) as (P1 & P2 & P3 & P4). cbn zeta in P1, P2, P3, P4. destruct s, t; cbn [ds_sub s_q]; rewrite ?A, ?A', ?A2, ?B; lra.
        - pose proof (Hc (Cw (ixd nf f))) as A. pose proof (Hc (Cw (ixd nf g))) as A'. pose proof (Hc (Cw (ix11 nf f g))) as A2. pose proof cW as B. cbn [comp ctr] in A, A', A2, B.
          rewrite (diag_sum ew f Hf) in A. rewrite (diag_sum ew g Hg) in A'. rewrite (pair_sum ew f g Ho Hf Hg) in A2.
          destruct (parts ew f g (concat v)) as (P1 & P2 & P3 & P4). cbn zeta in P1, P2, P3, P4. destruct s, t; cbn [ds_sub s_w]; unfold Z.sub; rewrite ?inject_Z_plus, ?inject_Z_opp, ?inject_Z_plus, ?inject_Z_opp, ?A, ?A', ?A2, ?B; lra.
    Qed.
    Lemma read_leaf1 s f : f < nf -> (su_cost lg (q_sum1 nf k s f) == LL (sd s f v))%Q.
    Proof. intros Hf. apply cost_exact. rewrite sd_filter. apply read_s1. exact Hf. Qed.
    Lemma read_leaf2 s t f g : okp f g -> f < nf -> g < nf -> (su_cost lg (q_sum2 nf k s t f g) == LL (sd t g (sd s f v)))%Q.
    Proof. intros Ho Hf Hg. apply cost_exact. rewrite sd_filter2. apply read_s2; assumption. Qed.
  End Read.
  Lemma reads_exact one v k : wf_view nf v -> qcells one v k -> rexact nf NN LL v (su_reads lg nf k) one.
  Proof.
    intros Hwf Hc. set (okp := fun _ _ : nat => one = false).
    assert (Hd : forall x f, In x (concat v) -> f < nf -> occ (touched nf one x) (ixd nf f) = b2z (has f x)) by (intros x f Hx Hf; apply (occ_touched_diag nf one x f (Hwf x Hx) Hf)).
    assert (Hp : forall x f g, In x (concat v) -> okp f g -> f < nf -> g < nf -> occ (touched nf one x) (ix11 nf f g) = b2z (has f x && has g x)) by (intros x f g Hx Ho Hf Hg; unfold okp in Ho; rewrite Ho; apply (occ_touched_pair nf x f g (Hwf x Hx) Hf Hg)).
    split; cbn [su_reads rd_n rd_leaf rd_n1 rd_leaf1 rd_n2 rd_leaf2].
    - exact (read_tot (touched nf one) v k Hc).
    - intros _. apply cost_exact. split; [exact (Hc Sy)|]. split; [exact (Hc Sq)|exact (Hc Sw)].
    - intros s f Hf. exact (read_n1 (touched nf one) v k Hd Hc s f Hf).
    - intros s f Hf _. exact (read_leaf1 (touched nf one) v k Hd Hc s f Hf).
    - intros Ho s t f g Hf Hg. exact (read_n2 (touched nf one) okp v k Hd Hp Hc s t f g Ho Hf Hg).
    - intros Ho s t f g Hf Hg _. exact (read_leaf2 (touched nf one) okp v k Hd Hp Hc s t f g Ho Hf Hg).
  Qed.

  (** ** Histories of calls *)
  Context (root : view).
  Hypothesis Hs : view_sorted root.
  Hypothesis Hroot : wf_view nf root.
  Definition qstate_ok (st : qterm) : Prop :=
    match qt_data st with
    | None => True
    | Some u => exists b, u = restrict b root /\ 1 <= qt_nodes st /\ qcells (qt_nodes st =? 1) u (qt_calc st) /\ results_ok 0 nf NN LL u (qt_nodes st =? 1) (qt_res st)
    end.
  Lemma run_good b n k : 1 <= n -> qcells (n =? 1) (restrict b root) k -> results_ok 0 nf NN LL (restrict b root) (n =? 1) (q_results 0 nf 1 (su_reads lg nf k) b n).
  Proof.
    intros Hn Hk. apply results_good; try assumption; [apply Qle_refl|apply NN_split|apply NN_nonneg|apply NN_pos|apply LL_nonneg|apply blind_restrict|]. apply reads_exact; [apply wf_restrict; exact Hroot|exact Hk].
  Qed.
  Lemma call_good st b n : 1 <= n -> qstate_ok st -> let st' := su_call lg hz ev nf 1 st (restrict b root) b n in
    qstate_ok st' /\ results_ok 0 nf NN LL (restrict b root) (n =? 1) (qt_res st').
  Proof.
    intros Hn H. cbn zeta. unfold su_call.
    assert (F : forall k, qcells (n =? 1) (restrict b root) k -> let st' := QTerm (Some (restrict b root)) n k (q_results 0 nf 1 (su_reads lg nf k) b n) in qstate_ok st' /\ results_ok 0 nf NN LL (restrict b root) (n =? 1) (qt_res st')).
    { intros k Hk. cbn zeta. unfold qstate_ok. cbn [qt_data qt_nodes qt_calc qt_res]. pose proof (run_good b n k Hn Hk). split; [exists b|]; auto. }
    destruct (qt_data st) as [u|] eqn:Ed; [|apply F, fresh_cells].
    destruct (Bool.eqb (n =? 1) (qt_nodes st =? 1)) eqn:Eo; [|apply F, fresh_cells]. apply Bool.eqb_prop in Eo.
    unfold qstate_ok in H. rewrite Ed in H. destruct H as (b0 & -> & Hn0 & Hc0 & Hr0).
    destruct ((vsize (diff_add (restrict b0 root) (restrict b root)) =? 0) && (vsize (diff_remove (restrict b0 root) (restrict b root)) =? 0)) eqn:E0.
    - apply andb_true_iff in E0. destruct E0 as [E1 E2]. apply Nat.eqb_eq in E1, E2. pose proof (diff_none b0 b root Hs E1 E2) as Eq. rewrite Eo, <- Eq.
      split; [|exact Hr0]. unfold qstate_ok. rewrite Ed. exists b0. auto.
    - destruct (_ <? _); [|apply F, fresh_cells]. apply F. rewrite Eo. apply more_cells; [exact Hs|exact Hc0].
  Qed.
  (** The uses so far: each on the part of the training data at a branch. *)
  Definition su_uses (uses : list (branch * quse)) : qterm :=
    fold_left (fun st c => su_use lg hz ev nf 1 st (restrict (fst c) root) (fst c) (snd c)) uses qterm0.
  Lemma use_good st b e : use_ok e -> qstate_ok st -> qstate_ok (su_use lg hz ev nf 1 st (restrict b root) b e).
  Proof. intros He H. destruct e as [n|x]; [apply call_good; assumption|exact I]. Qed.
  Lemma uses_good uses b n : Forall (fun c => use_ok (snd c)) uses -> 1 <= n -> results_ok 0 nf NN LL (restrict b root) (n =? 1) (qt_res (su_uses (uses ++ [(b, Solve n)]))).
  Proof.
    intros Hf Hn. unfold su_uses. rewrite fold_left_app. cbn [fold_left fst snd su_use]. apply call_good; [exact Hn|].
    assert (G : forall st, qstate_ok st -> qstate_ok (fold_left (fun st c => su_use lg hz ev nf 1 st (restrict (fst c) root) (fst c) (snd c)) uses st)).
    { induction Hf as [|c uses Hc _ IH]; intros st H; cbn [fold_left]; [exact H|]. apply IH. apply use_good; assumption. }
    apply G. exact I.
  Qed.

  (** ** Construction of the tree *)
  Lemma rec_comp f k x i : (comp (su_rec_upd lg hz ev nf f k x) i == comp k i + ctr (rec_indices nf f) i x)%Q.
  Proof.
    unfold su_rec_upd. destruct (inst_sums x 1) as (C1 & C2 & C3). cbn zeta in C1, C2, C3. change (inject_Z 1) with 1%Q in *. set (d := su_inst lg hz ev x 1) in *.
    destruct i; cbn [comp ctr g_tot g_cnt g_cell g_sum ds_add s_y s_q s_w]; unfold wt;
      try (destruct (ds_all d (rec_indices nf f x) (g_cell k) j) as (D1 & D2 & D3); cbn zeta in D1, D2, D3; rewrite ?D1, ?D2, ?D3);
      rewrite ?add_all_occ, ?inject_Z_plus, ?inject_Z_mult; unfold oc; rewrite ?C1, ?C2, ?C3; change (inject_Z 1) with 1%Q; ring.
  Qed.
  Lemma rec_cells f v i : (comp (su_rec lg hz ev nf f v) i == sumQ (ctr (rec_indices nf f) i) (concat v))%Q.
  Proof.
    unfold su_rec. assert (G : forall l k, (comp (fold_left (su_rec_upd lg hz ev nf f) l k) i == comp k i + sumQ (ctr (rec_indices nf f) i) l)%Q).
    { induction l as [|x l IH]; intro k; cbn [fold_left sumQ]; [ring|]. rewrite IH, (rec_comp f k x i). ring. }
    rewrite G. destruct i; cbn [comp qcalc_zero g_tot g_cnt g_cell g_sum ds_zero s_y s_q s_w]; change (inject_Z 0) with 0%Q; ring.
  Qed.

  (** A tree with numbers at its leaves that are the risk factors. *)
  Fixpoint filled (u : view) (t : tree) (r : rtree) : Prop :=
    match t, r with
    | Leaf _, RLeaf q => (q == Qmax (1 # 2) (sumQ ew (concat u)) / sumQ hz (concat u))%Q
    | Split f l r, RSplit f' l' r' => f = f' /\ filled (split_left f u) l l' /\ filled (split_right f u) r r'
    | _, _ => False
    end.
  Lemma same_empty s f u : NN (sd (negb s) f (sd s f u)) = 0%Z.
  Proof.
    unfold NN. rewrite sd_filter2. replace (filter _ (concat u)) with (@nil inst); [reflexivity|]. symmetry. induction (concat u) as [|x l IH]; cbn [filter]; [reflexivity|]. unfold sel at 1 2. destruct s, (has f x); cbn [negb andb]; exact IH.
  Qed.

  Section Child.
    Context (x : qnode) (f : nat) (u : view) (s : bool).
    Hypothesis Hwf : wf_view nf u.
    Hypothesis Hf : f < nf.
    Hypothesis Hx : (0 <= n_val x)%Q.
    Notation k := (su_rec lg hz ev nf f u).
    Notation side := (sd s f u).
    Definition ok_child (n : nat) (p : Q * rtree) : Prop :=
      exists t, tok nf NN side t /\ nodes t = n /\ depth t <= 1 /\ (fst p == tv 0 LL side t)%Q /\ filled side t (snd p).
    Lemma rd_hd y g : In y (concat u) -> g < nf -> occ (rec_indices nf f y) (ixd nf g) = b2z (has g y).
    Proof. intros Hy Hg. apply rec_diag; [apply Hwf; exact Hy|exact Hf|exact Hg]. Qed.
    Lemma rd_hp y a g : In y (concat u) -> (a = f /\ g <> f) -> a < nf -> g < nf -> occ (rec_indices nf f y) (ix11 nf a g) = b2z (has a y && has g y).
    Proof. intros Hy [-> Hne] _ Hg. apply rec_pair; [apply Hwf; exact Hy|exact Hf|exact Hg|exact Hne]. Qed.
    Lemma add_child c q t : exists z, (qc_add (n_val x) c q t = c \/ qc_add (n_val x) c q t = Some (q, t)) /\ qc_add (n_val x) c q t = z
      /\ (forall p, c = Some p -> exists p', z = Some p' /\ (fst p' <= fst p)%Q) /\ ((q <= n_val x)%Q -> exists p', z = Some p' /\ (fst p' <= q)%Q).
    Proof.
      eexists. split; [|split; [reflexivity|]]; unfold qc_add; destruct (qlt _ q) eqn:E.
      - left. reflexivity.
      - destruct c as [[q' t']|]; [destruct (qlt q q')|]; auto.
      - split; [intros p ->; exists p; split; [reflexivity|lra]|]. intro L. apply qlt_spec in E. exfalso. assert (n_val x * (1 + (1 # 10000)) == n_val x + n_val x * (1 # 10000))%Q by ring. lra.
      - destruct c as [[q' t']|].
        + destruct (qlt q q') eqn:E2; [apply qlt_spec in E2|apply qlt_false in E2]; (split; [intros p [= <-]|intros _]); eexists; (split; [reflexivity|]); cbn [fst]; lra.
        + split; [discriminate|]. intros _. eexists. split; [reflexivity|]. cbn [fst]. lra.
    Qed.
    Lemma child_leaf : (1 <= NN side)%Z -> (LL side <= n_val x)%Q ->
      exists p, su_best_child lg nf 1 x k f s 0 = Some p /\ ok_child 0 p.
    Proof.
      intros Hn Hl. unfold su_best_child. cbn [Nat.eqb].
      assert (G : forall fs c, fold_left (su_split_child lg nf 1 x k f s 0) fs c = c). { induction fs as [|g fs IH]; intro c; cbn [fold_left]; [reflexivity|]. rewrite IH. unfold su_split_child. cbn [Nat.eqb negb andb]. destruct (g =? f); reflexivity. }
      rewrite G. set (q := su_cost lg (q_sum1 nf k s f)). set (t := RLeaf _).
      assert (Eq : (q == LL side)%Q) by (apply (read_leaf1 (rec_indices nf f) u k rd_hd (fun i => rec_cells f u i) s f Hf)).
      destruct (add_child None q t) as (z & A & Ez & _ & B). destruct (B ltac:(lra)) as (p' & E & _). rewrite <- Ez in E. destruct A as [A|A]; rewrite A in E; [discriminate|]. injection E as <-.
      exists (q, t). split; [exact A|]. exists (Leaf 0). split; [exact Hn|]. split; [reflexivity|]. split; [cbn; lia|]. split; [exact Eq|].
      cbn [filled snd]. unfold t. apply label_sums.
      rewrite sd_filter. apply (read_s1 (rec_indices nf f) u k rd_hd (fun i => rec_cells f u i) s f Hf).
    Qed.
    Lemma child_split l0 : nodes l0 = 1 -> tok nf NN side l0 -> (tv 0 LL side l0 <= n_val x)%Q ->
      exists p, su_best_child lg nf 1 x k f s 1 = Some p /\ ok_child 1 p /\ (fst p <= tv 0 LL side l0)%Q.
    Proof.
      intros Hn Ht Hv. destruct l0 as [|g0 [a|] [c|]]; cbn [nodes] in Hn; try lia. cbn [tok] in Ht. destruct Ht as (Hg0 & T1 & T2). unfold su_best_child. cbn [Nat.eqb].
      assert (N2 : forall t g, g <> f -> g < nf -> q_cnt2 nf k s t f g = NN (sd t g side)) by (intros t g Hne Hg; apply (read_n2 (rec_indices nf f) (fun a g => a = f /\ g <> f) u k rd_hd rd_hp (fun i => rec_cells f u i)); auto).
      assert (L2 : forall t g, g <> f -> g < nf -> (1 <= NN (sd t g side))%Z -> (su_cost lg (q_sum2 nf k s t f g) == LL (sd t g side))%Q) by (intros t g Hne Hg _; apply (read_leaf2 (rec_indices nf f) (fun a g => a = f /\ g <> f) u k rd_hd rd_hp (fun i => rec_cells f u i)); auto).
      assert (S2 : forall t g, g <> f -> g < nf -> sums_to (q_sum2 nf k s t f g) (concat (sd t g side))) by (intros t g Hne Hg; rewrite sd_filter2; apply (read_s2 (rec_indices nf f) (fun a g => a = f /\ g <> f) u k rd_hd rd_hp (fun i => rec_cells f u i)); auto).
      assert (Hne0 : g0 <> f). { intros ->. pose proof (same_empty s f u) as Z. destruct s; cbn [negb sd] in *; lia. }
      assert (G : forall fs c0, (forall g, In g fs -> g < nf) -> (forall p, c0 = Some p -> ok_child 1 p) ->
        let z := fold_left (su_split_child lg nf 1 x k f s 1) fs c0 in
        (forall p, z = Some p -> ok_child 1 p) /\ (forall p, c0 = Some p -> exists p', z = Some p' /\ (fst p' <= fst p)%Q)
        /\ (In g0 fs -> exists p', z = Some p' /\ (fst p' <= tv 0 LL side (Split g0 (Leaf a) (Leaf c)))%Q)).
      { induction fs as [|g fs IH]; intros c0 Hin H0; cbn [fold_left]; cbn zeta.
        - split; [exact H0|]. split; [|intros []]. intros p ->. exists p. split; [reflexivity|lra].
        - assert (Hg : g < nf) by (apply Hin; left; reflexivity).
          assert (Q : (forall p, su_split_child lg nf 1 x k f s 1 c0 g = Some p -> ok_child 1 p) /\ (forall p, c0 = Some p -> exists p', su_split_child lg nf 1 x k f s 1 c0 g = Some p' /\ (fst p' <= fst p)%Q)
            /\ (g = g0 -> exists p', su_split_child lg nf 1 x k f s 1 c0 g = Some p' /\ (fst p' <= tv 0 LL side (Split g0 (Leaf a) (Leaf c)))%Q)).
          { unfold su_split_child. destruct (Nat.eqb_spec g f) as [->|Hne].
            - split; [exact H0|]. split; [intros p ->; exists p; split; [reflexivity|lra]|congruence].
            - cbn [Nat.eqb negb andb]. destruct (enough 1 (q_cnt2 nf k s false f g) && enough 1 (q_cnt2 nf k s true f g)) eqn:E.
              + apply andb_true_iff in E. destruct E as [E1 E2]. rewrite enough1 in E1, E2. rewrite (N2 _ _ Hne Hg) in E1. rewrite (N2 _ _ Hne Hg) in E2. pose proof (L2 _ _ Hne Hg E1) as V1. pose proof (L2 _ _ Hne Hg E2) as V2.
                match goal with |- context [qc_add _ c0 ?qq ?tt] => set (q := qq); set (t := tt) end.
                assert (Eq : (q == LL (sd false g side) + LL (sd true g side))%Q) by (unfold q; rewrite V1, V2; ring).
                destruct (add_child c0 q t) as (z & A & Ez & B1 & B2). rewrite Ez in *. split; [|split; [exact B1|]].
                * intros p Hp. destruct A as [A|A]; [apply H0; congruence|]. assert (p = (q, t)) by congruence. subst p. exists (Split g (Leaf 0) (Leaf 0)). cbn [tok]. split; [split; [exact Hg|split; assumption]|]. split; [reflexivity|]. split; [cbn; lia|]. split; [cbn [fst tv]; rewrite Eq; cbn [sd]; ring|].
                  cbn [filled snd]. unfold t. split; [reflexivity|]. split; [apply (label_sums _ (concat (sd false g side)))|apply (label_sums _ (concat (sd true g side)))]; apply S2; assumption.
                * intros ->. cbn [tv] in Hv |- *. cbn [sd] in Eq. destruct (B2 ltac:(lra)) as (p' & C1 & C2). exists p'. split; [exact C1|lra].
              + split; [exact H0|]. split; [intros p ->; exists p; split; [reflexivity|lra]|]. intros ->. exfalso. apply andb_false_iff in E. rewrite <- !not_true_iff_false, !enough1, !N2 in E by assumption. cbn [sd tok] in *. lia. }
          destruct Q as (Q1 & Q2 & Q3). destruct (IH _ (fun h Hh => Hin h (or_intror Hh)) Q1) as (I1 & I2 & I3). split; [exact I1|]. split.
          + intros p Hp. destruct (Q2 p Hp) as (p' & A & B). destruct (I2 p' A) as (p'' & C & D). exists p''. split; [exact C|lra].
          + intros [->|Hi]; [|apply I3; exact Hi]. destruct (Q3 eq_refl) as (p' & A & B). destruct (I2 p' A) as (p'' & C & D). exists p''. split; [exact C|lra]. }
      destruct (G (seq 0 nf) None) as (G1 & _ & G3); [intros g Hg; apply in_seq in Hg; lia|discriminate|]. destruct G3 as (p & A & B); [apply in_seq; lia|]. exists p. split; [exact A|]. split; [apply G1; exact A|exact B].
    Qed.
  End Child.

  Lemma build_good u m x f : wf_view nf u -> good 0 nf NN LL u m (Some x) -> n_feat x = Some f ->
    exists r t, su_construct lg hz ev nf 1 x u = Some r /\ tok nf NN u t /\ depth t <= 2 /\ nodes t <= m /\ nodes t = n_nodes x /\ (n_val x == tv 0 LL u t)%Q /\ filled u t r.
  Proof.
    intros Hwf (x' & [= <-] & (t0 & (W1 & W2 & W3) & D0 & M0) & B) Hfx. destruct t0 as [|f0 l0 r0]; [destruct W3; congruence|]. destruct W3 as (E1 & E2 & E3). assert (f0 = f) by congruence. subst f0. clear E1.
    cbn [tok] in W1. destruct W1 as (Hf & Tl & Tr). cbn [depth nodes] in D0, M0. cbn [tv] in W2.
    pose proof (tv_nonneg 0 LL (Qle_refl 0) LL_nonneg l0 (split_left f u)) as P1. pose proof (tv_nonneg 0 LL (Qle_refl 0) LL_nonneg r0 (split_right f u)) as P2. assert (Hx0 : (0 <= n_val x)%Q) by lra.
    assert (G : forall s t1, tok nf NN (sd s f u) t1 -> depth t1 <= 1 -> (tv 0 LL (sd s f u) t1 <= n_val x)%Q -> exists p, su_best_child lg nf 1 x (su_rec lg hz ev nf f u) f s (nodes t1) = Some p /\ ok_child f u s (nodes t1) p /\ (fst p <= tv 0 LL (sd s f u) t1)%Q).
    { intros s t1 T1 D1 V1. destruct t1 as [a|g [a|] [c|]]; cbn [depth] in D1; try lia.
      - cbn [nodes]. destruct (child_leaf x f u s Hwf Hf Hx0 T1 V1) as (p & A & C). exists p. split; [exact A|]. split; [exact C|]. destruct C as (t2 & _ & N2 & _ & Q2 & _). destruct t2; [|discriminate]. cbn [tv] in *. lra.
      - cbn [nodes Nat.add] in *. apply (child_split x f u s Hwf Hf Hx0 (Split g (Leaf a) (Leaf c)) eq_refl T1 V1). }
    destruct (G false l0 Tl ltac:(lia)) as ([ql rl] & A1 & (tl & B1 & B2 & B3 & B4 & B5) & C1); [cbn [sd]; lra|]. destruct (G true r0 Tr ltac:(lia)) as ([qr rr] & A2 & (tr & F1 & F2 & F3 & F4 & F5) & C2); [cbn [sd]; lra|].
    cbn [fst snd sd] in *. rewrite <- E2 in A1. rewrite <- E3 in A2. exists (RSplit f rl rr), (Split f tl tr). split; [unfold su_construct; rewrite Hfx, A1, A2; reflexivity|].
    assert (T : tok nf NN u (Split f tl tr)) by (cbn [tok]; auto). split; [exact T|]. split; [cbn [depth]; lia|]. split; [cbn [nodes]; lia|]. split; [unfold n_nodes; rewrite Hfx; cbn [nodes]; lia|]. split; [|cbn [filled]; auto].
    assert (Lo : (n_val x <= tv 0 LL u (Split f tl tr))%Q) by (apply B; [exact T|cbn [depth]; lia|cbn [nodes]; lia]). cbn [tv] in *. lra.
  Qed.
End Counts.
