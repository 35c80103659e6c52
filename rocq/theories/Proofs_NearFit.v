(** Fit with tolerant comparisons and costs of any size, without lower bounds and depth-two
    solver: the tree is at most a power of 10001/10000 from every allowed tree. *)
From Coq Require Import List Arith Bool Lia ZArith Permutation.
From Verif Require Import Model_FeatureVector Model_Data Model_Node Model_Cache Model_Terminal Model_Heap Model_Solver Model_Preproc
  Spec_Tree Spec_Rows Spec_Tasks Proofs_View Proofs_Base Proofs_Heap Proofs_Preproc Proofs_Plain Proofs_PlainFit Proofs_Near.
Import ListNotations.
Local Open Scope nat_scope.

Section NearFit.
  Context (T : task) (HN : near_task T) (W : switches) (P : params) (nf : nat) (clk : nat -> bool) (v : view) (Z0 : Z).
  Notation mls := (w_mls W).
  Notation worst := (tk_worst T).
  Hypothesis Hmls : 1 <= mls.
  Hypothesis Hmay : forall f, f < nf -> tk_may T f = true.
  Hypothesis Hld : loaded nf v.
  Hypothesis Hnl : 1 <= num_labels v.
  Hypothesis Hsz : mls <= vsize v.
  Hypothesis Hleaf : forall u u' l, map (map iid) u = map (map iid) u' -> tk_leaf T u l = tk_leaf T u' l.
  Hypothesis Hbr : forall n b b' f, same_tests b b' -> bcost T n b f = bcost T n b' f.
  Hypothesis Hdup : (forall n b b' f f', bcost T n b f = bcost T n b' f')
    \/ (forall f f1 p q, f < nf -> f1 < nf -> (forall x, In x (concat v) -> xorb p (has f x) = xorb q (has f1 x)) -> f = f1).
  Hypothesis Hlb : w_lb W = false.
  Hypothesis Hterm : w_term W = false.
  Hypothesis Hsp : tk_sparse T = true -> w_ub W = true /\ exists k, forall n b f, bcost T n b f = k.
  Hypothesis Hdata : w_data W = true -> forall n b b' f, bcost T n b f = bcost T n b' f.
  Hypothesis Hz : forall u b t, vsize u <= vsize v -> depth t <= p_depth P -> (tcost T u b t <= Z0)%Z.
  Hypothesis HzT : forall z, (z <= Z0)%Z -> tk_sdom T z worst = true.
  Hypothesis Hzw : (Z0 < worst)%Z.

  Notation pv := (pview T mls nf v).
  Notation pfl := (pfl T mls nf v).
  Notation pdead := (pdead T mls nf v).
  Notation R := (fit T W P nf clk v).
  Notation G := (mk_cfg W nf pdead clk).
  Notation A := (solve T G P pv (init_sol T) (init_state G (w_branch W) (w_data W) (vsize pv))).
  Notation ok := (fun f => f < nf).
  Notation dm := (Nat.min (p_depth P) (p_nodes P)).

  Lemma nalw_to d n t : allowed ok mls d n v t -> exists t', alw T G d n pv t' /\ depth t' = depth t /\ tcost T pv [] t' = tcost T v [] t.
  Proof.
    intros (H1 & H2 & H3 & H4).
    destruct (cost_norm T W nf clk v Hmls Hmay Hld Hnl Hsz Hleaf Hbr Hdup (length v) t (fun _ => true) [] [] (Rb_refl T nf clk v Hdup [])) as (t' & A1 & A2 & A3 & A4 & A5); rewrite ?filter_true in *; try assumption.
    rewrite U_true in A5. exists t'. split; [|split; [exact A3|exact A5]]. unfold alw, allowed. change (length pv) with (num_labels pv). rewrite pview_labels.
    split; [exact A1|]. split; [unfold pview; rewrite concat_map_map; exact A2|]. split; lia.
  Qed.

  Theorem near_fit_spec : ((p_all P = true \/ p_nodes P = 1) -> p_nodes P <= 2 ^ p_depth P - 1) -> fr_proven R = true ->
    (fr_tree R = None /\ forall t, allowed ok mls (p_depth P) (p_nodes P) v t -> klt (depth t) (pbound T P) (tcost T v [] t))
    \/ (exists t, fr_tree R = Some t
        /\ allowed ok mls dm (2 ^ dm - 1) v t
        /\ (w_branch W = false -> w_data W = false -> nodes t <= p_nodes P)
        /\ option_map fst (fr_train R) = Some (tcost T v [] t)
        /\ (exists t0, allowed ok mls (p_depth P) (p_nodes P) v t0 /\ tcost T v [] t0 = nd_sol (fr_value R))
        /\ (forall t', allowed ok mls (p_depth P) (p_nodes P) v t' -> klt (depth t') (pbound T P) (tcost T v [] t') \/ kle (S (depth t')) (nd_sol (fr_value R)) (tcost T v [] t'))
        /\ kle (dm * S dm / 2) (tcost T v [] t) (nd_sol (fr_value R))).
  Proof.
    intros Hlim Hp. rewrite pfit_eq in *. cbn [mk_result fr_proven fr_tree fr_train fr_value] in *.
    assert (Hred : forall f x, c_redundant G f = true -> In x (concat pv) -> has f x = false).
    { intros f x Hf Hx. apply (pview_red T mls nf v Hmls Hld f x Hf Hx). }
    assert (Hpnl : 1 <= num_labels pv) by (rewrite pview_labels; exact Hnl).
    assert (Hpsz : mls <= vsize pv) by (rewrite pview_size; exact Hsz).
    assert (Hpz : forall b t, alw T G (p_depth P) (2 ^ p_depth P - 1) (restrict b pv) t -> (tcost T (restrict b pv) b t <= Z0)%Z).
    { intros b t (_ & _ & H & _). apply Hz; [|exact H]. rewrite <- (pview_size T mls nf v). unfold vsize, restrict. rewrite concat_filters. pose proof (filter_length_split (sat b) (concat pv)). change (fun x : inst => sat b x) with (sat b) in *. lia. }
    destruct (Proofs_Near.solve_spec T G HN pv (vsize pv) (p_depth P) Z0 (w_data W) (pview_ids T mls nf v Hld) Hred Hmls (pcfg_order T W nf clk v Hmls Hnl Hsz) Hpnl Hlb Hterm Hsp Hdata Hpz HzT Hzw
       P (le_n _) Hpsz (init_state G (w_branch W) (w_data W) (vsize pv))) as [(A1 & A2 & A3)|(t & A1 & A2 & A3 & A4 & A5 & A6 & A7)].
    - unfold init_state. cbn [s_c]. replace (Model_Solver.c_lb G) with false by (symmetry; exact Hlb). apply Proofs_Near.CInv_empty.
    - exact Hlim.
    - exact Hp.
    - left. rewrite A2. split; [reflexivity|]. intros t Ht. destruct (nalw_to _ _ _ Ht) as (t' & B1 & B2 & B3). rewrite <- B2, <- B3, <- (U0_pbound T W P v Hmls Hnl Hsz). apply A3. exact B1.
    - right. rewrite A1. exists (unflip pfl t). split; [reflexivity|].
      assert (HF : forall d n t, alw T G d n pv t -> allowed ok mls d n v (unflip pfl t) /\ tcost T pv [] t = tcost T v [] (unflip pfl t) /\ nodes (unflip pfl t) = nodes t)
        by (intros d n t'; apply (palw_from T W nf clk v Hmls Hld Hnl Hsz Hleaf Hbr Hdup)).
      destruct (HF _ _ _ A4) as (B1 & B2 & B3).
      split; [exact B1|]. split; [intros U1 U2; rewrite B3; apply A5; unfold cache_used, init_state; cbn [s_c cc_use_branch cc_use_data]; rewrite U1, U2; reflexivity|].
      split; [cbn [option_map]; rewrite (train_cost T W v Hmls Hnl Hsz), B2; reflexivity|]. split.
      { pose proof (Proofs_Near.wt_tree T G pv Hmls Hpnl [] _ _ A2) as (t0 & C1 & C2 & C3). rewrite restrict_nil in C1, C2. destruct (HF _ _ _ C1) as (D1 & D2 & D3).
        exists (unflip pfl t0). split; [eapply allowed_mono; [exact D1|lia|exact A3]|congruence]. }
      split.
      + intros t' Ht'. destruct (nalw_to _ _ _ Ht') as (t'' & C1 & C2 & C3). rewrite <- C2, <- C3, <- (U0_pbound T W P v Hmls Hnl Hsz). auto.
      + rewrite <- B2. exact A7.
  Qed.

  Theorem near_fit : ((p_all P = true \/ p_nodes P = 1) -> p_nodes P <= 2 ^ p_depth P - 1) -> fr_proven R = true -> (Z0 <= p_ub P)%Z ->
    exists t, fr_tree R = Some t
      /\ allowed ok mls dm (2 ^ dm - 1) v t
      /\ option_map fst (fr_train R) = Some (tcost T v [] t)
      /\ forall t', allowed ok mls (p_depth P) (p_nodes P) v t' -> at_most (slack (p_depth P)) (tcost T v [] t) (tcost T v [] t').
  Proof.
    intros Hlim Hp Hub. pose proof (tcost_nonneg T (nt_plain T HN)) as H0.
    assert (Hb : (Z0 <= pbound T P)%Z) by (unfold pbound; lia).
    destruct (near_fit_spec Hlim Hp) as [[N1 N2]|(t & R1 & R2 & _ & R3 & (t0 & R4 & E4) & R5 & R6)].
    - exfalso. assert (Hlf : allowed ok mls (p_depth P) (p_nodes P) v (Leaf 0)) by (split; [exact Hnl|]; split; [exact Hsz|]; split; cbn; lia).
      specialize (N2 _ Hlf). pose proof (Hz v [] (Leaf 0) (le_n _) (Nat.le_0_l _)). unfold klt in N2. cbn [depth] in N2. lia.
    - exists t. split; [exact R1|]. split; [exact R2|]. split; [exact R3|]. intros t' Ht'. set (d := p_depth P) in *.
      assert (Hk : kle (S (depth t')) (nd_sol (fr_value R)) (tcost T v [] t')).
      { destruct (R5 t' Ht') as [X|X]; [|exact X]. apply klt_kle. eapply klt_mono; [apply Nat.le_succ_diag_r|apply H0|].
        eapply klt_l; [|exact X]. rewrite <- E4. pose proof (Hz v [] t0 (le_n _) (proj1 (proj2 (proj2 R4)))). lia. }
      pose proof (proj1 (proj2 (proj2 Ht'))) as Hd'. fold d in Hd'.
      apply (kle_mono (dm * S dm / 2 + S (depth t'))); [|apply H0|eapply kle_trans; [exact R6|exact Hk]].
      unfold slack. rewrite <- Nat.div_add by lia. apply Nat.div_le_mono; [lia|]. assert (dm <= d) by (unfold d; lia). nia.
  Qed.
End NearFit.
