(** Fit on the user's data: preprocessing, search, reconstruction and undoing the flips. *)
From Coq Require Import List Arith Bool Lia ZArith Sorted Permutation.
From Verif Require Import Model_FeatureVector Model_Data Model_Node Model_Cache Model_Terminal Model_Heap Model_Solver Model_Preproc
  Spec_Tree Spec_Examples Spec_Rows Proofs_View Proofs_Diff Proofs_Feature Proofs_Calc Proofs_Base Proofs_Terminal Proofs_TermState
  Proofs_Cache Proofs_Search Proofs_NonEmpty Proofs_Construct Proofs_Outer Proofs_Three Proofs_Budget Proofs_One Proofs_Heap Proofs_Preproc Proofs_Rows Proofs_Score.
Import ListNotations.
Local Open Scope nat_scope.

Section Fit.
  Context (T : task) (HT : good_task T) (W : switches) (P : params) (nf : nat) (clk : nat -> bool) (v : view) (strong : bool).
  Notation mls := (w_mls W).
  Notation cost := (tree_cost (tk_inst T)).
  Notation worst := (tk_worst T).
  Hypothesis Hmls : 1 <= mls.
  Hypothesis Hmay : forall f, f < nf -> tk_may T f = true.
  Hypothesis Hld : loaded nf v.
  Hypothesis Hc : forall x y k l, iid x = iid y -> tk_inst T x k l = tk_inst T y k l.
  Hypothesis Hw : forall k x y, iid x = iid y -> wc T k x = wc T k y.
  Hypothesis Hnl : 1 <= num_labels v.
  Hypothesis Hworst : within T v.
  Hypothesis Hsz : mls <= vsize v.

  Notation pv := (pview T mls nf v).
  Notation R := (fit T W P nf clk v).
  Notation G := (mk_cfg W nf (pdead T mls nf v) clk).
  Notation A := (solve T G P pv (init_sol T) (init_state G (w_branch W) (w_data W) (vsize pv))).
  Notation ok := (fun f => f < nf).

  Lemma fit_eq : R = mk_result T (pfl T mls nf v) pv A.
  Proof. unfold fit. rewrite (preprocess_eq T mls nf v). reflexivity. Qed.

  Lemma vsum_map_id (c : nat -> inst -> Z) g u k : (forall x, In x (concat u) -> iid (g x) = iid x) -> (forall j x y, iid x = iid y -> c j x = c j y) ->
    vsum_from c k (map (map g) u) = vsum_from c k u.
  Proof.
    intros Hg Hw'. revert k. induction u as [|xs u IH]; intro k; [reflexivity|]. cbn [map vsum_from concat] in *.
    rewrite IH, map_map by (intros x Hx; apply Hg, in_or_app; right; exact Hx). f_equal. f_equal.
    apply map_ext_in. intros x Hx. apply Hw'. apply Hg, in_or_app. left. exact Hx.
  Qed.
  Lemma pview_worst : within T pv.
  Proof.
    assert (Hg : forall x, In x (concat v) -> iid (pg T mls nf v x) = iid x) by (intros x Hx; apply (pg_spec T mls nf v Hld x Hx)).
    assert (E : vsum (wc T) pv = vsum (wc T) v) by (unfold vsum, pview; apply vsum_map_id; [exact Hg|intros j x y; apply Hw]).
    constructor; [rewrite E; apply Hworst|rewrite E; apply Hworst|]. intros k x l Hx. unfold pview in Hx.
    change (@nil inst) with (map (pg T mls nf v) []) in Hx. rewrite map_nth in Hx. apply in_map_iff in Hx. destruct Hx as (y & <- & Hy).
    assert (Hy' : iid (pg T mls nf v y) = iid y).
    { apply Hg. apply in_concat. exists (nth k v []). split; [|exact Hy]. destruct (Nat.lt_ge_cases k (length v)); [apply nth_In; assumption|].
      rewrite nth_overflow in Hy by assumption. destruct Hy. }
    rewrite (Hc _ _ k l Hy'), (Hw k _ _ Hy'). apply (wi_inst _ _ Hworst). exact Hy.
  Qed.
  Lemma pview_nl : 1 <= num_labels pv.
  Proof. rewrite pview_labels. exact Hnl. Qed.
  Lemma pview_sz : mls <= vsize pv.
  Proof. rewrite pview_size. exact Hsz. Qed.

  Lemma cfg_order u f : In f (c_order G u) <-> f < nf.
  Proof.
    cbn [mk_cfg c_order]. destruct (w_gini W).
    - rewrite (Permutation_in' eq_refl (order_gini_perm nf u)). rewrite in_seq. lia.
    - unfold order_in. rewrite in_seq. lia.
  Qed.

  Lemma init_SInv st0 : SInv T G pv (vsize pv) st0 (init_state G (w_branch W) (w_data W) (vsize pv)).
  Proof. split; [apply Inv_empty|]. intros d u b Hin. destruct Hin. Qed.
  Lemma init_K : K T pv (vsize pv) (init_state G (w_branch W) (w_data W) (vsize pv)).
  Proof. split; [apply Inv_empty|]. intros d u b Hin. destruct Hin. Qed.

  Lemma alw_from d n t : alw T G d n pv t -> allowed ok mls d n v (unflip (pfl T mls nf v) t)
    /\ cost pv t = cost v (unflip (pfl T mls nf v) t) /\ nodes (unflip (pfl T mls nf v) t) = nodes t.
  Proof. intro H. exact (allowed_from T mls nf v Hmls Hld Hc d n t H). Qed.
  Lemma alw_to d n t : allowed ok mls d n v t -> exists t', alw T G d n pv t' /\ cost pv t' = cost v t.
  Proof. intro H. exact (allowed_to T mls nf v Hmls Hmay Hld Hc d n t H). Qed.

  (** The user's budgets as the parameter check leaves them (solver_parameters). *)
  Definition lim : Prop := (p_all P = true \/ p_nodes P = 1) -> p_nodes P <= 2 ^ p_depth P - 1.
  Definition bound : Z := Z.min worst (p_ub P).

  Lemma U0_bound : U0 T P = bound.
  Proof.
    unfold U0, bound, add_sol, init_sol, value_node. cbn [nd_sol]. destruct (p_ub P <? worst)%Z eqn:E; cbn [nd_sol];
      [apply Z.ltb_lt in E|apply Z.ltb_ge in E]; lia.
  Qed.

  (** What the switches must satisfy for the optimality part. *)
  Definition exact_switches : Prop :=
    (w_sim W = true -> mls = 1)
    /\ (w_term W = true -> mls = 1 /\ (w_ub W = true \/ p_depth P <= 3 \/ p_nodes P = 1)
                           /\ (p_nodes P = 1 \/ (p_all P = false /\ p_nodes P = 2 ^ p_depth P - 1))).

  Definition fit_post (tree_part : Prop) : Prop :=
    (fr_tree R = None /\ (strong = true -> forall t, allowed ok mls (p_depth P) (p_nodes P) v t -> (bound < cost v t)%Z))
    \/ (exists t, fr_tree R = Some t
        /\ allowed ok mls (Nat.min (p_depth P) (p_nodes P)) (2 ^ Nat.min (p_depth P) (p_nodes P) - 1) v t
        /\ (w_branch W = false -> w_data W = false -> nodes t <= p_nodes P)
        /\ fr_train R = Some (cost v t, visits t (concat v))
        /\ (exists t0, allowed ok mls (p_depth P) (p_nodes P) v t0 /\ cost v t0 = nd_sol (fr_value R))
        /\ (strong = true -> forall t', allowed ok mls (p_depth P) (p_nodes P) v t' -> (bound < cost v t')%Z \/ (nd_sol (fr_value R) <= cost v t')%Z)
        /\ (strong = true -> tree_part -> (cost v t <= nd_sol (fr_value R))%Z)).

  Lemma fit_conv (tp : Prop) :
    (a_sol A = init_sol T /\ a_tree A = None
       /\ (strong = true -> forall t, alw T G (p_depth P) (p_nodes P) pv t -> (U0 T P < cost pv t)%Z))
    \/ (exists t, a_tree A = Some t /\ wit T G pv (p_depth P) (a_sol A) /\ num_nodes (a_sol A) <= p_nodes P
       /\ alw T G (Nat.min (p_depth P) (p_nodes P)) (2 ^ Nat.min (p_depth P) (p_nodes P) - 1) pv t
       /\ (w_branch W || w_data W = false -> nodes t <= p_nodes P)
       /\ (strong = true -> forall t', alw T G (p_depth P) (p_nodes P) pv t' -> (U0 T P < cost pv t')%Z \/ (nd_sol (a_sol A) <= cost pv t')%Z)
       /\ (strong = true -> tp -> (cost pv t <= nd_sol (a_sol A))%Z)) ->
    fit_post tp.
  Proof.
    intros [(H1 & H2 & H3)|(t & H1 & H2 & H3 & H4 & H4' & H5 & H6)]; unfold fit_post; rewrite fit_eq; cbn [mk_result fr_tree fr_value fr_train].
    - left. rewrite H2. split; [reflexivity|]. intros Hs t Ht. destruct (alw_to _ _ _ Ht) as (t' & A1 & A2).
      rewrite <- A2, <- U0_bound. auto.
    - right. rewrite H1. exists (unflip (pfl T mls nf v) t). split; [reflexivity|]. destruct (alw_from _ _ _ H4) as (B1 & B2 & B3).
      split; [exact B1|]. split; [intros U1 U2; rewrite B3; apply H4'; rewrite U1, U2; reflexivity|]. split.
      { rewrite (train_score_spec T HT), B2. rewrite (visits_pview T mls nf v Hmls Hld _ _ _ H4). reflexivity. }
      split.
      { destruct (wit_tree T G _ _ _ H2) as (t0 & C1 & C2). destruct (alw_from _ _ _ C1) as (D1 & D2 & D3).
        exists (unflip (pfl T mls nf v) t0). split; [eapply allowed_mono; [exact D1|lia|exact H3]|congruence]. }
      split.
      + intros Hs t' Ht'. destruct (alw_to _ _ _ Ht') as (t'' & A1 & A2). rewrite <- A2, <- U0_bound. auto.
      + intros Hs Htp. rewrite <- B2. auto.
  Qed.

  Theorem fit_spec : lim -> (strong = true -> fr_proven R = true) -> (strong = true -> exact_switches) ->
    fit_post (w_term W = true -> p_depth P <= 3 \/ p_nodes P = 1).
  Proof.
    intros Hlim Hp Hex. apply fit_conv. rewrite fit_eq in Hp. cbn [mk_result fr_proven] in Hp.
    assert (Hred : forall f x, c_redundant G f = true -> In x (concat pv) -> has f x = false).
    { intros f x Hf Hx. apply (pview_red T mls nf v Hmls Hld f x Hf Hx). }
    assert (Hids := pview_ids T mls nf v Hld). assert (Hso := pview_sorted T mls nf v Hld). assert (Hwf := pview_wf T mls nf v Hld).
    destruct (Nat.eq_dec (p_nodes P) 1) as [H1|H1].
    { destruct (w_term W && strong) eqn:Ets.
      - apply andb_true_iff in Ets. destruct Ets as [Et Es]. destruct strong; [|discriminate]. destruct (Hex eq_refl) as [X1 X2]. destruct (X2 Et) as (X3 & X4 & _).
        assert (Hd1 : 1 <= p_depth P).
        { specialize (Hlim (or_intror H1)). destruct (p_depth P); [cbn in Hlim; lia|lia]. }
        destruct (solve_one_spec T G HT pv (vsize pv) P Hids Hso Hwf Hmls pview_worst pview_nl (fun _ => X1) (fun _ _ => X3) Et pview_sz
                    _ (init_SInv true) init_K H1 Hd1 (Hp eq_refl)) as [(A1 & A2 & A3)|(t & A1 & A2 & A3 & A4 & A5)].
        + left. auto.
        + right. exists t. split; [exact A1|]. split; [eapply wit_mono; [exact A2|lia]|]. split.
          { unfold wit in A2. unfold num_nodes. destruct (nd_feat _) as [f|]; [|lia]. destruct A2 as (_ & _ & B1 & B2 & _). change (2 ^ (1 - 1) - 1) with 0 in B1, B2. lia. }
          split; [|split; [|auto]]; [|intros _; destruct A3 as (_ & _ & _ & A3); lia].
          eapply allowed_mono; [exact A3|lia|]. replace (Nat.min (p_depth P) (p_nodes P)) with 1 by lia. cbn. lia.
      - assert (Hns : strong = true -> w_term W = false) by (intro Hs; rewrite Hs, andb_true_r in Ets; exact Ets).
        destruct (solve_spec T G HT pv (vsize pv) strong P Hids Hso Hwf Hred Hmls cfg_order pview_worst pview_nl
                    ltac:(intros Hs; apply (Hex Hs)) ltac:(intros Hs Hx; cbn [mk_cfg c_term] in Hx; rewrite (Hns Hs) in Hx; discriminate)
                    (fun _ => Hmay) pview_sz _ (init_SInv strong) init_K Hlim
                    ltac:(intros Hs Hx; cbn [mk_cfg c_term] in Hx; rewrite (Hns Hs) in Hx; discriminate) Hp)
          as [(A1 & A2 & A3)|(t & A1 & A2 & A3 & A4 & A4' & A5 & A6)]; [left; auto|right].
        exists t. repeat (split; [assumption|]). intros Hs _. apply A6; [exact Hs|]. intro Hx. cbn [mk_cfg c_term] in Hx. rewrite (Hns Hs) in Hx. discriminate. }
    assert (Hthree : p_depth P = 3 -> w_term W = true -> strong = true -> forall t, a_tree A = Some t -> (cost pv t <= nd_sol (a_sol A))%Z).
    { intros Hd Et Hs t Ht. destruct (Hex Hs) as [X1 X2]. destruct (X2 Et) as (X3 & X4 & [X5|[X5 X6]]); [contradiction|]. rewrite Hd in X6.
      apply (solve_three T G HT pv (vsize pv) Hids Hso Hwf Hred Hmls cfg_order pview_worst pview_nl Et X3 Hmay P (w_branch W) (w_data W) (Model_Solver.c_lb G)
               (init_state G (w_branch W) (w_data W) (vsize pv)) t); try assumption; [exact pview_sz|apply init_SInv|exact init_K|reflexivity|reflexivity]. }
    destruct (strong && w_term W && negb (w_ub W) && (p_depth P =? 3)) eqn:Esp.
    - rewrite !andb_true_iff, negb_true_iff, Nat.eqb_eq in Esp. destruct Esp as [[[Hs Et] Eu] Hd3]. destruct (Hex Hs) as [X1 X2]. destruct (X2 Et) as (X3 & _ & [X5|[X5 X6]]); [contradiction|].
      pose proof X6 as X6'. rewrite Hd3 in X6'.
      pose proof (solve_three_value T G HT pv (vsize pv) P Hids Hso Hwf Hred Hmls cfg_order pview_worst pview_nl X1 X3 Et Eu pview_sz _ (init_SInv true) init_K Hd3 X6' X5 (Hp Hs)) as HV.
      destruct (solve_spec T G HT pv (vsize pv) false P Hids Hso Hwf Hred Hmls cfg_order pview_worst pview_nl (ff _) (ff _)
                (fun _ => Hmay) pview_sz _ (init_SInv false) init_K Hlim (ff _) (ff _)) as [(A1 & A2 & _)|(t & A1 & A2 & A3 & A4 & A4' & _ & _)].
      + left. split; [exact A1|]. split; [exact A2|]. intros _ t Ht. rewrite X6, Hd3 in Ht. destruct (HV t Ht) as [?|[B _]]; [assumption|].
        rewrite A1 in B. discriminate.
      + right. exists t. repeat (split; [assumption|]). split.
        * intros _ t' Ht'. rewrite X6, Hd3 in Ht'. destruct (HV t' Ht') as [?|[_ ?]]; auto.
        * intros _ _. apply Hthree; assumption.
    - destruct (solve_spec T G HT pv (vsize pv) strong P Hids Hso Hwf Hred Hmls cfg_order pview_worst pview_nl
                ltac:(intros Hs; apply (Hex Hs)) ltac:(intros Hs Hx; destruct (Hex Hs) as [_ X]; apply (X Hx))
                (fun _ => Hmay) pview_sz _ (init_SInv strong) init_K Hlim) as [(A1 & A2 & A3)|(t & A1 & A2 & A3 & A4 & A4' & A5 & A6)].
      + intros Hs Hx. destruct (Hex Hs) as [_ X]. destruct (X Hx) as (_ & X0 & [X3|[X3 X4]]); [contradiction|]. split; [exact X3|]. split; [exact X4|].
        split. { intro E. rewrite E in X4. cbn in X4. contradiction. }
        cbn [mk_cfg c_term] in Hx. cbn [mk_cfg c_ub]. destruct (w_ub W); [auto|right]. destruct X0 as [X0|[X0|X0]]; [discriminate| |contradiction].
        rewrite Hs, Hx in Esp. cbn [andb negb] in Esp. apply Nat.eqb_neq in Esp. lia.
      + exact Hp.
      + left. auto.
      + right. exists t. repeat (split; [assumption|]). intros Hs Htp.
        destruct (w_term W) eqn:Et; [|apply A6; [exact Hs|]; cbn [mk_cfg c_term]; congruence].
        destruct (Htp eq_refl) as [Hd|Hd]; [|contradiction]. destruct (Nat.eq_dec (p_depth P) 3) as [E3|E3]; [apply Hthree; auto|]. apply A6; [exact Hs|lia].
  Qed.

  (** The node budget with the data set cache, up to depth three. *)
  Lemma unflip_nodes fl t : nodes (unflip fl t) = nodes t.
  Proof. induction t as [l|f l IHl r IHr]; [reflexivity|]. cbn [unflip]. destruct (fl f); cbn [nodes]; lia. Qed.
  Theorem fit_budget t : lim -> w_branch W = false -> w_data W = true -> p_depth P <= 3 -> fr_tree R = Some t -> nodes t <= p_nodes P.
  Proof.
    intros Hlim Hb Hda Hd. rewrite fit_eq. cbn [mk_result fr_tree]. intro H.
    assert (Hred : forall f x, c_redundant G f = true -> In x (concat pv) -> has f x = false).
    { intros f x Hf Hx. apply (pview_red T mls nf v Hmls Hld f x Hf Hx). }
    destruct (a_tree A) as [t0|] eqn:E; [|discriminate]. injection H as <-. rewrite unflip_nodes.
    eapply (solve_budget T G HT pv (vsize pv)); try eassumption.
    - exact (pview_ids T mls nf v Hld).
    - exact (pview_sorted T mls nf v Hld).
    - exact (pview_wf T mls nf v Hld).
    - exact cfg_order.
    - exact pview_worst.
    - exact pview_nl.
    - intros _. exact Hmay.
    - exact pview_sz.
    - apply init_SInv.
    - exact init_K.
    - rewrite Hb, Hda. reflexivity.
  Qed.
End Fit.
