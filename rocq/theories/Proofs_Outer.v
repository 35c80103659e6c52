(** Solve: the loop over the budgets, the choice of the depth and the reconstruction. *)
From Coq Require Import List Arith Bool Lia ZArith.
From Verif Require Import Model_FeatureVector Model_Data Model_Node Model_Cache Model_Terminal Model_Solver
  Spec_Tree Proofs_View Proofs_Diff Proofs_Feature Proofs_Calc Proofs_Base Proofs_Terminal Proofs_TermState Proofs_Cache
  Proofs_Search Proofs_NonEmpty Proofs_Construct Proofs_Keep.
Import ListNotations.
Local Open Scope nat_scope.

Lemma opt_nat_eqb_eq a b : opt_nat_eqb a b = true -> a = b.
Proof. destruct a, b; cbn; intro H; try discriminate; [apply Nat.eqb_eq in H; congruence|reflexivity]. Qed.
Lemma node_eqb_eq a b : node_eqb a b = true -> a = b.
Proof.
  unfold node_eqb. rewrite !andb_true_iff. intros ((((H1 & H2) & H3) & H4) & H5).
  apply opt_nat_eqb_eq in H1, H2. apply Z.eqb_eq in H3. apply Nat.eqb_eq in H4, H5.
  destruct a, b; cbn in *; congruence.
Qed.

Lemma Inv_impl N root (E E' : view -> entry -> Prop) c :
  (forall v e, E v e -> E' v e) -> Inv N root E c -> Inv N root E' c.
Proof.
  intros H (H1 & H2 & H3). split; [exact H1|]. split; intro b; (eapply Forall_impl; [|auto]); intros e; apply H.
Qed.

Lemma SInv_weaken T G root N (a b : bool) s : (b = true -> a = true) -> SInv T G root N a s -> SInv T G root N b s.
Proof.
  intros Hab [H1 H2]. split; [|exact H2]. eapply Inv_impl; [|exact H1]. intros v e [A1 A2]. split.
  - intro Ho. destruct (A1 Ho) as (B1 & B2 & B3). split; [exact B1|]. split; [exact B2|]. intro Hb. apply B3. auto.
  - intro Hb. apply A2. auto.
Qed.

Section Outer.
  Context (T : task) (G : cfg) (HT : good_task T) (root : view) (N : nat) (strong : bool) (P : params).
  Notation nf := (c_nf G).
  Notation mls := (c_mls G).
  Notation cost := (tree_cost (tk_inst T)).
  Notation worst := (tk_worst T).
  Hypothesis Hids : ids_ok N root.
  Hypothesis Hsorted : view_sorted root.
  Hypothesis Hwf : wf_view nf root.
  Hypothesis Hred : forall f x, c_redundant G f = true -> In x (concat root) -> has f x = false.
  Hypothesis Hmls : 1 <= mls.
  Hypothesis Horder : forall v f, In f (c_order G v) <-> f < nf.
  Hypothesis Hworst : within T root.
  Hypothesis Hnl : 1 <= num_labels root.
  Hypothesis Hsim : strong = true -> c_sim G = true -> mls = 1.
  Hypothesis Hterm : strong = true -> c_term G = true -> mls = 1.
  Hypothesis Hmay : c_term G = true -> forall f, f < nf -> tk_may T f = true.
  Hypothesis Hsz : mls <= vsize root.

  Notation SI := (SInv T G root N strong).
  Notation KK := (K T root N).
  Definition U0 : Z := nd_sol (add_sol (init_sol T) (value_node (p_ub P))).

  Definition OI (cur M : nat) (cov : tree -> Prop) (Q : outer) : Prop :=
    SI (o_st Q) /\ KK (o_st Q) /\ (nd_sol (o_ub Q) <= worst)%Z
    /\ (o_res Q = init_sol T \/ (wit T G root cur (o_res Q) /\ num_nodes (o_res Q) <= M))
    /\ (strong = true -> if is_empty (o_res Q) then nd_sol (o_ub Q) = U0
                         else (Z.min (nd_sol (o_res Q) - tk_mindiff T) U0 <= nd_sol (o_ub Q))%Z)
    /\ (strong = true -> forall t, cov t -> (U0 < cost root t)%Z \/ (is_empty (o_res Q) = false /\ (nd_sol (o_res Q) <= cost root t)%Z)).

  Lemma root_lt t : (cost root t < worst)%Z.
  Proof. rewrite <- (restrict_nil root) at 1. apply cost_lt_worst; assumption. Qed.
  Lemma wit_sol_lt d r : wit T G root d r -> (nd_sol r < worst)%Z.
  Proof. intro H. apply wit_tree in H. destruct H as (t & _ & <-). apply root_lt. Qed.

  Lemma time_late s ok s' : in_time G s = (ok, s') -> s_on s = true -> ok = negb (s_late s').
  Proof. unfold in_time. intros H Ho. rewrite Ho in H. injection H as <- <-. reflexivity. Qed.

  (** One call of the search from the outer loop. *)
  Lemma step_core cur M cov Q d n sol s s' gub' :
    OI cur M cov Q -> cur <= d -> d <= n <= 2 ^ d - 1 -> n <= M -> full G strong d n ->
    solve_sub T G (S d) root [] (o_ub Q) d n (o_st Q) = (sol, s) ->
    s_c s' = s_c s -> s_ar s' = s_ar s -> timely strong s ->
    (nd_sol (add_sol (o_res Q) sol) = worst -> gub' = add_sol (o_ub Q) sol) ->
    (nd_sol (add_sol (o_res Q) sol) <> worst -> (nd_sol gub' <= worst)%Z /\
       (Z.min (nd_sol (add_sol (o_res Q) sol) - tk_mindiff T) (nd_sol (add_sol (o_ub Q) sol)) <= nd_sol gub')%Z) ->
    OI d M (fun t => cov t \/ alw T G d n root t) (Outer (add_sol (o_res Q) sol) gub' s' d).
  Proof.
    intros (H1 & H2 & H3 & H4 & H5 & H6) Hcur Hn HM Hfull E1 Ec Ea Ht Hg1 Hg2.
    rewrite <- (restrict_nil root) in E1 at 1.
    assert (Hsz' : mls <= vsize (restrict [] root)) by (rewrite restrict_nil; exact Hsz).
    destruct (solve_sub_contract T G HT root N strong Hids Hsorted Hwf Hred Hmls Horder Hworst Hnl Hsim Hterm (S d)
                [] (o_ub Q) d n (o_st Q) sol s ltac:(lia) Hsz' Hn Hfull H1 E1 Ht) as [A1 A2].
    destruct (solve_sub_nonempty T G HT root N Hids Hsorted Hwf Hmls Hworst Hnl (S d) [] (o_ub Q) d n (o_st Q) sol s
                ltac:(lia) Hsz' H2 H3 E1) as (B1 & _ & _).
    rewrite restrict_nil in A2.
    assert (W0 : o_res Q = init_sol T \/ wit T G root d (o_res Q) /\ num_nodes (o_res Q) <= M).
    { destruct H4 as [H4|[H4 H4']]; [auto|right]. split; [|exact H4']. eapply wit_mono; [exact H4|]. lia. }
    assert (W : add_sol (o_res Q) sol = init_sol T \/ (wit T G root d (add_sol (o_res Q) sol) /\ num_nodes (add_sol (o_res Q) sol) <= M)).
    { destruct (add_sol_either (o_res Q) sol) as [-> | ->]; [exact W0|].
      destruct A2 as [[-> _]|(A2 & A3 & _)]; [auto|right; split; [exact A2|lia]]. }
    assert (WE : is_empty (add_sol (o_res Q) sol) = true <-> nd_sol (add_sol (o_res Q) sol) = worst).
    { destruct W as [-> | [W _]]; [split; reflexivity|]. pose proof (wit_sol_lt _ _ W). rewrite (wit_nonempty _ _ _ _ _ W).
      split; [discriminate|lia]. }
    assert (Hle : (nd_sol (add_sol (o_res Q) sol) <= nd_sol (o_res Q))%Z /\ (nd_sol (add_sol (o_res Q) sol) <= nd_sol sol)%Z).
    { unfold add_sol. destruct (nd_sol sol <? nd_sol (o_res Q))%Z eqn:El; [apply Z.ltb_lt in El|apply Z.ltb_ge in El]; lia. }
    assert (Hne : is_empty (add_sol (o_res Q) sol) = true -> is_empty (o_res Q) = true /\ sol = init_sol T).
    { intro He. apply WE in He. split.
      - destruct H4 as [-> | [H4 _]]; [reflexivity|]. pose proof (wit_sol_lt _ _ H4). lia.
      - destruct A2 as [[-> _]|[A2 _]]; [reflexivity|]. pose proof (wit_sol_lt _ _ A2). lia. }
    assert (Hgle : (nd_sol (add_sol (o_ub Q) sol) <= nd_sol (o_ub Q))%Z) by apply add_sol_le.
    unfold OI. cbn [o_st o_res o_ub].
    split; [eapply SInv_c; eassumption|]. split; [eapply K_c; eassumption|].
    split. { destruct (Z.eq_dec (nd_sol (add_sol (o_res Q) sol)) worst) as [Ew|Ew]; [rewrite (Hg1 Ew); lia|apply Hg2; exact Ew]. }
    split; [exact W|]. split.
    - intro Hs. specialize (H5 Hs). destruct (is_empty (add_sol (o_res Q) sol)) eqn:Ee.
      + destruct (Hne eq_refl) as [E0 ->]. rewrite E0 in H5. rewrite Hg1 by (apply WE; reflexivity).
        unfold add_sol. cbn [init_sol value_node nd_sol]. destruct (worst <? nd_sol (o_ub Q))%Z eqn:El; [apply Z.ltb_lt in El; lia|apply H5].
      + destruct Hg2 as [_ Hg2]; [intro Hw; apply WE in Hw; congruence|].
        pose proof (gt_md T HT) as Hmd.
        assert (Z.min (nd_sol (add_sol (o_res Q) sol) - tk_mindiff T) U0 <= nd_sol (o_ub Q))%Z.
        { destruct (is_empty (o_res Q)); [rewrite H5; lia|]. lia. }
        revert Hg2. unfold add_sol at 2. destruct (nd_sol sol <? nd_sol (o_ub Q))%Z; lia.
    - intros Hs t Ht'. specialize (H5 Hs). pose proof (gt_md T HT) as Hmd.
      destruct Ht' as [Ht'|Ht'].
      + destruct (H6 Hs t Ht') as [?|[C1 C2]]; [auto|right]. split; [|lia].
        destruct (is_empty (add_sol (o_res Q) sol)); [destruct (Hne eq_refl); congruence|reflexivity].
      + destruct A2 as [[-> A2]|(A2 & _ & A3)].
        * destruct (A2 Hs) as [_ A3]. specialize (A3 t Ht'). destruct (is_empty (o_res Q)) eqn:E0; [left; lia|].
          destruct (Z.min_spec (nd_sol (o_res Q) - tk_mindiff T) U0) as [[_ Hm]|[_ Hm]]; rewrite Hm in H5; [|left; lia].
          right. split; [|lia]. destruct (is_empty (add_sol (o_res Q) (init_sol T))); [destruct (Hne eq_refl); congruence|reflexivity].
        * right. specialize (A3 Hs t Ht'). split; [|lia].
          destruct (is_empty (add_sol (o_res Q) sol)); [|reflexivity]. destruct (Hne eq_refl) as [_ ->]. apply wit_nonempty in A2. discriminate.
  Qed.

  Lemma on_time s ok s' : in_time G s = (ok, s') -> s_on s = true -> s_on s' = true /\ s_c s' = s_c s /\ s_ar s' = s_ar s /\ (ok = true -> s_late s' = false)
     /\ (ok = false -> s_late s' = true) /\ (s_late s = true -> s_late s' = true).
  Proof.
    unfold in_time. intros H Ho. rewrite Ho in H. injection H as <- <-. cbn [s_on s_c s_ar s_late].
    repeat split; try reflexivity; [apply negb_true_iff|apply negb_false_iff|intros ->; reflexivity].
  Qed.

  Lemma sub_frame d n ub s r s' : solve_sub T G (S d) root [] ub d n s = (r, s') -> s_on s = true -> s_on s' = true /\ (s_late s = true -> s_late s' = true).
  Proof.
    intros He Ho. pose proof (solve_sub_frame T G HT root strong Hmls Hnl Hsim Hterm (S d) root [] ub d n s ltac:(lia)) as F.
    rewrite He in F. cbn [snd] in F. destruct F as (F1 & F2 & _). split; [congruence|exact F2].
  Qed.

  Lemma depth_step_spec cur M cov Q d Q' ok :
    OI cur M cov Q -> s_on (o_st Q) = true -> cur <= d -> d <= p_nodes P -> p_nodes P <= M -> full G strong d (Nat.min (p_nodes P) (2 ^ d - 1)) ->
    depth_step T G P root Q d = (Q', ok) -> 
    s_on (o_st Q') = true /\ (s_late (o_st Q) = true -> s_late (o_st Q') = true) /\ o_mds Q' = d /\ (ok = false -> s_late (o_st Q') = true)
    /\ (timely strong (o_st Q') -> OI d M (fun t => cov t \/ alw T G d (Nat.min (p_nodes P) (2 ^ d - 1)) root t) Q').
  Proof.
    intros HO Hon Hcur Hd HM Hfull. unfold depth_step. set (n := Nat.min (p_nodes P) (2 ^ d - 1)) in *.
    destruct (solve_sub T G (S d) root [] (o_ub Q) d n (o_st Q)) as [sol s] eqn:E1.
    destruct (in_time G (set_mdf s d)) as [ok' s1] eqn:E2. intro H. injection H as <- <-. cbn [o_st o_mds].
    destruct (sub_frame _ _ _ _ _ _ E1 Hon) as [F1 F2].
    destruct (on_time _ _ _ E2 F1) as (T1 & T2 & T3 & T4 & T5 & T6). cbn [set_mdf s_c s_ar s_late] in T2, T3, T6.
    split; [exact T1|]. split; [auto|]. split; [reflexivity|]. split; [exact T5|]. intro Ht.
    pose proof (Nat.pow_gt_lin_r 2 d ltac:(lia)) as Hp.
    eapply step_core with (n := n); try eassumption; try (unfold n; lia).
    - intro Hs. specialize (Ht Hs). destruct (s_late s); [|reflexivity]. rewrite T6 in Ht by reflexivity. discriminate.
    - intros ->. rewrite Z.eqb_refl. reflexivity.
    - intro Hw. apply Z.eqb_neq in Hw. rewrite Hw. cbn [nd_sol].
      pose proof HO as (_ & _ & H3 & _). pose proof (add_sol_le (o_ub Q) sol). lia.
  Qed.

  Lemma nodes_step_spec cur M cov Q n Q' ok :
    OI cur M cov Q -> s_on (o_st Q) = true -> cur <= Nat.min (p_depth P) n -> n <= 2 ^ Nat.min (p_depth P) n - 1 -> n <= M -> full G strong (Nat.min (p_depth P) n) n ->
    nodes_step T G P root Q n = (Q', ok) -> o_res Q' = o_res Q /\ o_mds Q' = o_mds Q /\ s_on (o_st Q') = true /\ s_late (o_st Q') = true /\ ok = false
       /\ s_c (o_st Q') = s_c (o_st Q) /\ s_ar (o_st Q') = s_ar (o_st Q) /\ o_ub Q' = o_ub Q \/
    s_on (o_st Q') = true /\ (s_late (o_st Q) = true -> s_late (o_st Q') = true) /\ o_mds Q' = Nat.min (p_depth P) n /\ (ok = false -> s_late (o_st Q') = true)
    /\ (timely strong (o_st Q') -> OI (Nat.min (p_depth P) n) M (fun t => cov t \/ alw T G (Nat.min (p_depth P) n) n root t) Q').
  Proof.
    intros HO Hon Hcur Hn HM Hfull. unfold nodes_step. set (d := Nat.min (p_depth P) n) in *.
    destruct (in_time G (o_st Q)) as [ok0 s0] eqn:E0. destruct (on_time _ _ _ E0 Hon) as (S1 & S2 & S3 & S4 & S5 & S6).
    destruct ok0; cbn [negb].
    2:{ intro H. injection H as <- <-. left. cbn [o_res o_mds o_st o_ub]. repeat split; auto. }
    destruct (solve_sub T G (S d) root [] (o_ub Q) d n s0) as [sol s] eqn:E1.
    cbv zeta. destruct (in_time G (set_mdf s (int_log2 (n + 1)))) as [ok' s1] eqn:E2. intro H. injection H as <- <-. cbn [o_st o_mds]. right.
    destruct (sub_frame _ _ _ _ _ _ E1 S1) as [F1 F2].
    destruct (on_time _ _ _ E2 F1) as (T1 & T2 & T3 & T4 & T5 & T6). cbn [set_mdf s_c s_ar s_late] in T2, T3, T6.
    split; [exact T1|]. split; [auto|]. split; [reflexivity|]. split; [exact T5|]. intro Ht.
    assert (HO' : OI cur M cov (Outer (o_res Q) (o_ub Q) s0 (o_mds Q))).
    { destruct HO as (A1 & A2 & A3). split; [eapply SInv_c; eassumption|]. split; [eapply K_c; eassumption|exact A3]. }
    change (o_res Q) with (o_res (Outer (o_res Q) (o_ub Q) s0 (o_mds Q))).
    eapply step_core with (n := n); try eassumption; cbn [o_res o_ub o_st]; try assumption.
    - unfold d in *. lia.
    - intro Hs. specialize (Ht Hs). destruct (s_late s); [|reflexivity]. rewrite T6 in Ht by reflexivity. discriminate.
    - intros ->. rewrite Z.eqb_refl. reflexivity.
    - intro Hw. apply Z.eqb_neq in Hw. rewrite Hw. cbn [nd_sol].
      pose proof HO as (_ & _ & H3 & H4 & _). pose proof (gt_md T HT). pose proof (add_sol_le (o_res Q) sol).
      assert (nd_sol (o_res Q) <= worst)%Z by (destruct H4 as [-> | [H4 _]]; [cbn; lia|apply wit_sol_lt in H4; lia]). lia.
  Qed.

  Lemma depth_loop M len : forall d0 cur cov Q,
    OI cur M cov Q -> s_on (o_st Q) = true -> cur <= d0 -> d0 + len <= p_nodes P -> p_nodes P <= M ->
    (forall d, d0 <= d <= d0 + len -> full G strong d (Nat.min (p_nodes P) (2 ^ d - 1))) ->
    let Q' := outer_loop (depth_step T G P root) Q (seq d0 (S len)) in
    s_on (o_st Q') = true /\ o_mds Q' <= d0 + len
    /\ (timely strong (o_st Q') -> exists cov', OI (o_mds Q') M cov' Q'
         /\ (strong = true -> forall t, alw T G (d0 + len) (Nat.min (p_nodes P) (2 ^ (d0 + len) - 1)) root t -> cov' t)).
  Proof.
    induction len as [|len IH]; intros d0 cur cov Q HO Hon Hc Hd HM Hf; rewrite <- cons_seq; cbn [outer_loop].
    - destruct (depth_step T G P root Q d0) as [Q1 ok] eqn:E1.
      destruct (depth_step_spec _ _ _ _ _ _ _ HO Hon Hc ltac:(lia) HM (Hf d0 ltac:(lia)) E1) as (A1 & _ & A3 & _ & A5).
      assert (Hx : (if ok then outer_loop (depth_step T G P root) Q1 (seq (S d0) 0) else Q1) = Q1) by (destruct ok; reflexivity).
      rewrite Hx. split; [exact A1|]. rewrite A3, !Nat.add_0_r. split; [lia|]. intro Ht.
      eexists. split; [apply A5; exact Ht|]. intros _ t Hy. right. exact Hy.
    - destruct (depth_step T G P root Q d0) as [Q1 ok] eqn:E1.
      destruct (depth_step_spec _ _ _ _ _ _ _ HO Hon Hc ltac:(lia) HM (Hf d0 ltac:(lia)) E1) as (A1 & A2 & A3 & A4 & A5).
      destruct ok.
      + destruct (s_late (o_st Q1)) eqn:El.
        * (* cannot happen, but the loop still keeps the clock late *)
          revert El. unfold depth_step in E1.
          destruct (solve_sub T G (S d0) root [] (o_ub Q) d0 (Nat.min (p_nodes P) (2 ^ d0 - 1)) (o_st Q)) as [sol s] eqn:Es.
          destruct (in_time G (set_mdf s d0)) as [ok' s1] eqn:E2. injection E1 as <- ->. cbn [o_st].
          destruct (sub_frame _ _ _ _ _ _ Es Hon) as [F1 F2].
          destruct (on_time _ _ _ E2 F1) as (_ & _ & _ & T4 & _). rewrite (T4 eq_refl). discriminate.
        * assert (Ht1 : timely strong (o_st Q1)) by (intros _; exact El).
          destruct (IH (S d0) d0 _ Q1 (A5 Ht1) A1 ltac:(lia) ltac:(lia) HM ltac:(intros; apply Hf; lia)) as (B1 & B2 & B3).
          replace (d0 + S len) with (S d0 + len) by lia. auto.
      + split; [exact A1|]. rewrite A3. split; [lia|]. intro Ht. eexists. split; [apply A5; exact Ht|].
        intro Hs. specialize (Ht Hs). rewrite A4 in Ht by reflexivity. discriminate.
  Qed.

  Lemma nodes_loop M len : forall n0 cur cov Q,
    OI cur M cov Q -> s_on (o_st Q) = true -> cur <= Nat.min (p_depth P) n0 -> cur <= o_mds Q <= p_depth P -> 1 <= n0 ->
    n0 + len <= 2 ^ p_depth P - 1 -> n0 + len <= M ->
    (forall n, n0 <= n <= n0 + len -> full G strong (Nat.min (p_depth P) n) n) ->
    let Q' := outer_loop (nodes_step T G P root) Q (seq n0 (S len)) in
    s_on (o_st Q') = true /\ o_mds Q' <= p_depth P
    /\ (timely strong (o_st Q') -> exists cur' cov', cur' <= o_mds Q' /\ OI cur' M cov' Q'
         /\ (strong = true -> forall t, alw T G (Nat.min (p_depth P) (n0 + len)) (n0 + len) root t -> cov' t)).
  Proof.
    assert (Hpow : forall n, n <= 2 ^ p_depth P - 1 -> n <= 2 ^ Nat.min (p_depth P) n - 1).
    { intros n Hn. destruct (Nat.min_spec (p_depth P) n) as [[_ ->]|[_ ->]]; [exact Hn|].
      pose proof (Nat.pow_gt_lin_r 2 n ltac:(lia)). lia. }
    induction len as [|len IH]; intros n0 cur cov Q HO Hon Hc Hm H1 Hd HM Hf; rewrite <- cons_seq; cbn [outer_loop].
    - destruct (nodes_step T G P root Q n0) as [Q1 ok] eqn:E1.
      assert (Hx : (if ok then outer_loop (nodes_step T G P root) Q1 (seq (S n0) 0) else Q1) = Q1) by (destruct ok; reflexivity).
      rewrite Hx.
      destruct (nodes_step_spec _ _ _ _ _ _ _ HO Hon Hc ltac:(apply Hpow; lia) ltac:(lia) (Hf n0 ltac:(lia)) E1) as [(A1 & A2 & A3 & A4 & A5 & A6 & A7 & A8)|(A1 & _ & A3 & _ & A5)].
      + split; [exact A3|]. rewrite A2. split; [lia|]. intro Ht. exists cur, cov. split; [lia|]. split.
        * destruct HO as (B1 & B2 & B3). unfold OI. rewrite A1, A8.
          split; [eapply SInv_c; eassumption|]. split; [eapply K_c; eassumption|exact B3].
        * intro Hs. specialize (Ht Hs). congruence.
      + split; [exact A1|]. rewrite A3, !Nat.add_0_r. split; [lia|]. intro Ht.
        eexists. eexists. split; [apply le_n|]. split; [apply A5; exact Ht|]. intros _ t Hy. right. exact Hy.
    - destruct (nodes_step T G P root Q n0) as [Q1 ok] eqn:E1.
      destruct (nodes_step_spec _ _ _ _ _ _ _ HO Hon Hc ltac:(apply Hpow; lia) ltac:(lia) (Hf n0 ltac:(lia)) E1) as [(A1 & A2 & A3 & A4 & A5 & A6 & A7 & A8)|(A1 & A2 & A3 & A4 & A5)].
      + subst ok. split; [exact A3|]. rewrite A2. split; [lia|]. intro Ht. exists cur, cov. split; [lia|]. split.
        * destruct HO as (B1 & B2 & B3). unfold OI. rewrite A1, A8.
          split; [eapply SInv_c; eassumption|]. split; [eapply K_c; eassumption|exact B3].
        * intro Hs. specialize (Ht Hs). congruence.
      + destruct ok.
        * destruct (s_late (o_st Q1)) eqn:El.
          -- revert El. unfold nodes_step in E1.
             destruct (in_time G (o_st Q)) as [ok0 s0] eqn:E0. destruct (on_time _ _ _ E0 Hon) as (S1 & _).
             destruct ok0; cbn [negb] in E1; [|discriminate].
             destruct (solve_sub T G _ root [] (o_ub Q) _ n0 s0) as [sol s] eqn:Es. cbv zeta in E1.
             destruct (in_time G (set_mdf s (int_log2 (n0 + 1)))) as [ok' s1] eqn:E2. injection E1 as <- ->. cbn [o_st].
             destruct (sub_frame _ _ _ _ _ _ Es S1) as [F1 F2].
             destruct (on_time _ _ _ E2 F1) as (_ & _ & _ & T4 & _). rewrite (T4 eq_refl). discriminate.
          -- assert (Ht1 : timely strong (o_st Q1)) by (intros _; exact El).
             destruct (IH (S n0) _ _ Q1 (A5 Ht1) A1 ltac:(lia) ltac:(lia) ltac:(lia) ltac:(lia) ltac:(lia) ltac:(intros; apply Hf; lia)) as (B1 & B2 & B3).
             replace (n0 + S len) with (S n0 + len) by lia. auto.
        * split; [exact A1|]. rewrite A3. split; [lia|]. intro Ht. eexists. eexists. split; [apply le_n|]. split; [apply A5; exact Ht|].
          intro Hs. specialize (Ht Hs). rewrite A4 in Ht by reflexivity. discriminate.
  Qed.

  Lemma first_ub_spec s : SI s -> KK s -> s_on s = true ->
    let '(res, gub) := first_ub T G P root (init_sol T) in
    OI 0 0 (fun t => exists l, t = Leaf l /\ l < num_labels root) (Outer res gub s (p_depth P)).
  Proof.
    intros HS HK Hon. unfold first_ub. cbn [is_empty init_sol value_node nd_feat nd_lab].
    pose proof (solve_leaf_spec T G HT root Hworst [] (add_sol (init_sol T) (value_node (p_ub P)))) as H.
    cbn zeta in H. rewrite !restrict_nil in H. specialize (H Hsz).
    destruct (solve_leaf T G root (add_sol (init_sol T) (value_node (p_ub P)))) as [res gub].
    pose proof (add_sol_le (init_sol T) (value_node (p_ub P))) as HU. cbn [init_sol value_node nd_sol] in HU.
    pose proof (gt_md T HT) as Hmd.
    unfold OI. cbn [o_st o_res o_ub].
    split; [exact HS|]. split; [exact HK|].
    destruct H as [(l & Hl & Hf & Hb & Hu & Hn)|(Hf & Hs & Hno)]; cbn [fst snd] in *; rewrite Hf in *.
    - cbn [leaf_node nd_sol] in *. pose proof (root_lt (Leaf l)) as Hlt.
      split. { destruct (c_ub G) eqn:Ec; [destruct (Hu eq_refl) as [-> ?]; lia|rewrite Hn by reflexivity; exact HU]. }
      split. { right. split; [|cbn; lia]. unfold wit. cbn [leaf_node nd_feat nd_lab nd_sol]. exists l. auto. }
      cbn [is_empty leaf_node nd_feat nd_lab].
      split.
      { intros _. destruct (c_ub G) eqn:Ec; [destruct (Hu eq_refl) as [-> _]; lia|]. rewrite Hn by reflexivity. unfold U0. lia. }
      intros _ t (l' & -> & Hl'). right. split; [reflexivity|]. apply Hb. exact Hl'.
    - split; [rewrite Hs; exact HU|]. split; [auto|]. cbn [is_empty init_sol value_node nd_feat nd_lab].
      split. { intros _. rewrite Hs. reflexivity. }
      intros _ t (l' & -> & Hl'). left. apply (Hno l' Hl').
  Qed.

  Lemma first_ub_found : c_ub G = false -> (nd_sol (fst (first_ub T G P root (init_sol T))) < worst)%Z.
  Proof.
    intro Hc. unfold first_ub. cbn [is_empty init_sol value_node nd_feat nd_lab].
    pose proof (solve_leaf_spec T G HT root Hworst [] (add_sol (init_sol T) (value_node (p_ub P)))) as H.
    cbn zeta in H. rewrite !restrict_nil in H. specialize (H Hsz).
    change (Node None None worst 0 0) with (init_sol T). destruct H as [(l & Hl & Hf & _)|(_ & _ & Hno)].
    - cbn [init_sol value_node] in Hf. unfold value_node in *. rewrite Hf. cbn [leaf_node nd_sol]. apply root_lt.
    - destruct (Hno 0 Hnl). congruence.
  Qed.

  Lemma find_depth_cases s res : forall len k0 last, (len = 0 -> last = k0) ->
    let k := find_depth T s root res (seq k0 len) last in
    (k < k0 + len /\ c_is_optimal (s_c s) root [] k (num_nodes res) = true /\ c_retrieve T (s_c s) root [] k (num_nodes res) = res)
    \/ k = k0 + len.
  Proof.
    induction len as [|len IH]; intros k0 last Hl; cbn [seq find_depth]; [right; rewrite Hl by reflexivity; lia|].
    destruct (c_is_optimal (s_c s) root [] k0 (num_nodes res) && node_eqb (c_retrieve T (s_c s) root [] k0 (num_nodes res)) res) eqn:Ec.
    - apply andb_true_iff in Ec. destruct Ec as [E1 E2]. apply node_eqb_eq in E2. left. split; [lia|]. auto.
    - destruct (IH (S k0) (S k0) ltac:(reflexivity)) as [(A1 & A2)|A]; [left; split; [lia|exact A2]|right; lia].
  Qed.

  (** What the answer of Solve means: [strong] runs are those that end in time. *)
  Definition lim_ok : Prop := (p_all P = true \/ p_nodes P = 1) -> p_nodes P <= 2 ^ p_depth P - 1.
  Definition term_full : Prop := strong = true -> c_term G = true ->
    p_all P = false /\ p_nodes P = 2 ^ p_depth P - 1 /\ p_depth P <> 1 /\ (c_ub G = true \/ p_depth P <= 2).

  Lemma allowed_cap d n v t : alw T G d n v t -> alw T G (Nat.min d n) (Nat.min n (2 ^ Nat.min d n - 1)) v t.
  Proof.
    intros (A1 & A2 & A3 & A4). pose proof (depth_le_nodes t). repeat split; try assumption; [lia|].
    apply Nat.min_glb; [exact A4|]. apply nodes_le_full. lia.
  Qed.

  (** The general form: from any global upper bound and state that meet the invariants; what the
      call leaves behind meets them again. *)
  Theorem solve_from s0 gub0 (cov0 : tree -> Prop) : SI s0 -> KK s0 -> lim_ok -> term_full ->
    (p_all P = true -> p_nodes P = 0 -> strong = true -> forall l, l < num_labels root -> cov0 (Leaf l)) ->
    (let '(res, gub) := first_ub T G P root gub0 in
       OI 0 0 cov0 (Outer res gub (St (s_c s0) (s_ar s0) (s_tick s0) false true 0 (s_err s0)) (p_depth P))) ->
    let A := solve T G P root gub0 s0 in
    (strong = true -> a_proven A = true) ->
    (c_term G = false \/ strong = false -> SI (a_st A) /\ KK (a_st A) /\ (nd_sol (a_ub A) <= worst)%Z
       /\ (strong = true -> if is_empty (a_sol A) then nd_sol (a_ub A) = U0 else (Z.min (nd_sol (a_sol A) - tk_mindiff T) U0 <= nd_sol (a_ub A))%Z))
    /\ ((a_sol A = init_sol T /\ a_tree A = None
       /\ (strong = true -> forall t, alw T G (p_depth P) (p_nodes P) root t -> (U0 < cost root t)%Z))
    \/ (exists t, a_tree A = Some t /\ wit T G root (p_depth P) (a_sol A) /\ num_nodes (a_sol A) <= p_nodes P
       /\ alw T G (Nat.min (p_depth P) (p_nodes P)) (2 ^ Nat.min (p_depth P) (p_nodes P) - 1) root t
       /\ (cache_used (s_c s0) = false -> nodes t <= p_nodes P)
       /\ (strong = true -> forall t', alw T G (p_depth P) (p_nodes P) root t' -> (U0 < cost root t')%Z \/ (nd_sol (a_sol A) <= cost root t')%Z)
       /\ (strong = true -> (c_term G = true -> p_depth P <= 2) -> (cost root t <= nd_sol (a_sol A))%Z))).
  Proof.
    intros HS HK Hlim Hfl Hcov0 HO. unfold solve.
    set (s := St (s_c s0) (s_ar s0) (s_tick s0) false true 0 (s_err s0)).
    assert (HS' : SI s) by (eapply SInv_c; [..|exact HS]; reflexivity).
    assert (HK' : KK s) by (eapply K_c; [..|exact HK]; reflexivity).
    change (St (s_c s0) (s_ar s0) (s_tick s0) false true 0 (s_err s0)) with s in HO.
    destruct (first_ub T G P root gub0) as [res gub].
    set (Q0 := Outer res gub s (p_depth P)) in *.
    match goal with |- context [in_time G (o_st ?q)] => set (Q := q) end.
    assert (Q4 : cache_used (s_c s0) = false -> cache_used (s_c (o_st Q)) = false).
    { intro Hu. unfold Q. assert (HL : forall step, (forall q k, cache_used (s_c (o_st q)) = false -> cache_used (s_c (o_st (fst (step q k)))) = false) ->
        forall ks q, cache_used (s_c (o_st q)) = false -> cache_used (s_c (o_st (outer_loop step q ks))) = false).
      { intros step Hst. induction ks as [|k ks IH]; intros q Hq; cbn [outer_loop]; [exact Hq|].
        specialize (Hst q k Hq). destruct (step q k) as [q' ok]. cbn [fst] in Hst. destruct ok; [apply IH|]; exact Hst. }
      assert (Hit : forall st, s_c (snd (in_time G st)) = s_c st) by (intro st; unfold in_time; destruct (s_on st); reflexivity).
      destruct (_ =? 1); (apply HL; [|exact Hu]); intros q k Hq.
      - unfold nodes_step. pose proof (Hit (o_st q)) as H1. destruct (in_time G (o_st q)) as [ok s1]. cbn [snd] in H1.
        destruct ok; cbn [negb fst o_st]; [|congruence]. rewrite <- H1 in Hq.
        pose proof (used_sub T G (S (Nat.min (p_depth P) k)) root [] (o_ub q) (Nat.min (p_depth P) k) k s1 _ Hq) as H2.
        destruct (solve_sub _ _ _ _ _ _ _ _ s1) as [sol s2]. cbn [snd] in H2.
        pose proof (Hit (set_mdf s2 (int_log2 (k + 1)))) as H3. destruct (in_time G (set_mdf s2 (int_log2 (k + 1)))) as [ok2 s3]. cbn [snd fst o_st] in *. rewrite H3. exact H2.
      - unfold depth_step.
        pose proof (used_sub T G (S k) root [] (o_ub q) k (Nat.min (p_nodes P) (2 ^ k - 1)) (o_st q) _ Hq) as H2.
        destruct (solve_sub _ _ _ _ _ _ _ _ (o_st q)) as [sol s2]. cbn [snd] in H2.
        pose proof (Hit (set_mdf s2 k)) as H3. destruct (in_time G (set_mdf s2 k)) as [ok2 s3]. cbn [snd fst o_st] in *. rewrite H3. exact H2. }
    assert (HQ : s_on (o_st Q) = true /\ o_mds Q <= p_depth P
      /\ (timely strong (o_st Q) -> exists cur' cov', cur' <= o_mds Q /\ OI cur' (p_nodes P) cov' Q
         /\ (strong = true -> forall t, alw T G (p_depth P) (p_nodes P) root t -> cov' t))).
    { assert (HO' : OI 0 (p_nodes P) cov0 Q0).
      { destruct HO as (B1 & B2 & B3 & B4 & B5). split; [exact B1|]. split; [exact B2|]. split; [exact B3|]. split; [|exact B5].
        destruct B4 as [B4|[B4 B4']]; [auto|right]. split; [exact B4|lia]. }
      unfold Q. destruct ((if p_all P then 1 else p_nodes P) =? 1) eqn:Em.
      - assert (Hor : p_all P = true \/ p_nodes P = 1).
        { destruct (p_all P); [auto|]. apply Nat.eqb_eq in Em. auto. }
        specialize (Hlim Hor). destruct (p_nodes P) as [|len] eqn:En.
        + cbn [seq outer_loop]. split; [reflexivity|]. split; [cbn; lia|]. intros _.
          exists 0. eexists. split; [lia|]. split; [exact HO'|]. intros Hs t (A1 & _ & A3 & A4).
          destruct t as [l|]; [|cbn [nodes] in A4; lia]. apply (Hcov0 ltac:(destruct Hor; [assumption|discriminate]) eq_refl Hs). exact A1.
        + destruct (nodes_loop (S len) len 1 0 _ Q0 HO' eq_refl ltac:(lia) ltac:(cbn; lia) ltac:(lia) ltac:(lia) ltac:(lia)) as (A1 & A2 & A3).
          { intros n Hn Hs Hc. exfalso. destruct (Hfl Hs Hc) as (F1 & F2 & F3 & _). destruct Hor as [Hor|Hor]; [congruence|].
            rewrite En in F2. assert (2 ^ p_depth P = 2 ^ 1) by (cbn; lia). apply Nat.pow_inj_r in H; lia. }
          split; [exact A1|]. split; [exact A2|]. intro Ht. destruct (A3 Ht) as (cur' & cov' & B1 & B2 & B3).
          exists cur', cov'. split; [exact B1|]. split; [exact B2|]. intros Hs t Ha. apply (B3 Hs).
          replace (1 + len) with (S len) by lia. apply allowed_cap in Ha. eapply allowed_mono; [exact Ha|lia|lia].
      - set (md := Nat.min (p_depth P) (p_nodes P)). set (d0 := Nat.min 2 md).
        replace (S md - d0) with (S (md - d0)) by (unfold d0; lia).
        destruct (depth_loop (p_nodes P) (md - d0) d0 0 _ Q0 HO' eq_refl ltac:(lia) ltac:(unfold d0, md; lia) ltac:(lia)) as (A1 & A2 & A3).
        { intros d Hd Hs Hc. destruct (Hfl Hs Hc) as (F1 & F2 & F3 & F4).
          assert (Hdd : d <= p_depth P) by (unfold md, d0 in Hd; lia).
          assert (2 ^ d <= 2 ^ p_depth P) by (apply Nat.pow_le_mono_r; lia).
          rewrite Nat.min_r by lia. split; [reflexivity|].
          pose proof (Nat.pow_gt_lin_r 2 (p_depth P) ltac:(lia)). unfold d0, md in Hd. split; [lia|]. destruct F4; [left; assumption|right; lia]. }
        replace (d0 + (md - d0)) with md in * by (unfold d0; lia).
        split; [exact A1|]. split; [assert (md <= p_depth P) by (unfold md; lia); lia|]. intro Ht. destruct (A3 Ht) as (cov' & B2 & B3).
        eexists. exists cov'. split; [apply le_n|]. split; [exact B2|]. intros Hs t Ha. apply (B3 Hs). apply allowed_cap. exact Ha. }
    destruct HQ as (Q1 & Q2 & Q3). clearbody Q. clear HO Q0 res gub.
    destruct (in_time G (o_st Q)) as [proven s1] eqn:Et. destruct (on_time _ _ _ Et Q1) as (T1 & T2 & T3 & T4 & T5 & T6).
    destruct (nd_sol (o_res Q) =? worst)%Z eqn:Ew; cbn zeta.
    - cbn [a_sol a_tree a_proven a_st a_ub]. intro Hp.
      assert (Ht : timely strong (o_st Q)).
      { intro Hst. specialize (T4 (Hp Hst)). destruct (s_late (o_st Q)); [|reflexivity]. rewrite T6 in T4 by reflexivity. discriminate. }
      destruct (Q3 Ht) as (cur & cov & C1 & (C2 & C3 & C3' & C4 & C5 & C6) & C7). apply Z.eqb_eq in Ew.
      split; [intros _; split; [eapply SInv_c; eassumption|]; split; [eapply K_c; eassumption|]; split; [exact C3'|exact C5]|]. left.
      assert (He : o_res Q = init_sol T) by (destruct C4 as [C4|[C4 _]]; [exact C4|apply wit_sol_lt in C4; lia]).
      split; [exact He|]. split; [reflexivity|]. intros Hs t Ha. destruct (C6 Hs t (C7 Hs t Ha)) as [?|[C8 _]]; [assumption|].
      rewrite He in C8. discriminate.
    - match goal with |- context [construct T G (S ?x)] => set (dep := x) end.
      destruct (construct T G (S dep) (o_res Q) root [] dep (num_nodes (o_res Q)) s1) as [ot s2] eqn:Ec.
      cbn [a_sol a_tree a_proven a_st a_ub]. intro Hp.
      assert (Ht1 : timely strong s1) by (intro Hst; apply T4; auto).
      assert (Ht : timely strong (o_st Q)).
      { intro Hst. specialize (Ht1 Hst). destruct (s_late (o_st Q)); [|reflexivity]. rewrite T6 in Ht1 by reflexivity. discriminate. }
      destruct (Q3 Ht) as (cur & cov & C1 & (C2 & C3 & C3' & C4 & C5 & C6) & C7). apply Z.eqb_neq in Ew.
      destruct C4 as [C4|[C4 C4']]; [rewrite C4 in Ew; cbn in Ew; lia|].
      assert (HS1 : SI s1) by (eapply SInv_c; eassumption).
      assert (HK1 : KK s1) by (eapply K_c; eassumption).
      assert (Hwd : wit T G root (o_mds Q) (o_res Q)) by (eapply wit_mono; [exact C4|lia]).
      assert (Hdep : wit T G root (Nat.min dep (num_nodes (o_res Q))) (o_res Q) /\ dep <= o_mds Q).
      { unfold dep. set (from := int_log2 (num_nodes (o_res Q) + 1)). set (top := Nat.min (o_mds Q) (num_nodes (o_res Q))).
        split; [|lia].
        destruct (find_depth_cases s1 (o_res Q) (S top - from) from (Nat.max from (S top)) ltac:(lia)) as [(A1 & A2 & A3)|A].
        - set (k := find_depth _ _ _ _ _ _) in *.
          assert (Hk : wit T G root k (o_res Q)).
          { destruct HS1 as [HI _]. rewrite <- (restrict_nil root) in A3 at 1.
            destruct (retrieve_entry T N root _ (s_c s1) [] k (num_nodes (o_res Q)) HI) as [Hx|(_ & e & [He _] & Hd & Hn & Ho & Hr)].
            - rewrite A3 in Hx. rewrite Hx in Ew. cbn in Ew. lia.
            - rewrite A3 in Hr. destruct (He Ho) as (W1 & _). rewrite Hd, <- Hr, restrict_nil in W1. exact W1. }
          eapply wit_mono with (d := Nat.min k (o_mds Q)); [|lia].
          destruct (Nat.min_spec k (o_mds Q)) as [[_ ->]|[_ ->]]; assumption.
        - rewrite A. eapply wit_mono; [exact Hwd|]. unfold top. lia. }
      destruct Hdep as [Hdw Hdm].
      set (st' := strong && (negb (c_term G) || (p_depth P <=? 2))).
      assert (Hst' : st' = true -> strong = true) by (unfold st'; intro H; apply andb_true_iff in H; apply H).
      destruct (construct_spec T G HT root N st' Hids Hsorted Hwf Hred Hmls Horder Hworst Hnl
        ltac:(auto) ltac:(auto) Hmay (S dep) (o_res Q) [] dep (num_nodes (o_res Q)) s1 ot s2) as (D1 & t & -> & D2 & D3 & D4).
      + lia.
      + unfold st'. intros Hx Hc. rewrite Hc in Hx. cbn [negb orb] in Hx. apply andb_true_iff in Hx. destruct Hx as [_ Hx].
        apply Nat.leb_le in Hx. lia.
      + eapply SInv_weaken; [exact Hst'|exact HS1].
      + exact HK1.
      + intro Hx. apply Ht1. auto.
      + rewrite restrict_nil. exact Hdw.
      + rewrite restrict_nil. exact Ec.
      + rewrite restrict_nil in *. split.
        { intro Hct. assert (Hst : st' = strong) by (unfold st'; destruct Hct as [-> | ->]; [apply andb_true_r|reflexivity]). rewrite Hst in D1.
          destruct D1 as (D1a & D1b & _). split; [exact D1a|]. split; [exact D1b|]. split; [exact C3'|exact C5]. }
        right. exists t. split; [reflexivity|].
        split; [eapply wit_mono; [exact Hwd|lia]|]. split; [exact C4'|].
        split. { eapply allowed_mono; [exact D2|lia|]. assert (2 ^ Nat.min dep (num_nodes (o_res Q)) <= 2 ^ Nat.min (p_depth P) (p_nodes P)) by (apply Nat.pow_le_mono_r; lia). lia. }
        split. { intro Hu. assert (Hu1 : cache_used (s_c s1) = false) by (rewrite T2; apply Q4; exact Hu). destruct (D4 Hu1). lia. }
        split.
        * intros Hs t' Ha. destruct (C6 Hs t' (C7 Hs t' Ha)) as [?|[_ ?]]; auto.
        * intros Hs Hc. apply D3. unfold st'. rewrite Hs. cbn [andb]. revert Hc. case (c_term G); intro Hc; [|reflexivity].
          cbn [negb orb]. apply Nat.leb_le. auto.
  Qed.
  Theorem solve_spec s0 : SI s0 -> KK s0 -> lim_ok -> term_full ->
    let A := solve T G P root (init_sol T) s0 in
    (strong = true -> a_proven A = true) ->
    (a_sol A = init_sol T /\ a_tree A = None
       /\ (strong = true -> forall t, alw T G (p_depth P) (p_nodes P) root t -> (U0 < cost root t)%Z))
    \/ (exists t, a_tree A = Some t /\ wit T G root (p_depth P) (a_sol A) /\ num_nodes (a_sol A) <= p_nodes P
       /\ alw T G (Nat.min (p_depth P) (p_nodes P)) (2 ^ Nat.min (p_depth P) (p_nodes P) - 1) root t
       /\ (cache_used (s_c s0) = false -> nodes t <= p_nodes P)
       /\ (strong = true -> forall t', alw T G (p_depth P) (p_nodes P) root t' -> (U0 < cost root t')%Z \/ (nd_sol (a_sol A) <= cost root t')%Z)
       /\ (strong = true -> (c_term G = true -> p_depth P <= 2) -> (cost root t <= nd_sol (a_sol A))%Z)).
  Proof.
    intros HS HK Hlim Hfl. cbn zeta. intro Hp.
    refine (proj2 (solve_from s0 (init_sol T) (fun t => exists l, t = Leaf l /\ l < num_labels root) HS HK Hlim Hfl _ _ Hp)).
    - intros _ _ _ l Hl. exists l. auto.
    - apply first_ub_spec; [eapply SInv_c; [..|exact HS]; reflexivity|eapply K_c; [..|exact HK]; reflexivity|reflexivity].
  Qed.
End Outer.
