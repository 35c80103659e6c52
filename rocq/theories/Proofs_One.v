(** Trees with a single branching node when the depth-two solver is used. *)
From Coq Require Import List Arith Bool Lia ZArith.
From Verif Require Import Model_FeatureVector Model_Data Model_Node Model_Cache Model_Terminal Model_Solver
  Spec_Tree Proofs_View Proofs_Diff Proofs_Feature Proofs_Calc Proofs_Base Proofs_Terminal Proofs_TermState Proofs_Cache
  Proofs_Search Proofs_NonEmpty Proofs_Construct Proofs_Outer.
Import ListNotations.
Local Open Scope nat_scope.

Section One.
  Context (T : task) (G : cfg) (HT : good_task T) (root : view) (N : nat) (P : params).
  Notation nf := (c_nf G).
  Notation mls := (c_mls G).
  Notation cost := (tree_cost (tk_inst T)).
  Notation worst := (tk_worst T).
  Notation V b := (restrict b root).
  Hypothesis Hids : ids_ok N root.
  Hypothesis Hsorted : view_sorted root.
  Hypothesis Hwf : wf_view nf root.
  Hypothesis Hmls : 1 <= mls.
  Hypothesis Hworst : within T root.
  Hypothesis Hnl : 1 <= num_labels root.
  Hypothesis Hsim : true = true -> c_sim G = true -> mls = 1.
  Hypothesis Hterm : true = true -> c_term G = true -> mls = 1.
  Hypothesis Hct : c_term G = true.
  Hypothesis Hsz : mls <= vsize root.

  Notation SI := (SInv T G root N true).
  Notation KK := (K T root N).

  Lemma solve_sub_one fuel b ub s r s' : mls <= vsize (V b) -> SI s ->
    solve_sub T G (S fuel) (V b) b ub 1 1 s = (r, s') -> s_late s' = false -> post T G true (V b) 1 1 ub r.
  Proof.
    intros Hs HS. cbn [solve_sub].
    destruct (in_time G s) as [ok s1] eqn:Ei. pose proof (in_time_spec G true Hsim Hterm _ _ _ Ei) as (Fi & Ic & Ia & Io).
    assert (HS1 : SI s1) by (eapply SInv_c; [exact Ic|exact Ia|exact HS]).
    destruct ok; cbn [negb].
    2:{ intro H. injection H as <- <-. intro Ht. specialize (Io eq_refl (fun _ => Ht)). discriminate. }
    unfold reduce_budget. rewrite (gt_sparse T HT). cbn [Nat.eqb orb].
    assert (H2 : true = true -> c_term G = true -> 1 <> 2) by lia.
    assert (Hcached : forall s0, SI s0 -> is_empty (c_retrieve T (s_c s0) (V b) b 1 1) = false ->
      post T G true (V b) 1 1 ub (c_retrieve T (s_c s0) (V b) b 1 1)).
    { intros s0 [HI _] He. destruct (cached_spec T G root N true (s_c s0) b 1 1 HI) as [Hx|(_ & W1 & W2 & W3)]; [rewrite Hx in He; discriminate|].
      right. split; [exact W1|]. split; [exact W2|]. exact (LBt_LBs T G true Hterm _ _ _ _ H2 W3). }
    destruct (is_empty (c_retrieve T (s_c s1) (V b) b 1 1)) eqn:Ec; cbn [negb].
    2:{ intro H. injection H as <- <-. intros _. apply Hcached; assumption. }
    rewrite Hct. cbn [andb Nat.leb].
    assert (Hcont : forall s2, solve_terminal T G (V b) b ub 1 1 s2 = (r, s') -> post T G true (V b) 1 1 ub r).
    { intros s2 H. unfold solve_terminal in H. cbv zeta in H. injection H as <- _.
      assert (Hwv : wf_view nf (V b)) by (apply wf_restrict; exact Hwf).
      assert (Hnl' : 1 <= num_labels (V b)) by (rewrite V_nl; exact Hnl).
      destruct (term_one T G HT (V b) b Hmls (V_lt T HT root Hworst b) Hwv Hnl' Hs 1 ltac:(lia)) as (A1 & A2 & A3).
      destruct (tk_sdom T _ _) eqn:El.
      - left. split; [reflexivity|]. intros _. split; [right; exact Hct|]. intros t Ht.
        apply (gt_sdom T HT) in El. specialize (A3 t Ht). pose proof (cost_nonneg T HT (V b) t). lia.
      - right. split; [exact A1|]. split; [exact A2|]. intros _. exact A3. }
    case_eq (Model_Solver.c_lb G); intro Eclb; [|intros H _; apply (Hcont s1); exact H].
    destruct (update_sim T G s1 (V b) b 1 1) as [upd s2] eqn:Eu.
    apply (update_sim_spec T G HT root N true Hids Hsorted Hmls Hworst Hnl Hsim Hterm) in Eu; [|exact HS1]. destruct Eu as [_ HS2].
    destruct (upd && negb (is_empty (c_retrieve T (s_c s2) (V b) b 1 1))) eqn:Eu2.
    { intro H. injection H as <- <-. intros _. apply Hcached; [exact HS2|].
      apply andb_true_iff in Eu2. destruct Eu2 as [_ Eu2]. apply negb_true_iff. exact Eu2. }
    set (lb := compute_lb T G s2 (V b) b 1 1).
    assert (Hlb : LBs T G true (V b) 1 1 (nd_sol lb)).
    { refine (LBt_LBs T G true Hterm _ _ _ _ H2 _). exact (compute_lb_spec T G HT root N true Hmls Hnl Hsim Hterm s2 b 1 1 HS2). }
    destruct (c_ub G && tk_sdom T (nd_sol ub) (nd_sol lb)) eqn:Eb.
    { intro H. injection H as <- <-. intros _. left. split; [reflexivity|]. intros _.
      apply andb_true_iff in Eb. destruct Eb as [Hu Hlt]. apply (gt_sdom T HT) in Hlt. split; [left; exact Hu|]. intros t Ht.
      specialize (Hlb eq_refl t Ht). pose proof (cost_nonneg T HT (V b) t). lia. }
    destruct (tk_eq T (nd_sol lb) (nd_sol (fst (solve_leaf T G (V b) (init_sol T))))) eqn:El; [|intros H _; apply (Hcont s2); exact H].
    intro H. injection H as <- <-. intros _.
    apply (lb_eq T HT root Hworst b (Leaf 0)) in El; [|apply (Hlb eq_refl); apply leaf_allowed; [rewrite V_nl; lia|exact Hs]].
    destruct (solve_leaf_spec T G HT root Hworst b (init_sol T) Hs) as [(l & Hl & Hf & _)|(_ & _ & Hno)].
    - rewrite Hf in *. right. split; [apply wit_leaf; assumption|]. split; [unfold num_nodes; cbn [leaf_node nd_feat]; lia|].
      rewrite <- El. exact Hlb.
    - destruct (Hno 0 ltac:(rewrite V_nl; lia)) as [_ Hx]. pose proof (V_lt T HT root Hworst b (Leaf 0)). cbn [init_sol value_node nd_sol] in Hx. lia.
  Qed.

  (** The leaf of a child. *)
  Lemma leaf_child b : mls <= vsize (V b) ->
    exists l, l < num_labels (V b) /\ fst (solve_leaf T G (V b) (init_sol T)) = leaf_node l (cost (V b) (Leaf l))
      /\ forall l', l' < num_labels (V b) -> (cost (V b) (Leaf l) <= cost (V b) (Leaf l'))%Z.
  Proof.
    intro Hs. destruct (solve_leaf_spec T G HT root Hworst b (init_sol T) Hs) as [(l & Hl & Hf & Hmin & _)|(_ & _ & Hno)].
    - exists l. auto.
    - destruct (Hno 0 ltac:(rewrite V_nl; lia)) as [_ Hx]. pose proof (V_lt T HT root Hworst b (Leaf 0)). cbn [init_sol value_node nd_sol] in Hx. lia.
  Qed.

  Lemma child_one b s : mls <= vsize (V b) -> s_on s = false ->
    child_sol T G (V b) b 1 1 0 s = (fst (solve_leaf T G (V b) (init_sol T)), 0, 0, s).
  Proof.
    intros Hs Hon. destruct (leaf_child b Hs) as (l & _ & Hf & _).
    unfold child_sol. cbn [min_size max_size Nat.sub Nat.pow Nat.min Nat.max seq].
    destruct (cache_used (s_c s)).
    - cbn [scan_child Nat.eqb]. rewrite Hf. cbn [is_empty leaf_node nd_feat nd_lab]. reflexivity.
    - cbn [solve_sub]. unfold in_time. rewrite Hon. cbn [negb]. unfold reduce_budget. rewrite (gt_sparse T HT). cbn [Nat.eqb orb].
      rewrite Hf. cbn [is_empty leaf_node nd_feat nd_lab]. reflexivity.
  Qed.

  Lemma construct_one fuel sol d0 n0 s : Nat.min d0 n0 = 1 -> wit T G root 1 sol ->
    exists t s', construct T G (S (S fuel)) sol root [] d0 n0 s = (Some t, s')
      /\ alw T G 1 1 root t /\ (cost root t <= nd_sol sol)%Z.
  Proof.
    intros Hd Hw. cbn [construct]. rewrite Hd. change (2 ^ 1 - 1) with 1. assert (Hn : Nat.min n0 1 = 1) by lia. rewrite Hn. cbn [Nat.eqb orb].
    unfold wit in Hw. destruct (nd_feat sol) as [f|] eqn:Ef.
    - destruct Hw as (Hok & _ & Hl & Hr & tl & tr & Atl & Atr & Hsol & _). cbn [Nat.pow Nat.sub] in Hl, Hr.
      assert (El : nd_l sol = 0) by lia. assert (Er : nd_r sol = 0) by lia.
      assert (En : num_nodes sol = 1) by (unfold num_nodes; rewrite Ef, El, Er; reflexivity).
      rewrite En. cbn [Nat.eqb negb andb]. rewrite andb_false_r. cbn [andb].
      rewrite El, Er in *.
      change (split_left f root) with (split_left f root) in *.
      assert (Vl : split_left f root = V (br_left [] f)) by (rewrite <- restrict_left, restrict_nil; reflexivity).
      assert (Vr : split_right f root = V (br_right [] f)) by (rewrite <- restrict_right, restrict_nil; reflexivity).
      rewrite Vl, Vr in *.
      assert (Sl : mls <= vsize (V (br_left [] f))) by (eapply allowed_size; exact Atl).
      assert (Sr : mls <= vsize (V (br_right [] f))) by (eapply allowed_size; exact Atr).
      rewrite (child_one (br_left [] f) (set_on s false) Sl eq_refl), (child_one (br_right [] f) (set_on s false) Sr eq_refl).
      destruct (leaf_child _ Sl) as (l1 & L1 & L2 & L3). destruct (leaf_child _ Sr) as (l2 & R1 & R2 & R3).
      rewrite L2, R2. cbn [construct Nat.min Nat.eqb orb leaf_node nd_lab].
      eexists. eexists. split; [reflexivity|].
      assert (Al : forall v d t, alw T G d 0 v t -> exists l, t = Leaf l /\ l < num_labels v).
      { intros v d t (B1 & _ & _ & B4). destruct t as [l|]; [exists l; auto|cbn [nodes] in B4; lia]. }
      destruct (Al _ _ _ Atl) as (k1 & -> & K1). destruct (Al _ _ _ Atr) as (k2 & -> & K2). split.
      + apply allowed_split. rewrite Vl, Vr. split; [exact Hok|]. split; [lia|]. cbn [nodes]. split; [lia|].
        split; apply leaf_allowed; assumption.
      + rewrite tree_cost_split, Vl, Vr, Hsol. specialize (L3 k1 K1). specialize (R3 k2 K2). lia.
    - destruct Hw as (l & E1 & E2 & E3 & E4). assert (En : num_nodes sol = 0) by (unfold num_nodes; rewrite Ef; reflexivity).
      rewrite En, E1. cbn [Nat.eqb orb]. eexists. eexists. split; [reflexivity|]. split; [apply leaf_allowed; assumption|lia].
  Qed.

  Theorem solve_one_spec s0 : SI s0 -> KK s0 -> p_nodes P = 1 -> 1 <= p_depth P ->
    let A := solve T G P root (init_sol T) s0 in
    a_proven A = true ->
    (a_sol A = init_sol T /\ a_tree A = None
       /\ forall t, alw T G (p_depth P) (p_nodes P) root t -> (U0 T P < cost root t)%Z)
    \/ (exists t, a_tree A = Some t /\ wit T G root 1 (a_sol A)
       /\ alw T G 1 1 root t
       /\ (forall t', alw T G (p_depth P) (p_nodes P) root t' -> (U0 T P < cost root t')%Z \/ (nd_sol (a_sol A) <= cost root t')%Z)
       /\ (cost root t <= nd_sol (a_sol A))%Z).
  Proof.
    intros HS HK Hnn Hdd. unfold solve.
    set (s := St (s_c s0) (s_ar s0) (s_tick s0) false true 0 (s_err s0)).
    assert (HS' : SI s) by (eapply SInv_c; [..|exact HS]; reflexivity).
    assert (HK' : KK s) by (eapply K_c; [..|exact HK]; reflexivity).
    pose proof (first_ub_spec T G HT root N true P Hmls Hworst Hnl Hsim Hterm Hsz s HS' HK' eq_refl) as HO.
    destruct (first_ub T G P root (init_sol T)) as [res gub].
    rewrite Hnn. assert (Hm1 : (if p_all P then 1 else 1) =? 1 = true) by (destruct (p_all P); reflexivity). rewrite Hm1. clear Hm1.
    cbn [seq outer_loop].
    destruct HO as (_ & _ & H3 & H4 & H5 & H6). cbn [o_ub o_res] in *. specialize (H5 eq_refl). specialize (H6 eq_refl).
    assert (Hcap : forall t, alw T G (p_depth P) 1 root t -> alw T G 1 1 root t).
    { intros t (A1 & A2 & A3 & A4). repeat split; try assumption. pose proof (depth_le_nodes t). lia. }
    destruct (nodes_step T G P root (Outer res gub s (p_depth P)) 1) as [Q ok] eqn:EQ.
    assert (Hx : (if ok then Q else Q) = Q) by (destruct ok; reflexivity). rewrite Hx. clear Hx.
    assert (HQ : s_on (o_st Q) = true /\ (s_late (o_st Q) = true \/ (o_mds Q = 1
       /\ (o_res Q = init_sol T \/ wit T G root 1 (o_res Q))
       /\ forall t, alw T G 1 1 root t -> (U0 T P < cost root t)%Z \/ (is_empty (o_res Q) = false /\ (nd_sol (o_res Q) <= cost root t)%Z)))).
    { revert EQ. unfold nodes_step. cbn [o_st o_res o_ub]. rewrite Nat.min_r by exact Hdd.
      destruct (in_time G s) as [ok0 s1] eqn:E0. destruct (on_time _ _ _ _ E0 eq_refl) as (S1 & S2 & S3 & S4 & S5 & S6).
      destruct ok0; cbn [negb].
      2:{ intro H. injection H as <- <-. cbn [o_st]. split; [exact S1|]. left. auto. }
      destruct (solve_sub T G 2 root [] gub 1 1 s1) as [sol s2] eqn:E1. cbv zeta.
      destruct (in_time G (set_mdf s2 (int_log2 (1 + 1)))) as [ok' s3] eqn:E2. intro H. injection H as <- <-. cbn [o_st o_mds o_res].
      destruct (sub_frame T G HT root true Hmls Hnl Hsim Hterm Hsz _ _ _ _ _ _ E1 S1) as [F1 F2].
      destruct (on_time _ _ _ _ E2 F1) as (T1 & T2 & T3 & T4 & T5 & T6). cbn [set_mdf s_late] in T6.
      split; [exact T1|]. destruct (s_late s2) eqn:El2; [left; auto|right]. split; [reflexivity|].
      assert (HS1 : SI s1) by (eapply SInv_c; eassumption).
      rewrite <- (restrict_nil root) in E1 at 1.
      assert (Hsz' : mls <= vsize (restrict [] root)) by (rewrite restrict_nil; exact Hsz).
      pose proof (solve_sub_one 1 [] gub s1 sol s2 Hsz' HS1 E1 El2) as HP. rewrite restrict_nil in HP.
      assert (Hle : (nd_sol (add_sol res sol) <= nd_sol res)%Z /\ (nd_sol (add_sol res sol) <= nd_sol sol)%Z).
      { unfold add_sol. destruct (nd_sol sol <? nd_sol res)%Z eqn:El; [apply Z.ltb_lt in El|apply Z.ltb_ge in El]; lia. }
      assert (Wr : res = init_sol T \/ wit T G root 1 res).
      { destruct H4 as [H4|[H4 _]]; [auto|right]. eapply wit_mono; [exact H4|lia]. }
      assert (Ws : sol = init_sol T \/ wit T G root 1 sol) by (destruct HP as [[-> _]|(HP & _)]; auto).
      assert (Wi : forall r, wit T G root 1 r -> (nd_sol r < worst)%Z) by (intros r Hr; apply (wit_sol_lt T G HT root Hworst _ _ Hr)).
      split. { destruct (add_sol_either res sol) as [-> | ->]; assumption. }
      intros t Ht.
      assert (Hne : is_empty res = false \/ wit T G root 1 sol -> is_empty (add_sol res sol) = false).
      { intro Hor. destruct (add_sol_either res sol) as [E | E]; rewrite E in Hle |- *.
        - destruct Hor as [Hor|Hor]; [exact Hor|]. destruct Wr as [Wr|Wr]; [|apply (wit_nonempty _ _ _ _ _ Wr)].
          pose proof (Wi _ Hor). rewrite Wr in Hle. cbn [init_sol value_node nd_sol] in Hle. lia.
        - destruct Ws as [Ws|Ws]; [|apply (wit_nonempty _ _ _ _ _ Ws)].
          destruct Hor as [Hor|Hor]; [|apply (wit_nonempty _ _ _ _ _ Hor)].
          destruct Wr as [Wr|Wr]; [rewrite Wr in Hor; discriminate|]. pose proof (Wi _ Wr). rewrite Ws in Hle. cbn [init_sol value_node nd_sol] in Hle. lia. }
      destruct HP as [[-> HP]|(HP1 & _ & HP)].
      - destruct (HP eq_refl) as [_ HP']. specialize (HP' t Ht). destruct (is_empty res) eqn:Er.
        + left. lia.
        + pose proof (gt_md T HT) as Hmd.
          destruct (Z.min_spec (nd_sol res - tk_mindiff T) (U0 T P)) as [[_ Hm]|[_ Hm]]; rewrite Hm in H5; [|left; lia].
          right. split; [apply Hne; auto|lia].
      - right. split; [apply Hne; auto|]. specialize (HP eq_refl t Ht). lia. }
    destruct HQ as [Q1 Q2].
    destruct (in_time G (o_st Q)) as [proven s1] eqn:Et. destruct (on_time _ _ _ _ Et Q1) as (T1 & T2 & T3 & T4 & T5 & T6).
    assert (Hcase : proven = true -> o_mds Q = 1 /\ (o_res Q = init_sol T \/ wit T G root 1 (o_res Q))
       /\ forall t, alw T G 1 1 root t -> (U0 T P < cost root t)%Z \/ (is_empty (o_res Q) = false /\ (nd_sol (o_res Q) <= cost root t)%Z)).
    { intro Hp. destruct Q2 as [Q2|Q2]; [|exact Q2]. rewrite (T6 Q2) in T4. specialize (T4 Hp). discriminate. }
    destruct (nd_sol (o_res Q) =? worst)%Z eqn:Ew; cbn zeta.
    - cbn [a_sol a_tree a_proven]. intro Hp. destruct (Hcase Hp) as (C1 & C2 & C3). apply Z.eqb_eq in Ew. left.
      assert (He : o_res Q = init_sol T) by (destruct C2 as [C2|C2]; [exact C2|apply (wit_sol_lt T G HT root Hworst) in C2; lia]).
      split; [exact He|]. split; [reflexivity|]. intros t Ht. destruct (C3 t (Hcap t Ht)) as [?|[C4 _]]; [assumption|].
      rewrite He in C4. discriminate.
    - match goal with |- context [construct T G (S ?x)] => set (dep := x) end.
      destruct (construct T G (S dep) (o_res Q) root [] dep (num_nodes (o_res Q)) s1) as [ot s2] eqn:Ec.
      cbn [a_sol a_tree a_proven]. intro Hp. destruct (Hcase Hp) as (C1 & C2 & C3). apply Z.eqb_neq in Ew. right.
      destruct C2 as [C2|C2]; [rewrite C2 in Ew; cbn in Ew; lia|].
      assert (Hres : exists t, ot = Some t /\ alw T G 1 1 root t /\ (cost root t <= nd_sol (o_res Q))%Z).
      { unfold wit in C2. destruct (nd_feat (o_res Q)) as [f|] eqn:Ef.
        - assert (C2' : wit T G root 1 (o_res Q)) by (unfold wit; rewrite Ef; exact C2).
          destruct C2 as (_ & _ & A1 & A2 & _). cbn [Nat.pow Nat.sub] in A1, A2.
          assert (En : num_nodes (o_res Q) = 1) by (unfold num_nodes; rewrite Ef; lia).
          assert (Hdep : dep = 1).
          { unfold dep. rewrite En, C1. change (int_log2 (1 + 1)) with 1. change (Nat.min 1 1) with 1. cbn [Nat.sub seq find_depth Nat.max].
            destruct (_ && _); reflexivity. }
          rewrite Hdep, En in Ec.
          destruct (construct_one 0 (o_res Q) 1 1 s1 eq_refl C2') as (t & s3 & B1 & B2 & B3). rewrite B1 in Ec. injection Ec as <- <-.
          exists t. auto.
        - destruct C2 as (l & E1 & E2 & E3 & E4). assert (En : num_nodes (o_res Q) = 0) by (unfold num_nodes; rewrite Ef; reflexivity).
          rewrite En in Ec. cbn [construct] in Ec. rewrite Nat.min_0_r in Ec. cbn [Nat.eqb orb] in Ec. rewrite E1 in Ec. injection Ec as <- <-.
          exists (Leaf l). split; [reflexivity|]. split; [apply leaf_allowed; assumption|lia]. }
      destruct Hres as (t & -> & R1 & R2). exists t. split; [reflexivity|]. split; [exact C2|]. split; [exact R1|]. split; [|exact R2].
      intros t' Ht'. destruct (C3 t' (Hcap t' Ht')) as [?|[_ ?]]; auto.
  Qed.
End One.
