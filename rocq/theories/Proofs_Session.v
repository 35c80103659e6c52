(** Several calls of Solve with one solver on the same data. *)
From Coq Require Import List Arith Bool Lia ZArith Sorted Permutation.
From Verif Require Import Model_FeatureVector Model_Data Model_Node Model_Cache Model_Terminal Model_Heap Model_Solver Model_Preproc Model_Session
  Spec_Tree Spec_Examples Spec_Rows Proofs_View Proofs_Diff Proofs_Feature Proofs_Calc Proofs_Base Proofs_Terminal Proofs_TermState
  Proofs_Cache Proofs_Search Proofs_NonEmpty Proofs_Construct Proofs_Outer Proofs_Heap Proofs_Preproc Proofs_Rows Proofs_Score Proofs_Fit.
Import ListNotations.
Local Open Scope nat_scope.

Section Session.
  Context (T : task) (G : cfg) (HT : good_task T) (root : view) (N : nat) (ub : Z).
  Notation nf := (c_nf G).
  Notation mls := (c_mls G).
  Notation cost := (tree_cost (tk_inst T)).
  Notation worst := (tk_worst T).
  Hypothesis Hids : ids_ok N root.
  Hypothesis Hsorted : view_sorted root.
  Hypothesis Hwf : wf_view nf root.
  Hypothesis Hred : forall f x, c_redundant G f = true -> In x (concat root) -> has f x = false.
  Hypothesis Hmls : 1 <= mls.
  Hypothesis Horder : forall v f, In f (c_order G v) <-> f < nf.
  Hypothesis Hworst : within T root.
  Hypothesis Hnl : 1 <= num_labels root.
  Hypothesis Hsim : c_sim G = true -> mls = 1.
  Hypothesis Hterm : c_term G = false.
  Hypothesis Hsz : mls <= vsize root.

  Notation SI := (SInv T G root N true).
  Notation KK := (K T root N).
  Definition top : Z := Z.min worst ub.

  (** A tree found before is at least this good. *)
  Definition low (prior : list answer) (z : Z) : Prop :=
    exists a t, In a prior /\ a_tree a = Some t /\ (cost root t <= z)%Z /\ exists d n, alw T G d n root t.
  Definition ready (prior : list answer) (gub : node) (s : st) : Prop :=
    SI s /\ KK s /\ (nd_sol gub <= worst)%Z
    /\ (is_empty gub = false -> (forall z, (z <= top)%Z -> (nd_sol gub < z)%Z -> low prior z)
        /\ forall l, l < num_labels root -> (cost root (Leaf l) <= top)%Z -> low prior (cost root (Leaf l))).
  Definition found (P : params) (a : answer) : Prop :=
    forall t, a_tree a = Some t -> alw T G (Nat.min (p_depth P) (p_nodes P)) (2 ^ Nat.min (p_depth P) (p_nodes P) - 1) root t
      /\ (cost root t <= nd_sol (a_sol a))%Z.

  Lemma low_mono p q z : incl p q -> low p z -> low q z.
  Proof. intros H (a & t & A1 & A2). exists a, t. split; [apply H; exact A1|exact A2]. Qed.
  Lemma low_here P p a t z : found P a -> a_tree a = Some t -> (cost root t <= z)%Z -> low (a :: p) z.
  Proof. intros H0 H1 H2. exists a, t. split; [left; reflexivity|]. split; [exact H1|]. split; [exact H2|]. destruct (H0 t H1) as [H3 _]. eauto. Qed.

  Lemma U0_top P : U0 T P = Z.min worst (p_ub P).
  Proof.
    unfold U0, add_sol, init_sol, value_node. cbn [nd_sol]. destruct (p_ub P <? worst)%Z eqn:E; cbn [nd_sol];
      [apply Z.ltb_lt in E|apply Z.ltb_ge in E]; lia.
  Qed.

  (** A call that starts from a bound left by an earlier call does not read the user's bound. *)
  Lemma solve_bound P gub s z : is_empty gub = false -> solve T G P root gub s = solve T G (Params (p_depth P) (p_nodes P) (p_all P) z) root gub s.
  Proof. intro H. unfold solve, first_ub. rewrite H. reflexivity. Qed.
  Lemma solve_empty P gub s : is_empty gub = true -> solve T G P root gub s = solve T G P root (init_sol T) s.
  Proof. intro H. unfold solve, first_ub. rewrite H. reflexivity. Qed.
  Lemma solve_nothing P gub s : is_empty gub = false -> p_all P = true -> p_nodes P = 0 ->
    let a := solve T G P root gub s in a_tree a = None /\ a_ub a = gub /\ s_c (a_st a) = s_c s /\ s_ar (a_st a) = s_ar s.
  Proof.
    intros H Ha Hn. cbn zeta. unfold solve, first_ub. rewrite H, Ha, Hn. cbn [Nat.eqb seq outer_loop o_st o_res o_ub].
    unfold in_time. cbn [s_on]. cbn [init_sol value_node nd_sol]. rewrite Z.eqb_refl. cbn. repeat split; reflexivity.
  Qed.

  (** The part of a call that does not depend on where the bound comes from: the bound [u] of this
      call. *)
  Lemma one_call P gub s (u : Z) (cov0 : tree -> Prop) :
    SI s -> KK s -> lim_ok P -> U0 T P = u ->
    (p_all P = true -> p_nodes P = 0 -> true = true -> forall l, l < num_labels root -> cov0 (Leaf l)) ->
    (let '(res, g) := first_ub T G P root gub in
       OI T G root N true P 0 0 cov0 (Outer res g (St (s_c s) (s_ar s) (s_tick s) false true 0 (s_err s)) (p_depth P))) ->
    let a := solve T G P root gub s in a_proven a = true ->
    SI (a_st a) /\ KK (a_st a) /\ (nd_sol (a_ub a) <= worst)%Z /\ found P a
    /\ (forall z, (nd_sol (a_ub a) < z)%Z -> (u < z)%Z \/ exists t, a_tree a = Some t /\ (cost root t <= z)%Z)
    /\ (forall t, alw T G (p_depth P) (p_nodes P) root t -> (u < cost root t)%Z \/ exists t', a_tree a = Some t' /\ (cost root t' <= cost root t)%Z).
  Proof.
    intros HS HK Hl HU Hcov HO. cbn zeta. intro Hp. set (a := solve T G P root gub s) in *.
    destruct (solve_from T G HT root N true P Hids Hsorted Hwf Hred Hmls Horder Hworst Hnl (fun _ => Hsim) ltac:(congruence) ltac:(congruence) Hsz
                s gub cov0 HS HK Hl ltac:(intros _ H; congruence) Hcov HO (fun _ => Hp)) as [HI HC].
    fold a in HI, HC. destruct (HI (or_introl Hterm)) as (I1 & I2 & I3 & I4). specialize (I4 eq_refl). rewrite HU in *.
    split; [exact I1|]. split; [exact I2|]. split; [exact I3|]. pose proof (gt_md T HT) as Hmd.
    destruct HC as [(C1 & C2 & C3)|(t & C1 & C2 & C3 & C4 & _ & C6 & C7)].
    - split; [intros t Ht; congruence|]. rewrite C1 in I4. cbn [is_empty init_sol value_node nd_feat nd_lab] in I4.
      split; [intros z Hz; left; lia|]. intros t Ht. left. apply C3; [reflexivity|exact Ht].
    - specialize (C7 eq_refl ltac:(congruence)). split.
      { intros t' Ht'. assert (t' = t) by congruence. subst t'. auto. }
      rewrite (wit_nonempty _ _ _ _ _ C2) in I4. split.
      + intros z Hz. destruct (Z.lt_ge_cases u z) as [Hu|Hu]; [left; exact Hu|right]. exists t. split; [exact C1|lia].
      + intros t' Ht'. destruct (C6 eq_refl t' Ht') as [?|?]; [left; assumption|right]. exists t. split; [exact C1|lia].
  Qed.

  Lemma call_spec P prior gub s : ready prior gub s -> lim_ok P -> p_ub P = ub ->
    let a := solve T G P root gub s in a_proven a = true ->
    ready (a :: prior) (a_ub a) (a_st a) /\ found P a
    /\ forall t, alw T G (p_depth P) (p_nodes P) root t -> (cost root t <= top)%Z -> low (a :: prior) (cost root t).
  Proof.
    intros (HS & HK & Hgw & Hg) Hl Hub. cbn zeta. intro Hp. set (a := solve T G P root gub s) in *.
    assert (Hcore : SI (a_st a) /\ KK (a_st a) /\ (nd_sol (a_ub a) <= worst)%Z /\ found P a
      /\ (is_empty (a_ub a) = false -> forall z, (z <= top)%Z -> (nd_sol (a_ub a) < z)%Z -> low (a :: prior) z)
      /\ forall t, alw T G (p_depth P) (p_nodes P) root t -> (cost root t <= top)%Z -> low (a :: prior) (cost root t)).
    { set (s1 := St (s_c s) (s_ar s) (s_tick s) false true 0 (s_err s)).
      assert (HS1 : SI s1) by (eapply SInv_c; [..|exact HS]; reflexivity).
      assert (HK1 : KK s1) by (eapply K_c; [..|exact HK]; reflexivity).
      destruct (is_empty gub) eqn:Ee.
      - destruct (one_call P (init_sol T) s top (fun t => exists l, t = Leaf l /\ l < num_labels root) HS HK Hl) as (A1 & A2 & A3 & A4 & A5 & A6).
        + rewrite U0_top, Hub. reflexivity.
        + intros _ _ _ l Hll. exists l. auto.
        + apply (first_ub_spec T G HT root N true P Hmls Hworst Hnl (fun _ => Hsim) ltac:(congruence) Hsz s1 HS1 HK1 eq_refl).
        + rewrite <- (solve_empty P gub s Ee). exact Hp.
        + rewrite <- (solve_empty P gub s Ee) in *. fold a in A1, A2, A3, A4, A5, A6.
          split; [exact A1|]. split; [exact A2|]. split; [exact A3|]. split; [exact A4|]. split.
          * intros _ z Hz Hlt. destruct (A5 z Hlt) as [?|(t & B1 & B2)]; [lia|]. eapply low_here; eassumption.
          * intros t Ht Hc. destruct (A6 t Ht) as [?|(t' & B1 & B2)]; [lia|]. eapply low_here; eassumption.
      - destruct (Hg eq_refl) as [Hg1 Hg2].
        assert (Hpr : forall z, (z <= top)%Z -> (nd_sol gub < z)%Z -> low (a :: prior) z).
        { intros z Hz Hlt. eapply low_mono; [|apply Hg1; assumption]. intros x Hx. right. exact Hx. }
        destruct (bool_dec (p_all P && (p_nodes P =? 0)) true) as [Ez|Ez].
        + apply andb_true_iff in Ez. destruct Ez as [Ea En]. apply Nat.eqb_eq in En.
          destruct (solve_nothing P gub s Ee Ea En) as (B1 & B2 & B3 & B4). fold a in B1, B2, B3, B4.
          split; [eapply SInv_c; eassumption|]. split; [eapply K_c; eassumption|]. rewrite B2. split; [exact Hgw|].
          split; [intros t Ht; congruence|]. split; [auto|].
          intros t (D1 & _ & _ & D4) Hc. rewrite En in D4. destruct t as [l|]; [|cbn [nodes] in D4; lia].
          eapply low_mono; [|apply Hg2; [exact D1|exact Hc]]. intros x Hx. right. exact Hx.
        + set (P' := Params (p_depth P) (p_nodes P) (p_all P) (nd_sol gub)).
          assert (Ea : a = solve T G P' root gub s) by (apply solve_bound; exact Ee).
          assert (HO : OI T G root N true P' 0 0 (fun t => (nd_sol gub < cost root t)%Z) (Outer (init_sol T) gub s1 (p_depth P'))).
          { unfold OI. cbn [o_st o_res o_ub]. split; [exact HS1|]. split; [exact HK1|]. split; [exact Hgw|]. split; [left; reflexivity|].
            cbn [is_empty init_sol value_node nd_feat nd_lab]. rewrite U0_top. cbn [p_ub P'].
            split; [intros _; lia|]. intros _ t Ht. left. lia. }
          destruct (one_call P' gub s (nd_sol gub) (fun t => (nd_sol gub < cost root t)%Z) HS HK Hl) as (A1 & A2 & A3 & A4 & A5 & A6).
            -- rewrite U0_top. cbn [p_ub P']. lia.
            -- intros Ha Hn. cbn [p_all p_nodes P'] in Ha, Hn. rewrite Ha, Hn in Ez. cbn in Ez. congruence.
            -- unfold first_ub. rewrite Ee. exact HO.
            -- rewrite <- Ea. exact Hp.
            -- rewrite <- Ea in *. split; [exact A1|]. split; [exact A2|]. split; [exact A3|]. split; [exact A4|]. split.
               ++ intros _ z Hz Hlt. destruct (A5 z Hlt) as [?|(t & B1 & B2)]; [apply Hpr; assumption|]. eapply low_here; eassumption.
               ++ intros t Ht Hc. destruct (A6 t Ht) as [?|(t' & B1 & B2)]; [apply Hpr; assumption|]. eapply low_here; eassumption. }
    destruct Hcore as (A1 & A2 & A3 & A4 & A5 & A6). split; [|split; [exact A4|exact A6]].
    split; [exact A1|]. split; [exact A2|]. split; [exact A3|]. intro He. split; [apply A5; exact He|].
    intros l Hll Hc. apply A6; [|exact Hc]. apply leaf_allowed; assumption.
  Qed.

  Lemma ready_new prior s0 : SI s0 -> KK s0 -> ready prior (init_sol T) s0.
  Proof. intros H1 H2. split; [exact H1|]. split; [exact H2|]. split; [cbn; lia|]. cbn. discriminate. Qed.

  Theorem calls_spec s0 : SI s0 -> KK s0 -> forall cs prior gub s, ready prior gub s ->
    Forall (fun c => lim_ok (snd c) /\ p_ub (snd c) = ub) cs ->
    Forall (fun a => a_proven a = true) (calls T G s0 root gub s cs) ->
    forall k r P, nth_error cs k = Some (r, P) ->
      (exists a, nth_error (calls T G s0 root gub s cs) k = Some a /\ found P a)
      /\ forall t, alw T G (p_depth P) (p_nodes P) root t -> (cost root t <= top)%Z -> low (firstn (S k) (calls T G s0 root gub s cs) ++ prior) (cost root t).
  Proof.
    intros HS HK. induction cs as [|[r0 P0] cs IH]; intros prior gub s HR Hcs Hp k r P Hk; [destruct k; discriminate|].
    cbn [calls] in *. set (a := if r0 then _ else _) in *.
    apply Forall_inv in Hcs as Hc0. destruct Hc0 as [Hl0 Hu0]. cbn [snd] in Hl0, Hu0. apply Forall_inv_tail in Hcs.
    apply Forall_inv in Hp as Hp0. apply Forall_inv_tail in Hp.
    assert (HA : ready (a :: prior) (a_ub a) (a_st a) /\ found P0 a
      /\ forall t, alw T G (p_depth P0) (p_nodes P0) root t -> (cost root t <= top)%Z -> low (a :: prior) (cost root t)).
    { unfold a in *. destruct r0; [apply call_spec; [apply ready_new; assumption|assumption..]|apply call_spec; assumption]. }
    destruct HA as (A1 & A2 & A3). destruct k as [|k].
    - cbn in Hk. injection Hk as -> ->. split; [exists a; split; [reflexivity|exact A2]|]. exact A3.
    - cbn [nth_error] in Hk. destruct (IH (a :: prior) _ _ A1 Hcs Hp k r P Hk) as [B1 B2]. split; [exact B1|].
      intros t Ht Hc. eapply low_mono; [|apply (B2 t Ht Hc)]. intros x Hx. apply in_app_or in Hx.
      apply in_or_app. destruct Hx as [Hx|[Hx|Hx]]; [left; right; exact Hx|left; left; exact Hx|right; exact Hx].
  Qed.
End Session.

(** Whatever the switches and the clock: the trees are within the limits of their call. *)
Section AnyCalls.
  Context (T : task) (G : cfg) (HT : good_task T) (root : view) (N : nat).
  Notation nf := (c_nf G).
  Notation mls := (c_mls G).
  Notation worst := (tk_worst T).
  Hypothesis Hids : ids_ok N root.
  Hypothesis Hsorted : view_sorted root.
  Hypothesis Hwf : wf_view nf root.
  Hypothesis Hred : forall f x, c_redundant G f = true -> In x (concat root) -> has f x = false.
  Hypothesis Hmls : 1 <= mls.
  Hypothesis Horder : forall v f, In f (c_order G v) <-> f < nf.
  Hypothesis Hworst : within T root.
  Hypothesis Hnl : 1 <= num_labels root.
  Hypothesis Hmay : c_term G = true -> forall f, f < nf -> tk_may T f = true.
  Hypothesis Hsz : mls <= vsize root.
  Notation SI := (SInv T G root N false).
  Notation KK := (K T root N).
  Definition inside (P : params) (a : answer) : Prop :=
    forall t, a_tree a = Some t -> alw T G (Nat.min (p_depth P) (p_nodes P)) (2 ^ Nat.min (p_depth P) (p_nodes P) - 1) root t.

  Lemma ffl (A : Prop) : false = true -> A.
  Proof. discriminate. Qed.
  Lemma any_call P gub s : SI s -> KK s -> (nd_sol gub <= worst)%Z -> lim_ok P ->
    let a := solve T G P root gub s in SI (a_st a) /\ KK (a_st a) /\ (nd_sol (a_ub a) <= worst)%Z /\ inside P a.
  Proof.
    intros HS HK Hg Hl. cbn zeta. set (s1 := St (s_c s) (s_ar s) (s_tick s) false true 0 (s_err s)).
    assert (HS1 : SI s1) by (eapply SInv_c; [..|exact HS]; reflexivity).
    assert (HK1 : KK s1) by (eapply K_c; [..|exact HK]; reflexivity).
    destruct (solve_from T G HT root N false P Hids Hsorted Hwf Hred Hmls Horder Hworst Hnl (ffl _) (ffl _) Hmay Hsz
                s gub (fun _ => True) HS HK Hl (ffl _) (fun _ _ H => ffl _ H)) as [HI HC]; [|discriminate|].
    - unfold first_ub. destruct (is_empty gub) eqn:Ee.
      + pose proof (first_ub_spec T G HT root N false P Hmls Hworst Hnl (ffl _) (ffl _) Hsz s1 HS1 HK1 eq_refl) as H.
        unfold first_ub in H. cbn [is_empty init_sol value_node nd_feat nd_lab] in H.
        destruct (solve_leaf T G root _) as [res g]. destruct H as (B1 & B2 & B3 & B4 & _).
        split; [exact B1|]. split; [exact B2|]. split; [exact B3|]. split; [exact B4|]. split; discriminate.
      + split; [exact HS1|]. split; [exact HK1|]. split; [exact Hg|]. split; [left; reflexivity|]. split; discriminate.
    - destruct (HI (or_intror eq_refl)) as (I1 & I2 & I3 & _). split; [exact I1|]. split; [exact I2|]. split; [exact I3|].
      intros t Ht. destruct HC as [(_ & C & _)|(t' & C1 & _ & _ & C4 & _)]; [congruence|]. congruence.
  Qed.

  Theorem any_calls s0 : SI s0 -> KK s0 -> forall cs gub s, SI s -> KK s -> (nd_sol gub <= worst)%Z ->
    Forall (fun c => lim_ok (snd c)) cs ->
    forall k r P a, nth_error cs k = Some (r, P) -> nth_error (calls T G s0 root gub s cs) k = Some a -> inside P a.
  Proof.
    intros HS HK. induction cs as [|[r0 P0] cs IH]; intros gub s H1 H2 H3 Hcs k r P a Hk Ha; [destruct k; discriminate|].
    cbn [calls] in Ha. set (a0 := if r0 then _ else _) in *.
    apply Forall_inv in Hcs as Hc0. apply Forall_inv_tail in Hcs. cbn [snd] in Hc0.
    assert (HA : SI (a_st a0) /\ KK (a_st a0) /\ (nd_sol (a_ub a0) <= worst)%Z /\ inside P0 a0).
    { unfold a0. destruct r0; apply any_call; try assumption. cbn. lia. }
    destruct HA as (A1 & A2 & A3 & A4). destruct k as [|k]; cbn [nth_error] in Hk, Ha.
    - injection Hk as -> ->. injection Ha as <-. exact A4.
    - exact (IH _ _ A1 A2 A3 Hcs k r P a Hk Ha).
  Qed.
End AnyCalls.

Section SessionFit.
  Context (T : task) (HT : good_task T) (W : switches) (ub : Z) (nf : nat) (clk : nat -> bool) (v : view).
  Notation mls := (w_mls W).
  Notation cost := (tree_cost (tk_inst T)).
  Notation worst := (tk_worst T).
  Hypothesis Hmls : 1 <= mls.
  Hypothesis Hmay : forall f, f < nf -> tk_may T f = true.
  Hypothesis Hld : loaded nf v.
  Hypothesis Hc : forall x y k l, iid x = iid y -> tk_inst T x k l = tk_inst T y k l.
  Hypothesis Hw : forall k x y, iid x = iid y -> wc T k x = wc T k y.
  Hypothesis Hnl : 1 <= num_labels v.
  Hypothesis Hworst : within T v.
  Hypothesis Hsz : mls <= vsize v.
  Hypothesis Hsim : w_sim W = true -> mls = 1.
  Hypothesis Hterm : w_term W = false.
  Notation pv := (pview T mls nf v).
  Notation G := (mk_cfg W nf (pdead T mls nf v) clk).
  Notation ok := (fun f => f < nf).

  Theorem session_spec cs :
    Forall (fun c => lim (snd c) /\ p_ub (snd c) = ub) cs ->
    Forall (fun R => fr_proven R = true) (session T W nf clk v cs) ->
    forall k r P, nth_error cs k = Some (r, P) ->
      (exists R, nth_error (session T W nf clk v cs) k = Some R
        /\ forall t, fr_tree R = Some t -> allowed ok mls (Nat.min (p_depth P) (p_nodes P)) (2 ^ Nat.min (p_depth P) (p_nodes P) - 1) v t)
      /\ forall t, allowed ok mls (p_depth P) (p_nodes P) v t -> (cost v t <= Z.min worst ub)%Z ->
          exists j R t', j <= k /\ nth_error (session T W nf clk v cs) j = Some R /\ fr_tree R = Some t' /\ (cost v t' <= cost v t)%Z.
  Proof.
    unfold session. rewrite (preprocess_eq T mls nf v). set (s0 := init_state G (w_branch W) (w_data W) (vsize pv)).
    intros Hcs Hp k r P Hk.
    assert (Hp' : Forall (fun a => a_proven a = true) (calls T G s0 pv (init_sol T) s0 cs)).
    { rewrite Forall_map in Hp. exact Hp. }
    assert (Hred : forall f x, c_redundant G f = true -> In x (concat pv) -> has f x = false).
    { intros f x Hf Hx. apply (pview_red T mls nf v Hmls Hld f x Hf Hx). }
    assert (HS : SInv T G pv (vsize pv) true s0) by (split; [apply Inv_empty|]; intros d u b Hin; destruct Hin).
    assert (HK : K T pv (vsize pv) s0) by (split; [apply Inv_empty|]; intros d u b Hin; destruct Hin).
    assert (HRn : ready T G pv (vsize pv) ub [] (init_sol T) s0).
    { split; [exact HS|]. split; [exact HK|]. split; [cbn; lia|]. cbn. discriminate. }
    destruct (calls_spec T G HT pv (vsize pv) ub (pview_ids T mls nf v Hld) (pview_sorted T mls nf v Hld) (pview_wf T mls nf v Hld) Hred Hmls
                (cfg_order T W nf clk v Hmls Hnl Hsz) (pview_worst T W nf v Hld Hc Hw Hworst) (pview_nl T W nf v Hnl) Hsim Hterm (pview_sz T W nf v Hsz)
                s0 HS HK cs [] (init_sol T) s0 HRn Hcs Hp' k r P Hk) as [(a & A1 & A2) A3].
    split.
    - exists (mk_result T (pfl T mls nf v) pv a). split; [rewrite nth_error_map, A1; reflexivity|].
      cbn [mk_result fr_tree]. destruct (a_tree a) as [t|] eqn:Ea; [|discriminate]. intros t' [= <-].
      apply (alw_from T W nf clk v Hmls Hld Hc). apply (A2 t Ea).
    - intros t Ht Hcost. destruct (alw_to T W nf clk v Hmls Hmay Hld Hc _ _ _ Ht) as (t1 & B1 & B2).
      rewrite <- B2 in Hcost. destruct (A3 t1 B1 Hcost) as (a' & t2 & C1 & C2 & C3 & d' & n' & C4). rewrite app_nil_r in C1.
      apply In_nth_error in C1. destruct C1 as [j C1].
      assert (Hj : j < S k).
      { assert (j < length (firstn (S k) (calls T G s0 pv (init_sol T) s0 cs))) by (apply nth_error_Some; congruence).
        pose proof (firstn_le_length (S k) (calls T G s0 pv (init_sol T) s0 cs)). lia. }
      exists j, (mk_result T (pfl T mls nf v) pv a'), (unflip (pfl T mls nf v) t2). split; [lia|].
      assert (D1 : nth_error (calls T G s0 pv (init_sol T) s0 cs) j = Some a').
      { rewrite <- (firstn_skipn (S k) (calls T G s0 pv (init_sol T) s0 cs)).
        rewrite nth_error_app1 by (apply nth_error_Some; congruence). exact C1. }
      split; [rewrite nth_error_map, D1; reflexivity|]. split; [cbn [mk_result fr_tree]; rewrite C2; reflexivity|].
      rewrite <- B2. destruct (alw_from T W nf clk v Hmls Hld Hc _ _ _ C4) as (_ & E & _). rewrite <- E. exact C3.
  Qed.
End SessionFit.

Section AnySession.
  Context (T : task) (HT : good_task T) (W : switches) (nf : nat) (clk : nat -> bool) (v : view).
  Notation mls := (w_mls W).
  Hypothesis Hmls : 1 <= mls.
  Hypothesis Hmay : forall f, f < nf -> tk_may T f = true.
  Hypothesis Hld : loaded nf v.
  Hypothesis Hc : forall x y k l, iid x = iid y -> tk_inst T x k l = tk_inst T y k l.
  Hypothesis Hw : forall k x y, iid x = iid y -> wc T k x = wc T k y.
  Hypothesis Hnl : 1 <= num_labels v.
  Hypothesis Hworst : within T v.
  Hypothesis Hsz : mls <= vsize v.
  Notation pv := (pview T mls nf v).
  Notation G := (mk_cfg W nf (pdead T mls nf v) clk).

  Theorem any_session cs k r P R t : Forall (fun c => lim (snd c)) cs -> nth_error cs k = Some (r, P) ->
    nth_error (session T W nf clk v cs) k = Some R -> fr_tree R = Some t ->
    allowed (fun f => f < nf) mls (Nat.min (p_depth P) (p_nodes P)) (2 ^ Nat.min (p_depth P) (p_nodes P) - 1) v t.
  Proof.
    unfold session. rewrite (preprocess_eq T mls nf v). set (s0 := init_state G (w_branch W) (w_data W) (vsize pv)).
    intros Hcs Hk HR Ht. rewrite nth_error_map in HR.
    destruct (nth_error (calls T G s0 pv (init_sol T) s0 cs) k) as [a|] eqn:Ea; [|discriminate]. injection HR as <-.
    cbn [mk_result fr_tree] in Ht. destruct (a_tree a) as [t0|] eqn:Et; [|discriminate]. injection Ht as <-.
    assert (Hred : forall f x, c_redundant G f = true -> In x (concat pv) -> has f x = false).
    { intros f x Hf Hx. apply (pview_red T mls nf v Hmls Hld f x Hf Hx). }
    assert (HS : SInv T G pv (vsize pv) false s0) by (split; [apply Inv_empty|]; intros d u b Hin; destruct Hin).
    assert (HK : K T pv (vsize pv) s0) by (split; [apply Inv_empty|]; intros d u b Hin; destruct Hin).
    apply (alw_from T W nf clk v Hmls Hld Hc).
    refine (any_calls T G HT pv (vsize pv) (pview_ids T mls nf v Hld) (pview_sorted T mls nf v Hld) (pview_wf T mls nf v Hld) Hred Hmls
                (cfg_order T W nf clk v Hmls Hnl Hsz) (pview_worst T W nf v Hld Hc Hw Hworst) (pview_nl T W nf v Hnl) (fun _ => Hmay) (pview_sz T W nf v Hsz)
                s0 HS HK cs (init_sol T) s0 HS HK _ Hcs k r P a Hk Ea t0 Et).
    cbn. lia.
  Qed.
End AnySession.
