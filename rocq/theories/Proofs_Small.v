(** Data sets with fewer instances than the minimum leaf size: there is no tree. *)
From Coq Require Import List Arith Bool Lia ZArith.
From Verif Require Import Model_FeatureVector Model_Data Model_Node Model_Cache Model_Terminal Model_Heap Model_Solver Model_Preproc
  Spec_Tree Proofs_View Proofs_Calc Proofs_Preproc.
Import ListNotations.
Local Open Scope nat_scope.

Definition unsolved (e : entry) : Prop := is_empty (e_opt e) = true.
Definition AE (c : caches) : Prop :=
  Forall (fun p => Forall unsolved (snd p)) (cc_branch c) /\ Forall (fun p => Forall unsolved (snd p)) (cc_data c).

Section Assoc.
  Context {K : Type} (eqb : K -> K -> bool).
  Lemma aset_all k es m : Forall unsolved es -> Forall (fun p : K * list entry => Forall unsolved (snd p)) m ->
    Forall (fun p => Forall unsolved (snd p)) (aset eqb k es m).
  Proof.
    intro He. induction 1 as [|[k' es'] m H1 H2 IH]; cbn [aset]; [constructor; auto|].
    destruct (eqb k k'); constructor; auto.
  Qed.
  Lemma alookup_all k m es : Forall (fun p : K * list entry => Forall unsolved (snd p)) m -> alookup eqb k m = Some es -> Forall unsolved es.
  Proof.
    induction 1 as [|[k' es'] m H1 H2 IH]; cbn [alookup]; [discriminate|]. destruct (eqb k k'); [|exact IH].
    intro H. injection H as <-. exact H1.
  Qed.
  Lemma aget_all k m : Forall (fun p : K * list entry => Forall unsolved (snd p)) m -> Forall unsolved (aget eqb k m).
  Proof. intro H. unfold aget. destruct (alookup eqb k m) eqn:E; [eapply alookup_all; eassumption|constructor]. Qed.
End Assoc.

Section Small.
  Context (T : task) (G : cfg) (HT : tk_zero_true T = true -> forall x k, tk_inst T x k k = 0%Z).
  Notation mls := (c_mls G).

  Lemma AE_retrieve c v b d n : AE c -> c_retrieve T c v b d n = init_sol T.
  Proof.
    intros [H1 H2]. assert (E : forall es, Forall unsolved es -> es_retrieve T es d n = init_sol T).
    { intros es He. unfold es_retrieve. destruct (find _ es) as [e|] eqn:Ef; [|reflexivity]. apply find_some in Ef. destruct Ef as [Hin Hf].
      apply (proj1 (Forall_forall _ _) He) in Hin. unfold e_is_opt in Hf. rewrite Hin, andb_false_r in Hf. discriminate. }
    unfold c_retrieve, bc_get, dc_get. rewrite !E by (apply aget_all; assumption).
    destruct (cc_use_branch c), (cc_use_data c); reflexivity.
  Qed.
  Lemma AE_upd c v b lb d n : AE c -> AE (c_upd_lb T c v b lb d n).
  Proof.
    assert (E : forall g es, Forall unsolved es -> Forall unsolved (es_upd_lb T g es lb d n)).
    { intros g. induction 1 as [|e es H1 H2 IH]; cbn [es_upd_lb]; [constructor; [reflexivity|constructor]|].
      destruct (e_is d n e); constructor; try assumption. destruct (g && e_is_opt e); exact H1. }
    intros [H1 H2]. unfold c_upd_lb. destruct (cc_use_lb c); [|split; assumption].
    assert (A1 : AE (if cc_use_branch c then bc_set c b (es_upd_lb T true (bc_get c b) lb d n) else c)).
    { destruct (cc_use_branch c); [|split; assumption]. split; cbn [bc_set cc_branch cc_data]; [|exact H2].
      apply aset_all; [|exact H1]. apply E. apply aget_all. exact H1. }
    destruct (cc_use_branch c); cbv zeta; cbn [bc_set cc_use_data] in *; destruct (cc_use_data c); try exact A1;
      destruct A1 as [B1 B2]; split; try exact B1; cbn [dc_set cc_data] in *; (apply aset_all; [apply E; apply aget_all|]; assumption).
  Qed.
  Lemma AE_transfer c b1 b2 : AE c -> AE (c_transfer T c b1 b2).
  Proof.
    intros [H1 H2]. unfold c_transfer. destruct (_ || _); [split; assumption|].
    destruct (alookup br_eqb b1 (cc_branch c)) as [src|] eqn:Es; [|split; assumption]. apply alookup_all in Es; [|exact H1].
    destruct (alookup br_eqb b2 (cc_branch c)) as [dst|] eqn:Ed.
    - destruct (_ =? _); [|split; assumption]. apply alookup_all in Ed; [|exact H1].
      split; cbn [bc_set cc_branch cc_data]; [|exact H2]. apply aset_all; [|exact H1].
      assert (O : forall e l, unsolved e -> Forall unsolved l -> Forall unsolved (snd (transfer_one T e l))).
      { intros e l He. induction 1 as [|x l Hx Hl IH]; cbn [transfer_one]; [constructor|]. destruct (transfer_one T e l) as [a r'] eqn:Et.
        cbn [snd] in IH. destruct (e_is _ _ x); [destruct (_ || _)|]; cbn [snd]; constructor; assumption. }
      revert dst Ed. induction Es as [|e src He Hs IH]; intros dst Ed; cbn [fold_left]; [exact Ed|]. apply IH.
      unfold transfer_step. specialize (O e dst He Ed). destruct (transfer_one T e dst) as [a r']. cbn [snd] in O.
      destruct a; [|exact O]. apply Forall_app. split; [exact O|constructor; [exact He|constructor]].
    - split; cbn [bc_set cc_branch cc_data]; [|exact H2]. apply aset_all; assumption.
  Qed.

  Lemma AE_sim ar v b d n : forall c lb, AE c -> AE (snd (sim_loop T ar v b d n c lb)).
  Proof.
    induction ar as [|[ev eb] ar IH]; intros c lb Hc; cbn [sim_loop]; [exact Hc|].
    destruct (_ <? _); [apply IH; exact Hc|]. destruct (sim_skip _ _ _); [apply IH; exact Hc|].
    destruct (_ =? _); [|apply IH; exact Hc]. destruct (c_is_optimal _ _ _ _ _); [apply AE_transfer; exact Hc|].
    apply IH. apply AE_transfer. exact Hc.
  Qed.
  Lemma AE_update_sim s v b d n : AE (s_c s) -> AE (s_c (snd (update_sim T G s v b d n))).
  Proof.
    intro H. unfold update_sim. destruct (c_sim G); [|exact H].
    pose proof (AE_sim (s_ar s d) v b d n (s_c s) init_lb H) as H'. destruct (sim_loop _ _ _ _ _ _ _ _) as [[lb opt] c]. cbn [snd] in H'.
    destruct (is_empty lb); [exact H'|]. destruct opt; [exact H'|]. destruct (tk_eq T _ _); [exact H'|]. cbn [snd set_c s_c]. apply AE_upd. exact H'.
  Qed.

  Lemma in_time_c s : s_c (snd (in_time G s)) = s_c s.
  Proof. unfold in_time. destruct (s_on s); reflexivity. Qed.

  Lemma small_sub v (Hv : vsize v < mls) fuel : forall b ub d n s, AE (s_c s) ->
    fst (solve_sub T G fuel v b ub d n s) = init_sol T /\ AE (s_c (snd (solve_sub T G fuel v b ub d n s))).
  Proof.
    intros b ub d0 n0 s Hs. destruct fuel as [|fuel]; cbn [solve_sub]; [split; [reflexivity|exact Hs]|].
    assert (Hsat : forall k, 1 <= k -> sat_mls G v k = false).
    { intros k Hk. unfold sat_mls. apply Nat.leb_gt. nia. }
    assert (Hleaf : forall u, solve_leaf T G v u = (init_sol T, u)) by (intro u; unfold solve_leaf; rewrite Hsat by lia; reflexivity).
    pose proof (in_time_c s) as Ec. destruct (in_time G s) as [ok s1]. cbn [snd] in Ec. rewrite <- Ec in Hs. clear Ec.
    destruct ok; cbn [negb]; [|split; [reflexivity|exact Hs]].
    destruct (reduce_budget T v b ub d0 n0) as [d n]. rewrite !Hleaf. cbn [fst].
    destruct (_ || _); [split; [reflexivity|exact Hs]|].
    rewrite (AE_retrieve (s_c s1)) by exact Hs. cbn [is_empty init_sol value_node nd_feat nd_lab negb].
    assert (Hcont : forall s2, AE (s_c s2) ->
      fst (if c_term G && (d <=? 2) then solve_terminal T G v b ub d n s2 else general_case T G (solve_sub T G fuel) v b ub d n s2) = init_sol T
      /\ AE (s_c (snd (if c_term G && (d <=? 2) then solve_terminal T G v b ub d n s2 else general_case T G (solve_sub T G fuel) v b ub d n s2)))).
    { intros s2 H2. destruct (c_term G && (d <=? 2)).
      - unfold solve_terminal. assert (Er : term_solve T (c_nf G) mls v b n = tres_clear T).
        { unfold term_solve, term_results. assert (Et : k_tot (calc_of T (c_nf G) (n =? 1) v) = Z.of_nat (vsize v)).
          { destruct (calc_of_cells T (c_nf G) HT (n =? 1) v) as (_ & B & _). exact B. }
          rewrite Et. rewrite (proj2 (Z.ltb_lt _ _)) by lia. reflexivity. }
        rewrite Er. cbv zeta. cbn [tres_clear r_one r_two r_three fst snd].
        assert (Est : forall c u d' n', AE c -> AE (store_term T c v b u (init_sol T) d' n')).
        { intros c u d' n' Hc. unfold store_term. destruct (c_is_optimal _ _ _ _ _); [exact Hc|]. cbn [is_empty init_sol value_node nd_feat nd_lab]. apply AE_upd. exact Hc. }
        split.
        + destruct n as [|[|[|n]]]; destruct (tk_sdom T _ _); reflexivity.
        + unfold update_archive. destruct (c_sim G); cbn [set_ar set_c s_c]; auto.
      - unfold general_case. rewrite Hleaf, Hsat by lia. cbn [negb fst snd]. split; [reflexivity|exact H2]. }
    destruct (Model_Solver.c_lb G); [|apply Hcont; exact Hs].
    pose proof (AE_update_sim s1 v b d n Hs) as H2. destruct (update_sim T G s1 v b d n) as [upd s2]. cbn [snd] in H2.
    rewrite (AE_retrieve (s_c s2)) by exact H2. cbn [is_empty init_sol value_node nd_feat nd_lab negb]. rewrite andb_false_r.
    destruct (c_ub G && tk_sdom T _ _); [split; [reflexivity|exact H2]|]. destruct (tk_eq T _ _); [split; [reflexivity|exact H2]|]. apply Hcont. exact H2.
  Qed.

  Lemma small_solve P v : vsize v < mls -> forall ubr ud N,
    a_tree (solve T G P v (init_sol T) (init_state G ubr ud N)) = None.
  Proof.
    intros Hv ubr ud N. unfold solve. set (s := St _ _ _ _ _ _ _).
    assert (Hs : AE (s_c s)) by (split; constructor).
    assert (Hf : fst (first_ub T G P v (init_sol T)) = init_sol T).
    { unfold first_ub. cbn [is_empty init_sol value_node nd_feat nd_lab]. unfold solve_leaf, sat_mls.
      rewrite (proj2 (Nat.leb_gt _ _)) by lia. reflexivity. }
    destruct (first_ub T G P v (init_sol T)) as [res gub]. cbn [fst] in Hf. subst res.
    assert (Ha : add_sol (init_sol T) (init_sol T) = init_sol T) by (unfold add_sol; destruct (_ <? _)%Z; reflexivity).
    assert (HL : forall step, (forall Q k, o_res Q = init_sol T -> AE (s_c (o_st Q)) ->
        o_res (fst (step Q k)) = init_sol T /\ AE (s_c (o_st (fst (step Q k))))) ->
      forall ks Q, o_res Q = init_sol T -> AE (s_c (o_st Q)) -> o_res (outer_loop step Q ks) = init_sol T).
    { intros step Hstep. induction ks as [|k ks IH]; intros Q H1 H2; cbn [outer_loop]; [exact H1|].
      destruct (Hstep Q k H1 H2) as [H3 H4]. destruct (step Q k) as [Q' ok]. cbn [fst] in *. destruct ok; [|exact H3]. apply IH; assumption. }
    match goal with |- context [in_time G (o_st ?q)] => set (Q := q) end.
    assert (HQ : o_res Q = init_sol T).
    { unfold Q. destruct (_ =? 1); (apply HL; [|reflexivity|exact Hs]); intros Q1 k H1 H2.
      - unfold nodes_step. pose proof (in_time_c (o_st Q1)) as Ec. destruct (in_time G (o_st Q1)) as [ok s1]. cbn [snd] in Ec. rewrite <- Ec in H2.
        destruct ok; cbn [negb fst o_res o_st]; [|split; assumption].
        pose proof (small_sub v Hv (S (Nat.min (p_depth P) k)) [] (o_ub Q1) (Nat.min (p_depth P) k) k s1 H2) as [H3 H4].
        destruct (solve_sub _ _ _ _ _ _ _ _ _) as [sol s2]. cbn [fst snd] in *.
        pose proof (in_time_c (set_mdf s2 (int_log2 (k + 1)))) as Ec2. destruct (in_time G (set_mdf s2 (int_log2 (k + 1)))) as [ok2 s3]. cbn [snd] in Ec2.
        cbn [fst o_res o_st]. rewrite Ec2, H1, H3. split; [exact Ha|exact H4].
      - unfold depth_step. 
        pose proof (small_sub v Hv (S k) [] (o_ub Q1) k (Nat.min (p_nodes P) (2 ^ k - 1)) (o_st Q1) H2) as [H3 H4].
        destruct (solve_sub _ _ _ _ _ _ _ _ _) as [sol s2]. cbn [fst snd] in *.
        pose proof (in_time_c (set_mdf s2 k)) as Ec2. destruct (in_time G (set_mdf s2 k)) as [ok2 s3]. cbn [snd] in Ec2.
        cbn [fst o_res o_st]. rewrite Ec2, H1, H3. split; [exact Ha|exact H4]. }
    destruct (in_time G (o_st Q)) as [pr s1]. rewrite HQ. cbn [init_sol value_node nd_sol]. rewrite Z.eqb_refl. reflexivity.
  Qed.
End Small.

Lemma small_fit T W P nf clk v : (tk_zero_true T = true -> forall x k, tk_inst T x k k = 0%Z) -> vsize v < w_mls W -> fr_tree (fit T W P nf clk v) = None.
Proof.
  intros HT Hv. unfold fit. rewrite (preprocess_eq T (w_mls W) nf v). cbn [mk_result fr_tree].
  rewrite small_solve; [reflexivity|exact HT|]. rewrite pview_size. exact Hv.
Qed.
