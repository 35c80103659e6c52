(** Reconstruction of the tree from the result of the search. *)
From Coq Require Import List Arith Bool Lia ZArith.
From Verif Require Import Model_FeatureVector Model_Data Model_Node Model_Cache Model_Terminal Model_Solver
  Spec_Tree Proofs_View Proofs_Diff Proofs_Feature Proofs_Calc Proofs_Base Proofs_Terminal Proofs_TermState Proofs_Cache
  Proofs_Search Proofs_NonEmpty Proofs_RecCalc Proofs_RecTree Proofs_Keep.
Import ListNotations.
Local Open Scope nat_scope.

Section Construct.
  Context (T : task) (G : cfg) (HT : good_task T) (root : view) (N : nat) (strong : bool).
  Notation nf := (c_nf G).
  Notation mls := (c_mls G).
  Notation cost := (tree_cost (tk_inst T)).
  Notation worst := (tk_worst T).
  Notation V b := (restrict b root).
  Hypothesis Hids : ids_ok N root.
  Hypothesis Hsorted : view_sorted root.
  Hypothesis Hwf : wf_view nf root.
  Hypothesis Hred : forall f x, c_redundant G f = true -> In x (concat root) -> has f x = false.
  Hypothesis Hmls : 1 <= mls.
  Hypothesis Horder : forall v f, In f (c_order G v) <-> f < nf.
  Hypothesis Hworst : within T root.
  Hypothesis Hnl : 1 <= num_labels root.
  Hypothesis Hsim : strong = true -> c_sim G = true -> mls = 1.
  Hypothesis Hterm : strong = true -> c_term G = true -> mls = 1.
  Hypothesis Hmay : c_term G = true -> forall f, f < nf -> tk_may T f = true.

  Notation SI := (SInv T G root N strong).
  Notation KK := (K T root N).

  Definition noterm : Prop := strong = true -> c_term G = false.
  Lemma LBt_s v d n z : (strong = true -> c_term G = true -> n <> 2) -> LBt T G strong v d n z -> LBs T G strong v d n z.
  Proof.
    intros Hn H H0. specialize (H H0). unfold adj in H. revert H. case_eq (c_term G); cbn [andb]; intros Ec H; [|exact H].
    destruct (n =? 2) eqn:E2; [|exact H]. apply Nat.eqb_eq in E2. destruct (Hn H0 Ec E2).
  Qed.

  (** What a state must satisfy during the reconstruction. *)
  Definition good (s : st) : Prop := SI s /\ KK s /\ s_on s = false /\ timely strong s.

  Lemma late_off fuel v b ub d n s r s' : d < fuel -> s_on s = false -> solve_sub T G fuel v b ub d n s = (r, s') ->
    s_on s' = false /\ s_late s' = s_late s.
  Proof.
    intros Hd Hs He. pose proof (solve_sub_frame T G HT root strong Hmls Hnl Hsim Hterm fuel v b ub d n s Hd) as F.
    rewrite He in F. cbn [snd] in F. destruct F as (F1 & _ & _ & _ & F5). split; [congruence|auto].
  Qed.

  Lemma sub_good fuel b ub d n s r s' : d < fuel -> mls <= vsize (V b) -> d <= n <= 2 ^ d - 1 -> full G strong d n -> nd_sol ub = worst ->
    good s -> solve_sub T G fuel (V b) b ub d n s = (r, s') ->
    good s' /\ wit T G (V b) d r /\ num_nodes r <= n /\ LBs T G strong (V b) d n (nd_sol r).
  Proof.
    intros Hd Hsz Hn Hfull Hub (H1 & H2 & H3 & H4) E1.
    destruct (late_off _ _ _ _ _ _ _ _ _ Hd H3 E1) as [F1 F2].
    assert (Ht : timely strong s') by (intro Hs; rewrite F2; apply H4; exact Hs).
    destruct (solve_sub_contract T G HT root N strong Hids Hsorted Hwf Hred Hmls Horder Hworst Hnl Hsim Hterm fuel
                b ub d n s r s' Hd Hsz Hn Hfull H1 E1 Ht) as [A1 A2].
    destruct (solve_sub_nonempty T G HT root N Hids Hsorted Hwf Hmls Hworst Hnl fuel b ub d n s r s' Hd Hsz H2
                ltac:(lia) E1) as (B1 & _ & B2).
    specialize (B2 H3 Hub). split; [exact (conj A1 (conj B1 (conj F1 Ht)))|].
    destruct A2 as [[-> _]|A2]; [discriminate|exact A2].
  Qed.

  (** The solution of a child: real, within depth [cd], and as good as the child [t] of the
      solution that is being reconstructed. *)
  Lemma scan_good s b dm sizes sol k : good s -> mls <= vsize (V b) -> scan_child T G s (V b) b dm sizes = Some (sol, k) ->
    In k sizes /\ wit T G (V b) (Nat.min dm k) sol /\ num_nodes sol <= k /\ LBt T G strong (V b) (Nat.min dm k) k (nd_sol sol).
  Proof.
    intros (H1 & H2 & _) Hsz. induction sizes as [|j r IH]; cbn [scan_child]; [discriminate|].
    destruct (j =? 0) eqn:Ej.
    - apply Nat.eqb_eq in Ej. subst j.
      destruct (leaf_rng T G HT root Hmls Hworst Hnl b (init_sol T) Hsz ltac:(cbn; lia)) as (_ & _ & Hne).
      rewrite (Hne eq_refl). intro H. injection H as <- <-. split; [left; reflexivity|]. rewrite Nat.min_0_r.
      assert (Hp : post T G strong (V b) 0 0 (init_sol T) (fst (solve_leaf T G (V b) (init_sol T)))).
      { apply leaf_post; try assumption. intros t Ht. eapply zero_leaf; [..|exact Ht]; try eassumption. left. reflexivity. }
      destruct Hp as [[Hp _]|Hp]; [rewrite Hp in Hne; specialize (Hne eq_refl); discriminate|].
      destruct Hp as (Hp1 & Hp2 & Hp3). split; [exact Hp1|]. split; [exact Hp2|].
      intro Hs. eapply LB_mono; [exact (Hp3 Hs)|lia|]. unfold adj. cbn [Nat.eqb]. rewrite andb_false_r. lia.
    - destruct (is_empty (c_retrieve T (s_c s) (V b) b (Nat.min dm j) j)) eqn:Ee.
      + intro H. destruct (IH H) as [A1 A2]. split; [right; exact A1|exact A2].
      + intro H. injection H as <- <-. split; [left; reflexivity|].
        destruct H1 as [HI _]. destruct (retrieve_entry T N root _ (s_c s) b (Nat.min dm j) j HI) as [Hx|(_ & e & [He _] & Hd & Hn & Ho & Hr)].
        * rewrite Hx in Ee. discriminate.
        * rewrite Hr in *. destruct (He Ho) as (B1 & B2 & B3). rewrite Hd, Hn in *. auto.
  Qed.

  Lemma child_good b d n a t s sol cd k s' : (strong = true -> c_term G = true -> d <= 2 /\ a = 0) -> good s -> 1 <= d -> a <= 2 ^ (d - 1) - 1 -> alw T G (d - 1) a (V b) t ->
    child_sol T G (V b) b d n a s = ((sol, cd, k), s') ->
    good s' /\ cd <= d - 1 /\ cd <= k /\ wit T G (V b) cd sol /\ (strong = true -> (nd_sol sol <= cost (V b) t)%Z)
    /\ (cache_used (s_c s) = false -> cache_used (s_c s') = false /\ num_nodes sol <= a).
  Proof.
    intros Hlow Hs Hd Ha Ht. unfold child_sol.
    assert (Hsz : mls <= vsize (V b)) by (eapply allowed_size; exact Ht).
    assert (Hdep : depth t <= a) by (pose proof (depth_le_nodes t); destruct Ht as (_ & _ & _ & ?); lia).
    assert (Hle : forall cd k z, Nat.min (d - 1) a <= cd -> a <= k -> LBs T G strong (V b) cd k z -> strong = true -> (z <= cost (V b) t)%Z).
    { intros cd' k' z Hc Hk HL Hst. apply (HL Hst). destruct Ht as (A1 & A2 & A3 & A4). repeat split; try assumption; lia. }
    set (from := Nat.max a (min_size d n)).
    destruct (if cache_used (s_c s) then _ else None) as [[sol' k']|] eqn:Ef.
    - destruct (cache_used (s_c s)) eqn:Eu; [|discriminate]. intro H. injection H as <- <- <- <-.
      destruct (scan_good _ _ _ _ _ _ Hs Hsz Ef) as (A1 & A2 & A3 & A4). apply in_seq in A1.
      split; [exact Hs|]. split; [lia|]. split; [lia|]. split; [exact A2|]. split; [|rewrite Eu; discriminate]. apply Hle with (cd := Nat.min (d - 1) k') (k := k'); [lia|lia|]. apply LBt_s; [|exact A4].
      intros Hst Hc. destruct (Hlow Hst Hc) as [Hd2 _]. unfold max_size in A1.
      assert (2 ^ (d - 1) <= 2 ^ 1) by (apply Nat.pow_le_mono_r; lia). cbn in H. lia.
    - clear Ef. set (cd0 := Nat.min (d - 1) a). set (k0 := if cache_used (s_c s) then _ else a).
      assert (Hk : a <= k0) by (unfold k0, from; destruct (cache_used (s_c s)); lia).
      assert (Hn : cd0 <= a <= 2 ^ cd0 - 1).
      { split; [unfold cd0; lia|]. unfold cd0. destruct (Nat.min_spec (d - 1) a) as [[_ ->]|[_ ->]]; [exact Ha|].
        pose proof (Nat.pow_gt_lin_r 2 a). lia. }
      assert (Hfull : full G strong cd0 a).
      { intros Hst Hc. destruct (Hlow Hst Hc) as [_ ->]. unfold cd0. rewrite Nat.min_0_r. cbn. lia. }
      assert (Hres : forall s1 r s2, good s1 -> solve_sub T G (S cd0) (V b) b (init_sol T) cd0 a s1 = (r, s2) ->
        good s2 /\ wit T G (V b) cd0 r /\ (strong = true -> (nd_sol r <= cost (V b) t)%Z) /\ num_nodes r <= a).
      { intros s1 r s2 H1 H2. destruct (sub_good (S cd0) b (init_sol T) cd0 a s1 r s2 ltac:(lia) Hsz Hn Hfull eq_refl H1 H2) as (B1 & B2 & B3 & B4).
        split; [exact B1|]. split; [exact B2|]. split; [|exact B3]. apply Hle with (3 := B4); unfold cd0; lia. }
      destruct (solve_sub T G (S cd0) (V b) b (init_sol T) cd0 a s) as [r1 s1] eqn:E1.
      pose proof (used_sub T G (S cd0) (V b) b (init_sol T) cd0 a s _ eq_refl) as Hu. rewrite E1 in Hu. cbn [snd] in Hu.
      destruct (Hres _ _ _ Hs E1) as (B1 & B2 & B3 & B4). rewrite (wit_nonempty _ _ _ _ _ B2).
      intro H. injection H as <- <- <- <-. split; [exact B1|]. split; [unfold cd0; lia|]. split; [unfold cd0; lia|].
      split; [exact B2|]. split; [exact B3|]. intro Hx. split; [congruence|exact B4].
  Qed.

  Theorem construct_spec fuel : forall sol b d0 n0 s ot s',
    Nat.min d0 n0 < fuel -> (strong = true -> c_term G = true -> Nat.min d0 n0 <= 2) -> SI s -> KK s -> timely strong s -> wit T G (V b) (Nat.min d0 n0) sol ->
    construct T G fuel sol (V b) b d0 n0 s = (ot, s') ->
    good s' /\ exists t, ot = Some t /\ alw T G (Nat.min d0 n0) (2 ^ Nat.min d0 n0 - 1) (V b) t
      /\ (strong = true -> (cost (V b) t <= nd_sol sol)%Z)
      /\ (cache_used (s_c s) = false -> cache_used (s_c s') = false /\ nodes t <= num_nodes sol).
  Proof.
    induction fuel as [|fuel IH]; intros sol b d0 n0 s0 ot s' Hf Hlow HS HK Ht Hw; [lia|].
    cbn [construct]. set (d := Nat.min d0 n0) in *. set (n := Nat.min n0 (2 ^ d - 1)). set (s := set_on s0 false).
    assert (Hs : good s) by (split; [|split; [|split]]; assumption || reflexivity).
    assert (Hleaf : forall l, nd_feat sol = None -> nd_lab sol = Some l -> alw T G d (2 ^ d - 1) (V b) (Leaf l) /\ cost (V b) (Leaf l) = nd_sol sol).
    { intros l Hf' Hl. unfold wit in Hw. rewrite Hf' in Hw. destruct Hw as (l' & E1 & E2 & E3 & E4). rewrite E1 in Hl. injection Hl as ->.
      split; [apply leaf_allowed; assumption|congruence]. }
    destruct ((d =? 0) || (n =? 0) || (num_nodes sol =? 0)) eqn:E0.
    { assert (Hf' : nd_feat sol = None).
      { unfold wit in Hw. destruct (nd_feat sol) as [f|] eqn:Ef; [|reflexivity]. exfalso.
        destruct Hw as (_ & Hd & _). pose proof (Nat.pow_gt_lin_r 2 d ltac:(lia)).
        assert (num_nodes sol <> 0) by (unfold num_nodes; rewrite Ef; lia).
        rewrite !orb_true_iff, !Nat.eqb_eq in E0. unfold n in E0. lia. }
      unfold wit in Hw. rewrite Hf' in Hw. destruct Hw as (l & E1 & E2 & E3 & E4). rewrite E1.
      intro H. injection H as <- <-. split; [exact Hs|]. exists (Leaf l). split; [reflexivity|].
      destruct (Hleaf l Hf' E1) as [A1 A2]. split; [exact A1|]. split; [intros _; rewrite A2; lia|]. intro Hu. split; [exact Hu|]. cbn [nodes]. lia. }
    assert (Hcon : c_term G = true -> d <= 2 -> exists t, term_construct T nf mls sol (V b) b = Some t /\ alw T G d (2 ^ d - 1) (V b) t /\ (cost (V b) t <= nd_sol sol)%Z /\ nodes t <= num_nodes sol).
    { intros Ec Ed. destruct (term_construct_spec T G HT Hmls (Hmay Ec) sol (V b) b d Ed) as (t' & A1 & A2 & A3 & A4).
      - apply wf_restrict. exact Hwf.
      - intro t'. apply cost_lt_worst; assumption.
      - intros f t'. rewrite restrict_left. apply cost_lt_worst; assumption.
      - intros f t'. rewrite restrict_right. apply cost_lt_worst; assumption.
      - exact Hw.
      - exists t'. split; [exact A1|]. split; [|split; [exact A4|lia]].
        destruct A2 as (B1 & B2 & B3 & B4). repeat split; try assumption. apply nodes_le_full. exact B3. }
    destruct (c_term G && negb ((d =? 1) || (n =? 1) || (num_nodes sol =? 1)) && (d <=? 2)) eqn:Ec.
    { apply andb_true_iff in Ec. destruct Ec as [Ec Ed]. apply andb_true_iff in Ec. destruct Ec as [Ec _]. apply Nat.leb_le in Ed.
      destruct (Hcon Ec Ed) as (t & A1 & A2 & A3 & A4). rewrite A1.
      intro H. injection H as <- <-. split; [exact Hs|]. exists t. split; [reflexivity|]. split; [exact A2|]. split; [auto|]. intro Hu. split; [exact Hu|exact A4]. }
    assert (Hd1' : strong = true -> c_term G = true -> d <= 2 /\ nd_l sol = 0 /\ nd_r sol = 0).
    { intros Hst Hc. specialize (Hlow Hst Hc). split; [exact Hlow|]. rewrite Hc in Ec. cbn [andb] in Ec.
      rewrite (proj2 (Nat.leb_le d 2) Hlow), andb_true_r in Ec. apply negb_false_iff in Ec.
      rewrite !orb_true_iff, !Nat.eqb_eq in Ec. rewrite !orb_false_iff, !Nat.eqb_neq in E0.
      unfold wit in Hw. unfold num_nodes in E0, Ec. destruct (nd_feat sol) as [f|]; [|lia].
      destruct Hw as (_ & _ & W1 & W2 & _).
      assert (Hdd : d = 1 \/ d = 2) by lia. unfold n, d in *. destruct Hdd as [Hdd|Hdd]; rewrite Hdd in *; cbn in *; lia. }
    clear Hcon. unfold wit in Hw. destruct (nd_feat sol) as [f|] eqn:Ef.
    2:{ unfold num_nodes in E0. rewrite Ef in E0. rewrite !orb_true_r in E0. discriminate. }
    destruct Hw as (Hok & Hd1 & Hl & Hr & tl & tr & Atl & Atr & Hsol & _).
    rewrite restrict_left, restrict_right in *.
    destruct (child_sol T G (V (br_left b f)) (br_left b f) d n (nd_l sol) s) as [[[lsol ld] ls] s1] eqn:E1.
    destruct (child_good (br_left b f) d n (nd_l sol) tl s lsol ld ls s1 ltac:(intros H1 H2; destruct (Hd1' H1 H2); tauto) Hs Hd1 Hl Atl E1) as (G1 & L1 & L2 & L3 & L4 & L5).
    destruct (child_sol T G (V (br_right b f)) (br_right b f) d n (nd_r sol) s1) as [[[rsol rd] rs] s2] eqn:E2.
    destruct (child_good (br_right b f) d n (nd_r sol) tr s1 rsol rd rs s2 ltac:(intros H1 H2; destruct (Hd1' H1 H2); tauto) G1 Hd1 Hr Atr E2) as (G2 & R1 & R2 & R3 & R4 & R5).
    destruct (construct T G fuel lsol _ _ ld ls s2) as [lt s3] eqn:E3.
    destruct (IH lsol (br_left b f) ld ls s2 lt s3) as (G3 & t1 & -> & B1 & B2 & B3); try (rewrite Nat.min_l by exact L2); try assumption; try apply G2; [lia|intros H1 H2; destruct (Hd1' H1 H2); lia|].
    destruct (construct T G fuel rsol _ _ rd rs s3) as [rt s4] eqn:E4.
    destruct (IH rsol (br_right b f) rd rs s3 rt s4) as (G4 & t2 & -> & C1 & C2 & C3); try (rewrite Nat.min_l by exact R2); try assumption; try apply G3; [lia|intros H1 H2; destruct (Hd1' H1 H2); lia|].
    rewrite Nat.min_l in B1 by exact L2. rewrite Nat.min_l in C1 by exact R2.
    intro H. injection H as <- <-. split; [exact G4|]. exists (Split f t1 t2). split; [reflexivity|].
    assert (Hsp : alw T G d (2 ^ d - 1) (V b) (Split f t1 t2)).
    { assert (A : depth (Split f t1 t2) <= d) by (cbn [depth]; destruct B1 as (_ & _ & ? & _), C1 as (_ & _ & ? & _); lia).
      apply allowed_split. rewrite restrict_left, restrict_right.
      pose proof (nodes_le_full _ _ A) as A'. cbn [depth nodes] in A, A'.
      split; [exact Hok|]. split; [exact Hd1|]. split; [lia|].
      destruct B1 as (? & ? & ? & ?), C1 as (? & ? & ? & ?). repeat split; try assumption; lia. }
    split; [exact Hsp|]. split.
    - intro Hst. rewrite tree_cost_split, restrict_left, restrict_right.
      specialize (L4 Hst). specialize (R4 Hst). specialize (B2 Hst). specialize (C2 Hst). lia.
    - intro Hu. destruct (L5 Hu) as [U1 U2]. destruct (R5 U1) as [U3 U4]. destruct (B3 U3) as [U5 U6]. destruct (C3 U5) as [U7 U8].
      split; [exact U7|]. unfold num_nodes. rewrite Ef. cbn [nodes]. lia.
  Qed.
End Construct.
