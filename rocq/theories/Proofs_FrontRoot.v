(** Proofs about the search on fronts when the depth-two solver solves the whole problem: one
    search with depth one or two at the root.  Every allowed tree is covered, and the tree of a
    solution is found. *)
From Coq Require Import List Arith Bool ZArith Lia.
From Verif Require Import Model_FeatureVector Model_Data Model_Node Model_Terminal Model_Solver Model_Container Model_Pareto Model_Front.
From Verif Require Import Spec_Tree Proofs_View Proofs_Diff Proofs_Container Proofs_Pareto Proofs_Front Proofs_FrontTwo.
Import ListNotations.
Local Open Scope nat_scope.

Section Root.
  Context (T : ftask) (G : fcfg) (root : view) (N : nat).
  Notation P := (ft_p T).
  Notation V := (pt_S P).
  Notation sol := (csol V ptag).
  Notation front := (cont V ptag).
  Notation eqb := (pt_eqb P).
  Notation dom := (pt_dom P).
  Notation d0 := (pt_d0 P).
  Notation nf := (fc_nf G).
  Notation mls := (pc_mls (fc_p G)).
  Notation sub b := (restrict b root).
  Notation nl := (num_labels root).
  Notation ok := (okm T G).
  Hypothesis Heq : forall a b, eqb a b = true <-> a = b.
  Hypothesis Hrefl : forall a, dom a a = true.
  Hypothesis Htrans : forall a b c, dom a b = true -> dom b c = true -> dom a c = true.
  Hypothesis Hanti : forall a b, dom a b = true -> dom b a = true -> a = b.
  Hypothesis H0refl : forall a, d0 a a = true.
  Hypothesis H0trans : forall a b c, d0 a b = true -> d0 b c = true -> d0 a c = true.
  Hypothesis Hmono : forall t t', fits ok nl t -> fits ok nl t' -> dom (tval P root t) (tval P root t') = true -> d0 (tval P root t) (tval P root t') = true.
  Hypothesis Hadd : forall a a' b b', dom a a' = true -> dom b b' = true -> dom (pt_add P a b) (pt_add P a' b') = true.
  Hypothesis Hbest : forall b t, fits ok nl t -> dom (pt_best P) (tval P (sub b) t) = true.
  Hypothesis Hsame : forall u f l, pt_add P (pt_leaf P (split_left f u) l) (pt_leaf P (split_right f u) l) = pt_leaf P u l.
  Hypothesis Hinv : forall a b, ft_inv T a b = dom b a.
  Hypothesis Hrelax : ft_relax T = None.
  Hypothesis Hmls : mls = 1.
  Hypothesis Hok : forall s, pt_ok P s = true.
  Hypothesis Hterm : fc_term G = true.
  Hypothesis Hids : ids_ok N root.
  Hypothesis Hsorted : view_sorted root.
  Hypothesis Horder : forall v f, In f (pc_order (fc_p G) v) -> f < nf.
  Hypothesis HN : N = vsize root.
  Hypothesis Hsize : 1 <= vsize root.
  Hypothesis Hnl : 2 <= nl.

  Notation leafsol u l := (p_leaf P l (pt_leaf P u l)).
  Let padd b c x := p_add_spec P Heq Hrefl Htrans H0refl H0trans b c x.

  Lemma Rt : sub [] = root. Proof. apply restrict_nil. Qed.
  Lemma snl b : num_labels (sub b) = nl.
  Proof. unfold restrict, num_labels. apply map_length. Qed.

  Lemma leaf_fits l : l < nl -> fits ok nl (Leaf l).
  Proof. intro H. exact H. Qed.

  Lemma R_leaf b a c : a < nl -> c < nl -> dom (pt_leaf P (sub b) a) (pt_leaf P (sub b) c) = true -> R P b (pt_leaf P (sub b) a) (pt_leaf P (sub b) c) = true.
  Proof.
    intros Ha Hc D. unfold R. destruct (br_depth b =? 0) eqn:E; [|exact D]. apply Nat.eqb_eq in E. destruct b; [|discriminate].
    rewrite Rt in *. exact (Hmono (Leaf a) (Leaf c) Ha Hc D).
  Qed.

  (** *** Leaves *)
  Lemma leaf_cov b ub : 1 <= vsize (sub b) -> (forall y l, In y (ct_sols ub) -> l < nl -> dom (cs_val y) (pt_leaf P (sub b) l) = false) ->
    let p := f_leaf T G (sub b) b ub in
    inv P b (fst p) /\ (forall l, l < nl -> cov P b (fst p) (pt_leaf P (sub b) l))
    /\ (forall y, In y (ct_sols (snd p)) -> In y (ct_sols ub) \/ exists l, l < nl /\ y = leafsol (sub b) l)
    /\ (fc_ub G = true -> ct_sols (snd p) <> [])
    /\ (fc_ub G = false -> snd p = ub).
  Proof.
    intros Hz Hub. cbn zeta. unfold f_leaf, p_mls. rewrite Hmls. rewrite (proj2 (Nat.leb_le _ _)) by lia. rewrite snl.
    set (step := fun p l => f_try T G b p (leafsol (sub b) l)).
    assert (K : forall ls p, (forall l, In l ls -> l < nl) -> inv P b (fst p) ->
      (forall y, In y (ct_sols (snd p)) -> In y (ct_sols ub) \/ exists l, l < nl /\ y = leafsol (sub b) l /\ cov P b (fst p) (cs_val y)) ->
      (fc_ub G = false -> snd p = ub) ->
      let q := fold_left step ls p in
      inv P b (fst q) /\ (forall l, In l ls -> cov P b (fst q) (pt_leaf P (sub b) l)) /\ (forall s, cov P b (fst p) s -> cov P b (fst q) s)
      /\ (forall y, In y (ct_sols (snd q)) -> In y (ct_sols ub) \/ exists l, l < nl /\ y = leafsol (sub b) l)
      /\ (ls <> [] -> fc_ub G = true -> ct_sols (snd q) <> []) /\ (ct_sols (snd p) <> [] -> ct_sols (snd q) <> [])
      /\ (fc_ub G = false -> snd q = ub)).
    { induction ls as [|l ls IH]; intros p Hls I Hy Hu; cbn [fold_left].
      - split; [exact I|]. split; [intros l []|]. split; [auto|]. split; [|split; [congruence|split; [auto|exact Hu]]].
        intros y H. destruct (Hy y H) as [H1|(l & H1 & H2 & _)]; [left; exact H1|right; exists l; auto].
      - assert (S : let p' := step p l in inv P b (fst p') /\ cov P b (fst p') (pt_leaf P (sub b) l) /\ (forall s, cov P b (fst p) s -> cov P b (fst p') s)
          /\ (forall y, In y (ct_sols (snd p')) -> In y (ct_sols ub) \/ exists l, l < nl /\ y = leafsol (sub b) l /\ cov P b (fst p') (cs_val y))
          /\ (fc_ub G = true -> ct_sols (snd p') <> []) /\ (ct_sols (snd p) <> [] -> ct_sols (snd p') <> [])
          /\ (fc_ub G = false -> snd p' = ub)).
        { cbn zeta. unfold step, f_try. rewrite Hok. cbn [negb orb p_leaf cs_val].
          destruct (padd b (fst p) (leafsol (sub b) l) I) as (I1 & C1 & M1 & _).
          destruct (fc_ub G) eqn:Eu; cbn [andb].
          - destruct (f_sdom_sol T (snd p) (leafsol (sub b) l)) eqn:Es; cbn [fst snd].
            + split; [exact I|]. apply existsb_exists in Es. destruct Es as (y & Hy1 & Hy2). apply andb_true_iff in Hy2. destruct Hy2 as [_ D]. cbn [cs_val p_leaf] in D.
              assert (C : cov P b (fst p) (pt_leaf P (sub b) l)).
              { destruct (Hy y Hy1) as [H1|(l' & H1 & -> & H2)].
                - rewrite (Hub y l H1) in D; [discriminate|apply Hls; left; reflexivity].
                - destruct H2 as (z & Hz1 & Hz2). exists z. split; [exact Hz1|]. apply (R_trans P Htrans H0trans b _ _ _ Hz2).
                  apply R_leaf; [exact H1|apply Hls; left; reflexivity|exact D]. }
              split; [exact C|]. split; [auto|]. split; [exact Hy|]. split; [|split; [auto|discriminate]]. intros _ H0. rewrite H0 in Hy1. destruct Hy1.
            + split; [exact I1|]. split; [exact C1|]. split; [exact M1|]. unfold f_upd_ub. rewrite Eu.
              assert (NE : ct_sols (f_add T (snd p) (leafsol (sub b) l)) <> []).
              { unfold f_add, ct_add. destruct (ct_sols (snd p)) as [|y ys] eqn:Ep; [cbn; discriminate|]. rewrite <- Ep.
                destruct (u_test _ _ _ _); [|rewrite Ep; discriminate]. destruct (existsb _ _); cbn; [rewrite Ep; discriminate|].
                intro H. apply app_eq_nil in H. destruct H as [_ H]. discriminate. }
              split; [|split; [auto|split; [auto|discriminate]]]. intros y Hy1. apply ct_add_sub in Hy1. destruct Hy1 as [->|Hy1].
              * right. exists l. split; [apply Hls; left; reflexivity|]. split; [reflexivity|exact C1].
              * destruct (Hy y Hy1) as [H1|(l' & H1 & H2 & H3)]; [left; exact H1|right; exists l'; auto].
          - cbn [fst snd]. split; [exact I1|]. split; [exact C1|]. split; [exact M1|]. unfold f_upd_ub. rewrite Eu.
            split; [|split; [discriminate|split; [auto|exact Hu]]].
            intros y Hy1. destruct (Hy y Hy1) as [H1|(l' & H1 & H2 & H3)]; [left; exact H1|right; exists l'; auto]. }
        cbn zeta in S. destruct S as (S1 & S2 & S3 & S4 & S5 & S6 & S7).
        destruct (IH (step p l) ltac:(intros l' H'; apply Hls; right; exact H') S1 S4 S7) as (A1 & A2 & A3 & A4 & A5 & A6 & A7). cbn zeta.
        split; [exact A1|]. split; [intros l' [<-|H']; auto|]. split; [auto|]. split; [exact A4|]. split; [intros _ H; auto|]. split; [auto|exact A7]. }
    destruct (K (seq 0 nl) (ct_new, ub)) as (A1 & A2 & A3 & A4 & A5 & A6 & A7).
    - intros l Hl. apply in_seq in Hl. lia.
    - apply inv_new.
    - auto.
    - reflexivity.
    - fold step. split; [exact A1|]. split; [intros l Hl; apply A2; apply in_seq; lia|]. split; [exact A4|]. split; [|exact A7].
      apply A5. destruct nl as [|n]; [lia|]. discriminate.
  Qed.

  Notation res0 := (fst (f_leaf T G root [] ct_new)).
  Notation gub0 := (snd (f_leaf T G root [] ct_new)).
  Lemma leaf_root : inv P [] res0 /\ (forall l, l < nl -> cov P [] res0 (pt_leaf P root l))
    /\ (forall y, In y (ct_sols gub0) -> exists l, l < nl /\ y = leafsol root l) /\ (fc_ub G = true -> ct_sols gub0 <> []) /\ (fc_ub G = false -> gub0 = ct_new).
  Proof.
    pose proof (leaf_cov [] ct_new) as H. rewrite Rt in H. destruct H as (A1 & A2 & A3 & A4 & A5); [exact Hsize|intros y l []|].
    split; [exact A1|]. split; [exact A2|]. split; [|auto]. intros y Hy. destruct (A3 y Hy) as [[]|H]. exact H.
  Qed.

  (** *** The depth-two solver at the root *)
  Notation cvd := (cvd T).
  Definition lim (d n : nat) : Prop := d = 1 /\ n = 1 \/ d = 2 /\ n = 3.

  Lemma lim_one d n : lim d n -> 1 <= d /\ 1 <= n.
  Proof. unfold lim. lia. Qed.

  Lemma one_list_tree x : In x (one_list T G root) -> exists t, allowed ok mls 1 1 root t /\ tval P root t = cs_val x.
  Proof.
    intro H. unfold one_list in H. apply in_flat_map in H. destruct H as (f & Hf & H). apply in_seq in Hf.
    destruct (negb (pt_may P f) || _ || _) eqn:E; [destruct H|]. apply orb_false_iff in E. destruct E as [E E3]. apply orb_false_iff in E. destruct E as [E1 E2].
    apply negb_false_iff in E1. apply Nat.ltb_ge in E2, E3. apply in_map_iff in H. destruct H as ((a & c) & <- & Hp).
    unfold label_pairs in Hp. apply filter_In in Hp. destruct Hp as [Hp _]. apply in_prod_iff in Hp. rewrite !in_seq in Hp.
    exists (Split f (Leaf a) (Leaf c)). split; [|reflexivity].
    apply allowed_split. split; [split; [lia|exact E1]|]. split; [lia|]. split; [cbn; lia|].
    unfold allowed. cbn. change (length (split_left f root)) with (num_labels (split_left f root)).
    change (length (split_right f root)) with (num_labels (split_right f root)). rewrite num_labels_left, num_labels_right.
    unfold vsize in E2, E3. repeat split; lia.
  Qed.

  Lemma one_list_nil d n t : one_list T G root = [] -> allowed ok mls d n root t -> exists l, l < nl /\ t = Leaf l.
  Proof.
    intros Ho A. destruct t as [l|f tl tr]; [exists l; split; [apply A|reflexivity]|exfalso].
    apply allowed_split in A. destruct A as ((Of & Om) & _ & _ & Al & Ar). apply allowed_size in Al, Ar.
    assert (H : In (p_branch P f (two_leaves T (split_left f root) (split_right f root) (0, 1)) 0 0) (one_list T G root)); [|rewrite Ho in H; destruct H].
    unfold one_list. apply in_flat_map. exists f. split; [apply in_seq; lia|].
    rewrite Om, (proj2 (Nat.ltb_ge _ _) Al), (proj2 (Nat.ltb_ge _ _) Ar). cbn [negb orb].
    apply in_map_iff. exists (0, 1). split; [reflexivity|].
    unfold label_pairs. apply filter_In. split; [apply in_prod_iff; rewrite !in_seq; lia|]. cbn. rewrite andb_false_r. reflexivity.
  Qed.

  Lemma fold_in xs : forall c y, In y (ct_sols (fold_left (f_add T) xs c)) -> In y xs \/ In y (ct_sols c).
  Proof.
    induction xs as [|x xs IH]; intros c y Hy; [auto|]. cbn [fold_left] in Hy. destruct (IH _ _ Hy) as [H|H]; [left; right; exact H|].
    apply ct_add_sub in H. destruct H as [->|H]; [left; left; reflexivity|right; exact H].
  Qed.

  Lemma compute_ub ub n : snd (t_compute T G root [] ub n) = fold_left (f_add T) (one_list T G root) ub.
  Proof.
    unfold t_compute. rewrite (proj2 (Nat.ltb_ge _ _)) by (rewrite Hmls; exact Hsize). rewrite (t_one_eq T G Hrelax). destruct (n =? 1); reflexivity.
  Qed.

  (** What one search at the root returns. *)
  Definition covered (d n : nat) (c : front) : Prop :=
    forall t, allowed ok mls d n root t -> cvd c (tval P root t) \/ exists l, l < nl /\ t = Leaf l.

  (** Only the root is cached. *)
  Notation KR := (KInv T root N (fun u _ _ _ => u = root)).

  Lemma KR_term c ub x d n : KR c -> KR (f_store_term T G c root [] ub x d n).
  Proof.
    intro H. unfold f_store_term. destruct (k_is_optimal _ _ _ _ _ _ _); [exact H|].
    destruct (f_empty T x).
    - pose proof (KInv_upd_lb T G root N (fun u _ _ _ => u = root) Hids c [] ub d n H) as K. rewrite Rt in K. exact K.
    - pose proof (KInv_store T G root N (fun u _ _ _ => u = root) Hids ltac:(auto) c [] x d n H Rt) as K. rewrite Rt in K. exact K.
  Qed.

  Lemma terminal_root ub d n s : lim d n -> KR (fs_k T s) -> fz_data T (fs_t1 T s) = None -> fz_data T (fs_t2 T s) = None ->
    (forall y, In y (ct_sols ub) -> exists l, l < nl /\ y = leafsol root l) ->
    let r := f_terminal T G root [] ub d n s in covered d n (fst r) /\ KR (fs_k T (snd r)).
  Proof.
    intros Hl HK H1 H2 Hub. cbn zeta. unfold f_terminal, t_solve.
    set (z := if (t_probe _ _ _ <? _)%Z then fs_t1 T s else fs_t2 T s).
    assert (Hz : t_same T z root n = false).
    { unfold t_same, z. destruct (_ <? _)%Z; [rewrite H1|rewrite H2]; reflexivity. }
    rewrite Hz. clear Hz z.
    pose proof (compute_ub ub n) as Eu. pose proof (compute_spec T G root Heq Hrefl Htrans Hadd Hbest Hsame Hrelax Hmls Hok [] ub n) as C. rewrite Rt in C.
    specialize (C Hsize). destruct (t_compute T G root [] ub n) as [R0 ub']. cbn [fst snd] in Eu, C. subst ub'.
    set (ub' := fold_left (f_add T) (one_list T G root) ub) in *.
    set (res := match n with 1 => fm_one T R0 | 2 => fm_two T R0 | _ => fm_three T R0 end).
    assert (CR : ivd T res /\ forall t, allowed ok mls d n root t -> cvd res (tval P root t)).
    { destruct C as (C1 & C2 & C3). destruct Hl as [[-> ->]|[-> ->]]; cbn [res]; [split; assumption|]. apply C3. discriminate. }
    destruct CR as [[Ia _] CR]. split.
    - cbn [fst]. destruct (f_sdom T ub' res) eqn:Es.
      + unfold f_sdom in Es. intros t At. right.
        destruct (one_list T G root) as [|x0 xs] eqn:Eo; [exact (one_list_nil d n t Eo At)|exfalso].
        assert (Hne : exists x, In x (ct_sols ub')).
        { assert (I0 : forall xs c, (exists x, In x (ct_sols c)) -> exists x, In x (ct_sols (fold_left (f_add T) xs c))).
          { induction xs0 as [|y ys IH]; intros c Hc; [exact Hc|]. cbn [fold_left]. apply IH. unfold f_add, ct_add.
            destruct Hc as (x & Hx). destruct (ct_sols c) as [|w ws] eqn:Ec; [destruct Hx|]. rewrite <- Ec in *.
            destruct (u_test _ _ _ _); [|exists x; exact Hx]. destruct (existsb _ _); cbn; [exists x; exact Hx|].
            exists y. apply in_or_app. right. left. reflexivity. }
          unfold ub'. cbn [fold_left]. apply I0. unfold f_add, ct_add. destruct (ct_sols ub) as [|w ws] eqn:Ec; [exists x0; left; reflexivity|]. rewrite <- Ec.
          destruct (u_test _ _ _ _); [|exists w; rewrite Ec; left; reflexivity]. destruct (existsb _ _); cbn; [exists w; rewrite Ec; left; reflexivity|].
          exists x0. apply in_or_app. right. left. reflexivity. }
        destruct Hne as (x & Hx). rewrite forallb_forall in Es. pose proof (Es x Hx) as Ex. apply existsb_exists in Ex.
        destruct Ex as (y & Hy & Hd). apply andb_true_iff in Hd. destruct Hd as [Hn' Hd]. rewrite Hinv in Hd.
        assert (Cx : cvd res (cs_val x)).
        { assert (exists t0, allowed ok mls d n root t0 /\ tval P root t0 = cs_val x) as (t0 & A0 & <-); [|apply CR; exact A0].
          unfold ub' in Hx. rewrite <- Eo in Hx. apply fold_in in Hx. destruct Hx as [Hx|Hx].
          - destruct (one_list_tree x Hx) as (t0 & A0 & E0). exists t0. split; [|exact E0]. destruct (lim_one d n Hl). apply (allowed_mono _ _ _ _ _ _ _ _ A0); assumption.
          - destruct (Hub x Hx) as (l & Hll & ->). exists (Leaf l). split; [|reflexivity]. unfold allowed. cbn. unfold num_labels in Hll. unfold vsize in Hsize. repeat split; lia. }
        destruct Cx as (w & Hw & Dw).
        assert (w = y). { apply (anti_eq P dom (ct_sols res)); auto. exact (Htrans _ _ _ Dw Hd). }
        subst w. rewrite (Hanti _ _ Dw Hd) in Hn'. rewrite (proj2 (Heq _ _) eq_refl) in Hn'. discriminate.
      + intros t At. left. exact (CR t At).
    - cbn [snd]. unfold f_archive. assert (Hk : KR (f_store_term T G (f_store_term T G (f_store_term T G (fs_k T s) root [] ub' (fm_one T R0) 1 1) root [] ub' (fm_two T R0) 2 2) root [] ub' (fm_three T R0) 2 3)).
      { do 3 apply KR_term. exact HK. }
      destruct (fc_sim G); exact Hk.
  Qed.

  Lemma lb0_empty v b d n : k_lb T G (FCache T N [] []) v b d n = f_lb0 T.
  Proof. unfold k_lb. destruct (fc_lb G); [|reflexivity]. destruct (fc_branch G), (fc_data G); reflexivity. Qed.

  Lemma compute_lb_sols v b d n : ct_sols (f_compute_lb T G (fstate0 T N) v b d n) = [f_val T (pt_best P)].
  Proof.
    unfold f_compute_lb. destruct (fc_lb G) eqn:El; [|reflexivity]. unfold fstate0. cbn [fs_k]. rewrite lb0_empty.
    unfold f_adds_inv, f_lb0. cbn [ct_sols fold_left]. unfold f_add_inv, ct_add. cbn [ct_sols existsb cs_val f_val]. rewrite Hinv, Hrefl. cbn [orb].
    destruct (u_test _ _ _ _); reflexivity.
  Qed.

  Lemma search_root d n : lim d n ->
    let r := f_search T G (S d) root [] gub0 d n (fstate0 T N) in covered d n (fst (fst r)) /\ KR (fs_k T (snd r)).
  Proof.
    intro Hl. cbn zeta. cbn [f_search]. destruct leaf_root as (L1 & L2 & L3 & L4 & L5).
    assert (E0 : (d =? 0) || (n =? 0) = false) by (destruct Hl as [[-> ->]|[-> ->]]; reflexivity). rewrite E0. clear E0. cbn zeta.
    assert (Er : forall b d n, k_retrieve T G (FCache T N [] []) root b d n = ct_new).
    { intros b d1 n1. unfold k_retrieve. destruct (fc_branch G), (fc_data G); reflexivity. }
    change (fs_k T (fstate0 T N)) with (FCache T N [] []). rewrite Er. cbn [f_empty ct_new ct_sols negb].
    assert (Et : fc_term G && (d <=? 2) = true) by (rewrite Hterm; destruct Hl as [[-> ->]|[-> ->]]; reflexivity). rewrite Et.
    assert (C : forall leaf, let r := (let ub := if fc_ub G then f_relax T [] (ct_clear gub0) leaf else ct_clear gub0 in
                 let '(r, s) := f_terminal T G root [] ub d n (fstate0 T N) in (r, gub0, s)) in
      covered d n (fst (fst r)) /\ KR (fs_k T (snd r))).
    { intro leaf. cbn zeta.
      assert (Eb : (if fc_ub G then f_relax T [] (ct_clear gub0) leaf else ct_clear gub0) = ct_clear gub0).
      { unfold f_relax. rewrite Hrelax. destruct (fc_ub G); reflexivity. }
      rewrite Eb. pose proof (terminal_root (ct_clear gub0) d n (fstate0 T N) Hl (KInv_empty T root N _) eq_refl eq_refl L3) as Ht. cbn zeta in Ht.
      destruct (f_terminal T G root [] (ct_clear gub0) d n (fstate0 T N)) as [r s]. exact Ht. }
    destruct (fc_lb G) eqn:El; [|exact (C ct_new)].
    assert (Eus : f_update_sim T G (fstate0 T N) root [] d n = (false, fstate0 T N)).
    { unfold f_update_sim. destruct (fc_sim G); [|reflexivity]. cbn [fstate0 fs_ar fs_k f_sim_loop f_empty f_lb0 ct_sols]. unfold f_eq. cbn [f_empty f_lb0 ct_sols orb all_eq cs_val f_val].
      rewrite (proj2 (Heq _ _) eq_refl). reflexivity. }
    rewrite Eus. cbn [andb].
    pose proof (compute_lb_sols root [] d n) as Elb. set (lb := f_compute_lb _ _ _ _ _ _ _) in *.
    assert (Es : fc_ub G && f_sdom T gub0 lb = false).
    { destruct (fc_ub G) eqn:Eub; [|reflexivity]. cbn [andb]. unfold f_sdom. destruct (ct_sols gub0) as [|x xs] eqn:Eg; [exfalso; exact (L4 eq_refl eq_refl)|].
      cbn [forallb]. unfold ct_sdominates. rewrite Elb. cbn [existsb cs_val f_val]. rewrite Hinv.
      destruct (L3 x (or_introl eq_refl)) as (l & Hll & ->). cbn [cs_val p_leaf].
      assert (D : dom (pt_best P) (pt_leaf P root l) = true) by (pose proof (Hbest [] (Leaf l) Hll) as H; rewrite Rt in H; exact H).
      destruct (dom (pt_leaf P root l) (pt_best P)) eqn:D2; [|rewrite andb_false_r; reflexivity].
      rewrite (Hanti _ _ D D2), (proj2 (Heq _ _) eq_refl). reflexivity. }
    rewrite Es.
    destruct (f_eq T lb res0) eqn:Ef; [|exact (C res0)].
    cbn [fst snd]. split; [|apply KInv_empty]. intros t At. left.
    unfold f_eq in Ef. destruct (f_empty T lb || f_empty T res0); [discriminate|]. rewrite Elb in Ef.
    destruct (ct_sols res0) as [|x xs] eqn:Ex; [discriminate|]. cbn [all_eq] in Ef. apply andb_true_iff in Ef. destruct Ef as [Ef _]. apply Heq in Ef. cbn [cs_val f_val] in Ef.
    exists x. rewrite Ex. split; [left; reflexivity|]. rewrite <- Ef. pose proof (Hbest [] t) as H. rewrite Rt in H. apply H. apply At.
  Qed.

  (** *** The whole search *)
  Definition one_search (dp nds : nat) : Prop := nds <= 1 /\ nds <= 2 ^ dp - 1 \/ dp = 2 /\ nds = 3.

  Lemma budgets_one dp nds : one_search dp nds -> nds <> 0 -> exists d, p_budgets dp nds false = [(d, nds)] /\ lim d nds /\ d = Nat.min dp nds.
  Proof.
    intros [[H1 H2]|[-> ->]] Hz.
    - assert (nds = 1) by lia. subst nds. destruct dp as [|dp]; [cbn in H2; lia|]. exists 1. split; [|split; [left; auto|lia]].
      unfold p_budgets. cbn [Nat.eqb seq map]. replace (Nat.min (S dp) 1) with 1 by lia. reflexivity.
    - exists 2. split; [reflexivity|]. split; [right; auto|reflexivity].
  Qed.

  Lemma solve_cov dp nds : one_search dp nds -> nds <= 2 ^ dp - 1 ->
    let r := f_solve T G root dp nds false in
    inv P [] (fst (fst r)) /\ (forall t, allowed ok mls dp nds root t -> cov P [] (fst (fst r)) (tval P root t)) /\ KR (fs_k T (snd r)).
  Proof.
    intros Ho Hn. cbn zeta. destruct leaf_root as (L1 & L2 & _). unfold f_solve. rewrite <- HN.
    assert (SR : KR (fs_k T (snd (f_search T G 1 root [] gub0 0 0 (fstate0 T N))))) by apply KInv_empty.
    pose proof search_root as SQ. destruct (f_leaf T G root [] ct_new) as [res gub]. cbn [fst snd] in *.
    assert (Fd : forall (c : front), inv P [] (fold_left (p_add P []) (ct_sols c) res)
      /\ (forall x, In x (ct_sols c) -> cov P [] (fold_left (p_add P []) (ct_sols c) res) (cs_val x))
      /\ (forall s, cov P [] res s -> cov P [] (fold_left (p_add P []) (ct_sols c) res) s)).
    { intro c. destruct (fold_add_spec P Heq Hrefl Htrans H0refl H0trans [] (fun x => x) (ct_sols c) res L1) as (A1 & A2 & A3 & _).
      split; [exact A1|]. split; [exact A2|exact A3]. }
    destruct (Nat.eq_dec nds 0) as [->|Hz].
    - unfold p_budgets. rewrite Nat.min_0_r. cbn [Nat.eqb Nat.min Nat.sub seq map fold_left Nat.pow]. unfold f_outer_step. cbn [fst snd].
      destruct (f_search T G 1 root [] gub 0 0 (fstate0 T N)) as [[c g] s]. cbn [fst snd] in *.
      destruct (Fd c) as (F1 & F2 & F3). split; [exact F1|]. split; [|exact SR].
      intros t (A1 & _ & _ & A4). destruct t as [l|f tl tr]; [|cbn in A4; lia]. apply F3, L2. exact A1.
    - destruct (budgets_one dp nds Ho Hz) as (d & -> & Hl & Hd). cbn [fold_left]. unfold f_outer_step. cbn [fst snd].
      specialize (SQ d nds Hl).
      pose proof (search_sound T G root N Hids Hsorted Horder (fun _ => Hok) (S d) [] gub d nds (fstate0 T N) (sinv0 T G root N)) as SS.
      rewrite Rt in SS. specialize (SS ltac:(lia) ltac:(destruct Hl as [[-> ->]|[-> ->]]; cbn; lia)).
      destruct (f_search T G (S d) root [] gub d nds (fstate0 T N)) as [[c g] s]. cbn [fst snd] in *.
      destruct SQ as [Sc Sk]. destruct (Fd c) as (F1 & F2 & F3). split; [exact F1|]. split; [|exact Sk].
      intros t A. assert (A' : allowed ok mls d nds root t) by (rewrite Hd; apply allowed_depth_nodes; exact A).
      destruct (Sc t A') as [(x & Hx & D)|(l & Hll & ->)]; [|apply F3, L2; exact Hll].
      destruct (F2 x Hx) as (y & Hy & Dy). exists y. split; [exact Hy|]. apply (H0trans _ _ _ Dy).
      destruct SS as [SS _]. destruct (SS x Hx) as (t0 & A0 & _ & E0). subst x. cbn [cs_val] in D |- *.
      apply Hmono; [apply A0|apply A|exact D].
  Qed.

  (** *** The tree *)
  Hypothesis Hworst : forall b l, l < nl -> dom (ft_worst T) (pt_leaf P (sub b) l) = false.
  Hypothesis Hpart : forall b f t t', fits ok nl t -> fits ok nl t' ->
    dom (tval P (split_left f (sub b)) t) (pt_add P (tval P (split_left f (sub b)) t) (tval P (split_right f (sub b)) t')) = true
    /\ dom (tval P (split_right f (sub b)) t') (pt_add P (tval P (split_left f (sub b)) t) (tval P (split_right f (sub b)) t')) = true.

  Lemma child_leaf b d n s : br_depth b <> 0 -> 1 <= vsize (sub b) ->
    (d = 1 /\ n = 1) \/ (d = 2 /\ n = 3 /\ KR (fs_k T s) /\ vsize (sub b) < vsize root) ->
    exists c k, f_child T G (sub b) b d n 0 s = ((c, k, snd (fst (f_child T G (sub b) b d n 0 s))), s)
      /\ (forall l, l < nl -> cvd c (pt_leaf P (sub b) l)) /\ (forall x, In x (ct_sols c) -> exists l, l < nl /\ x = leafsol (sub b) l).
  Proof.
    intros Hb Hz Hc.
    set (w := f_add T ct_new (f_val T (ft_worst T))).
    assert (Ew : forall y l, In y (ct_sols w) -> l < nl -> dom (cs_val y) (pt_leaf P (sub b) l) = false).
    { intros y l Hy Hl. unfold w in Hy. apply ct_add_sub in Hy. destruct Hy as [->|[]]. apply Hworst. exact Hl. }
    assert (LF : forall ub, (forall y l, In y (ct_sols ub) -> l < nl -> dom (cs_val y) (pt_leaf P (sub b) l) = false) ->
      f_empty T (fst (f_leaf T G (sub b) b ub)) = false /\ (forall k, (forall l, l < nl -> cvd (ct_filter k (fst (f_leaf T G (sub b) b ub))) (pt_leaf P (sub b) l))
      /\ (forall x, In x (ct_sols (ct_filter k (fst (f_leaf T G (sub b) b ub)))) -> exists l, l < nl /\ x = leafsol (sub b) l)
      /\ f_empty T (ct_filter k (fst (f_leaf T G (sub b) b ub))) = false)).
    { intros ub Hub. destruct (leaf_cov b ub Hz Hub) as (_ & C & _).
      pose proof (leaf_sound T G (sub b) 0 0 b ub) as HS.
      set (c := fst (f_leaf T G (sub b) b ub)) in *.
      assert (HS' : forall x, In x (ct_sols c) -> exists l, l < nl /\ x = leafsol (sub b) l).
      { intros x Hx. destruct (HS x Hx) as (t & (A1 & _ & A3 & _) & _ & ->). destruct t as [l|f tl tr]; [|cbn in A3; lia].
        exists l. split; [|reflexivity]. cbn in A1. change (length (sub b)) with (num_labels (sub b)) in A1. rewrite snl in A1. exact A1. }
      assert (C' : forall l, l < nl -> cvd c (pt_leaf P (sub b) l)).
      { intros l Hl. specialize (C l Hl). unfold cov, R in C. rewrite (proj2 (Nat.eqb_neq _ _) Hb) in C. exact C. }
      assert (NE : forall c' : front, cvd c' (pt_leaf P (sub b) 0) -> f_empty T c' = false).
      { intros c' (x & Hx & _). unfold f_empty. destruct (ct_sols c'); [destruct Hx|reflexivity]. }
      assert (KF : forall k x, In x (ct_sols c) -> In x (ct_sols (ct_filter k c))).
      { intros k x Hx. cbn. apply filter_In. split; [exact Hx|]. destruct (HS' x Hx) as (l & _ & ->). reflexivity. }
      assert (CF : forall k l, l < nl -> cvd (ct_filter k c) (pt_leaf P (sub b) l)).
      { intros k l Hl. destruct (C' l Hl) as (x & Hx & D). exists x. split; [apply KF; exact Hx|exact D]. }
      split; [apply NE, C'; lia|]. intro k. split; [apply CF|]. split; [|apply NE, CF; lia].
      intros x Hx. apply ct_filter_sub in Hx. apply HS'. apply Hx. }
    assert (SE : f_search T G 1 (sub b) b w 0 0 s = (fst (f_leaf T G (sub b) b (ct_clear w)), w, s)) by reflexivity.
    assert (Last : forall size, exists (c : front) (k : nat), (let '(c0, ub, s0) := f_search T G 1 (sub b) b w 0 0 s in
      let '(c1, s1) := if f_empty T c0 then let '(c2, _, s2) := f_search T G 1 (sub b) b ub 0 0 s0 in (c2, s2) else (c0, s0) in
      ((ct_filter 0 c1, 0, size), s1) : (front * nat * nat) * fstate T) = ((c, k, size), s)
      /\ (forall l, l < nl -> cvd c (pt_leaf P (sub b) l)) /\ (forall x, In x (ct_sols c) -> exists l, l < nl /\ x = leafsol (sub b) l)).
    { intro size. rewrite SE. destruct (LF (ct_clear w) Ew) as (E1 & E2). rewrite E1. destruct (E2 0) as (F1 & F2 & _). eexists. exists 0. split; [reflexivity|]. split; assumption. }
    destruct Hc as [[-> ->]|(-> & -> & HK & Hlt)].
    - unfold f_child. change (Nat.max 0 (p_min_size 1 1)) with 0. change (S (p_max_size 1 1) - 0) with 1. change (Nat.min (1 - 1) 0) with 0. fold w. cbn [seq].
      destruct (fc_branch G || fc_data G).
      + cbn [f_scan Nat.eqb]. destruct (LF w Ew) as (E1 & E2). destruct (f_leaf T G (sub b) b w) as [c ub]. cbn [fst] in *. rewrite E1.
        destruct (E2 0) as (F1 & F2 & F3). rewrite F3. eexists. eexists. split; [reflexivity|]. split; assumption.
      + cbn [f_empty ct_new ct_sols]. destruct (Last 0) as (c & k & E1 & E2). exists c, k. cbn zeta in *. rewrite E1. split; [reflexivity|exact E2].
    - assert (Kn : k_retrieve T G (fs_k T s) (sub b) b 1 1 = ct_new).
      { destruct (k_retrieve_Q T G root N (fun u _ _ _ => u = root) ltac:(auto) (fs_k T s) b 1 1 HK) as [E1|E1]; [exact E1|]. rewrite E1 in Hlt. lia. }
      unfold f_child. change (Nat.max 0 (p_min_size 2 3)) with 1. change (S (p_max_size 2 3) - 1) with 1. change (Nat.min (2 - 1) 0) with 0. fold w. cbn [seq].
      destruct (fc_branch G || fc_data G).
      + cbn [f_scan Nat.eqb]. change (Nat.min (2 - 1) 1) with 1. rewrite Kn. cbn [f_empty ct_new ct_sols].
        destruct (Last (Nat.max 1 (S (p_max_size 2 3)))) as (c & k & E1 & E2). exists c, k. cbn zeta in *. rewrite E1. split; [reflexivity|exact E2].
      + cbn [f_empty ct_new ct_sols]. destruct (Last 0) as (c & k & E1 & E2). exists c, k. cbn zeta in *. rewrite E1. split; [reflexivity|exact E2].
  Qed.

  Lemma cand_in x f a u t : mls <= vsize u -> fits ok nl t -> num_labels u = nl -> allowed ok mls 1 1 u t -> nodes t = a ->
    (forall g t1 t2, t = Split g t1 t2 -> g <> f) -> dom (tval P u t) x = true ->
    exists t', In (tval P u t, t') (t_cand T G x f a u).
  Proof.
    intros Hm Hf Hu A Ha Hg D. unfold t_cand.
    assert (Sk : dom x (tval P u t) && negb (eqb x (tval P u t)) = false).
    { destruct (dom x (tval P u t)) eqn:D2; [|reflexivity]. rewrite (Hanti _ _ D2 D), (proj2 (Heq _ _) eq_refl). reflexivity. }
    destruct t as [l|g t1 t2]; cbn [nodes] in Ha.
    - subst a. cbn [Nat.eqb]. exists (Leaf l). unfold t_leaf_cand. apply in_flat_map. exists l. split; [apply in_seq; rewrite Hu; cbn in Hf; lia|].
      cbn zeta. cbn [tval] in Sk |- *. rewrite Sk. left. reflexivity.
    - assert (a <> 0) by lia. rewrite (proj2 (Nat.eqb_neq _ _) H). pose proof (Hg g t1 t2 eq_refl) as Ng.
      apply allowed_split in A. destruct A as (Og & _ & _ & A1 & A2). pose proof (allowed_size _ _ _ _ _ _ A1) as Z1. pose proof (allowed_size _ _ _ _ _ _ A2) as Z2.
      destruct A1 as (_ & _ & A1 & _), A2 as (_ & _ & A2 & _). destruct t1 as [p|]; [|cbn in A1; lia]. destruct t2 as [q|]; [|cbn in A2; lia].
      cbn in Hf. destruct Hf as (_ & Hp & Hq).
      exists (Split g (Leaf p) (Leaf q)). unfold t_split_cand. apply in_flat_map. exists g. split; [apply in_seq; destruct Og; lia|].
      rewrite (proj2 (Nat.eqb_neq _ _) Ng), (proj2 (Nat.ltb_ge _ _) Z1), (proj2 (Nat.ltb_ge _ _) Z2). cbn [orb].
      apply in_flat_map. exists (p, q). split; [apply in_prod_iff; rewrite !in_seq, Hu; lia|]. cbn zeta. cbn [tval] in Sk |- *. unfold two_leaves. cbn [fst snd]. rewrite Sk. left. reflexivity.
  Qed.

  Lemma t_construct_some f tl tr d : allowed ok mls 2 3 root (Split f tl tr) ->
    exists t, t_construct T G (Csol (tval P root (Split f tl tr)) d (tag_of (Split f tl tr))) root = Some t.
  Proof.
    intro A. pose proof A as (Af & _). change (length root) with nl in Af. cbn in Af. destruct Af as (Of & Fl & Fr).
    apply allowed_split in A. destruct A as (_ & _ & _ & Al & Ar). pose proof (allowed_size _ _ _ _ _ _ Al) as Zl. pose proof (allowed_size _ _ _ _ _ _ Ar) as Zr.
    assert (DN : forall t, depth t <= 1 -> nodes t <= 1).
    { intros t0 H. pose proof (nodes_le_full t0 1 H). cbn in H0. exact H0. }
    assert (Al1 : allowed ok mls 1 1 (split_left f root) tl).
    { destruct Al as (X1 & X2 & X3 & _). unfold allowed. auto. }
    assert (Ar1 : allowed ok mls 1 1 (split_right f root) tr).
    { destruct Ar as (X1 & X2 & X3 & _). unfold allowed. auto. }
    unfold t_construct. cbn [cs_tag cs_val tag_of pg_feat pg_l pg_r].
    destruct (Hpart [] f tl tr Fl Fr) as [P1 P2]. rewrite Rt in P1, P2.
    destruct (cand_in (tval P root (Split f tl tr)) f (nodes tl) (split_left f root) tl) as (t1 & I1); auto.
    { apply num_labels_left. }
    { intros g a c -> ->. apply allowed_split in Al1. destruct Al1 as (_ & _ & _ & _ & B). apply allowed_size in B. rewrite split_self_l in B. lia. }
    destruct (cand_in (tval P root (Split f tl tr)) f (nodes tr) (split_right f root) tr) as (t2 & I2); auto.
    { apply num_labels_right. }
    { intros g a c -> ->. apply allowed_split in Ar1. destruct Ar1 as (_ & _ & _ & B & _). apply allowed_size in B. rewrite split_self_r in B. lia. }
    destruct (find _ _) as [[p q]|] eqn:F; [eexists; reflexivity|exfalso].
    pose proof (find_none _ _ F (_, _) (in_prod _ _ _ _ I1 I2)) as K. cbn [fst snd] in K.
    rewrite (proj2 (Heq _ _)) in K; [discriminate|reflexivity].
  Qed.

  (** A solution no allowed tree is better than. *)
  Lemma construct_some d n s x : lim d n -> KR (fs_k T s) -> solu T G d n root x ->
    (forall t', allowed ok mls d n root t' -> dom (tval P root t') (cs_val x) = true -> tval P root t' = cs_val x) ->
    exists t, fst (f_construct T G d x root [] d n s) = Some t.
  Proof.
    intros Hl HK (t0 & A & _ & ->) Hst. cbn [cs_val] in Hst.
    destruct t0 as [l|f tl tr].
    { destruct Hl as [[-> ->]|[-> ->]]; cbn; eexists; reflexivity. }
    pose proof A as (Af & _). change (length root) with nl in Af. cbn in Af. destruct Af as (Of & Fl & Fr).
    pose proof A as A0. apply allowed_split in A. destruct A as (_ & _ & Nn & Al & Ar). pose proof (allowed_size _ _ _ _ _ _ Al) as Zl. pose proof (allowed_size _ _ _ _ _ _ Ar) as Zr.
    rewrite Hmls in Zl, Zr. pose proof (vsize_split f root) as Zs.
    (* the two children are leaves *)
    assert (Two : forall p q s', KR (fs_k T s') \/ d = 1 -> tl = Leaf p -> tr = Leaf q ->
      exists ls ld lk rs rd rk l r,
        f_child T G (split_left f root) (br_left [] f) d n 0 s' = ((ls, ld, lk), s') /\
        f_child T G (split_right f root) (br_right [] f) d n 0 s' = ((rs, rd, rk), s') /\
        p_find_pair P (tval P root (Split f tl tr)) ls rs = Some (leafsol (split_left f root) l, leafsol (split_right f root) r)).
    { intros p q s' HK' -> ->.
      assert (El : sub (br_left [] f) = split_left f root) by (rewrite <- restrict_left, Rt; reflexivity).
      assert (Er : sub (br_right [] f) = split_right f root) by (rewrite <- restrict_right, Rt; reflexivity).
      assert (Cc : forall b, vsize (sub b) < vsize root -> (d = 1 /\ n = 1) \/ (d = 2 /\ n = 3 /\ KR (fs_k T s') /\ vsize (sub b) < vsize root)).
      { intros b Hb. destruct Hl as [[-> ->]|[-> ->]]; [left; auto|right]. destruct HK' as [HK'|HK']; [auto|lia]. }
      destruct (child_leaf (br_left [] f) d n s') as (ls & ld & E1 & C1 & S1).
      { unfold br_depth, br_left, br_add. rewrite (Permutation.Permutation_length (sort_nat_perm _)). cbn. lia. }
      { rewrite El. exact Zl. }
      { apply Cc. rewrite El. lia. }
      destruct (child_leaf (br_right [] f) d n s') as (rs & rd & E2 & C2 & S2).
      { unfold br_depth, br_right, br_add. rewrite (Permutation.Permutation_length (sort_nat_perm _)). cbn. lia. }
      { rewrite Er. exact Zr. }
      { apply Cc. rewrite Er. lia. }
      rewrite El in E1, C1, S1. rewrite Er in E2, C2, S2.
      exists ls, ld, (snd (fst (f_child T G (split_left f root) (br_left [] f) d n 0 s'))), rs, rd, (snd (fst (f_child T G (split_right f root) (br_right [] f) d n 0 s'))).
      cbn in Fl, Fr. destruct (C1 p Fl) as (a & Ia & Da). destruct (C2 q Fr) as (c & Ic & Dc).
      destruct (S1 a Ia) as (la & Hla & Ea). destruct (S2 c Ic) as (lc & Hlc & Ec). subst a c. cbn [cs_val p_leaf] in Da, Dc.
      assert (Ev : tval P root (Split f (Leaf la) (Leaf lc)) = tval P root (Split f (Leaf p) (Leaf q))).
      { apply Hst; [|cbn [tval]; apply Hadd; assumption]. destruct A0 as (B1 & B2 & B3 & B4).
        change (length root) with nl in B1. unfold allowed. change (length root) with nl. cbn in B1, B2, B3, B4 |- *. repeat split; try lia; try apply B1; tauto. }
      unfold p_find_pair. destruct (find _ _) as [[l r]|] eqn:F.
      - apply find_some in F. destruct F as [F _]. apply in_prod_iff in F. destruct F as [F1 F2].
        destruct (S1 l F1) as (l1 & _ & ->). destruct (S2 r F2) as (r1 & _ & ->). exists l1, r1. auto.
      - exfalso. pose proof (find_none _ _ F (_, _) (in_prod _ _ _ _ Ia Ic)) as K. cbn [fst snd cs_val p_leaf] in K.
        rewrite (proj2 (Heq _ _)) in K; [discriminate|]. symmetry. exact Ev. }
    assert (Lv : nodes tl + nodes tr + 1 = 1 -> exists p q, tl = Leaf p /\ tr = Leaf q).
    { intro H. destruct tl as [p|]; [|cbn [nodes] in H; lia]. destruct tr as [q|]; [|cbn [nodes] in H; lia]. exists p, q. auto. }
    destruct Hl as [[-> ->]|[-> ->]].
    - cbn [nodes] in Nn. destruct Lv as (p & q & -> & ->); [destruct A0 as (_ & _ & _ & B); cbn in B |- *; lia|].
      cbn [f_construct]. cbn [Nat.min Nat.pow Nat.sub Nat.mul Nat.add Nat.eqb cs_nodes nodes tag_of cs_tag pg_feat orb negb]. rewrite andb_false_r. cbn [andb pg_l pg_r].
      destruct (Two p q s (or_intror eq_refl) eq_refl eq_refl) as (ls & ld & lk & rs & rd & rk & l & r & E1 & E2 & E3).
      rewrite E1, E2. cbn [cs_val]. rewrite E3.
      cbn [cs_nodes p_leaf Nat.eqb]. rewrite !orb_true_r. cbn match. rewrite ?orb_true_r. eexists. reflexivity.
    - cbn [f_construct]. change (Nat.min 2 3) with 2. change (Nat.min 3 (2 ^ 2 - 1)) with 3. cbn [cs_nodes].
      replace (nodes (Split f tl tr) =? 0) with false by (symmetry; apply Nat.eqb_neq; cbn [nodes]; lia).
      change ((2 =? 0) || (3 =? 0) || false) with false. cbn match. change ((2 =? 1) || (3 =? 1)) with false. rewrite Hterm. cbn [orb].
      destruct (nodes (Split f tl tr) =? 1) eqn:E1.
      + apply Nat.eqb_eq in E1. cbn [nodes] in E1. destruct Lv as (p & q & Hp & Hq); [lia|]. cbn [negb andb cs_tag tag_of pg_feat].
        destruct (Two p q s (or_introl HK) Hp Hq) as (ls & ld & lk & rs & rd & rk & l & r & F1 & F2 & F3). subst tl tr. cbn [pg_l pg_r nodes cs_val].
        rewrite F1, F2, F3.
        cbn [cs_nodes p_leaf Nat.eqb]. rewrite !orb_true_r. cbn match. rewrite ?orb_true_r. eexists. reflexivity.
      + cbn [negb andb]. change (2 <=? 2) with true. cbn match. destruct (t_construct_some f tl tr (nodes (Split f tl tr)) A0) as (t & ->). eexists. reflexivity.
  Qed.

  (** The trees of the solutions that no allowed tree dominates. *)
  Lemma trees_one dp nds : one_search dp nds -> forall x,
    ct_sols (fst (fst (f_solve T G root dp nds false))) = [x] ->
    (forall t', allowed ok mls dp nds root t' -> dom (tval P root t') (cs_val x) = true -> tval P root t' = cs_val x) ->
    exists t, f_trees T G root dp nds false = [(x, Some t)] /\ allowed (okc T G) mls dp nds root t /\ tval P root t = cs_val x.
  Proof.
    intros Ho x Ex Hst.
    assert (Hn : nds <= 2 ^ dp - 1) by (destruct Ho as [[_ H]|[-> ->]]; [exact H|cbn; lia]).
    destruct (solve_sound T G root N Hids Hsorted Horder (fun _ => Hok) dp nds false Hn HN) as [HS HI].
    destruct (solve_cov dp nds Ho Hn) as (_ & _ & HK).
    unfold f_trees. destruct (f_solve T G root dp nds false) as [[res g] s]. cbn [fst snd] in *. rewrite Ex. cbn [fold_left fst snd].
    pose proof (HS x ltac:(rewrite Ex; left; reflexivity)) as Sx.
    destruct (Nat.eq_dec nds 0) as [->|Hz].
    - set (mds := fst (last (p_budgets dp 0 false) (dp, 0))). destruct Sx as (t & A & _ & ->). destruct t as [l|f tl tr]; [|destruct A as (_ & _ & _ & A); cbn in A; lia].
      assert (E1 : forall fuel, f_construct T G fuel (Csol (tval P root (Leaf l)) (nodes (Leaf l)) (tag_of (Leaf l))) root [] mds 0 s = (Some (Leaf l), s)).
      { intro fuel. destruct fuel; cbn [f_construct]; rewrite Nat.min_0_r; reflexivity. }
      rewrite E1. exists (Leaf l). split; [reflexivity|]. split; [|reflexivity]. destruct A as (A1 & A2 & _). unfold allowed. cbn in *. repeat split; try assumption; lia.
    - destruct (budgets_one dp nds Ho Hz) as (d & -> & Hl & Hd). cbn [last fst].
      rewrite <- Hd in Sx.
      assert (Hst' : forall t', allowed ok mls d nds root t' -> dom (tval P root t') (cs_val x) = true -> tval P root t' = cs_val x).
      { intros t' A. apply Hst. apply (allowed_mono _ _ _ _ _ _ _ _ A); lia. }
      destruct (construct_some d nds s x Hl HK Sx Hst') as (t & Et).
      pose proof (construct_sound T G root N Hids Hsorted (fun a b => proj1 (Heq a b)) Horder (fun _ => Hok) d x [] d nds s HI) as CS. rewrite Rt in CS.
      destruct (CS Sx) as [_ CT]. destruct (f_construct T G d x root [] d nds s) as [o s']. cbn [fst] in Et, CT. subst o.
      exists t. split; [reflexivity|]. destruct (CT t eq_refl) as [A E1]. split; [|exact E1].
      assert (2 ^ d - 1 = nds) by (destruct Hl as [[-> ->]|[-> ->]]; reflexivity). rewrite H in A. apply (allowed_mono _ _ _ _ _ _ _ _ A); lia.
  Qed.
End Root.
