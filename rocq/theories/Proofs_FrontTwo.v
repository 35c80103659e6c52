(** Proofs about the depth-two solver for partially ordered tasks without a constraint: with
    leaves of at least one instance its fronts cover every tree of one and of three nodes. *)
From Coq Require Import List Arith Bool ZArith Lia.
From Verif Require Import Model_FeatureVector Model_Data Model_Node Model_Terminal Model_Solver Model_Container Model_Pareto Model_Front.
From Verif Require Import Spec_Tree Proofs_View Proofs_Container Proofs_Pareto Proofs_Front.
Import ListNotations.
Local Open Scope nat_scope.

Section Two.
  Context (T : ftask) (G : fcfg) (root : view).
  Notation P := (ft_p T).
  Notation V := (pt_S P).
  Notation sol := (csol V ptag).
  Notation front := (cont V ptag).
  Notation eqb := (pt_eqb P).
  Notation dom := (pt_dom P).
  Notation nf := (fc_nf G).
  Notation mls := (pc_mls (fc_p G)).
  Notation sub b := (restrict b root).
  Notation nl := (num_labels root).
  Notation ok := (okm T G).
  Hypothesis Heq : forall a b, eqb a b = true <-> a = b.
  Hypothesis Hrefl : forall a, dom a a = true.
  Hypothesis Htrans : forall a b c, dom a b = true -> dom b c = true -> dom a c = true.
  Hypothesis Hadd : forall a a' b b', dom a a' = true -> dom b b' = true -> dom (pt_add P a b) (pt_add P a' b') = true.
  Hypothesis Hbest : forall b t, fits ok nl t -> dom (pt_best P) (tval P (sub b) t) = true.
  Hypothesis Hsame : forall u f l, pt_add P (pt_leaf P (split_left f u) l) (pt_leaf P (split_right f u) l) = pt_leaf P u l.
  Hypothesis Hrelax : ft_relax T = None.
  Hypothesis Hmls : mls = 1.
  Hypothesis Hok : forall s, pt_ok P s = true.

  Definition cvd (c : front) (s : V) : Prop := covers dom (ct_sols c) s.
  Definition ivd (c : front) : Prop := ForallOrdPairs (incomp dom) (ct_sols c) /\ u_ok eqb dom (ct_sols c) (ct_uniq c).

  Lemma ivd_new : ivd ct_new.
  Proof. split; [constructor|intros s k E; discriminate]. Qed.
  Lemma cvd_trans c a b : cvd c a -> dom a b = true -> cvd c b.
  Proof. intros (y & Hy & D) H. exists y. split; [exact Hy|]. exact (Htrans _ _ _ D H). Qed.
  Lemma cvd_in c x : In x (ct_sols c) -> cvd c (cs_val x).
  Proof. intro H. exists x. auto. Qed.

  Lemma add_spec c x : ivd c ->
    ivd (f_add T c x) /\ cvd (f_add T c x) (cs_val x) /\ (forall s, cvd c s -> cvd (f_add T c x) s).
  Proof.
    intros [I1 I2].
    assert (g : good eqb dom (ct_sols c) c).
    { split; auto. intros y Hy. exists y. auto. }
    unfold f_add. destruct (good_add eqb dom Heq Hrefl Htrans (pt_unique P) _ _ x g) as [G1 G2 G3 G4].
    split; [split; assumption|]. split.
    - apply G3. apply in_or_app. right. left. reflexivity.
    - intros s (y & Hy & Hd). destruct (G3 y) as (z & Hz & Dz); [apply in_or_app; left; exact Hy|].
      exists z. split; [exact Hz|]. exact (Htrans _ _ _ Dz Hd).
  Qed.

  Lemma fold_spec xs : forall c, ivd c ->
    ivd (fold_left (f_add T) xs c) /\ (forall x, In x xs -> cvd (fold_left (f_add T) xs c) (cs_val x))
    /\ (forall s, cvd c s -> cvd (fold_left (f_add T) xs c) s).
  Proof.
    induction xs as [|x xs IH]; intros c I; cbn [fold_left].
    - split; [exact I|]. split; [intros x []|auto].
    - destruct (add_spec c x I) as (I1 & C1 & M1). destruct (IH _ I1) as (I2 & C2 & M2).
      split; [exact I2|]. split; [|auto]. intros y [<-|Hy]; auto.
  Qed.

  Lemma fold_map {A B} (g : A -> B) (h : front -> B -> front) xs : forall c,
    fold_left (fun c a => h c (g a)) xs c = fold_left h (map g xs) c.
  Proof. induction xs as [|x xs IH]; intro c; [reflexivity|]. cbn. apply IH. Qed.

  Lemma skip_false ub x : t_skip T ub x = false.
  Proof. unfold t_skip. rewrite Hrelax. reflexivity. Qed.
  Lemma t_add_eq ub c x : t_add T ub c x = f_add T c x.
  Proof. unfold t_add. rewrite skip_false. reflexivity. Qed.
  Lemma fold_t_add {A} ub (g : A -> sol) xs : forall c,
    fold_left (fun c a => t_add T ub c (g a)) xs c = fold_left (f_add T) (map g xs) c.
  Proof. induction xs as [|x xs IH]; intro c; [reflexivity|]. cbn. rewrite t_add_eq. apply IH. Qed.

  (** *** Leaves *)
  Lemma t_leaves_spec ub u : mls <= vsize u ->
    ivd (t_leaves T G ub u) /\ (forall l, l < num_labels u -> cvd (t_leaves T G ub u) (pt_leaf P u l))
    /\ (forall x, In x (ct_sols (t_leaves T G ub u)) -> cs_nodes x = 0 /\ exists l, l < num_labels u /\ cs_val x = pt_leaf P u l).
  Proof.
    intros Hm. unfold t_leaves. rewrite (proj2 (Nat.leb_le _ _) Hm), fold_t_add.
    destruct (fold_spec (map (fun l => p_leaf P l (pt_leaf P u l)) (seq 0 (num_labels u))) ct_new ivd_new) as (I & C & _).
    split; [exact I|]. split.
    - intros l Hl. apply (C (p_leaf P l (pt_leaf P u l))). apply in_map_iff. exists l. split; [reflexivity|]. apply in_seq. lia.
    - assert (K : forall xs c, (forall x, In x (ct_sols c) \/ In x xs -> cs_nodes x = 0 /\ exists l, l < num_labels u /\ cs_val x = pt_leaf P u l) ->
        forall x, In x (ct_sols (fold_left (f_add T) xs c)) -> cs_nodes x = 0 /\ exists l, l < num_labels u /\ cs_val x = pt_leaf P u l).
      { induction xs as [|y xs IH]; intros c H x Hx; cbn [fold_left] in Hx; [apply H; left; exact Hx|].
        apply (IH (f_add T c y)); [|exact Hx]. intros z [Hz|Hz]; [|apply H; right; right; exact Hz].
        apply ct_add_sub in Hz. destruct Hz as [->|Hz]; apply H; [right; left; reflexivity|left; exact Hz]. }
      apply K. intros x [[]|Hx]. apply in_map_iff in Hx. destruct Hx as (l & <- & Hl). apply in_seq in Hl.
      split; [reflexivity|]. exists l. split; [lia|reflexivity].
  Qed.

  Lemma in_label_pairs n a b : a < n -> b < n -> In (a, b) (label_pairs n) \/ a = b.
  Proof.
    intros Ha Hb. destruct (Nat.eq_dec a b) as [E|E]; [right; exact E|left]. unfold label_pairs. apply filter_In. split.
    - apply in_prod_iff. rewrite !in_seq. lia.
    - cbn. rewrite (proj2 (Nat.eqb_neq a b) E), andb_false_r. reflexivity.
  Qed.

  (** *** One node *)
  Definition one_list (u : view) : list sol :=
    flat_map (fun f => if negb (pt_may P f) || (vsize (split_left f u) <? mls) || (vsize (split_right f u) <? mls) then []
      else map (fun la => p_branch P f (two_leaves T (split_left f u) (split_right f u) la) 0 0) (label_pairs (num_labels u))) (seq 0 nf).

  Lemma t_one_eq u ub : t_one T G u ub
    = (fold_left (f_add T) (one_list u) (fold_left (f_add T) (map (fun l => p_leaf P l (pt_leaf P u l)) (seq 0 (num_labels u))) ct_new),
       fold_left (f_add T) (one_list u) ub).
  Proof.
    unfold t_one. cbn zeta. rewrite fold_t_add. unfold one_list.
    generalize (fold_left (f_add T) (map (fun l => p_leaf P l (pt_leaf P u l)) (seq 0 (num_labels u))) ct_new) as c.
    revert ub. induction (seq 0 nf) as [|f fs IH]; intros ub c; [reflexivity|]. cbn [fold_left flat_map].
    rewrite !fold_left_app. destruct (_ || _ || _); [apply IH|]. rewrite <- IH. f_equal.
    generalize (label_pairs (num_labels u)) as las. intro las. revert ub c. clear -Hrelax.
    induction las as [|la las IH]; intros ub c; [reflexivity|]. cbn [fold_left map]. rewrite skip_false. cbn [fst snd]. apply IH.
  Qed.

  Lemma one_spec u ub : mls <= vsize u -> num_labels u = nl ->
    let one := fst (t_one T G u ub) in
    ivd one /\ (forall l, l < nl -> cvd one (pt_leaf P u l))
    /\ (forall f a b, ok f -> a < nl -> b < nl -> mls <= vsize (split_left f u) -> mls <= vsize (split_right f u) ->
          cvd one (pt_add P (pt_leaf P (split_left f u) a) (pt_leaf P (split_right f u) b))).
  Proof.
    intros Hm Hn. cbn zeta. rewrite t_one_eq. cbn [fst]. rewrite Hn.
    destruct (fold_spec (map (fun l => p_leaf P l (pt_leaf P u l)) (seq 0 nl)) ct_new ivd_new) as (I & C & _).
    destruct (fold_spec (one_list u) _ I) as (I1 & C1 & M1).
    assert (CL : forall l, l < nl -> cvd (fold_left (f_add T) (one_list u) (fold_left (f_add T) (map (fun l => p_leaf P l (pt_leaf P u l)) (seq 0 nl)) ct_new)) (pt_leaf P u l)).
    { intros l Hl. apply M1. apply (C (p_leaf P l (pt_leaf P u l))). apply in_map_iff. exists l. split; [reflexivity|]. apply in_seq. lia. }
    split; [exact I1|]. split; [exact CL|].
    intros f a b Hf Ha Hb Hl Hr. destruct (in_label_pairs nl a b Ha Hb) as [Hp| ->]; [|rewrite Hsame; apply CL; exact Hb].
    apply (C1 (p_branch P f (two_leaves T (split_left f u) (split_right f u) (a, b)) 0 0)). unfold one_list. rewrite Hn.
    apply in_flat_map. exists f. destruct Hf as [Hf1 Hf2]. split; [apply in_seq; lia|].
    rewrite Hf2, (proj2 (Nat.ltb_ge _ _) Hl), (proj2 (Nat.ltb_ge _ _) Hr). cbn [negb orb].
    apply in_map_iff. exists (a, b). split; [reflexivity|exact Hp].
  Qed.

  (** *** The children *)
  Definition kin (k : kids T) : Prop := forall f, ivd (fst (k f)) /\ ivd (snd (k f)).
  Definition kle (k k' : kids T) : Prop := forall f s, (cvd (fst (k f)) s -> cvd (fst (k' f)) s) /\ (cvd (snd (k f)) s -> cvd (snd (k' f)) s).
  Definition side (w : view) (g : nat) (c : front) : Prop :=
    forall la, In la (label_pairs (num_labels w)) -> mls <= vsize (split_left g w) -> mls <= vsize (split_right g w) ->
      cvd c (two_leaves T (split_left g w) (split_right g w) la).
  Definition kc (u : view) (k : kids T) (f g : nat) : Prop := side (split_left f u) g (fst (k f)) /\ side (split_right f u) g (snd (k f)).

  Lemma side_mono w g c c' : side w g c -> (forall s, cvd c s -> cvd c' s) -> side w g c'.
  Proof. intros H M la H1 H2 H3. apply M. apply H; assumption. Qed.
  Lemma kle_trans a b c : kle a b -> kle b c -> kle a c.
  Proof. intros H1 H2 f s. split; intro H; apply H2, H1, H. Qed.
  Lemma kle_refl a : kle a a.
  Proof. intros f s. auto. Qed.
  Lemma kc_mono u k k' f g : kle k k' -> kc u k f g -> kc u k' f g.
  Proof. intros H [H1 H2]. split; [apply (side_mono _ _ _ _ H1)|apply (side_mono _ _ _ _ H2)]; intros s; apply H. Qed.

  Lemma t_child_spec ub w f c a b : a = split_left f w -> b = split_right f w -> ivd c ->
    ivd (t_child T G ub a b f c) /\ side w f (t_child T G ub a b f c) /\ (forall s, cvd c s -> cvd (t_child T G ub a b f c) s).
  Proof.
    intros -> -> I. unfold t_child.
    destruct (mls <=? vsize (split_left f w)) eqn:E1; cbn [andb];
      [|split; [exact I|]; split; [|auto]; intros la _ H; apply Nat.leb_gt in E1; lia].
    destruct (mls <=? vsize (split_right f w)) eqn:E2;
      [|split; [exact I|]; split; [|auto]; intros la _ _ H; apply Nat.leb_gt in E2; lia].
    rewrite fold_t_add, num_labels_left.
    destruct (fold_spec (map (fun la => p_branch P f (two_leaves T (split_left f w) (split_right f w) la) 0 0) (label_pairs (num_labels w))) c I) as (I1 & C1 & M1).
    split; [exact I1|]. split; [|exact M1]. intros la Hla _ _.
    apply (C1 (p_branch P f (two_leaves T (split_left f w) (split_right f w) la) 0 0)). apply in_map_iff. exists la. auto.
  Qed.

  Lemma set_spec k f p : kin k -> ivd (fst p) -> ivd (snd p) -> (forall s, cvd (fst (k f)) s -> cvd (fst p) s) -> (forall s, cvd (snd (k f)) s -> cvd (snd p) s) ->
    kin (kids_set T k f p) /\ kle k (kids_set T k f p).
  Proof.
    intros H H1 H2 M1 M2. split.
    - intro g. unfold kids_set. destruct (g =? f); auto.
    - intros g s. unfold kids_set. destruct (g =? f) eqn:E; [apply Nat.eqb_eq in E; subst g; auto|auto].
  Qed.

  Lemma t_pair_spec u ub f1 f2 k : kin k ->
    let k' := t_pair T G u ub f1 k f2 in kin k' /\ kle k k' /\ kc u k' f1 f2 /\ kc u k' f2 f1.
  Proof.
    intros Hk. cbn zeta. unfold t_pair. cbn zeta.
    destruct (t_child_spec ub (split_left f1 u) f2 (fst (k f1)) (cell00 u f1 f2) (cell01 u f1 f2) eq_refl eq_refl (proj1 (Hk f1))) as (A1 & B1 & C1).
    set (c1 := t_child T G ub (cell00 u f1 f2) (cell01 u f1 f2) f2 (fst (k f1))) in *.
    destruct (set_spec k f1 (c1, snd (k f1)) Hk A1 (proj2 (Hk f1)) C1 (fun s H => H)) as (K1 & L1).
    pose proof (kids_set_same T k f1 (c1, snd (k f1))) as E1.
    set (k1 := kids_set T k f1 (c1, snd (k f1))) in *.
    destruct (t_child_spec ub (split_right f1 u) f2 (snd (k1 f1)) (cell10 u f1 f2) (cell11 u f1 f2) eq_refl eq_refl (proj2 (K1 f1))) as (A2 & B2 & C2).
    set (c2 := t_child T G ub (cell10 u f1 f2) (cell11 u f1 f2) f2 (snd (k1 f1))) in *.
    destruct (set_spec k1 f1 (fst (k1 f1), c2) K1 (proj1 (K1 f1)) A2 (fun s H => H) C2) as (K2 & L2).
    pose proof (kids_set_same T k1 f1 (fst (k1 f1), c2)) as E2.
    set (k2 := kids_set T k1 f1 (fst (k1 f1), c2)) in *.
    assert (Q1 : kc u k2 f1 f2). { split; [rewrite E2, E1; exact B1|rewrite E2; exact B2]. }
    destruct (t_child_spec ub (split_left f2 u) f1 (fst (k2 f2)) (cell00 u f1 f2) (cell10 u f1 f2)) as (A3 & B3 & C3);
      [apply split_comm_ll|apply split_comm_lr|exact (proj1 (K2 f2))|].
    set (c3 := t_child T G ub (cell00 u f1 f2) (cell10 u f1 f2) f1 (fst (k2 f2))) in *.
    destruct (set_spec k2 f2 (c3, snd (k2 f2)) K2 A3 (proj2 (K2 f2)) C3 (fun s H => H)) as (K3 & L3).
    pose proof (kids_set_same T k2 f2 (c3, snd (k2 f2))) as E3.
    set (k3 := kids_set T k2 f2 (c3, snd (k2 f2))) in *.
    destruct (t_child_spec ub (split_right f2 u) f1 (snd (k3 f2)) (cell01 u f1 f2) (cell11 u f1 f2)) as (A4 & B4 & C4);
      [symmetry; apply split_comm_lr|apply split_comm_rr|exact (proj2 (K3 f2))|].
    set (c4 := t_child T G ub (cell01 u f1 f2) (cell11 u f1 f2) f1 (snd (k3 f2))) in *.
    destruct (set_spec k3 f2 (fst (k3 f2), c4) K3 (proj1 (K3 f2)) A4 (fun s H => H) C4) as (K4 & L4).
    pose proof (kids_set_same T k3 f2 (fst (k3 f2), c4)) as E4.
    set (k4 := kids_set T k3 f2 (fst (k3 f2), c4)) in *.
    split; [exact K4|]. split; [exact (kle_trans _ _ _ (kle_trans _ _ _ L1 L2) (kle_trans _ _ _ L3 L4))|].
    split.
    - exact (kc_mono _ _ _ _ _ (kle_trans _ _ _ L3 L4) Q1).
    - split; [rewrite E4; cbn [fst]; rewrite E3; exact B3|rewrite E4; exact B4].
  Qed.

  Lemma pairs_spec u ub f gs : forall k, kin k ->
    let k' := fold_left (t_pair T G u ub f) gs k in
    kin k' /\ kle k k' /\ (forall g, In g gs -> kc u k' f g /\ kc u k' g f).
  Proof.
    induction gs as [|g gs IH]; intros k Hk; cbn zeta; cbn [fold_left].
    - split; [exact Hk|]. split; [apply kle_refl|]. intros g [].
    - destruct (t_pair_spec u ub f g k Hk) as (K1 & L1 & Q1 & Q2). destruct (IH _ K1) as (K2 & L2 & Q3).
      split; [exact K2|]. split; [exact (kle_trans _ _ _ L1 L2)|]. intros g' [<-|Hg]; [|auto].
      split; apply (kc_mono _ _ _ _ _ L2); assumption.
  Qed.

  (** *** Combining *)
  Definition rin (R : fterm T) : Prop := ivd (fm_two T R) /\ ivd (fm_three T R).
  Definition rle (R R' : fterm T) : Prop := fm_one T R' = fm_one T R
    /\ (forall s, cvd (fm_two T R) s -> cvd (fm_two T R') s) /\ (forall s, cvd (fm_three T R) s -> cvd (fm_three T R') s).
  Lemma rle_refl R : rle R R.
  Proof. split; auto. Qed.
  Lemma rle_trans R1 R2 R3 : rle R1 R2 -> rle R2 R3 -> rle R1 R3.
  Proof. intros (A & B & C) (A' & B' & C'). split; [congruence|]. split; auto. Qed.

  Lemma t_merge_spec ub f l r R : rin R ->
    let R' := t_merge T ub f l r R in
    rin R' /\ rle R R' /\
    (forall x y, In x (ct_sols l) -> In y (ct_sols r) ->
       (cs_nodes x + cs_nodes y = 1 -> cvd (fm_two T R') (pt_add P (cs_val x) (cs_val y)))
       /\ (cs_nodes x + cs_nodes y = 2 -> cvd (fm_three T R') (pt_add P (cs_val x) (cs_val y)))).
  Proof.
    intros HR. cbn zeta. unfold t_merge.
    assert (K : forall qs R, rin R -> let R' := fold_left (fun R p =>
      let x := p_combine P f (fst p) (snd p) in
      if t_skip T ub x then R
      else match cs_nodes x with
           | 2 => FTerm T (fm_one T R) (f_add T (fm_two T R) x) (fm_three T R)
           | 3 => FTerm T (fm_one T R) (fm_two T R) (f_add T (fm_three T R) x)
           | _ => R
           end) qs R in
      rin R' /\ rle R R' /\ (forall q, In q qs ->
       (cs_nodes (fst q) + cs_nodes (snd q) = 1 -> cvd (fm_two T R') (pt_add P (cs_val (fst q)) (cs_val (snd q))))
       /\ (cs_nodes (fst q) + cs_nodes (snd q) = 2 -> cvd (fm_three T R') (pt_add P (cs_val (fst q)) (cs_val (snd q)))))).
    { induction qs as [|q qs IH]; intros R0 [I2 I3]; cbn zeta; cbn [fold_left].
      - split; [split; assumption|]. split; [apply rle_refl|]. intros q [].
      - rewrite skip_false. set (x := p_combine P f (fst q) (snd q)).
        set (R1 := match cs_nodes x with 2 => _ | 3 => _ | _ => R0 end).
        assert (H1 : rin R1 /\ rle R0 R1 /\
          (cs_nodes (fst q) + cs_nodes (snd q) = 1 -> cvd (fm_two T R1) (cs_val x)) /\
          (cs_nodes (fst q) + cs_nodes (snd q) = 2 -> cvd (fm_three T R1) (cs_val x))).
        { assert (En : cs_nodes x = cs_nodes (fst q) + cs_nodes (snd q) + 1) by reflexivity.
          destruct (add_spec (fm_two T R0) x I2) as (X1 & X2 & X3). destruct (add_spec (fm_three T R0) x I3) as (Y1 & Y2 & Y3).
          unfold R1. destruct (cs_nodes x) as [|[|[|[|m]]]]; try (split; [split; assumption|]; split; [apply rle_refl|]; split; lia).
          - split; [split; assumption|]. split; [split; [reflexivity|]; split; [exact X3|auto]|]. split; [intros _; exact X2|lia].
          - split; [split; assumption|]. split; [split; [reflexivity|]; split; [auto|exact Y3]|]. split; [lia|intros _; exact Y2]. }
        destruct H1 as (H1 & L1 & Q1 & Q2). destruct (IH R1 H1) as (H2 & L2 & Q3).
        split; [exact H2|]. split; [exact (rle_trans _ _ _ L1 L2)|]. destruct L2 as (_ & L2 & L3).
        intros q' [<-|Hq]; [|exact (Q3 q' Hq)]. split; intro Hn; [apply L2, Q1, Hn|apply L3, Q2, Hn]. }
    destruct (K (list_prod (ct_sols l) (ct_sols r)) R HR) as (A & B & C). split; [exact A|]. split; [exact B|].
    intros x y Hx Hy. exact (C (x, y) (proj2 (in_prod_iff _ _ _ _) (conj Hx Hy))).
  Qed.

  (** A tree of at most one node below a root feature: its value is that of a leaf or it is one
      of the children that are combined. *)
  Lemma child_cases w t : num_labels w = nl -> allowed ok mls 1 1 w t ->
    (exists l, l < nl /\ tval P w t = pt_leaf P w l)
    \/ (exists g a b, t = Split g (Leaf a) (Leaf b) /\ ok g /\ In (a, b) (label_pairs (num_labels w))
          /\ mls <= vsize (split_left g w) /\ mls <= vsize (split_right g w)).
  Proof.
    intros Hn A. destruct t as [l|g tl tr].
    - left. exists l. destruct A as (A & _). cbn in A. change (length w) with (num_labels w) in A. rewrite Hn in A. auto.
    - pose proof A as A0. apply allowed_split in A. destruct A as (Of & _ & _ & Al & Ar).
      assert (Zl := allowed_size _ _ _ _ _ _ Al). assert (Zr := allowed_size _ _ _ _ _ _ Ar).
      destruct Al as (Fl & _ & Dl & _), Ar as (Fr & _ & Dr & _).
      destruct tl as [a|]; [|cbn in Dl; lia]. destruct tr as [b|]; [|cbn in Dr; lia]. cbn in Fl, Fr.
      change (length (split_left g w)) with (num_labels (split_left g w)) in Fl. change (length (split_right g w)) with (num_labels (split_right g w)) in Fr.
      rewrite num_labels_left in Fl. rewrite num_labels_right in Fr. rewrite Hn in Fl, Fr.
      destruct (in_label_pairs nl a b Fl Fr) as [Hp| ->].
      + right. exists g, a, b. rewrite Hn. auto.
      + left. exists b. split; [exact Fr|]. cbn. apply Hsame.
  Qed.

  Definition three_cov (R : fterm T) (s : V) : Prop := cvd (fm_one T R) s \/ cvd (fm_two T R) s \/ cvd (fm_three T R) s.
  Lemma three_mono R R' s : rle R R' -> three_cov R s -> three_cov R' s.
  Proof. intros (A & B & C) [H|[H|H]]; unfold three_cov; [left; rewrite A; exact H|right; left; auto|right; right; auto]. Qed.

  (** The kids have one node each. *)
  Definition k1 (k : kids T) : Prop := forall f x, In x (ct_sols (fst (k f))) \/ In x (ct_sols (snd (k f))) -> cs_nodes x = 1.

  Lemma t_root_spec u ub f k R (F : nat -> Prop) : num_labels u = nl -> ok f -> kin k -> k1 k -> rin R ->
    mls <= vsize (split_left f u) -> mls <= vsize (split_right f u) ->
    (forall g, F g -> kc u k f g) ->
    (forall a b, a < nl -> b < nl -> cvd (fm_one T R) (pt_add P (pt_leaf P (split_left f u) a) (pt_leaf P (split_right f u) b))) ->
    let R' := t_root T G u ub f k R in
    rin R' /\ rle R R' /\
    (forall tl tr, allowed ok mls 1 1 (split_left f u) tl -> allowed ok mls 1 1 (split_right f u) tr ->
       (forall g tl1 tl2, tl = Split g tl1 tl2 -> F g) -> (forall g tr1 tr2, tr = Split g tr1 tr2 -> F g) ->
       three_cov R' (tval P u (Split f tl tr))).
  Proof.
    intros Hn Of Hk Hk1 HR Zl Zr Hkc Hone. cbn zeta. unfold t_root. cbn zeta.
    destruct (t_merge_spec ub f (fst (k f)) (t_leaves T G ub (split_right f u)) R HR) as (H1 & L1 & Q1).
    set (R1 := t_merge T ub f (fst (k f)) (t_leaves T G ub (split_right f u)) R) in *.
    destruct (t_merge_spec ub f (t_leaves T G ub (split_left f u)) (snd (k f)) R1 H1) as (H2 & L2 & Q2).
    set (R2 := t_merge T ub f (t_leaves T G ub (split_left f u)) (snd (k f)) R1) in *.
    destruct (t_merge_spec ub f (fst (k f)) (snd (k f)) R2 H2) as (H3 & L3 & Q3).
    set (R3 := t_merge T ub f (fst (k f)) (snd (k f)) R2) in *.
    split; [exact H3|]. split; [exact (rle_trans _ _ _ L1 (rle_trans _ _ _ L2 L3))|].
    intros tl tr Al Ar Gl Gr.
    assert (Nl : num_labels (split_left f u) = nl) by (rewrite num_labels_left; exact Hn).
    assert (Nr : num_labels (split_right f u) = nl) by (rewrite num_labels_right; exact Hn).
    destruct (t_leaves_spec ub (split_left f u) Zl) as (_ & LL & LN). destruct (t_leaves_spec ub (split_right f u) Zr) as (_ & RL & RN).
    rewrite Nl in LL. rewrite Nr in RL. cbn [tval].
    assert (KL : (exists l, l < nl /\ tval P (split_left f u) tl = pt_leaf P (split_left f u) l) \/ cvd (fst (k f)) (tval P (split_left f u) tl)).
    { destruct (child_cases _ tl Nl Al) as [H|(g & a & b & -> & Og & Hp & Z1 & Z2)]; [left; exact H|right].
      exact (proj1 (Hkc g (Gl _ _ _ eq_refl)) (a, b) Hp Z1 Z2). }
    assert (KR : (exists l, l < nl /\ tval P (split_right f u) tr = pt_leaf P (split_right f u) l) \/ cvd (snd (k f)) (tval P (split_right f u) tr)).
    { destruct (child_cases _ tr Nr Ar) as [H|(g & a & b & -> & Og & Hp & Z1 & Z2)]; [left; exact H|right].
      exact (proj2 (Hkc g (Gr _ _ _ eq_refl)) (a, b) Hp Z1 Z2). }
    destruct KL as [(l & Hl & ->)|(x & Hx & Dx)], KR as [(r & Hr & ->)|(y & Hy & Dy)].
    - apply (three_mono R); [exact (rle_trans _ _ _ L1 (rle_trans _ _ _ L2 L3))|]. left. apply Hone; assumption.
    - apply (three_mono R2); [exact L3|]. right. left. destruct (LL l Hl) as (x & Hx & Dx).
      apply (cvd_trans _ (pt_add P (cs_val x) (cs_val y))); [|apply Hadd; assumption].
      apply (Q2 x y Hx Hy). rewrite (proj1 (LN x Hx)), (Hk1 f y (or_intror Hy)). reflexivity.
    - apply (three_mono R1); [exact (rle_trans _ _ _ L2 L3)|]. right. left. destruct (RL r Hr) as (y & Hy & Dy).
      apply (cvd_trans _ (pt_add P (cs_val x) (cs_val y))); [|apply Hadd; assumption].
      apply (Q1 x y Hx Hy). rewrite (proj1 (RN y Hy)), (Hk1 f x (or_introl Hx)). reflexivity.
    - right. right. apply (cvd_trans _ (pt_add P (cs_val x) (cs_val y))); [|apply Hadd; assumption].
      apply (Q3 x y Hx Hy). rewrite (Hk1 f x (or_introl Hx)), (Hk1 f y (or_intror Hy)). reflexivity.
  Qed.

  Lemma kids_k1 u k : kids_ok T G u k -> k1 k.
  Proof. intros H f x [Hx|Hx]; [exact (proj2 (proj1 (H f) x Hx))|exact (proj2 (proj2 (H f) x Hx))]. Qed.

  Lemma eq_best c s : f_eq T (f_lb0 T) c = true -> dom (pt_best P) s = true -> cvd c s.
  Proof.
    unfold f_eq. destruct (_ || _); [discriminate|]. cbn [f_lb0 ct_sols all_eq].
    destruct (ct_sols c) as [|x [|y l]] eqn:E; cbn [all_eq]; try discriminate; [|rewrite andb_false_r; discriminate].
    rewrite andb_true_r. intros H D. apply Heq in H. cbn [f_val cs_val] in H.
    exists x. rewrite E. split; [left; reflexivity|]. rewrite <- H. exact D.
  Qed.

  Lemma loop_spec u ub F : num_labels u = nl ->
    (forall f, In f F -> ok f /\ mls <= vsize (split_left f u) /\ mls <= vsize (split_right f u)) ->
    forall fs k R, NoDup fs -> (forall f, In f fs -> In f F) -> kin k -> kids_ok T G u k -> rin R ->
    (forall f g, In f fs -> In g F -> ~ In g fs -> kc u k f g) ->
    (forall f a b, In f F -> a < nl -> b < nl -> cvd (fm_one T R) (pt_add P (pt_leaf P (split_left f u) a) (pt_leaf P (split_right f u) b))) ->
    let R' := t_loop T G u ub fs k R in
    rin R' /\ rle R R' /\ (f_eq T (f_lb0 T) (fm_three T R') = true \/
    (forall f tl tr, In f fs -> allowed ok mls 1 1 (split_left f u) tl -> allowed ok mls 1 1 (split_right f u) tr ->
       (forall g tl1 tl2, tl = Split g tl1 tl2 -> In g F /\ g <> f) -> (forall g tr1 tr2, tr = Split g tr1 tr2 -> In g F /\ g <> f) ->
       three_cov R' (tval P u (Split f tl tr)))).
  Proof.
    intros Hn HF. induction fs as [|f fs IH]; intros k R ND Hfs Hk Hko HR Hkc Hone; cbn zeta; cbn [t_loop].
    - split; [exact HR|]. split; [apply rle_refl|]. right. intros f tl tr [].
    - destruct (f_eq T (f_lb0 T) (fm_three T R)) eqn:Eb; [split; [exact HR|]; split; [apply rle_refl|left; exact Eb]|].
      cbn zeta. inversion ND as [|? ? Nf ND']; subst.
      destruct (HF f (Hfs f (or_introl eq_refl))) as (Of & Zl & Zr).
      destruct (pairs_spec u ub f fs k Hk) as (Hk2 & L2 & Q2).
      assert (Hko2 : kids_ok T G u (fold_left (t_pair T G u ub f) fs k)).
      { assert (K : forall gs k, (forall g, In g gs -> ok g) -> kids_ok T G u k -> kids_ok T G u (fold_left (t_pair T G u ub f) gs k)).
        { induction gs as [|g gs IHg]; intros k' Hg Hk'; [exact Hk'|]. cbn [fold_left]. apply IHg; [intros g' H'; apply Hg; right; exact H'|].
          apply t_pair_ok; auto. apply Hg. left. reflexivity. }
        apply K; [|exact Hko]. intros g Hg. apply HF, Hfs. right. exact Hg. }
      set (k2 := fold_left (t_pair T G u ub f) fs k) in *.
      assert (Hf2 : forall g, In g F /\ g <> f -> kc u k2 f g).
      { intros g [Hg Ng]. destruct (in_dec Nat.eq_dec g fs) as [I|I]; [apply Q2; exact I|].
        apply (kc_mono _ k k2 _ _ L2). apply Hkc; [left; reflexivity|exact Hg|]. intros [E|E]; [congruence|contradiction]. }
      destruct (t_root_spec u ub f k2 R (fun g => In g F /\ g <> f) Hn Of Hk2 (kids_k1 u k2 Hko2) HR Zl Zr Hf2) as (HR3 & L3 & Q3).
      { intros a b. apply Hone. apply Hfs. left. reflexivity. }
      set (R3 := t_root T G u ub f k2 R) in *.
      destruct (IH k2 R3 ND') as (HR4 & L4 & Q4); auto.
      { intros g Hg. apply Hfs. right. exact Hg. }
      { intros g h Hg Hh Nh. destruct (Nat.eq_dec h f) as [->|Nf2]; [apply Q2; exact Hg|].
        apply (kc_mono _ k k2 _ _ L2). apply Hkc; [right; exact Hg|exact Hh|]. intros [E|E]; [congruence|contradiction]. }
      { intros g a b Hg Ha Hb. rewrite (proj1 L3). apply Hone; assumption. }
      split; [exact HR4|]. split; [exact (rle_trans _ _ _ L3 L4)|]. destruct Q4 as [Q4|Q4]; [left; exact Q4|right].
      intros g tl tr [<-|Hg] Al Ar Gl Gr; [|exact (Q4 g tl tr Hg Al Ar Gl Gr)].
      apply (three_mono R3 _ _ L4). apply Q3; assumption.
  Qed.

  Lemma split_self_l f u : vsize (split_right f (split_left f u)) = 0.
  Proof.
    unfold vsize. rewrite concat_split_right, concat_split_left. rewrite filter_all_false; [reflexivity|].
    intros x Hx. apply filter_In in Hx. destruct Hx as [_ Hx]. apply negb_true_iff in Hx. exact Hx.
  Qed.
  Lemma split_self_r f u : vsize (split_left f (split_right f u)) = 0.
  Proof.
    unfold vsize. rewrite concat_split_left, concat_split_right. rewrite filter_all_false; [reflexivity|].
    intros x Hx. apply filter_In in Hx. destruct Hx as [_ Hx]. rewrite Hx. reflexivity.
  Qed.
  Lemma vsize_ll f g u : vsize (split_left g (split_left f u)) <= vsize (split_left g u).
  Proof. rewrite split_comm_ll. rewrite (vsize_split f (split_left g u)). lia. Qed.
  Lemma vsize_rl f g u : vsize (split_right g (split_left f u)) <= vsize (split_right g u).
  Proof. rewrite <- split_comm_lr. rewrite (vsize_split f (split_right g u)). lia. Qed.
  Lemma vsize_lr f g u : vsize (split_left g (split_right f u)) <= vsize (split_left g u).
  Proof. rewrite split_comm_lr. rewrite (vsize_split f (split_left g u)). lia. Qed.
  Lemma vsize_rr f g u : vsize (split_right g (split_right f u)) <= vsize (split_right g u).
  Proof. rewrite split_comm_rr. rewrite (vsize_split f (split_right g u)). lia. Qed.

  Lemma in_features b f : ok f -> 1 <= vsize (split_left f (sub b)) -> 1 <= vsize (split_right f (sub b)) -> 3 <= vsize (sub b) ->
    In f (t_features T G (sub b) b).
  Proof.
    intros [F1 F2] Zl Zr Z. unfold t_features. apply filter_In. split; [apply in_seq; lia|].
    rewrite F2, Hmls. cbn [andb].
    destruct (br_has b f) eqn:E; [destruct (br_has_empty b f root E); lia|]. cbn [negb andb].
    rewrite (proj2 (Nat.leb_le _ _) Zl), (proj2 (Nat.leb_le _ _) Zr). cbn [andb].
    apply negb_true_iff. apply andb_false_iff. pose proof (vsize_split f (sub b)).
    destruct (Nat.le_gt_cases 2 (vsize (split_left f (sub b)))); [left|right]; apply Nat.ltb_ge; lia.
  Qed.

  Lemma sub_nl b : num_labels (sub b) = nl.
  Proof. unfold restrict, num_labels. apply map_length. Qed.

  Lemma allowed_best b d n t : allowed ok mls d n (sub b) t -> dom (pt_best P) (tval P (sub b) t) = true.
  Proof. intros (F & _). apply Hbest. change (length (sub b)) with (num_labels (sub b)) in F. rewrite sub_nl in F. exact F. Qed.

  Lemma compute_spec b ub n : 1 <= vsize (sub b) ->
    let R := fst (t_compute T G (sub b) b ub n) in
    ivd (fm_one T R) /\ (forall t, allowed ok mls 1 1 (sub b) t -> cvd (fm_one T R) (tval P (sub b) t)) /\
    (n <> 1 -> ivd (fm_three T R) /\ forall t, allowed ok mls 2 3 (sub b) t -> cvd (fm_three T R) (tval P (sub b) t)).
  Proof.
    intros Hz. cbn zeta. unfold t_compute. assert (Hm : mls <= vsize (sub b)) by lia.
    rewrite (proj2 (Nat.ltb_ge _ _) Hm). destruct (one_spec (sub b) ub Hm (sub_nl b)) as (I1 & C1 & D1).
    destruct (t_one T G (sub b) ub) as [one ub']. cbn [fst] in I1, C1, D1.
    assert (CO : forall t, allowed ok mls 1 1 (sub b) t -> cvd one (tval P (sub b) t)).
    { intros t A. destruct (child_cases (sub b) t (sub_nl b) A) as [(l & Hl & ->)|(g & p & q & -> & Og & Hp & Z1 & Z2)]; [apply C1; exact Hl|].
      cbn [tval]. rewrite sub_nl in Hp. unfold label_pairs in Hp. apply filter_In in Hp. destruct Hp as [Hp _]. apply in_prod_iff in Hp.
      rewrite !in_seq in Hp. apply D1; try assumption; lia. }
    destruct (n =? 1) eqn:En.
    { cbn [fst fm_one]. split; [exact I1|]. split; [exact CO|]. apply Nat.eqb_eq in En. contradiction. }
    cbn zeta. set (R0 := FTerm T one ct_new ct_new). set (R := if f_eq T (f_lb0 T) one then R0 else _). cbn [fst fm_one fm_three fm_two].
    split; [exact I1|]. split; [exact CO|]. intros _.
    assert (HR0 : rin R0) by (split; apply ivd_new).
    assert (HF : forall f, In f (t_features T G (sub b) b) -> ok f /\ mls <= vsize (split_left f (sub b)) /\ mls <= vsize (split_right f (sub b))).
    { intros f Hf. unfold t_features in Hf. apply filter_In in Hf. destruct Hf as [Hf Hp]. apply in_seq in Hf. rewrite !andb_true_iff in Hp.
      destruct Hp as ((((H1 & _) & H2) & H3) & _). apply Nat.leb_le in H2, H3. split; [split; [lia|exact H1]|auto]. }
    assert (HR : rin R /\ fm_one T R = one /\ (f_eq T (f_lb0 T) one = true \/ f_eq T (f_lb0 T) (fm_three T R) = true \/
      forall f tl tr, In f (t_features T G (sub b) b) -> allowed ok mls 1 1 (split_left f (sub b)) tl -> allowed ok mls 1 1 (split_right f (sub b)) tr ->
       (forall g tl1 tl2, tl = Split g tl1 tl2 -> In g (t_features T G (sub b) b) /\ g <> f) ->
       (forall g tr1 tr2, tr = Split g tr1 tr2 -> In g (t_features T G (sub b) b) /\ g <> f) ->
       three_cov R (tval P (sub b) (Split f tl tr)))).
    { unfold R. destruct (f_eq T (f_lb0 T) one) eqn:E1; [split; [exact HR0|]; split; [reflexivity|left; reflexivity]|].
      destruct (loop_spec (sub b) ub' (t_features T G (sub b) b) (sub_nl b) HF (t_features T G (sub b) b) (fun _ => (ct_new, ct_new)) R0)
        as (A1 & A2 & A3).
      - apply NoDup_filter, seq_NoDup.
      - auto.
      - intro f. split; apply ivd_new.
      - intro f. split; intros x [].
      - exact HR0.
      - intros f g _ Hg Ng. contradiction.
      - intros f p q Hf Hp Hq. destruct (HF f Hf) as (Of & Zl & Zr). apply D1; assumption.
      - split; [exact A1|]. split; [apply (proj1 A2)|]. right. exact A3. }
    destruct HR as ((I2 & I3) & E1 & HR).
    destruct (fold_spec (ct_sols one) (fm_two T R) I2) as (I4 & C4 & M4). fold (f_adds T (fm_two T R) one) in I4, C4, M4.
    set (two := f_adds T (fm_two T R) one) in *.
    destruct (fold_spec (ct_sols two) (fm_three T R) I3) as (I5 & C5 & M5). fold (f_adds T (fm_three T R) two) in I5, C5, M5.
    split; [exact I5|].
    assert (J2 : forall s, cvd two s -> cvd (f_adds T (fm_three T R) two) s).
    { intros s (x & Hx & D). exact (cvd_trans _ _ _ (C5 x Hx) D). }
    assert (J1 : forall s, cvd one s -> cvd (f_adds T (fm_three T R) two) s).
    { intros s (x & Hx & D). apply J2. exact (cvd_trans _ _ _ (C4 x Hx) D). }
    intros t A. destruct HR as [HR|[HR|HR]].
    - apply J1. apply eq_best; [exact HR|exact (allowed_best b 2 3 t A)].
    - apply M5. apply eq_best; [exact HR|exact (allowed_best b 2 3 t A)].
    - destruct t as [l|f tl tr].
      + apply J1. apply CO. destruct A as (A1 & A2 & _). unfold allowed. cbn. auto.
      + pose proof A as A0. apply allowed_split in A. destruct A as (Of & _ & Nn & Al & Ar).
        pose proof (allowed_size _ _ _ _ _ _ Al) as Zl. pose proof (allowed_size _ _ _ _ _ _ Ar) as Zr. cbn in Al, Ar.
        assert (DN : forall t, depth t <= 1 -> nodes t <= 1).
        { intros t0 H. pose proof (nodes_le_full t0 1 H). cbn in H0. exact H0. }
        assert (Al1 : allowed ok mls 1 1 (split_left f (sub b)) tl).
        { destruct Al as (X1 & X2 & X3 & _). unfold allowed. auto. }
        assert (Ar1 : allowed ok mls 1 1 (split_right f (sub b)) tr).
        { destruct Ar as (X1 & X2 & X3 & _). unfold allowed. auto. }
        pose proof (vsize_split f (sub b)) as Zs.
        destruct (Nat.le_gt_cases 3 (vsize (sub b))) as [Z3|Z3].
        * assert (K : three_cov R (tval P (sub b) (Split f tl tr))).
          { apply HR; try assumption.
            - apply in_features; try assumption; lia.
            - intros g t1 t2 ->. apply allowed_split in Al1. destruct Al1 as (Og & _ & _ & B1 & B2).
              apply allowed_size in B1, B2. split.
              + apply in_features; try assumption; [pose proof (vsize_ll f g (sub b))|pose proof (vsize_rl f g (sub b))]; lia.
              + intros ->. rewrite split_self_l in B2. lia.
            - intros g t1 t2 ->. apply allowed_split in Ar1. destruct Ar1 as (Og & _ & _ & B1 & B2).
              apply allowed_size in B1, B2. split.
              + apply in_features; try assumption; [pose proof (vsize_lr f g (sub b))|pose proof (vsize_rr f g (sub b))]; lia.
              + intros ->. rewrite split_self_r in B1. lia. }
          destruct K as [K|[K|K]]; [apply J1; rewrite <- E1; exact K|apply J2, M4, K|apply M5, K].
        * assert (Lf : forall w t0, vsize w <= 1 -> allowed ok mls 1 1 w t0 -> exists l, t0 = Leaf l).
          { intros w t0 Hw B. destruct t0 as [l|g t1 t2]; [exists l; reflexivity|exfalso].
            apply allowed_split in B. destruct B as (_ & _ & _ & B1 & B2). apply allowed_size in B1, B2. pose proof (vsize_split g w). lia. }
          assert (W1 : vsize (split_left f (sub b)) <= 1) by lia. assert (W2 : vsize (split_right f (sub b)) <= 1) by lia.
          destruct (Lf _ tl W1 Al1) as (p & ->). destruct (Lf _ tr W2 Ar1) as (q & ->).
          apply J1, CO. apply allowed_split. split; [exact Of|]. split; [lia|]. split; [cbn; lia|]. cbn.
          destruct Al as (X1 & X2 & X3 & X4), Ar as (Y1 & Y2 & Y3 & Y4). unfold allowed. auto.
  Qed.
End Two.
