(** Proofs about the search on fronts of solutions. *)
From Coq Require Import List Arith Bool ZArith Lia.
From Verif Require Import Model_FeatureVector Model_Data Model_Terminal Model_Container Model_Pareto.
From Verif Require Import Spec_Tree Proofs_View Proofs_Container.
Import ListNotations.
Local Open Scope nat_scope.

(** The value of a tree for a partially ordered task. *)
Fixpoint tval (T : ptask) (v : view) (t : tree) : pt_S T :=
  match t with
  | Leaf l => pt_leaf T v l
  | Split f l r => pt_add T (tval T (split_left f v) l) (tval T (split_right f v) r)
  end.

(** The tree and all its subtrees satisfy the constraint. *)
Fixpoint tok (T : ptask) (v : view) (t : tree) : bool :=
  pt_ok T (tval T v t) &&
  match t with
  | Leaf _ => true
  | Split f l r => tok T (split_left f v) l && tok T (split_right f v) r
  end.

Section P.
  Context (T : ptask) (G : pcfg) (nf : nat) (root : view).
  Notation V := (pt_S T).
  Notation sol := (csol V ptag).
  Notation front := (cont V ptag).
  Notation dom := (pt_dom T).
  Notation d0 := (pt_d0 T).
  Notation eqb := (pt_eqb T).
  Notation mls := (pc_mls G).
  Notation sub b := (restrict b root).

  Definition okf (f : nat) : Prop := f < nf /\ pt_may T f = true /\ pc_redundant G f = false.

  Variable valid : V -> Prop.
  Hypothesis Heq : forall a b, eqb a b = true <-> a = b.
  Hypothesis Hrefl : forall a, dom a a = true.
  Hypothesis Htrans : forall a b c, dom a b = true -> dom b c = true -> dom a c = true.
  Hypothesis H0refl : forall a, d0 a a = true.
  Hypothesis H0trans : forall a b c, d0 a b = true -> d0 b c = true -> d0 a c = true.
  Hypothesis Hadd : forall a a' b b', valid a -> valid a' -> valid b -> valid b' -> dom a a' = true -> dom b b' = true -> dom (pt_add T a b) (pt_add T a' b') = true.
  Hypothesis Hvalid : forall b t, fits okf (num_labels root) t -> valid (tval T (sub b) t).
  Hypothesis Hbest : valid (pt_best T) -> forall s, valid s -> dom (pt_best T) s = true.
  Hypothesis Hok : forall a b, valid a -> valid b -> dom a b = true -> pt_ok T b = true -> pt_ok T a = true.
  Hypothesis Hmono : forall a b, valid a -> valid b -> dom a b = true -> d0 a b = true.
  Hypothesis Horder : forall v f, In f (pc_order G v) <-> f < nf.
  Hypothesis Hmls : 1 <= mls.

  (** The relation used at a branch. *)
  Definition R (b : branch) : V -> V -> bool := if br_depth b =? 0 then d0 else dom.

  Lemma R_refl b a : R b a a = true.
  Proof. unfold R. destruct (_ =? _); auto. Qed.
  Lemma R_trans b x y z : R b x y = true -> R b y z = true -> R b x z = true.
  Proof. unfold R. destruct (_ =? _); eauto. Qed.
  Lemma R_dom b x y : valid x -> valid y -> dom x y = true -> R b x y = true.
  Proof. unfold R. destruct (_ =? _); auto. Qed.
  Lemma R_child_l b f : R (br_left b f) = dom.
  Proof.
    unfold R, br_depth. assert (length (br_left b f) <> 0).
    { unfold br_left, br_add. rewrite (Permutation.Permutation_length (sort_nat_perm _)), app_length. cbn. lia. }
    destruct (_ =? 0) eqn:E; [apply Nat.eqb_eq in E; lia|reflexivity].
  Qed.
  Lemma R_child_r b f : R (br_right b f) = dom.
  Proof.
    unfold R, br_depth. assert (length (br_right b f) <> 0).
    { unfold br_right, br_add. rewrite (Permutation.Permutation_length (sort_nat_perm _)), app_length. cbn. lia. }
    destruct (_ =? 0) eqn:E; [apply Nat.eqb_eq in E; lia|reflexivity].
  Qed.

  Definition cov (b : branch) (c : front) (s : V) : Prop := covers (R b) (ct_sols c) s.
  Definition inv (b : branch) (c : front) : Prop :=
    ForallOrdPairs (incomp (R b)) (ct_sols c) /\ u_ok eqb (R b) (ct_sols c) (ct_uniq c).

  Lemma inv_new b : inv b ct_new.
  Proof. split; [constructor|intros s k E; discriminate]. Qed.

  Lemma p_add_spec b c x : inv b c ->
    inv b (p_add T b c x) /\ cov b (p_add T b c x) (cs_val x) /\
    (forall s, cov b c s -> cov b (p_add T b c x) s) /\
    (forall y, In y (ct_sols (p_add T b c x)) -> y = x \/ In y (ct_sols c)).
  Proof.
    intros [I1 I2].
    assert (g : good eqb (R b) (ct_sols c) c).
    { split; auto. intros y Hy. exists y. split; [exact Hy|apply R_refl]. }
    assert (E : exists ck, p_add T b c x = ct_add eqb (R b) ck c x).
    { unfold p_add, R. destruct (_ =? _); eexists; reflexivity. }
    destruct E as [ck E]. rewrite E.
    destruct (good_add eqb (R b) Heq (R_refl b) (R_trans b) ck _ _ x g) as [G1 G2 G3 G4].
    split; [split; assumption|]. split.
    - apply G3. apply in_or_app. right. left. reflexivity.
    - split.
      + intros s (y & Hy & Hd). destruct (G3 y) as (z & Hz & Dz); [apply in_or_app; left; exact Hy|].
        exists z. split; [exact Hz|]. exact (R_trans b _ _ _ Dz Hd).
      + intros y Hy. apply G2 in Hy. apply in_app_or in Hy. destruct Hy as [Hy|[<-|[]]]; auto.
  Qed.

  Lemma fold_add_spec {A} b (g : A -> sol) xs : forall c, inv b c ->
    let c' := fold_left (fun c a => p_add T b c (g a)) xs c in
    inv b c' /\ (forall a, In a xs -> cov b c' (cs_val (g a))) /\
    (forall s, cov b c s -> cov b c' s) /\
    (forall y, In y (ct_sols c') -> (exists a, In a xs /\ y = g a) \/ In y (ct_sols c)).
  Proof.
    induction xs as [|a xs IH]; intros c I; cbn.
    - repeat split; try apply I; auto. intros a [].
    - destruct (p_add_spec b c (g a) I) as (I' & C1 & M1 & S1).
      destruct (IH _ I') as (I2 & C2 & M2 & S2). cbn in *.
      split; [exact I2|]. split; [|split].
      + intros a' [<-|Ha]; auto.
      + auto.
      + intros y Hy. destruct (S2 y Hy) as [(a' & Ha & ->)|Hy2]; [left; exists a'; auto|].
        destruct (S1 y Hy2) as [->|Hy3]; [left; exists a; auto|right; exact Hy3].
  Qed.

  Lemma fold_try_spec {A} b (g : A -> sol) xs : forall c, inv b c ->
    let c' := fold_left (fun c a => p_try T b c (g a)) xs c in
    inv b c' /\ (forall a, In a xs -> pt_ok T (cs_val (g a)) = true -> cov b c' (cs_val (g a))) /\
    (forall s, cov b c s -> cov b c' s) /\
    (forall y, In y (ct_sols c') -> (exists a, In a xs /\ y = g a /\ pt_ok T (cs_val y) = true) \/ In y (ct_sols c)).
  Proof.
    intros c I. cbn zeta.
    assert (E : fold_left (fun c a => p_try T b c (g a)) xs c
      = fold_left (fun c a => p_add T b c (g a)) (filter (fun a => pt_ok T (cs_val (g a))) xs) c).
    { revert c I. induction xs as [|a xs IH]; intros c I; [reflexivity|]. cbn [fold_left filter]. unfold p_try at 2.
      destruct (pt_ok T (cs_val (g a))); cbn [fold_left]; apply IH; [apply p_add_spec; exact I|exact I]. }
    rewrite E. destruct (fold_add_spec b g (filter (fun a => pt_ok T (cs_val (g a))) xs) c I) as (I2 & C2 & M2 & S2).
    split; [exact I2|]. split; [|split; [exact M2|]].
    - intros a Ha Ho. apply C2. apply filter_In. auto.
    - intros y Hy. destruct (S2 y Hy) as [(a & Ha & ->)|Hy2]; [left|right; exact Hy2]. apply filter_In in Ha. exists a. tauto.
  Qed.

  (** What a search result must satisfy: every solution is the value of an allowed tree
      (with the right tag), every allowed tree is covered. *)
  Definition tag_of (t : tree) : ptag :=
    match t with
    | Leaf l => PTag None (Some l) 0 0
    | Split f l r => PTag (Some f) None (nodes l) (nodes r)
    end.
  Definition is_sol (b : branch) (d n : nat) (x : sol) : Prop :=
    exists t, allowed okf mls d n (sub b) t /\ tok T (sub b) t = true /\ x = Csol (tval T (sub b) t) (nodes t) (tag_of t).
  Definition complete (b : branch) (d n : nat) (c : front) : Prop :=
    forall t, allowed okf mls d n (sub b) t -> tok T (sub b) t = true -> cov b c (tval T (sub b) t).
  Definition sound (b : branch) (d n : nat) (c : front) : Prop :=
    forall x, In x (ct_sols c) -> is_sol b d n x.

  Lemma sub_labels b : length (sub b) = num_labels root.
  Proof. unfold restrict, num_labels. apply map_length. Qed.

  Lemma allowed_valid b d n t : allowed okf mls d n (sub b) t -> valid (tval T (sub b) t).
  Proof. intros (F & _). apply Hvalid. rewrite sub_labels in F. exact F. Qed.

  Lemma is_sol_valid b d n x : is_sol b d n x -> valid (cs_val x).
  Proof. intros (t & A & _ & ->). cbn. exact (allowed_valid _ _ _ _ A). Qed.

  Lemma leaf_spec b d n : let c := p_solve_leaf T G (sub b) b in
    inv b c /\ sound b d n c /\ (forall l, allowed okf mls 0 0 (sub b) (Leaf l) -> tok T (sub b) (Leaf l) = true -> cov b c (tval T (sub b) (Leaf l))).
  Proof.
    cbn zeta. unfold p_solve_leaf, p_mls. rewrite Nat.mul_1_r.
    destruct (mls <=? vsize (sub b)) eqn:E.
    - apply Nat.leb_le in E.
      destruct (fold_try_spec b (fun l => p_leaf T l (pt_leaf T (sub b) l)) (seq 0 (num_labels (sub b))) ct_new (inv_new b))
        as (I & C & _ & S). split; [exact I|]. split.
      + intros x Hx. destruct (S x Hx) as [(l & Hl & -> & Hok')|[]].
        exists (Leaf l). split; [|split; [cbn in *; rewrite Hok'; reflexivity|reflexivity]]. apply in_seq in Hl. unfold allowed. cbn. unfold num_labels in Hl. unfold vsize in E.
        repeat split; lia.
      + intros l (F & _) Ht. cbn in F, Ht. rewrite andb_true_r in Ht. apply (C l); [|exact Ht]. apply in_seq. unfold num_labels. lia.
    - apply Nat.leb_gt in E. split; [apply inv_new|]. split; [intros x []|].
      intros l (_ & L & _) _. cbn in L. unfold vsize in E. lia.
  Qed.

  (** One distribution of the nodes. *)
  Definition rec_ok (k : nat) (rec : view -> branch -> nat -> nat -> front) : Prop :=
    forall b d n, d <= k -> d <= n -> n <= 2 ^ d - 1 ->
      inv b (rec (sub b) b d n) /\ sound b d n (rec (sub b) b d n) /\ complete b d n (rec (sub b) b d n).

  Lemma merge_spec b d n f l r c :
    okf f -> inv b c -> sound b d n c -> 1 <= d ->
    sound (br_left b f) (d - 1) n l -> sound (br_right b f) (d - 1) n r ->
    (forall x y, In x (ct_sols l) -> In y (ct_sols r) -> cs_nodes x + cs_nodes y + 1 <= n) ->
    let c' := p_merge T b f l r c in
    inv b c' /\ sound b d n c' /\ (forall s, cov b c s -> cov b c' s) /\
    (forall x y, In x (ct_sols l) -> In y (ct_sols r) -> pt_ok T (pt_add T (cs_val x) (cs_val y)) = true ->
       cov b c' (pt_add T (cs_val x) (cs_val y))).
  Proof.
    intros Hf I S Hd Sl Sr Hn. cbn zeta. unfold p_merge.
    destruct (fold_try_spec b (fun p => p_combine T f (fst p) (snd p)) (list_prod (ct_sols l) (ct_sols r)) c I)
      as (I2 & C2 & M2 & S2).
    split; [exact I2|]. split; [|split; [exact M2|]].
    - intros x Hx. destruct (S2 x Hx) as [([y z] & Hyz & -> & Hok')|Hx2]; [|exact (S x Hx2)].
      apply in_prod_iff in Hyz. destruct Hyz as [Hy Hz]. cbn.
      destruct (Sl y Hy) as (tl & Al & Ol & El). destruct (Sr z Hz) as (tr & Ar & Or & Er).
      pose proof (Hn y z Hy Hz) as N. subst y z. cbn in N.
      exists (Split f tl tr). split; [|split].
      + apply allowed_split. split; [exact Hf|]. split; [exact Hd|]. split; [lia|].
        rewrite restrict_left, restrict_right.
        destruct Al as (F1 & F2 & F3 & F4), Ar as (E1 & E2 & E3 & E4). unfold allowed. auto 10.
      + cbn in Hok' |- *. rewrite restrict_left, restrict_right, Ol, Or, Hok'. reflexivity.
      + unfold p_combine, p_branch. cbn. rewrite restrict_left, restrict_right. f_equal. lia.
    - intros x y Hx Hy Hs. apply (C2 (x, y)); [|exact Hs]. apply in_prod_iff. auto.
  Qed.

  Lemma is_best_cov b d n c s : sound b d n c -> p_is_best T c = true -> valid s -> cov b c s.
  Proof.
    intros S E Hs. unfold p_is_best in E. destruct (ct_sols c) as [|x [|y l]] eqn:El; try discriminate.
    apply Heq in E. unfold cov. rewrite El. exists x. split; [left; reflexivity|].
    assert (Hv : valid (cs_val x)) by (apply (is_sol_valid b d n); apply S; rewrite El; left; reflexivity).
    rewrite <- E in Hv |- *. apply R_dom; auto.
  Qed.

  Lemma tok_split v f l r : tok T v (Split f l r) = true ->
    pt_ok T (tval T v (Split f l r)) = true /\ tok T (split_left f v) l = true /\ tok T (split_right f v) r = true.
  Proof. intro H. cbn [tok] in H. apply andb_true_iff in H. destruct H as [H1 H2]. apply andb_true_iff in H2. tauto. Qed.

  (** [v1], [b1]: the child solved first. *)
  Lemma size_step_spec fuel rec b d n f (swap : bool) c k :
    rec_ok fuel rec -> d - 1 <= fuel -> okf f -> 1 <= d -> d <= n -> n <= 2 ^ d - 1 ->
    p_min_size d n <= k <= p_max_size d n -> inv b c -> sound b d n c ->
    let b1 := if swap then br_right b f else br_left b f in
    let b2 := if swap then br_left b f else br_right b f in
    let c' := p_size_step T rec b d n f swap (sub b1) b1 (sub b2) b2 c k in
    inv b c' /\ sound b d n c' /\ (forall s, cov b c s -> cov b c' s) /\
    (forall l r, allowed okf mls d n (sub b) (Split f l r) -> tok T (sub b) (Split f l r) = true ->
       nodes (if swap then r else l) <= k -> nodes (if swap then l else r) <= n - k - 1 ->
       cov b c' (tval T (sub b) (Split f l r))).
  Proof.
    intros Hr Hd Hf Hd1 Hdn Hn Hk I S. cbn zeta.
    set (b1 := if swap then br_right b f else br_left b f).
    set (b2 := if swap then br_left b f else br_right b f).
    unfold p_size_step.
    destruct (p_is_best T c) eqn:Eb.
    { split; [exact I|]. split; [exact S|]. split; [auto|]. intros l r A _ _ _.
      exact (is_best_cov b d n c _ S Eb (allowed_valid _ _ _ _ A)). }
    assert (Hmax : p_max_size d n <= 2 ^ (d - 1) - 1) by (unfold p_max_size; lia).
    assert (Hk2 : n - k - 1 <= 2 ^ (d - 1) - 1) by (unfold p_min_size in Hk; lia).
    assert (HB : forall m, m <= 2 ^ (d - 1) - 1 -> m <= 2 ^ Nat.min (d - 1) m - 1).
    { intros m Hm. destruct (Nat.le_gt_cases (d - 1) m); [rewrite Nat.min_l by lia; lia|].
      rewrite Nat.min_r by lia. pose proof (Nat.pow_gt_lin_r 2 m). lia. }
    destruct (Hr b1 (Nat.min (d - 1) k) k) as (I1 & S1 & C1); [lia|lia|apply HB; lia|].
    destruct (Hr b2 (Nat.min (d - 1) (n - k - 1)) (n - k - 1)) as (I2 & S2 & C2); [lia|lia|apply HB; lia|].
    set (s1 := rec (sub b1) b1 (Nat.min (d - 1) k) k) in *.
    set (s2 := rec (sub b2) b2 (Nat.min (d - 1) (n - k - 1)) (n - k - 1)) in *.
    assert (SM : forall bb m s, sound bb (Nat.min (d - 1) m) m s -> m <= n -> sound bb (d - 1) n s).
    { intros bb m s Hs Hm x Hx. destruct (Hs x Hx) as (t & A & E). exists t. split; [|exact E].
      apply (allowed_mono _ _ _ _ _ _ _ _ A); lia. }
    assert (Hkn : k + (n - k - 1) + 1 <= n).
    { assert (k <= n - 1) by (unfold p_max_size in Hk; lia). lia. }
    assert (N1 : forall x, In x (ct_sols s1) -> cs_nodes x <= k).
    { intros x Hx. destruct (S1 x Hx) as (t & A & _ & ->). cbn. destruct A as (_ & _ & _ & A). exact A. }
    assert (N2 : forall x, In x (ct_sols s2) -> cs_nodes x <= n - k - 1).
    { intros x Hx. destruct (S2 x Hx) as (t & A & _ & ->). cbn. destruct A as (_ & _ & _ & A). exact A. }
    assert (K1 : forall l r, allowed okf mls d n (sub b) (Split f l r) -> tok T (sub b) (Split f l r) = true -> nodes (if swap then r else l) <= k ->
      cov b1 s1 (tval T (sub b1) (if swap then r else l))).
    { intros l r A Ht N. apply tok_split in Ht. destruct Ht as (_ & Hl & Hr'). rewrite restrict_left in Hl. rewrite restrict_right in Hr'.
      apply C1; [|unfold b1; destruct swap; assumption]. apply allowed_split in A. destruct A as (_ & _ & _ & Al & Ar).
      rewrite restrict_left in Al. rewrite restrict_right in Ar. unfold b1.
      destruct swap; apply allowed_depth_nodes; [apply (allowed_mono _ _ _ _ _ _ _ _ Ar)|apply (allowed_mono _ _ _ _ _ _ _ _ Al)]; lia. }
    assert (K2 : forall l r, allowed okf mls d n (sub b) (Split f l r) -> tok T (sub b) (Split f l r) = true -> nodes (if swap then l else r) <= n - k - 1 ->
      cov b2 s2 (tval T (sub b2) (if swap then l else r))).
    { intros l r A Ht N. apply tok_split in Ht. destruct Ht as (_ & Hl & Hr'). rewrite restrict_left in Hl. rewrite restrict_right in Hr'.
      apply C2; [|unfold b2; destruct swap; assumption]. apply allowed_split in A. destruct A as (_ & _ & _ & Al & Ar).
      rewrite restrict_left in Al. rewrite restrict_right in Ar. unfold b2.
      destruct swap; apply allowed_depth_nodes; [apply (allowed_mono _ _ _ _ _ _ _ _ Al)|apply (allowed_mono _ _ _ _ _ _ _ _ Ar)]; lia. }
    destruct (ct_sols s1) as [|x1 l1] eqn:E1.
    { split; [exact I|]. split; [exact S|]. split; [auto|]. intros l r A Ht N _.
      destruct (K1 l r A Ht N) as (y & Hy & _). rewrite E1 in Hy. destruct Hy. }
    rewrite <- E1 in *.
    destruct (ct_sols s2) as [|x2 l2] eqn:E2.
    { split; [exact I|]. split; [exact S|]. split; [auto|]. intros l r A Ht _ N.
      destruct (K2 l r A Ht N) as (y & Hy & _). rewrite E2 in Hy. destruct Hy. }
    rewrite <- E2 in *. clear E1 E2 x1 l1 x2 l2.
    (* the two fronts in tree order *)
    set (fl := if swap then s2 else s1). set (fr := if swap then s1 else s2).
    replace (if swap then p_merge T b f s2 s1 c else p_merge T b f s1 s2 c) with (p_merge T b f fl fr c)
      by (unfold fl, fr; destruct swap; reflexivity).
    destruct (merge_spec b d n f fl fr c Hf I S Hd1) as (IM & SMg & MM & CM).
    { unfold fl. destruct swap; [apply (SM b2 (n - k - 1)); [exact S2|lia]|apply (SM b1 k); [exact S1|lia]]. }
    { unfold fr. destruct swap; [apply (SM b1 k); [exact S1|lia]|apply (SM b2 (n - k - 1)); [exact S2|lia]]. }
    { intros x y Hx Hy. unfold fl in Hx. unfold fr in Hy.
      destruct swap; [pose proof (N1 _ Hy); pose proof (N2 _ Hx)|pose proof (N1 _ Hx); pose proof (N2 _ Hy)]; lia. }
    split; [exact IM|]. split; [exact SMg|]. split; [exact MM|].
    intros l r A Ht Na Nb. pose proof (K1 l r A Ht Na) as Q1. pose proof (K2 l r A Ht Nb) as Q2.
    assert (QL : exists x, In x (ct_sols fl) /\ is_sol (br_left b f) (d - 1) n x /\ dom (cs_val x) (tval T (sub (br_left b f)) l) = true).
    { unfold fl. destruct swap.
      - destruct Q2 as (y & Hy & Dy). change b2 with (br_left b f) in Dy. rewrite R_child_l in Dy. exists y. split; [exact Hy|]. split; [|exact Dy].
        apply (SM b2 (n - k - 1) s2 S2); [lia|exact Hy].
      - destruct Q1 as (y & Hy & Dy). change b1 with (br_left b f) in Dy. rewrite R_child_l in Dy. exists y. split; [exact Hy|]. split; [|exact Dy].
        apply (SM b1 k s1 S1); [lia|exact Hy]. }
    assert (QR : exists x, In x (ct_sols fr) /\ is_sol (br_right b f) (d - 1) n x /\ dom (cs_val x) (tval T (sub (br_right b f)) r) = true).
    { unfold fr. destruct swap.
      - destruct Q1 as (y & Hy & Dy). change b1 with (br_right b f) in Dy. rewrite R_child_r in Dy. exists y. split; [exact Hy|]. split; [|exact Dy].
        apply (SM b1 k s1 S1); [lia|exact Hy].
      - destruct Q2 as (y & Hy & Dy). change b2 with (br_right b f) in Dy. rewrite R_child_r in Dy. exists y. split; [exact Hy|]. split; [|exact Dy].
        apply (SM b2 (n - k - 1) s2 S2); [lia|exact Hy]. }
    destruct QL as (x & Hx & Sx & Dx). destruct QR as (y & Hy & Sy & Dy).
    assert (Vz : valid (pt_add T (cs_val x) (cs_val y))).
    { destruct Sx as (tx & Ax & _ & Ex), Sy as (ty & Ay & _ & Ey). subst x y. cbn [cs_val].
      assert (F : fits okf (num_labels root) (Split f tx ty)).
      { cbn. destruct Ax as (Fx & _), Ay as (Fy & _). rewrite sub_labels in Fx, Fy. auto. }
      pose proof (Hvalid b _ F) as W. cbn in W. rewrite restrict_left, restrict_right in W. exact W. }
    assert (Dd : dom (pt_add T (cs_val x) (cs_val y)) (tval T (sub b) (Split f l r)) = true).
    { pose proof A as A1. apply allowed_split in A1. destruct A1 as (_ & _ & _ & Al & Ar). rewrite restrict_left in Al. rewrite restrict_right in Ar.
      cbn. rewrite restrict_left, restrict_right. apply Hadd; try assumption;
        [exact (is_sol_valid _ _ _ _ Sx)|exact (allowed_valid _ _ _ _ Al)|exact (is_sol_valid _ _ _ _ Sy)|exact (allowed_valid _ _ _ _ Ar)]. }
    destruct (CM x y Hx Hy) as (z & Hz & Dz).
    { apply (Hok _ _ Vz (allowed_valid _ _ _ _ A) Dd). apply tok_split in Ht. apply Ht. }
    exists z. split; [exact Hz|].
    apply (R_trans b _ _ _ Dz). apply R_dom; [exact Vz|exact (allowed_valid _ _ _ _ A)|exact Dd].
  Qed.

  (** A size that suits both children. *)
  Lemma size_exists d n a e : 1 <= d -> d <= n -> n <= 2 ^ d - 1 -> a <= 2 ^ (d - 1) - 1 -> e <= 2 ^ (d - 1) - 1 -> 1 + a + e <= n ->
    exists k, p_min_size d n <= k <= p_max_size d n /\ a <= k /\ e <= n - k - 1.
  Proof.
    intros H0 H1 H2 Ha He H. exists (Nat.max a (p_min_size d n)).
    assert (2 ^ d = 2 * 2 ^ (d - 1)).
    { replace d with (S (d - 1)) at 1 by lia. rewrite Nat.pow_succ_r'. reflexivity. }
    unfold p_min_size, p_max_size. lia.
  Qed.

  Lemma size_loop_spec fuel rec b d n f (swap : bool) : forall ks c,
    rec_ok fuel rec -> d - 1 <= fuel -> okf f -> 1 <= d -> d <= n -> n <= 2 ^ d - 1 ->
    (forall k, In k ks -> p_min_size d n <= k <= p_max_size d n) -> inv b c -> sound b d n c ->
    let b1 := if swap then br_right b f else br_left b f in
    let b2 := if swap then br_left b f else br_right b f in
    let c' := fold_left (p_size_step T rec b d n f swap (sub b1) b1 (sub b2) b2) ks c in
    inv b c' /\ sound b d n c' /\ (forall s, cov b c s -> cov b c' s) /\
    (forall l r k, In k ks -> allowed okf mls d n (sub b) (Split f l r) -> tok T (sub b) (Split f l r) = true ->
       nodes (if swap then r else l) <= k -> nodes (if swap then l else r) <= n - k - 1 ->
       cov b c' (tval T (sub b) (Split f l r))).
  Proof.
    induction ks as [|k ks IH]; intros c Hr Hd Hf Hd1 Hdn Hn Hks I S b1 b2; cbn zeta; cbn [fold_left].
    - split; [exact I|]. split; [exact S|]. split; [auto|]. intros l r k [].
    - destruct (size_step_spec fuel rec b d n f swap c k Hr Hd Hf Hd1 Hdn Hn (Hks k (or_introl eq_refl)) I S)
        as (I1 & S1 & M1 & C1). fold b1 b2 in I1, S1, M1, C1.
      assert (Hks' : forall k, In k ks -> p_min_size d n <= k <= p_max_size d n) by (intros k' H'; apply Hks; right; exact H').
      destruct (IH _ Hr Hd Hf Hd1 Hdn Hn Hks' I1 S1) as (I2 & S2 & M2 & C2). fold b1 b2 in I2, S2, M2, C2.
      split; [exact I2|]. split; [exact S2|]. split; [auto|].
      intros l r k' [<-|Hk'] A Ht Na Nb; [apply M2; apply C1; assumption|exact (C2 l r k' Hk' A Ht Na Nb)].
  Qed.

  Lemma feature_step_spec fuel rec b d n f c :
    rec_ok fuel rec -> d - 1 <= fuel -> f < nf -> 1 <= d -> d <= n -> n <= 2 ^ d - 1 -> inv b c -> sound b d n c ->
    let c' := p_feature_step T G rec (sub b) b d n c f in
    inv b c' /\ sound b d n c' /\ (forall s, cov b c s -> cov b c' s) /\
    (forall l r, allowed okf mls d n (sub b) (Split f l r) -> tok T (sub b) (Split f l r) = true -> cov b c' (tval T (sub b) (Split f l r))).
  Proof.
    intros Hr Hd Hf Hd1 Hdn Hn I S. cbn zeta. unfold p_feature_step.
    destruct (br_has b f || negb (pt_may T f) || pc_redundant G f) eqn:E0.
    { split; [exact I|]. split; [exact S|]. split; [auto|]. intros l r A _. exfalso.
      pose proof A as A0. apply allowed_split in A. destruct A as ((_ & F2 & F3) & _ & _ & Al & Ar).
      rewrite F2, F3 in E0. cbn in E0. rewrite !orb_false_r in E0.
      apply allowed_size in Al, Ar. destruct (br_has_empty b f root E0); lia. }
    apply orb_false_iff in E0. destruct E0 as [E0 E3]. apply orb_false_iff in E0. destruct E0 as [_ E2].
    apply negb_false_iff in E2. assert (Of : okf f) by (repeat split; assumption).
    unfold p_mls. rewrite !Nat.mul_1_r.
    destruct (negb (mls <=? vsize (split_left f (sub b))) || negb (mls <=? vsize (split_right f (sub b)))) eqn:Em.
    { split; [exact I|]. split; [exact S|]. split; [auto|]. intros l r A _. exfalso.
      apply allowed_split in A. destruct A as (_ & _ & _ & Al & Ar). apply allowed_size in Al, Ar.
      apply orb_true_iff in Em. destruct Em as [Em|Em]; apply negb_true_iff, Nat.leb_gt in Em; lia. }
    rewrite restrict_left, restrict_right.
    set (ks := seq (p_min_size d n) (Datatypes.S (p_max_size d n) - p_min_size d n)).
    assert (Hks : forall k, In k ks <-> p_min_size d n <= k <= p_max_size d n).
    { intros k. unfold ks. rewrite in_seq. lia. }
    assert (K : forall swap : bool,
      let b1 := if swap then br_right b f else br_left b f in
      let b2 := if swap then br_left b f else br_right b f in
      let c' := fold_left (p_size_step T rec b d n f swap (sub b1) b1 (sub b2) b2) ks c in
      inv b c' /\ sound b d n c' /\ (forall s, cov b c s -> cov b c' s) /\
      (forall l r, allowed okf mls d n (sub b) (Split f l r) -> tok T (sub b) (Split f l r) = true -> cov b c' (tval T (sub b) (Split f l r)))).
    { intros swap. cbn zeta.
      destruct (size_loop_spec fuel rec b d n f swap ks c Hr Hd Of Hd1 Hdn Hn (fun k => proj1 (Hks k)) I S) as (I1 & S1 & M1 & C1).
      split; [exact I1|]. split; [exact S1|]. split; [exact M1|].
      intros l r A Ht. pose proof A as A0. apply allowed_split in A0. destruct A0 as (_ & _ & N & Al & Ar).
      assert (nodes l <= 2 ^ (d - 1) - 1) by (destruct Al as (_ & _ & Al & _); apply nodes_le_full; exact Al).
      assert (nodes r <= 2 ^ (d - 1) - 1) by (destruct Ar as (_ & _ & Ar & _); apply nodes_le_full; exact Ar).
      destruct (size_exists d n (nodes (if swap then r else l)) (nodes (if swap then l else r)) Hd1 Hdn Hn) as (k & Hk & Ha & He);
        [destruct swap; lia|destruct swap; lia|destruct swap; lia|].
      exact (C1 l r k (proj2 (Hks k) Hk) A Ht Ha He). }
    destruct (_ <? _); [exact (K true)|exact (K false)].
  Qed.

  Lemma feature_loop_spec fuel rec b d n : forall fs c,
    rec_ok fuel rec -> d - 1 <= fuel -> (forall f, In f fs -> f < nf) -> 1 <= d -> d <= n -> n <= 2 ^ d - 1 -> inv b c -> sound b d n c ->
    let c' := fold_left (p_feature_step T G rec (sub b) b d n) fs c in
    inv b c' /\ sound b d n c' /\ (forall s, cov b c s -> cov b c' s) /\
    (forall f l r, In f fs -> allowed okf mls d n (sub b) (Split f l r) -> tok T (sub b) (Split f l r) = true -> cov b c' (tval T (sub b) (Split f l r))).
  Proof.
    induction fs as [|f fs IH]; intros c Hr Hd Hfs Hd1 Hdn Hn I S; cbn zeta; cbn [fold_left].
    - split; [exact I|]. split; [exact S|]. split; [auto|]. intros f l r [].
    - destruct (feature_step_spec fuel rec b d n f c Hr Hd (Hfs f (or_introl eq_refl)) Hd1 Hdn Hn I S) as (I1 & S1 & M1 & C1).
      assert (Hfs' : forall g, In g fs -> g < nf) by (intros g Hg; apply Hfs; right; exact Hg).
      destruct (IH _ Hr Hd Hfs' Hd1 Hdn Hn I1 S1) as (I2 & S2 & M2 & C2).
      split; [exact I2|]. split; [exact S2|]. split; [auto|].
      intros g l r [<-|Hg] A Ht; [apply M2; apply C1; assumption|exact (C2 g l r Hg A Ht)].
  Qed.

  Lemma search_ok : forall k, rec_ok k (p_search T G k).
  Proof.
    induction k as [|k IH]; intros b d n Hd Hdn Hn.
    - cbn. destruct (leaf_spec b d n) as (I & S & C). split; [exact I|]. split; [exact S|].
      intros t A Ht. assert (d = 0) by lia. subst d. cbn in Hn. assert (n = 0) by lia. subst n.
      destruct t as [l|f l r]; [apply C; assumption|]. destruct A as (_ & _ & A & _). cbn in A. lia.
    - cbn [p_search]. destruct ((d =? 0) || (n =? 0)) eqn:E.
      + assert (d = 0 /\ n = 0) as [-> ->].
        { apply orb_true_iff in E. destruct E as [E|E]; apply Nat.eqb_eq in E; subst; cbn in *; [|lia]. split; lia. }
        destruct (leaf_spec b 0 0) as (I & S & C). split; [exact I|]. split; [exact S|].
        intros t A Ht. destruct t as [l|f l r]; [apply C; assumption|]. destruct A as (_ & _ & A & _). cbn in A. lia.
      + apply orb_false_iff in E. destruct E as [E1 E2]. apply Nat.eqb_neq in E1, E2.
        unfold p_general. destruct (leaf_spec b d n) as (I & S & C).
        assert (LC : forall l, allowed okf mls d n (sub b) (Leaf l) -> tok T (sub b) (Leaf l) = true -> cov b (p_solve_leaf T G (sub b) b) (tval T (sub b) (Leaf l))).
        { intros l A Ht. apply C; [|exact Ht]. destruct A as (A1 & A2 & _). unfold allowed. cbn. auto. }
        destruct (negb (p_mls G (sub b) 2)) eqn:Em.
        * split; [exact I|]. split; [exact S|]. intros t A Ht. destruct t as [l|f l r]; [apply LC; assumption|].
          exfalso. apply negb_true_iff in Em. unfold p_mls in Em. apply Nat.leb_gt in Em.
          apply allowed_split in A. destruct A as (_ & _ & _ & Al & Ar). apply allowed_size in Al, Ar.
          pose proof (vsize_split f (sub b)). lia.
        * destruct (feature_loop_spec k (p_search T G k) b d n (pc_order G (sub b)) (p_solve_leaf T G (sub b) b) IH)
            as (I1 & S1 & M1 & C1); [lia|intros f Hf; apply (Horder (sub b) f); exact Hf|lia|exact Hdn|exact Hn|exact I|exact S|].
          split; [exact I1|]. split; [exact S1|]. intros t A Ht. destruct t as [l|f l r].
          -- apply M1. apply LC; assumption.
          -- apply C1; [|exact A|exact Ht]. apply Horder. apply allowed_split in A. destruct A as ((F & _) & _). exact F.
  Qed.

  (** Every solution of a front below the root can be rebuilt. *)
  Hypothesis Hanti : forall a b, valid a -> valid b -> dom a b = true -> dom b a = true -> a = b.

  Lemma find_pair s (l r : front) x y : In x (ct_sols l) -> In y (ct_sols r) -> pt_add T (cs_val x) (cs_val y) = s ->
    exists x' y', p_find_pair T s l r = Some (x', y') /\ In x' (ct_sols l) /\ In y' (ct_sols r) /\
      pt_add T (cs_val x') (cs_val y') = s.
  Proof.
    intros Hx Hy E. unfold p_find_pair.
    destruct (find _ _) as [[x' y']|] eqn:F.
    - apply find_some in F. destruct F as [F1 F2]. apply in_prod_iff in F1. apply Heq in F2. cbn in F2.
      exists x', y'. split; [reflexivity|]. split; [tauto|]. split; [tauto|]. congruence.
    - exfalso. pose proof (find_none _ _ F (x, y) (proj2 (in_prod_iff _ _ _ _) (conj Hx Hy))) as K. cbn in K.
      rewrite (proj2 (Heq s _)) in K; [discriminate|congruence].
  Qed.

  (** The two fronts used for the children cover the subtrees of an allowed tree. *)
  Lemma child_pair b d n f tl tr : allowed okf mls d n (sub b) (Split f tl tr) -> tok T (sub b) (Split f tl tr) = true ->
    exists xl xr, In xl (ct_sols (p_search T G (Nat.min (d - 1) (nodes tl)) (sub (br_left b f)) (br_left b f) (Nat.min (d - 1) (nodes tl)) (nodes tl))) /\
      In xr (ct_sols (p_search T G (Nat.min (d - 1) (nodes tr)) (sub (br_right b f)) (br_right b f) (Nat.min (d - 1) (nodes tr)) (nodes tr))) /\
      dom (pt_add T (cs_val xl) (cs_val xr)) (tval T (sub b) (Split f tl tr)) = true /\
      exists t', allowed okf mls d n (sub b) t' /\ tok T (sub b) t' = true /\ tval T (sub b) t' = pt_add T (cs_val xl) (cs_val xr).
  Proof.
    intros A Ht. pose proof A as A0. apply allowed_split in A. destruct A as (Of & Hd & N & Al & Ar).
    rewrite restrict_left in Al. rewrite restrict_right in Ar.
    assert (HB : forall t, depth t <= d - 1 -> nodes t <= 2 ^ Nat.min (d - 1) (nodes t) - 1).
    { intros t Htd. apply nodes_le_full. pose proof (depth_le_nodes t). lia. }
    assert (Dl : depth tl <= d - 1) by (destruct Al as (_ & _ & D & _); exact D).
    assert (Dr : depth tr <= d - 1) by (destruct Ar as (_ & _ & D & _); exact D).
    destruct (search_ok (Nat.min (d - 1) (nodes tl)) (br_left b f) (Nat.min (d - 1) (nodes tl)) (nodes tl)) as (_ & Sl & Cl);
      [lia|lia|apply HB; exact Dl|].
    destruct (search_ok (Nat.min (d - 1) (nodes tr)) (br_right b f) (Nat.min (d - 1) (nodes tr)) (nodes tr)) as (_ & Sr & Cr);
      [lia|lia|apply HB; exact Dr|].
    pose proof Ht as Ht0. apply tok_split in Ht0. destruct Ht0 as (H0 & Htl & Htr). rewrite restrict_left in Htl. rewrite restrict_right in Htr.
    destruct (Cl tl (allowed_depth_nodes _ _ _ _ _ _ Al) Htl) as (xl & Hl & Xl). rewrite R_child_l in Xl.
    destruct (Cr tr (allowed_depth_nodes _ _ _ _ _ _ Ar) Htr) as (xr & Hr & Xr). rewrite R_child_r in Xr.
    exists xl, xr. split; [exact Hl|]. split; [exact Hr|].
    assert (Dd : dom (pt_add T (cs_val xl) (cs_val xr)) (tval T (sub b) (Split f tl tr)) = true).
    { cbn. rewrite restrict_left, restrict_right. apply Hadd; try assumption;
        [exact (is_sol_valid _ _ _ _ (Sl xl Hl))|exact (allowed_valid _ _ _ _ Al)|exact (is_sol_valid _ _ _ _ (Sr xr Hr))|exact (allowed_valid _ _ _ _ Ar)]. }
    split; [exact Dd|].
    - destruct (Sl xl Hl) as (sl & B1 & O1 & E1). destruct (Sr xr Hr) as (sr & B2 & O2 & E2). subst xl xr. cbn [cs_val] in *.
      exists (Split f sl sr).
      assert (As : allowed okf mls d n (sub b) (Split f sl sr)).
      { apply allowed_split. rewrite restrict_left, restrict_right.
        destruct B1 as (P1 & P2 & P3 & P4), B2 as (Q1 & Q2 & Q3 & Q4).
        split; [exact Of|]. split; [exact Hd|]. split; [lia|]. unfold allowed. repeat split; auto; lia. }
      assert (Es : tval T (sub b) (Split f sl sr) = pt_add T (tval T (sub (br_left b f)) sl) (tval T (sub (br_right b f)) sr)).
      { cbn. rewrite restrict_left, restrict_right. reflexivity. }
      split; [exact As|]. split; [|exact Es].
      rewrite <- Es in Dd. pose proof (Hok _ _ (allowed_valid _ _ _ _ As) (allowed_valid _ _ _ _ A0) Dd H0) as Os.
      cbn [tok]. rewrite Os, restrict_left, restrict_right, O1, O2. reflexivity.
  Qed.

  (** Two solutions of a front of which one covers the other are equal. *)
  Lemma anti_eq (Rr : V -> V -> bool) (l : list sol) x y : (forall a, Rr a a = true) ->
    ForallOrdPairs (incomp Rr) l -> In x l -> In y l -> Rr (cs_val x) (cs_val y) = true -> x = y.
  Proof.
    intros Rf H. induction H as [|z l Hz Hl IH]; intros Hx Hy E; [destruct Hx|].
    rewrite Forall_forall in Hz. destruct Hx as [<-|Hx], Hy as [<-|Hy]; auto.
    - destruct (Hz _ Hy) as [H1 _]. congruence.
    - destruct (Hz _ Hx) as [_ H1]. congruence.
  Qed.

  Lemma construct_step fuel b d n f tl tr x :
    (forall b' d' n' y, R b' = dom -> d' <= fuel -> d' <= n' -> n' <= 2 ^ d' - 1 ->
       In y (ct_sols (p_search T G d' (sub b') b' d' n')) ->
       exists t, p_construct T G fuel y (sub b') b' d' n' = Some t /\ allowed okf mls d' n' (sub b') t /\ tval T (sub b') t = cs_val y) ->
    d - 1 <= fuel -> allowed okf mls d n (sub b) (Split f tl tr) -> tok T (sub b) (Split f tl tr) = true ->
    x = Csol (tval T (sub b) (Split f tl tr)) (nodes (Split f tl tr)) (tag_of (Split f tl tr)) ->
    d <= n -> n <= 2 ^ d - 1 ->
    (forall t', allowed okf mls d n (sub b) t' -> tok T (sub b) t' = true -> dom (tval T (sub b) t') (cs_val x) = true -> tval T (sub b) t' = cs_val x) ->
    exists t, p_construct T G (S fuel) x (sub b) b d n = Some t /\ allowed okf mls d n (sub b) t /\ tval T (sub b) t = cs_val x.
  Proof.
    intros IH Hd A Ht Ex Hdn Hn Hbst.
    destruct (child_pair b d n f tl tr A Ht) as (xl & xr & Hl & Hr & D & t' & At & Ot & Et).
    pose proof (Hbst t' At Ot) as Q. rewrite Et in Q. rewrite Ex in Q. cbn [cs_val] in Q. specialize (Q D).
    pose proof A as A0. apply allowed_split in A0. destruct A0 as (Of & Hd1 & N & Al & Ar).
    rewrite restrict_left in Al. rewrite restrict_right in Ar.
    cbn [p_construct]. rewrite (Nat.min_l d n Hdn), (Nat.min_l n (2 ^ d - 1)) by lia.
    subst x. cbn [cs_nodes cs_tag tag_of pg_feat pg_l pg_r pg_lab cs_val] in *.
    destruct ((d =? 0) || (n =? 0) || (nodes (Split f tl tr) =? 0)) eqn:E0.
    { exfalso. apply orb_true_iff in E0. destruct E0 as [E0|E0]; [apply orb_true_iff in E0; destruct E0 as [E0|E0]|];
        apply Nat.eqb_eq in E0; cbn in E0; lia. }
    unfold p_mls. rewrite !Nat.mul_1_r, !restrict_left, !restrict_right.
    pose proof (allowed_size _ _ _ _ _ _ Al) as Zl. pose proof (allowed_size _ _ _ _ _ _ Ar) as Zr.
    rewrite (proj2 (Nat.leb_le _ _) Zl), (proj2 (Nat.leb_le _ _) Zr). cbn [negb orb].
    assert (HB : forall t, depth t <= d - 1 -> nodes t <= 2 ^ Nat.min (d - 1) (nodes t) - 1).
    { intros t Htd. apply nodes_le_full. pose proof (depth_le_nodes t). lia. }
    assert (Dl : depth tl <= d - 1) by (destruct Al as (_ & _ & H & _); exact H).
    assert (Dr : depth tr <= d - 1) by (destruct Ar as (_ & _ & H & _); exact H).
    set (Fl := p_search T G (Nat.min (d - 1) (nodes tl)) (sub (br_left b f)) (br_left b f) (Nat.min (d - 1) (nodes tl)) (nodes tl)) in *.
    set (Fr := p_search T G (Nat.min (d - 1) (nodes tr)) (sub (br_right b f)) (br_right b f) (Nat.min (d - 1) (nodes tr)) (nodes tr)) in *.
    destruct (search_ok (Nat.min (d - 1) (nodes tl)) (br_left b f) (Nat.min (d - 1) (nodes tl)) (nodes tl)) as (_ & Sl & _);
      [lia|lia|apply HB; exact Dl|]. fold Fl in Sl.
    destruct (search_ok (Nat.min (d - 1) (nodes tr)) (br_right b f) (Nat.min (d - 1) (nodes tr)) (nodes tr)) as (_ & Sr & _);
      [lia|lia|apply HB; exact Dr|]. fold Fr in Sr.
    assert (Kl : forall x, In x (ct_sols Fl) -> In x (ct_sols (ct_filter (nodes tl) Fl))).
    { intros x Hx. apply filter_In. split; [exact Hx|]. destruct (Sl x Hx) as (t & (_ & _ & _ & B) & _ & ->). cbn.
      apply negb_true_iff, Nat.ltb_ge. exact B. }
    assert (Kr : forall x, In x (ct_sols Fr) -> In x (ct_sols (ct_filter (nodes tr) Fr))).
    { intros x Hx. apply filter_In. split; [exact Hx|]. destruct (Sr x Hx) as (t & (_ & _ & _ & B) & _ & ->). cbn.
      apply negb_true_iff, Nat.ltb_ge. exact B. }
    destruct (find_pair (tval T (sub b) (Split f tl tr)) (ct_filter (nodes tl) Fl) (ct_filter (nodes tr) Fr) xl xr (Kl _ Hl) (Kr _ Hr) Q)
      as (yl & yr & Ep & Il & Ir & Es).
    rewrite Ep. apply filter_In in Il, Ir.
    destruct (IH (br_left b f) (Nat.min (d - 1) (nodes tl)) (nodes tl) yl (R_child_l b f)) as (ul & Pl & Bl & Vl);
      [lia|lia|apply HB; exact Dl|apply Il|].
    destruct (IH (br_right b f) (Nat.min (d - 1) (nodes tr)) (nodes tr) yr (R_child_r b f)) as (ur & Pr & Br & Vr);
      [lia|lia|apply HB; exact Dr|apply Ir|].
    rewrite Pl, Pr. exists (Split f ul ur). split; [reflexivity|]. split.
    - apply allowed_split. rewrite restrict_left, restrict_right.
      destruct Bl as (P1 & P2 & P3 & P4), Br as (Q1 & Q2 & Q3 & Q4).
      split; [exact Of|]. split; [exact Hd1|]. split; [lia|]. unfold allowed. repeat split; auto; lia.
    - cbn. rewrite restrict_left, restrict_right, Vl, Vr. cbn in Es. rewrite restrict_left, restrict_right in Es. exact Es.
  Qed.

  Lemma construct_leaf fuel b d n l x :
    x = Csol (tval T (sub b) (Leaf l)) (nodes (Leaf l)) (tag_of (Leaf l)) ->
    p_construct T G fuel x (sub b) b d n = Some (Leaf l).
  Proof.
    intros ->. destruct fuel; cbn [p_construct cs_nodes nodes]; rewrite Nat.eqb_refl, !orb_true_r; reflexivity.
  Qed.

  Lemma construct_ok : forall fuel b d n y, R b = dom -> d <= fuel -> d <= n -> n <= 2 ^ d - 1 ->
    In y (ct_sols (p_search T G d (sub b) b d n)) ->
    exists t, p_construct T G fuel y (sub b) b d n = Some t /\ allowed okf mls d n (sub b) t /\ tval T (sub b) t = cs_val y.
  Proof.
    induction fuel as [|fuel IH]; intros b d n y HR Hf Hdn Hn Hy;
      destruct (search_ok d b d n (Nat.le_refl d) Hdn Hn) as ((I & _) & S & C);
      destruct (S y Hy) as (t & A & O & E); destruct t as [l|f tl tr].
    - exists (Leaf l). split; [apply construct_leaf; exact E|]. split; [exact A|]. subst y. reflexivity.
    - exfalso. destruct A as (_ & _ & A & _). cbn in A. lia.
    - exists (Leaf l). split; [apply construct_leaf; exact E|]. split; [exact A|]. subst y. reflexivity.
    - apply (construct_step fuel b d n f tl tr y IH); auto; [lia|].
      intros t' At Ot D. apply Hanti; [exact (allowed_valid _ _ _ _ At)|exact (is_sol_valid _ _ _ _ (S y Hy))|exact D|].
      destruct (C t' At Ot) as (z & Hz & Dz). rewrite HR in Dz.
      assert (z = y).
      { apply (anti_eq (R b) _ z y (R_refl b) I Hz Hy). rewrite HR. exact (Htrans _ _ _ Dz D). }
      subst z. exact Dz.
  Qed.

  (** The outer loop. *)
  Lemma pow_min d n : n <= 2 ^ d - 1 -> n <= 2 ^ Nat.min d n - 1.
  Proof.
    intros H. destruct (Nat.le_gt_cases d n); [rewrite Nat.min_l by lia; exact H|].
    rewrite Nat.min_r by lia. pose proof (Nat.pow_gt_lin_r 2 n). lia.
  Qed.

  Lemma budgets_ok dp nds all p : In p (p_budgets dp nds all) -> nds <= 2 ^ dp - 1 ->
    fst p <= Nat.min dp nds /\ snd p <= nds /\ fst p <= snd p /\ snd p <= 2 ^ fst p - 1.
  Proof.
    intros Hp Hn. unfold p_budgets in Hp. destruct ((if all then 1 else nds) =? 1).
    - apply in_map_iff in Hp. destruct Hp as (n & <- & Hi). apply in_seq in Hi. cbn.
      pose proof (pow_min dp n). lia.
    - apply in_map_iff in Hp. destruct Hp as (d & <- & Hi). apply in_seq in Hi. cbn [fst snd].
      pose proof (Nat.pow_gt_lin_r 2 d). lia.
  Qed.

  Lemma last_app_one {A} (l : list A) a x : last (l ++ [a]) x = a.
  Proof. induction l as [|y l IH]; [reflexivity|]. cbn. destruct (l ++ [a]) eqn:E; [destruct l; discriminate|]. exact IH. Qed.

  Lemma budgets_last dp nds all : 1 <= nds -> nds <= 2 ^ dp - 1 ->
    exists p, In p (p_budgets dp nds all) /\ last (p_budgets dp nds all) (dp, 0) = p /\
      fst p = Nat.min dp nds /\ snd p = nds.
  Proof.
    intros H1 H2. unfold p_budgets. destruct ((if all then 1 else nds) =? 1).
    - assert (E : seq 1 nds = seq 1 (nds - 1) ++ [nds]).
      { replace nds with (Datatypes.S (nds - 1)) at 1 by lia. rewrite seq_S. do 2 f_equal. lia. }
      rewrite E, map_app. cbn [map].
      eexists. split; [apply in_or_app; right; left; reflexivity|]. rewrite last_app_one. cbn. auto.
    - set (md := Nat.min dp nds).
      replace (Datatypes.S md - Nat.min 2 md) with (Datatypes.S (md - Nat.min 2 md)) by lia.
      rewrite seq_S, map_app. cbn [map].
      eexists. split; [apply in_or_app; right; left; reflexivity|]. rewrite last_app_one. cbn [fst snd]. split; [reflexivity|].
      replace (Nat.min 2 md + (md - Nat.min 2 md)) with md by lia. split; [reflexivity|].
      pose proof (pow_min dp nds H2). fold md in H. lia.
  Qed.

  Lemma solve_ok dp nds all : nds <= 2 ^ dp - 1 ->
    let c := p_solve T G root dp nds all in
    inv [] c /\ sound [] dp nds c /\ complete [] dp nds c.
  Proof.
    intros Hn. cbn zeta. unfold p_solve.
    assert (Rt : sub [] = root) by apply restrict_nil.
    destruct (leaf_spec [] dp nds) as (I0 & S0 & C0). rewrite Rt in I0, S0, C0.
    assert (K : forall ps c, (forall p, In p ps -> In p (p_budgets dp nds all)) -> inv [] c -> sound [] dp nds c ->
      let c' := fold_left (fun c p => fold_left (p_add T []) (ct_sols (p_search T G (fst p) root [] (fst p) (snd p))) c) ps c in
      inv [] c' /\ sound [] dp nds c' /\ (forall s, cov [] c s -> cov [] c' s) /\
      (forall p t, In p ps -> allowed okf mls (fst p) (snd p) root t -> tok T root t = true -> cov [] c' (tval T root t))).
    { induction ps as [|p ps IH]; intros c Hps I S; cbn zeta; cbn [fold_left].
      - split; [exact I|]. split; [exact S|]. split; [auto|]. intros p t [].
      - destruct (budgets_ok dp nds all p (Hps p (or_introl eq_refl)) Hn) as (B1 & B2 & B3 & B4).
        destruct (search_ok (fst p) [] (fst p) (snd p) (Nat.le_refl _) B3 B4) as (Ip & Sp & Cp). rewrite Rt in Ip, Sp, Cp.
        destruct (fold_add_spec [] (fun x => x) (ct_sols (p_search T G (fst p) root [] (fst p) (snd p))) c I)
          as (I1 & C1 & M1 & T1).
        change (fun (c : front) (a : sol) => p_add T [] c a) with (p_add T []) in *.
        set (c1 := fold_left (p_add T []) (ct_sols (p_search T G (fst p) root [] (fst p) (snd p))) c) in *.
        assert (S1 : sound [] dp nds c1).
        { intros x Hx. destruct (T1 x Hx) as [(a & Ha & ->)|Hx2]; [|exact (S x Hx2)].
          destruct (Sp a Ha) as (t & A & E). exists t. split; [|exact E]. apply (allowed_mono _ _ _ _ _ _ _ _ A); lia. }
        destruct (IH c1 (fun q Hq => Hps q (or_intror Hq)) I1 S1) as (I2 & S2 & M2 & C2).
        split; [exact I2|]. split; [exact S2|]. split; [auto|].
        intros q t [<-|Hq] A Ht; [|exact (C2 q t Hq A Ht)].
        apply M2. unfold complete in Cp. rewrite Rt in Cp. destruct (Cp t A Ht) as (y & Hy & Dy).
        destruct (C1 y Hy) as (z & Hz & Dz). exists z. split; [exact Hz|]. exact (R_trans [] _ _ _ Dz Dy). }
    destruct (K (p_budgets dp nds all) (p_solve_leaf T G root []) (fun p H => H) I0 S0) as (I & S & M & C).
    split; [exact I|]. split; [exact S|]. intros t A Ht. rewrite Rt in *.
    destruct (Nat.eq_dec nds 0) as [->|Hz].
    - destruct t as [l|f l r]; [|destruct A as (_ & _ & _ & A); cbn in A; lia].
      apply M. apply C0; [|exact Ht]. destruct A as (A1 & A2 & _). unfold allowed. cbn. auto.
    - destruct (budgets_last dp nds all) as (p & Hp & _ & P1 & P2); [lia|exact Hn|].
      apply (C p t Hp); [|exact Ht]. rewrite P1, P2. apply allowed_depth_nodes. exact A.
  Qed.

  (** The trees that are returned. *)
  Lemma trees_ok dp nds all x o : nds <= 2 ^ dp - 1 -> In (x, o) (p_trees T G root dp nds all) ->
    (forall t', allowed okf mls dp nds root t' -> tok T root t' = true -> dom (tval T root t') (cs_val x) = true ->
      d0 (cs_val x) (tval T root t') = true -> tval T root t' = cs_val x) ->
    In x (ct_sols (p_solve T G root dp nds all)) /\
    exists t, o = Some t /\ allowed okf mls dp nds root t /\ tval T root t = cs_val x.
  Proof.
    intros Hn Hx Hstrict. unfold p_trees in Hx. apply in_map_iff in Hx. destruct Hx as (y & E & Hy).
    injection E as -> <-. split; [exact Hy|].
    destruct (solve_ok dp nds all Hn) as ((I & _) & S & C).
    assert (Rt : sub [] = root) by apply restrict_nil.
    destruct (S x Hy) as (t & A & O & E).
    destruct t as [l|f tl tr].
    - exists (Leaf l). rewrite Rt in *. split; [|split; [exact A|subst x; reflexivity]].
      rewrite <- Rt at 1. apply construct_leaf. rewrite Rt. exact E.
    - assert (Hz : 1 <= nds) by (destruct A as (_ & _ & _ & A); cbn in A; lia).
      destruct (budgets_last dp nds all Hz Hn) as (p & _ & -> & P1 & _). rewrite P1.
      apply allowed_depth_nodes in A. set (d := Nat.min dp nds) in *.
      assert (D1 : 1 <= d) by (destruct A as (_ & _ & A & _); cbn in A; lia).
      assert (Hd : d = Datatypes.S (d - 1)) by lia.
      destruct (construct_step (d - 1) [] d nds f tl tr x (construct_ok (d - 1))) as (u & U1 & U2 & U3).
      + lia.
      + exact A.
      + exact O.
      + exact E.
      + unfold d. lia.
      + apply (pow_min dp nds Hn).
      + intros t' At Ot D.
        assert (At' : allowed okf mls dp nds (sub []) t') by (apply (allowed_mono _ _ _ _ _ _ _ _ At); unfold d; lia).
        rewrite Rt in D |- *. apply Hstrict; [rewrite <- Rt; exact At'|rewrite <- Rt; exact Ot|exact D|]. rewrite <- Rt in D |- *.
        destruct (C t' At' Ot) as (z & Hz' & Dz).
        assert (z = x).
        { apply (anti_eq (R []) _ z x (R_refl []) I Hz' Hy). apply (R_trans [] _ _ _ Dz). apply R_dom; [| |exact D].
          - exact (allowed_valid _ _ _ _ At').
          - exact (is_sol_valid _ _ _ _ (S x Hy)). }
        subst z. exact Dz.
      + rewrite <- Hd in U1. rewrite Rt in *. exists u. split; [exact U1|]. split; [|exact U3].
        apply (allowed_mono _ _ _ _ _ _ _ _ U2); unfold d; lia.
  Qed.
End P.
