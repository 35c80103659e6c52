(** Proofs about the fairness tasks. *)
From Coq Require Import List Arith Bool ZArith QArith Qabs Lia Lqa Permutation.
From Verif Require Import Model_FeatureVector Model_Data Model_Node Model_Terminal Model_Heap Model_Solver Model_Preproc Model_Container Model_Pareto Model_Fairness.
From Verif Require Import Spec_Tree Spec_Examples Spec_Rows Spec_Fair Proofs_View Proofs_Preproc Proofs_Rows Proofs_Heap Proofs_Container Proofs_Pareto.
Import ListNotations.
Local Open Scope nat_scope.

(** Counts as additive costs. *)
Definition ind (b : bool) : Z := if b then 1%Z else 0%Z.
Lemma ind_nonneg b : (0 <= ind b)%Z.
Proof. destruct b; cbn; lia. Qed.

Lemma sum_ind (q : inst -> bool) xs : fold_right (fun x a => (ind (q x) + a)%Z) 0%Z xs = Z.of_nat (length (filter q xs)).
Proof. induction xs as [|x xs IH]; [reflexivity|]. cbn [fold_right filter]. rewrite IH. unfold ind. destruct (q x); cbn [length]; lia. Qed.

Lemma cost_nonneg c v t : (forall x k l, 0 <= c x k l)%Z -> (0 <= tree_cost c v t)%Z.
Proof.
  intro H. unfold tree_cost. generalize 0 as k. induction v as [|xs v IH]; intro k; [cbn; lia|]. cbn [cost_from].
  specialize (IH (S k)). enough (0 <= fold_right (fun x a => c x k (predict t x) + a) 0 xs)%Z by lia.
  induction xs as [|x xs IHx]; [cbn; lia|]. cbn [fold_right]. pose proof (H x k (predict t x)). lia.
Qed.

Lemma filter_none {A} (xs : list A) : filter (fun _ => false) xs = [].
Proof. induction xs; [reflexivity|assumption]. Qed.

Lemma cost2 (q : inst -> nat -> nat -> bool) x0 x1 t : tree_cost (fun x k l => ind (q x k l)) [x0; x1] t
  = Z.of_nat (length (filter (fun x => q x 0 (predict t x)) x0) + length (filter (fun x => q x 1 (predict t x)) x1)).
Proof. unfold tree_cost. cbn [cost_from]. rewrite !(sum_ind (fun x => q x _ (predict t x))). lia. Qed.

Lemma filter_and_const {A} (q : A -> bool) b xs : filter (fun x => q x && b) xs = if b then filter q xs else [].
Proof.
  destruct b; [apply filter_ext; intro; apply andb_true_r|]. rewrite (filter_ext _ (fun _ => false)) by (intro; apply andb_false_r). apply filter_none.
Qed.
Lemma filter_const {A} b (xs : list A) : filter (fun _ => b) xs = if b then xs else [].
Proof. destruct b; [induction xs; cbn; congruence|apply filter_none]. Qed.

Definition q_mis (x : inst) (k l : nat) : bool := if l =? 0 then k =? 1 else k =? 0.
Definition q_pos (eo g : bool) (x : inst) (k l : nat) : bool := Bool.eqb (has 0 x) g && ((negb eo || (k =? 1)) && negb (l =? 0)).
Definition q_neg (eo g : bool) (x : inst) (k l : nat) : bool := Bool.eqb (has 0 x) g && ((negb eo || (k =? 1)) && (l =? 0)).
Definition c_mis (x : inst) (k l : nat) : Z := ind (q_mis x k l).
Definition c_pos (eo g : bool) (x : inst) (k l : nat) : Z := ind (q_pos eo g x k l).
Definition c_neg (eo g : bool) (x : inst) (k l : nat) : Z := ind (q_neg eo g x k l).

Definition grp (g : bool) (xs : list inst) : list inst := filter (fun x => Bool.eqb (has 0 x) g) xs.
Lemma grp_false xs : grp false xs = filter (fun x => negb (has 0 x)) xs.
Proof. apply filter_ext. intro x. destruct (has 0 x); reflexivity. Qed.
Lemma grp_true xs : grp true xs = filter (has 0) xs.
Proof. apply filter_ext. intro x. destruct (has 0 x); reflexivity. Qed.
Lemma grp_len xs : length (grp false xs) + length (grp true xs) = length xs.
Proof. rewrite grp_false, grp_true. pose proof (filter_length_split (has 0) xs). lia. Qed.
Lemma grp_app g xs ys : grp g (xs ++ ys) = grp g xs ++ grp g ys.
Proof. apply filter_app. Qed.

Section Value.
  Context (eo : bool) (n G0 G1 : Z) (lim : Q).
  Notation T := (fair_task eo n G0 G1 lim).

  Definition fval (v : view) (t : tree) : fsol :=
    FSol (tree_cost c_mis v t)
         (tree_cost (c_pos eo false) v t * G1 + tree_cost (c_neg eo true) v t * G0)
         (tree_cost (c_pos eo true) v t * G0 + tree_cost (c_neg eo false) v t * G1) false.

  Lemma leaf_fval v l : num_labels v = 2 -> fs_leaf eo G0 G1 v l = fval v (Leaf l).
  Proof.
    intro Hv. unfold num_labels in Hv. destruct v as [|x0 [|x1 [|]]]; try discriminate.
    unfold fs_leaf, fval, c_mis, c_pos, c_neg. rewrite !cost2. cbn [predict]. unfold q_mis, q_pos, q_neg.
    rewrite !filter_and_const, !filter_const. fold (grp false x0) (grp true x0) (grp false x1) (grp true x1).
    rewrite <- !grp_false. cbn [nth].
    assert (E : forall xs, (Z.of_nat (length xs) - Z.of_nat (length (grp false xs)) = Z.of_nat (length (grp true xs)))%Z).
    { intro xs. pose proof (grp_len xs). lia. }
    destruct l as [|l]; cbn [Nat.eqb negb andb orb]; destruct eo; cbn [counted negb orb andb nth concat length]; rewrite E, ?app_nil_r, ?grp_app, ?app_length; cbn [length]; f_equal; lia.
  Qed.

  Lemma fair_tval t : forall v, num_labels v = 2 -> tval T v t = fval v t.
  Proof.
    induction t as [l|f l IHl r IHr]; intros v Hv; [apply leaf_fval; exact Hv|].
    cbn [tval]. rewrite IHl, IHr by (rewrite ?num_labels_left, ?num_labels_right; exact Hv).
    cbn [pt_add fair_task]. unfold fs_add, fval. cbn [fs_mis fs_g0 fs_g1]. rewrite !tree_cost_split. f_equal; lia.
  Qed.
End Value.

(** The members of a group are given label 0 or another one. *)
Lemma pos_neg eo g v t : num_labels v = 2 ->
  (tree_cost (c_pos eo g) v t + tree_cost (c_neg eo g) v t = Z.of_nat (length (grp g (counted eo v))))%Z.
Proof.
  intro Hv. unfold num_labels in Hv. destruct v as [|x0 [|x1 [|]]]; try discriminate. unfold c_pos, c_neg. rewrite !cost2.
  assert (E : forall (k : nat) xs, length (filter (fun x => q_pos eo g x k (predict t x)) xs) + length (filter (fun x => q_neg eo g x k (predict t x)) xs)
    = if negb eo || (k =? 1) then length (grp g xs) else 0).
  { intros k xs. unfold q_pos, q_neg, grp. induction xs as [|x xs IH]; [destruct (_ || _); reflexivity|]. cbn [filter].
    destruct (negb eo || (k =? 1)), (Bool.eqb (has 0 x) g), (predict t x =? 0); cbn [andb negb length] in *; lia. }
  pose proof (E 0 x0). pose proof (E 1 x1). destruct eo; cbn [counted negb orb Nat.eqb nth concat] in *; rewrite ?app_nil_r, ?grp_app, ?app_length; lia.
Qed.

Lemma mis_le v t : num_labels v = 2 -> (0 <= tree_cost c_mis v t <= Z.of_nat (vsize v))%Z.
Proof.
  intro Hv. unfold num_labels in Hv. destruct v as [|x0 [|x1 [|]]]; try discriminate. unfold c_mis. rewrite cost2. unfold vsize. cbn [concat].
  rewrite app_nil_r, app_length. pose proof (Proofs_Container.filter_le (fun x => q_mis x 0 (predict t x)) x0).
  pose proof (Proofs_Container.filter_le (fun x => q_mis x 1 (predict t x)) x1). lia.
Qed.

Lemma c_pos_nonneg eo g x k l : (0 <= c_pos eo g x k l)%Z.
Proof. apply ind_nonneg. Qed.
Lemma c_neg_nonneg eo g x k l : (0 <= c_neg eo g x k l)%Z.
Proof. apply ind_nonneg. Qed.

Section Order.
  Context (eo : bool) (n G0 G1 : Z) (lim : Q).
  Hypothesis HD : (0 <= G0 * G1 < 10000)%Z.

  Lemma fs_eqb_eq a b : fs_eqb G0 G1 a b = true <-> a = b.
  Proof.
    unfold fs_eqb. rewrite !andb_true_iff, Z.eqb_eq, !Z.leb_le, eqb_true_iff. destruct a as [a1 a2 a3 a4], b as [b1 b2 b3 b4]; cbn [fs_mis fs_g0 fs_g1 fs_root]. split.
    - intros (((A & B) & C) & D). f_equal; [lia|lia|lia|exact D].
    - intro E. injection E as -> -> -> ->. repeat split; lia.
  Qed.
  Lemma fs_dom_iff a b : fs_dom G0 G1 a b = true <->
    (fs_root b = true -> fs_root a = true) /\ (fs_mis a <= fs_mis b)%Z /\ (fs_root a = true \/ (fs_g0 a <= fs_g0 b)%Z /\ (fs_g1 a <= fs_g1 b)%Z).
  Proof.
    unfold fs_dom. destruct (fs_root a) eqn:Ea, (fs_root b) eqn:Eb; cbn [andb negb]; try destruct (fs_mis a <=? fs_mis b)%Z eqn:Em;
      rewrite ?Z.leb_le, ?Z.leb_gt in Em; cbn [andb]; rewrite ?andb_true_iff, ?Z.leb_le; intuition (try lia; try congruence).
  Qed.
  Lemma fs_ok_mono a b : (fs_g0 a <= fs_g0 b)%Z -> (fs_g1 a <= fs_g1 b)%Z -> fs_ok G0 G1 lim b = true -> fs_ok G0 G1 lim a = true.
  Proof.
    unfold fs_ok. rewrite !Qle_bool_iff. intros H0 H1 H. eapply Qle_trans; [|exact H]. rewrite <- Zle_Qle. lia.
  Qed.
End Order.

Section View.
  Context (eo : bool) (lim : Q) (G : pcfg) (nf : nat) (v : view).
  Notation G0 := (group0_size eo v).
  Notation G1 := (group1_size eo v).
  Notation n := (Z.of_nat (vsize v)).
  Notation T := (fair_task eo n G0 G1 lim).
  Hypothesis Hnl : num_labels v = 2.
  Hypothesis H0 : (0 < G0)%Z.
  Hypothesis H1 : (0 < G1)%Z.
  Hypothesis HD : (G0 * G1 < 10000)%Z.
  Hypothesis Hlim : (0 <= lim)%Q.
  Hypothesis Horder : forall u f, In f (pc_order G u) <-> f < nf.
  Hypothesis Hmls : 1 <= pc_mls G.
  Hypothesis Hsz : pc_mls G <= vsize v.
  Notation ok := (okf T G nf).
  Definition fvalid (s : fsol) : Prop := fs_root s = false /\ (0 <= fs_mis s <= n)%Z.
  Definition good_tree (dp nds : nat) (t : tree) : Prop := allowed ok (pc_mls G) dp nds v t.

  Lemma restrict_labels b : num_labels (restrict b v) = 2.
  Proof. unfold restrict, num_labels in *. rewrite map_length. exact Hnl. Qed.
  Lemma restrict_size b : vsize (restrict b v) <= vsize v.
  Proof.
    clear H0 H1 HD Hsz. unfold vsize, restrict. unfold num_labels in Hnl. destruct v as [|x0 [|x1 [|]]]; try discriminate. cbn [map concat]. rewrite !app_nil_r, !app_length.
    pose proof (Proofs_Container.filter_le (sat b) x0). pose proof (Proofs_Container.filter_le (sat b) x1). lia.
  Qed.
  Lemma g0_grp : G0 = Z.of_nat (length (grp false (counted eo v))).
  Proof. unfold group0_size. rewrite <- grp_false. reflexivity. Qed.
  Lemma g1_grp : G1 = Z.of_nat (length (grp true (counted eo v))).
  Proof. unfold group1_size. rewrite <- grp_true. reflexivity. Qed.

  Lemma fair_valid b t : fits ok (num_labels v) t -> fvalid (tval T (restrict b v) t).
  Proof.
    intros _. rewrite fair_tval by apply restrict_labels. unfold fvalid, fval. cbn [fs_root fs_mis]. split; [reflexivity|].
    pose proof (mis_le (restrict b v) t (restrict_labels b)). pose proof (restrict_size b). lia.
  Qed.

  (** A tree within the limit has only subtrees within the limit. *)
  Lemma ok_tok t : forall u, num_labels u = 2 -> fs_ok G0 G1 lim (tval T u t) = true -> tok T u t = true.
  Proof.
    induction t as [l|f l IHl r IHr]; intros u Hu Ho; cbn [tok]; cbn [pt_ok fair_task]; change (pt_S T) with fsol in *; rewrite Ho; [reflexivity|].
    cbn [tval pt_add fair_task] in Ho. 
    assert (Hl : num_labels (split_left f u) = 2) by (rewrite num_labels_left; exact Hu).
    assert (Hr : num_labels (split_right f u) = 2) by (rewrite num_labels_right; exact Hu).
    rewrite (fair_tval _ _ _ _ _ l _ Hl), (fair_tval _ _ _ _ _ r _ Hr) in Ho.
    assert (P : forall w s g, (0 <= tree_cost (c_pos eo g) w s)%Z) by (intros; apply cost_nonneg; intros; apply ind_nonneg).
    assert (N : forall w s g, (0 <= tree_cost (c_neg eo g) w s)%Z) by (intros; apply cost_nonneg; intros; apply ind_nonneg).
    cbn [andb]. rewrite IHl, IHr; [reflexivity|exact Hr| |exact Hl|].
    - rewrite (fair_tval _ _ _ _ _ r _ Hr). revert Ho. apply fs_ok_mono; unfold fs_add, fval; cbn [fs_g0 fs_g1];
        pose proof (P (split_left f u) l false); pose proof (P (split_left f u) l true); pose proof (N (split_left f u) l false); pose proof (N (split_left f u) l true); nia.
    - rewrite (fair_tval _ _ _ _ _ l _ Hl). revert Ho. apply fs_ok_mono; unfold fs_add, fval; cbn [fs_g0 fs_g1];
        pose proof (P (split_right f u) r false); pose proof (P (split_right f u) r true); pose proof (N (split_right f u) r false); pose proof (N (split_right f u) r true); nia.
  Qed.

  (** The two group scores have a fixed sum. *)
  Lemma score_sum t : (fs_g0 (tval T v t) + fs_g1 (tval T v t) = 2 * (G0 * G1))%Z.
  Proof.
    rewrite fair_tval by exact Hnl. unfold fval. cbn [fs_g0 fs_g1].
    pose proof (pos_neg eo false v t Hnl) as P0. pose proof (pos_neg eo true v t Hnl) as P1. rewrite <- g0_grp in P0. rewrite <- g1_grp in P1. nia.
  Qed.

  Lemma leaf_ok : fs_ok G0 G1 lim (tval T v (Leaf 0)) = true.
  Proof.
    rewrite fair_tval by exact Hnl. unfold fs_ok. apply Qle_bool_iff.
    pose proof (pos_neg eo false v (Leaf 0) Hnl) as P0. pose proof (pos_neg eo true v (Leaf 0) Hnl) as P1. rewrite <- g0_grp in P0. rewrite <- g1_grp in P1.
    assert (Z0 : forall g, tree_cost (c_pos eo g) v (Leaf 0) = 0%Z).
    { clear -Hnl. intro g. unfold num_labels in Hnl. destruct v as [|x0 [|x1 [|]]]; try discriminate. unfold c_pos. rewrite cost2. unfold q_pos. cbn [predict Nat.eqb negb].
      rewrite !andb_false_r, !filter_and_const. reflexivity. }
    unfold fval. cbn [fs_g0 fs_g1]. rewrite !Z0 in *. rewrite Z.add_0_l in P0, P1. rewrite P0, P1.
    rewrite !Z.mul_0_l, !Z.add_0_l, (Z.mul_comm G1 G0), Z.max_id, Z.sub_diag. apply Qmult_le_0_compat; [exact Hlim|]. change 0%Q with (inject_Z 0). rewrite <- Zle_Qle. nia.
  Qed.

  Lemma leaf_good dp nds : good_tree dp nds (Leaf 0).
  Proof. unfold good_tree, allowed. cbn. unfold num_labels in Hnl. rewrite Hnl. unfold vsize in Hsz. lia. Qed.

  Lemma fair_view dp nds all : nds <= 2 ^ dp - 1 ->
    exists x t, p_trees T G v dp nds all = [(x, Some t)] /\ good_tree dp nds t /\ tval T v t = cs_val x
      /\ fs_ok G0 G1 lim (tval T v t) = true
      /\ forall t', good_tree dp nds t' -> fs_ok G0 G1 lim (tval T v t') = true -> (fs_mis (tval T v t) <= fs_mis (tval T v t'))%Z.
  Proof.
    intro Hn. assert (HDp : (0 <= G0 * G1 < 10000)%Z) by nia.
    assert (Hrefl : forall a, pt_dom T a a = true) by (intro a; apply (fs_dom_iff _ _ HDp); destruct (fs_root a) eqn:E; intuition lia).
    assert (Htrans : forall a b c, pt_dom T a b = true -> pt_dom T b c = true -> pt_dom T a c = true).
    { intros a b c. cbn [pt_dom fair_task]. rewrite !(fs_dom_iff _ _ HDp). intuition lia. }
    assert (H0refl : forall a, pt_d0 T a a = true) by (intro a; apply Z.leb_refl).
    assert (H0trans : forall a b c, pt_d0 T a b = true -> pt_d0 T b c = true -> pt_d0 T a c = true).
    { intros a b c. cbn [pt_d0 fair_task]. unfold fs_d0. rewrite !Z.leb_le. lia. }
    assert (Hadd : forall a a' b b', fvalid a -> fvalid a' -> fvalid b -> fvalid b' -> pt_dom T a a' = true -> pt_dom T b b' = true -> pt_dom T (pt_add T a b) (pt_add T a' b') = true).
    { intros a a' b b' [A _] [A' _] [B _] [B' _]. cbn [pt_dom pt_add fair_task]. rewrite !(fs_dom_iff _ _ HDp). rewrite A, A', B, B'. cbn [fs_add fs_root fs_mis fs_g0 fs_g1].
      intros (_ & D1 & D2) (_ & E1 & E2). destruct D2 as [|D2]; [discriminate|]. destruct E2 as [|E2]; [discriminate|]. split; [auto|]. lia. }
    assert (Hbest : fvalid (pt_best T) -> forall s, fvalid s -> pt_dom T (pt_best T) s = true) by (intros [E _]; discriminate).
    assert (Hdv : forall a b, fvalid a -> fvalid b -> pt_dom T a b = true -> (fs_mis a <= fs_mis b)%Z /\ (fs_g0 a <= fs_g0 b)%Z /\ (fs_g1 a <= fs_g1 b)%Z).
    { intros a b [A _] [B _] D. cbn [pt_dom fair_task] in D. apply (fs_dom_iff _ _ HDp) in D. rewrite A in D. destruct D as (_ & D1 & [|D2]); [discriminate|]. tauto. }
    assert (Hok : forall a b, fvalid a -> fvalid b -> pt_dom T a b = true -> pt_ok T b = true -> pt_ok T a = true).
    { intros a b A B D. destruct (Hdv a b A B D) as (_ & D1 & D2). exact (fs_ok_mono _ _ lim a b D1 D2). }
    assert (Hmono : forall a b, fvalid a -> fvalid b -> pt_dom T a b = true -> pt_d0 T a b = true).
    { intros a b A B D. apply Z.leb_le. unfold fs_score. destruct (fs_ok G0 G1 lim b) eqn:E.
      - rewrite (Hok a b A B D E : fs_ok G0 G1 lim a = true). destruct (Hdv a b A B D). lia.
      - destruct (fs_ok _ _ _ a); [destruct A as (_ & A)|]; lia. }
    assert (Hanti : forall a b, fvalid a -> fvalid b -> pt_dom T a b = true -> pt_dom T b a = true -> a = b).
    { intros a b A B D D'. destruct (Hdv a b A B D) as (D1 & D2 & D3). destruct (Hdv b a B A D') as (E1 & E2 & E3). destruct A as [A _], B as [B _].
      destruct a, b; cbn in *. subst. f_equal; lia. }
    destruct (solve_ok T G nf v fvalid (fs_eqb_eq G0 G1 HDp) Hrefl Htrans H0refl H0trans Hadd fair_valid Hbest Hok Hmono Horder Hmls dp nds all Hn) as ((I & _) & S & C).
    pose proof (fun x o => trees_ok T G nf v fvalid (fs_eqb_eq G0 G1 HDp) Hrefl Htrans H0refl H0trans Hadd fair_valid Hbest Hok Hmono Horder Hmls Hanti dp nds all x o Hn) as TO.
    assert (Rt : restrict [] v = v) by apply restrict_nil.
    unfold sound, complete, cov, is_sol in S, C. change (R T []) with (pt_d0 T) in *. rewrite Rt in S, C.
    assert (Hone : exists x, ct_sols (p_solve T G v dp nds all) = [x]).
    { destruct (C (Leaf 0) (leaf_good dp nds) (ok_tok _ _ Hnl leaf_ok)) as (y & Hy & _).
      destruct (ct_sols (p_solve T G v dp nds all)) as [|x [|x' l]]; [destruct Hy|exists x; reflexivity|exfalso].
      inversion I as [|? ? F _]; subst. rewrite Forall_forall in F. destruct (F x' (or_introl eq_refl)) as [D1 D2].
      cbn [pt_d0 fair_task] in D1, D2. unfold fs_d0 in D1, D2. apply Z.leb_gt in D1, D2. lia. }
    destruct Hone as (x & Ex). rewrite Ex in *.
    assert (Hx : exists o, p_trees T G v dp nds all = [(x, o)]).
    { unfold p_trees. rewrite Ex. eexists. reflexivity. }
    destruct Hx as (o & Eo).
    destruct (S x (or_introl eq_refl)) as (t0 & A0 & O0 & E0).
    assert (V0 : tval T v t0 = cs_val x) by (rewrite E0; reflexivity).
    assert (K0 : fs_ok G0 G1 lim (cs_val x) = true).
    { rewrite <- V0. destruct t0; cbn [tok] in O0; apply andb_true_iff in O0; apply O0. }
    assert (Best : forall t, good_tree dp nds t -> fs_ok G0 G1 lim (tval T v t) = true -> (fs_mis (cs_val x) <= fs_mis (tval T v t))%Z).
    { intros t Ht Ho. destruct (C t Ht (ok_tok _ _ Hnl Ho)) as (y & [<-|[]] & D). cbn [pt_d0 fair_task] in D. unfold fs_d0, fs_score in D. rewrite Ho, K0 in D. apply Z.leb_le in D. lia. }
    destruct (TO x o) as (_ & t & Et & At & Vt).
    - rewrite Eo. left. reflexivity.
    - intros t' At' Ot' D D0.
      pose proof (fair_valid [] t' ltac:(destruct At' as (F & _); exact F)) as W'. rewrite Rt in W'.
      pose proof (fair_valid [] t0 ltac:(destruct A0 as (F & _); exact F)) as W0. rewrite Rt in W0.
      rewrite <- V0 in D |- *.
      destruct (Hdv _ _ W' W0 D) as (D1 & D2 & D3).
      pose proof (score_sum t') as S1. pose proof (score_sum t0) as S0.
      assert (O' : fs_ok G0 G1 lim (tval T v t') = true) by (destruct t'; cbn [tok] in Ot'; apply andb_true_iff in Ot'; apply Ot').
      pose proof (Best t' At' O') as B. rewrite <- V0 in B.
      destruct W' as [W' _], W0 as [W0 _].
      change (pt_S T) with fsol in *.
      destruct (tval T v t') as [m' a' b' r'], (tval T v t0) as [m0 a0 b0 r0]. cbn in *. subst. f_equal; lia.
    - exists x, t. split; [rewrite Eo, Et; reflexivity|]. split; [exact At|]. split; [exact Vt|]. change (pt_S T) with fsol in *. rewrite Vt. split; [exact K0|exact Best].
  Qed.
End View.
