(** Proofs about the F1-score task. *)
From Coq Require Import List Arith Bool ZArith QArith Lia Lqa Permutation.
From Verif Require Import Model_FeatureVector Model_Data Model_Node Model_Terminal Model_Heap Model_Solver Model_Preproc Model_Container Model_Pareto.
From Verif Require Import Spec_Tree Spec_Examples Spec_Rows Spec_F1 Proofs_View Proofs_Preproc Proofs_Rows Proofs_Heap Proofs_Container Props_Container Proofs_Pareto.
Import ListNotations.
Local Open Scope nat_scope.

(** The two counts as additive costs. *)
Definition c_fn (x : inst) (k l : nat) : Z := if (k =? 1) && (l =? 0) then 1 else 0.
Definition c_fp (x : inst) (k l : nat) : Z := if (k =? 0) && (l =? 1) then 1 else 0.
Definition c_tp (x : inst) (k l : nat) : Z := if (k =? 1) && (l =? 1) then 1 else 0.

Lemma sum_const xs (z : Z) : fold_right (fun (_ : inst) a => (z + a)%Z) 0%Z xs = (z * Z.of_nat (length xs))%Z.
Proof. induction xs as [|x xs IH]; [cbn; lia|]. cbn [fold_right length]. rewrite IH. lia. Qed.

Section F1.
  Context (rnd : Q -> Q) (pos : Z).
  Notation T := (f1_task rnd pos).

  Lemma f1_tval t : forall v, num_labels v = 2 -> (forall P, fits P 2 t -> 
    f1_fn (tval T v t) = tree_cost c_fn v t /\ f1_fp (tval T v t) = tree_cost c_fp v t).
  Proof.
    induction t as [l|f l IHl r IHr]; intros v Hv P Hf.
    - unfold num_labels in Hv. destruct v as [|x0 [|x1 [|]]]; try discriminate.
      cbn [tval pt_leaf f1_task f1_leaf tree_cost cost_from predict]. unfold tree_cost. cbn [cost_from predict].
      unfold f1_leaf, vsize. cbn [concat app nth]. rewrite !app_nil_r, app_length.
      cbn in Hf. destruct l as [|[|l]]; [| |lia]; cbn [nth Nat.eqb f1_fn f1_fp].
      + unfold c_fn, c_fp. cbn [Nat.eqb andb]. rewrite !sum_const. lia.
      + unfold c_fn, c_fp. cbn [Nat.eqb andb]. rewrite !sum_const. lia.
    - destruct Hf as (_ & Hl & Hr). cbn [tval f1_task pt_add f1_add f1_fn f1_fp].
      destruct (IHl (split_left f v)) with (P := P) as [A1 A2]; [rewrite num_labels_left; exact Hv|exact Hl|].
      destruct (IHr (split_right f v)) with (P := P) as [B1 B2]; [rewrite num_labels_right; exact Hv|exact Hr|].
      rewrite !tree_cost_split. cbn [f1_task] in *. rewrite A1, A2, B1, B2. auto.
  Qed.

  Lemma cost_bounds c v t : (forall x k l, 0 <= c x k l)%Z -> (0 <= tree_cost c v t)%Z.
  Proof. intro H. rewrite tree_cost_vsum. apply vsum_nonneg. auto. Qed.

  Lemma fn_tp v P t : num_labels v = 2 -> fits P 2 t -> (tree_cost c_fn v t + tree_cost c_tp v t = Z.of_nat (length (nth 1 v [])))%Z.
  Proof.
    intros Hv Hf. unfold num_labels in Hv. destruct v as [|x0 [|x1 [|]]]; try discriminate.
    unfold tree_cost. cbn [cost_from nth].
    assert (E0 : forall xs c, (forall x l, c x 0 l = 0%Z) -> fold_right (fun x a => c x 0%nat (predict t x) + a)%Z 0%Z xs = 0%Z).
    { intros xs c Hc. induction xs as [|x xs IH]; [reflexivity|]. cbn [fold_right]. rewrite IH, Hc. reflexivity. }
    rewrite (E0 x0 c_fn), (E0 x0 c_tp) by reflexivity.
    assert (Hp : forall x, predict t x < 2).
    { intro x. clear -Hf. induction t as [l|f l IHl r IHr]; [exact Hf|]. cbn. destruct Hf as (_ & H1 & H2). destruct (has f x); auto. }
    clear Hf Hv. induction x1 as [|x xs IH]; [reflexivity|]. cbn [fold_right length]. unfold c_fn at 1, c_tp at 1.
    specialize (Hp x). destruct (predict t x) as [|[|]]; [| |lia]; cbn [Nat.eqb andb]; lia.
  Qed.
End F1.

(** The score as a fraction of integers. *)
Definition fr (pos : Z) (s : f1) : Q := (inject_Z (2 * (pos - f1_fn s)) / inject_Z (2 * (pos - f1_fn s) + f1_fp s + f1_fn s))%Q.

Lemma score_fr pos s : (0 < pos)%Z -> (0 <= f1_fn s <= pos)%Z -> (0 <= f1_fp s)%Z -> (f1_score pos s == fr pos s)%Q.
Proof.
  intros Hp Hn Hf. unfold f1_score, fr. rewrite !inject_Z_plus, !inject_Z_mult. set (t := inject_Z (pos - f1_fn s)).
  assert (Ht : (0 <= t)%Q) by (unfold t; rewrite <- (Zle_Qle 0); lia).
  assert (H1 : (0 <= inject_Z (f1_fp s))%Q) by (rewrite <- (Zle_Qle 0); lia).
  assert (H2 : (0 <= inject_Z (f1_fn s))%Q) by (rewrite <- (Zle_Qle 0); lia).
  assert (H3 : (0 < t + inject_Z (f1_fn s))%Q).
  { unfold t. rewrite <- inject_Z_plus, <- (Zlt_Qlt 0). lia. }
  change (inject_Z 2) with 2%Q. field. split; lra.
Qed.

Lemma fr_eq pos s : (0 < pos)%Z -> (0 <= f1_fn s <= pos)%Z -> (0 <= f1_fp s)%Z ->
  (0 < 2 * (pos - f1_fn s) + f1_fp s + f1_fn s)%Z.
Proof. lia. Qed.

Lemma frac_le a b c d : (0 < b)%Z -> (0 < d)%Z -> (inject_Z a / inject_Z b <= inject_Z c / inject_Z d)%Q <-> (a * d <= c * b)%Z.
Proof.
  intros Hb Hd. assert (Hb' : (0 < inject_Z b)%Q) by (rewrite <- (Zlt_Qlt 0); exact Hb).
  assert (Hd' : (0 < inject_Z d)%Q) by (rewrite <- (Zlt_Qlt 0); exact Hd).
  rewrite Zle_Qle, !inject_Z_mult. split; intro H.
  -
    assert (E : (inject_Z a * inject_Z d == inject_Z a / inject_Z b * (inject_Z b * inject_Z d))%Q) by (field; lra).
    assert (E2 : (inject_Z c * inject_Z b == inject_Z c / inject_Z d * (inject_Z b * inject_Z d))%Q) by (field; lra).
    rewrite E, E2. apply Qmult_le_compat_r; [exact H|]. apply Qmult_le_0_compat; lra.
  - apply Qle_shift_div_r; [exact Hb'|].
    assert (E2 : (inject_Z c / inject_Z d * inject_Z b == inject_Z c * inject_Z b / inject_Z d)%Q) by (field; lra).
    rewrite E2. apply Qle_shift_div_l; [exact Hd'|]. exact H.
Qed.

(** Different fractions with small denominators are far apart. *)
Lemma frac_gap a b c d N : (0 < b <= N)%Z -> (0 < d <= N)%Z -> (N * N < 2 ^ 52)%Z ->
  (inject_Z a / inject_Z b - (2 # 2 ^ 53) <= inject_Z c / inject_Z d)%Q -> (a * d <= c * b)%Z.
Proof.
  intros Hb Hd HN H. destruct (Z_le_gt_dec (a * d) (c * b)) as [G|G]; [exact G|exfalso].
  assert (Hb' : (0 < inject_Z b)%Q) by (rewrite <- (Zlt_Qlt 0); lia).
  assert (Hd' : (0 < inject_Z d)%Q) by (rewrite <- (Zlt_Qlt 0); lia).
  assert (G' : (inject_Z c * inject_Z b + 1 <= inject_Z a * inject_Z d)%Q).
  { change 1%Q with (inject_Z 1). rewrite <- !inject_Z_mult, <- inject_Z_plus, <- Zle_Qle. lia. }
  assert (P : (0 < inject_Z b * inject_Z d)%Q) by (rewrite <- inject_Z_mult, <- (Zlt_Qlt 0); nia).
  assert (HP : (inject_Z b * inject_Z d < inject_Z (2 ^ 52))%Q).
  { rewrite <- inject_Z_mult, <- Zlt_Qlt. nia. }
  assert (H' : ((inject_Z a / inject_Z b - (2 # 2 ^ 53)) * (inject_Z b * inject_Z d) <= inject_Z c / inject_Z d * (inject_Z b * inject_Z d))%Q).
  { apply Qmult_le_compat_r; [exact H|lra]. }
  assert (E1 : (inject_Z c / inject_Z d * (inject_Z b * inject_Z d) == inject_Z c * inject_Z b)%Q) by (field; lra).
  assert (E2 : ((inject_Z a / inject_Z b - (2 # 2 ^ 53)) * (inject_Z b * inject_Z d) == inject_Z a * inject_Z d - (2 # 2 ^ 53) * (inject_Z b * inject_Z d))%Q) by (field; lra).
  rewrite E1, E2 in H'.
  assert (E3 : ((2 # 2 ^ 53) * (inject_Z b * inject_Z d) < 1)%Q).
  { assert (F : (1 == (2 # 2 ^ 53) * inject_Z (2 ^ 52))%Q) by reflexivity. rewrite F.
    apply Qmult_lt_l; [reflexivity|exact HP]. }
  lra.
Qed.

Section View.
  Context (rnd : Q -> Q) (G : pcfg) (nf : nat) (v : view).
  Notation pos := (Z.of_nat (length (nth 1 v []))).
  Notation T := (f1_task rnd pos).
  Hypothesis Hnl : num_labels v = 2.
  Hypothesis Hpos : (0 < pos)%Z.
  Hypothesis Horder : forall u f, In f (pc_order G u) <-> f < nf.
  Hypothesis Hmls : 1 <= pc_mls G.
  Hypothesis Hsz : pc_mls G <= vsize v.
  Hypothesis Hrnd : forall a b, (a <= b)%Q -> (rnd a <= rnd b)%Q.
  Notation ok := (okf T G nf).
  Definition fvalid (s : f1) : Prop := (0 <= f1_fn s <= pos)%Z /\ (0 <= f1_fp s)%Z.
  Definition good_tree (dp nds : nat) (t : tree) : Prop := allowed ok (pc_mls G) dp nds v t.

  Lemma c_fn_nonneg x k l : (0 <= c_fn x k l)%Z.
  Proof. unfold c_fn. destruct (_ && _); lia. Qed.
  Lemma c_fp_nonneg x k l : (0 <= c_fp x k l)%Z.
  Proof. unfold c_fp. destruct (_ && _); lia. Qed.
  Lemma c_tp_nonneg x k l : (0 <= c_tp x k l)%Z.
  Proof. unfold c_tp. destruct (_ && _); lia. Qed.

  Lemma sub_pos b : length (nth 1 (restrict b v) []) <= length (nth 1 v []).
  Proof.
    unfold restrict. unfold num_labels in Hnl. destruct v as [|x0 [|x1 [|]]]; try discriminate. cbn [map nth]. apply Proofs_Container.filter_le.
  Qed.

  Lemma f1_hvalid b t : fits ok (num_labels v) t -> fvalid (tval T (restrict b v) t).
  Proof.
    rewrite Hnl. intro Hf.
    assert (Hn : num_labels (restrict b v) = 2) by (unfold restrict, num_labels in *; rewrite map_length; exact Hnl).
    destruct (f1_tval rnd pos t (restrict b v) Hn _ Hf) as [E1 E2].
    pose proof (fn_tp (restrict b v) _ t Hn Hf) as E3. pose proof (sub_pos b).
    pose proof (cost_bounds c_fn (restrict b v) t c_fn_nonneg). pose proof (cost_bounds c_fp (restrict b v) t c_fp_nonneg).
    pose proof (cost_bounds c_tp (restrict b v) t c_tp_nonneg).
    unfold fvalid. cbn [f1_task] in *. rewrite E1, E2. lia.
  Qed.

  Lemma score_mono a b : fvalid a -> fvalid b -> f1_dom a b = true -> (f1_score pos b <= f1_score pos a)%Q.
  Proof.
    intros [A1 A2] [B1 B2] D. apply f1_dom_le in D. rewrite !score_fr by assumption. unfold fr. apply frac_le; try lia. nia.
  Qed.

  Lemma score_same a b : fvalid a -> fvalid b -> f1_dom a b = true -> (f1_score pos a == f1_score pos b)%Q ->
    (0 < f1_score pos b)%Q -> a = b.
  Proof.
    intros [A1 A2] [B1 B2] D E Hp. apply f1_dom_le in D. rewrite !score_fr in E by assumption. rewrite score_fr in Hp by assumption.
    assert (E1 : (fr pos a <= fr pos b)%Q) by (rewrite E; apply Qle_refl).
    assert (Z0 : (fr pos (F1 pos 0) == 0)%Q).
    { unfold fr. cbn [f1_fn f1_fp]. rewrite Z.sub_diag. reflexivity. }
    assert (E2 : ~ (fr pos b <= fr pos (F1 pos 0))%Q) by (rewrite Z0; lra).
    unfold fr in E1, E2. cbn [f1_fn f1_fp] in E2. rewrite frac_le in E1 by lia. rewrite frac_le in E2 by lia.
    assert (f1_fn a = f1_fn b /\ f1_fp a = f1_fp b).
    { assert ((pos - f1_fn a) * (f1_fp b + f1_fn b) <= (pos - f1_fn b) * (f1_fp a + f1_fn a))%Z by nia.
      assert (0 < pos - f1_fn b)%Z by nia.
      assert ((pos - f1_fn b) * (f1_fp b + f1_fn b) <= (pos - f1_fn a) * (f1_fp b + f1_fn b))%Z by nia.
      assert ((pos - f1_fn b) * (f1_fp b + f1_fn b) <= (pos - f1_fn b) * (f1_fp a + f1_fn a))%Z by lia.
      assert (f1_fp b + f1_fn b <= f1_fp a + f1_fn a)%Z by nia. lia. }
    destruct a, b; cbn in *. f_equal; tauto.
  Qed.

  Lemma one_leaf dp nds : good_tree dp nds (Leaf 1).
  Proof. unfold good_tree, allowed. cbn. unfold num_labels in Hnl. rewrite Hnl. unfold vsize in Hsz. lia. Qed.

  Definition sc (t : tree) : Q := f1_score pos (tval T v t).

  Lemma good_valid dp nds t : good_tree dp nds t -> fvalid (tval T v t).
  Proof. intros (Hf & _). pose proof (f1_hvalid [] t Hf) as H. rewrite restrict_nil in H. exact H. Qed.

  Lemma leaf_score : (0 < sc (Leaf 1))%Q.
  Proof.
    pose proof (good_valid 0 0 _ (one_leaf 0 0)) as Hv. unfold sc. destruct Hv as [V1 V2].
    set (s := tval T v (Leaf 1)) in *. assert (f1_fn s = 0%Z) by reflexivity.
    rewrite score_fr by assumption. unfold fr. rewrite H. apply Qlt_shift_div_l.
    - rewrite <- (Zlt_Qlt 0). lia.
    - rewrite Qmult_0_l. rewrite <- (Zlt_Qlt 0). lia.
  Qed.

  Lemma rnd_proper a b : (a == b)%Q -> (rnd a == rnd b)%Q.
  Proof. intro E. apply Qle_antisym; apply Hrnd; rewrite E; apply Qle_refl. Qed.

  Lemma f1_view dp nds all : nds <= 2 ^ dp - 1 ->
    exists x o, p_trees T G v dp nds all = [(x, o)]
      /\ (exists t, good_tree dp nds t /\ tval T v t = cs_val x)
      /\ (forall t, good_tree dp nds t -> (rnd (sc t) <= rnd (f1_score pos (cs_val x)))%Q)
      /\ ((forall t t', good_tree dp nds t -> good_tree dp nds t' -> (rnd (sc t) <= rnd (sc t'))%Q -> (sc t <= sc t')%Q) ->
          exists t, o = Some t /\ good_tree dp nds t /\ tval T v t = cs_val x).
  Proof.
    intro Hn.
    assert (Hfd : forall a, pt_dom T a a = true) by (intro a; apply f1_dom_le; lia).
    assert (Hft : forall a b c, pt_dom T a b = true -> pt_dom T b c = true -> pt_dom T a c = true).
    { intros a b c. cbn [pt_dom f1_task]. rewrite !f1_dom_le. lia. }
    assert (Hfa : forall a a' b b', fvalid a -> fvalid a' -> fvalid b -> fvalid b' -> pt_dom T a a' = true -> pt_dom T b b' = true -> pt_dom T (pt_add T a b) (pt_add T a' b') = true).
    { intros a a' b b' _ _ _ _. cbn [pt_dom pt_add f1_task]. rewrite !f1_dom_le. cbn [f1_add f1_fn f1_fp]. lia. }
    assert (Hbest : fvalid (pt_best T) -> forall s, fvalid s -> pt_dom T (pt_best T) s = true) by (intros _ s [V1 V2]; apply f1_dom_le; cbn; lia).
    assert (Hok : forall a b, fvalid a -> fvalid b -> pt_dom T a b = true -> pt_ok T b = true -> pt_ok T a = true) by reflexivity.
    assert (Htok : forall t u, tok T u t = true).
    { induction t as [l|f l IHl r IHr]; intro u; cbn [tok]; [reflexivity|]. rewrite IHl, IHr. reflexivity. }
    assert (Hmono : forall a b, fvalid a -> fvalid b -> pt_dom T a b = true -> pt_d0 T a b = true).
    { intros a b Va Vb D. apply Qle_bool_iff. apply Hrnd. apply score_mono; assumption. }
    assert (Hanti : forall a b, fvalid a -> fvalid b -> pt_dom T a b = true -> pt_dom T b a = true -> a = b).
    { intros [a1 a2] [b1 b2] _ _. cbn [pt_dom f1_task]. rewrite !f1_dom_le. cbn. intros. f_equal; lia. }
    destruct (solve_ok T G nf v fvalid f1_eqb_eq Hfd Hft (f1_d0_refl rnd pos) (f1_d0_trans rnd pos) Hfa f1_hvalid Hbest Hok Hmono Horder Hmls dp nds all Hn) as ((I & _) & S & C).
    pose proof (fun x o => trees_ok T G nf v fvalid f1_eqb_eq Hfd Hft (f1_d0_refl rnd pos) (f1_d0_trans rnd pos) Hfa f1_hvalid Hbest Hok Hmono Horder Hmls Hanti dp nds all x o Hn) as TO.
    assert (Rt : restrict [] v = v) by apply restrict_nil.
    unfold sound, complete, cov, is_sol in S, C. change (R T []) with (pt_d0 T) in *. rewrite Rt in S, C.
    assert (Hone : exists x, ct_sols (p_solve T G v dp nds all) = [x]).
    { destruct (C (Leaf 1) (one_leaf dp nds) (Htok _ _)) as (y & Hy & _).
      destruct (ct_sols (p_solve T G v dp nds all)) as [|x [|x' l]]; [destruct Hy|exists x; reflexivity|exfalso].
      inversion I as [|? ? F _]; subst. rewrite Forall_forall in F. destruct (F x' (or_introl eq_refl)) as [D1 D2].
      cbn [pt_d0 f1_task] in D1, D2. unfold f1_d0 in D1, D2.
      destruct (Qlt_le_dec (rnd (f1_score pos (cs_val x))) (rnd (f1_score pos (cs_val x')))) as [L|L].
      - apply Qlt_le_weak in L. apply Qle_bool_iff in L. congruence.
      - apply Qle_bool_iff in L. congruence. }
    destruct Hone as (x & Ex). rewrite Ex in *.
    assert (Hx : exists o, p_trees T G v dp nds all = [(x, o)]).
    { unfold p_trees. rewrite Ex. eexists. reflexivity. }
    destruct Hx as (o & Eo). exists x, o. split; [exact Eo|].
    destruct (S x (or_introl eq_refl)) as (t0 & A0 & _ & E0).
    assert (V0 : tval T v t0 = cs_val x) by (rewrite E0; reflexivity).
    assert (Best : forall t, good_tree dp nds t -> (rnd (sc t) <= rnd (f1_score pos (cs_val x)))%Q).
    { intros t Ht. destruct (C t Ht (Htok _ _)) as (y & [<-|[]] & D). apply Qle_bool_iff in D. exact D. }
    split; [exists t0; auto|]. split; [exact Best|]. intro Hinj.
    assert (E1 : f1_score pos (cs_val x) = sc t0) by (unfold sc; rewrite V0; reflexivity).
    destruct (TO x o) as (_ & t & Et & At & Vt).
    - rewrite Eo. left. reflexivity.
    - intros t' At' _ D D0. rewrite <- V0 in D, D0 |- *. apply score_same.
      + exact (good_valid dp nds t' At').
      + exact (good_valid dp nds t0 A0).
      + exact D.
      + apply Qle_bool_iff in D0. apply Qle_antisym; [apply Hinj; assumption|].
        apply score_mono; [exact (good_valid dp nds t' At')|exact (good_valid dp nds t0 A0)|exact D].
      + apply (Qlt_le_trans _ _ _ leaf_score). apply Hinj; [apply one_leaf|exact A0|]. rewrite <- E1. apply Best. apply one_leaf.
    - exists t. auto.
  Qed.
End View.
