(** The tables that the reconstruction of a depth-two tree recomputes agree with the tables
    of the search wherever they are read. *)
From Coq Require Import List Arith Bool Lia ZArith Sorted.
From Verif Require Import Model_FeatureVector Model_Data Model_Node Model_Terminal Spec_Tree
  Proofs_View Proofs_Diff Proofs_Feature Proofs_Calc.
Import ListNotations.
Local Open Scope nat_scope.

Lemma occ_app l1 l2 j : occ (l1 ++ l2) j = (occ l1 j + occ l2 j)%Z.
Proof. induction l1 as [|i l IH]; cbn [app occ]; [lia|]. rewrite IH. lia. Qed.

Lemma ix11_inj nf f g h : f < nf -> g < nf -> h < nf -> ix11 nf f g = ix11 nf f h -> g = h.
Proof.
  intros Hf Hg Hh. unfold ix11.
  destruct (g <? f) eqn:E1; destruct (h <? f) eqn:E2;
    rewrite ?Nat.ltb_lt, ?Nat.ltb_ge in *; intro H; apply pair_index_inj in H; lia.
Qed.

Lemma ix11_diag nf f g h : f < nf -> g < nf -> h < nf -> g <> f -> ix11 nf f g <> ixd nf h.
Proof.
  intros Hf Hg Hh Hne H. unfold ix11, ixd in H.
  destruct (g <? f) eqn:E1; rewrite ?Nat.ltb_lt, ?Nat.ltb_ge in *; apply pair_index_inj in H; lia.
Qed.

Lemma NoDup_map_in {A B} (h : A -> B) l : NoDup l -> (forall x y, In x l -> In y l -> h x = h y -> x = y) -> NoDup (map h l).
Proof.
  induction 1 as [|x l Hni Hnd IH]; intro Hi; cbn [map]; constructor.
  - intro Hc. apply in_map_iff in Hc. destruct Hc as (y & He & Hy).
    assert (y = x) by (apply Hi; [right; exact Hy|left; reflexivity|exact He]). subst. contradiction.
  - apply IH. intros; apply Hi; try (right; assumption); assumption.
Qed.

Section OneInst.
  Context (nf : nat) (x : inst) (f : nat).
  Hypothesis Hw : wf_inst nf x.
  Hypothesis Hf : f < nf.

  Lemma present_lt g : In g (fv_present (ifv x)) -> g < nf.
  Proof. destruct Hw as (Hn & (_ & Hin) & _). intro H. apply Hin in H. lia. Qed.

  Lemma rec_diag g : g < nf -> occ (rec_indices nf f x) (ixd nf g) = b2z (has g x).
  Proof.
    intro Hg. unfold rec_indices. rewrite occ_app.
    pose proof (occ_diag nf x g Hw Hg) as Hd. change (occ (map (ixd nf) (fv_present (ifv x))) (ixd nf g) = b2z (has g x)) in Hd. rewrite Hd. rewrite occ_not_in; [lia|].
    destruct (has f x); [|intros []]. intro Hc. apply in_map_iff in Hc. destruct Hc as (h & He & Hh).
    apply filter_In in Hh. destruct Hh as [Hh Hne]. apply negb_true_iff, Nat.eqb_neq in Hne.
    exact (ix11_diag nf f h g Hf (present_lt h Hh) Hg Hne He).
  Qed.

  Lemma rec_pair g : g < nf -> g <> f -> occ (rec_indices nf f x) (ix11 nf f g) = b2z (has f x && has g x).
  Proof.
    intros Hg Hne. unfold rec_indices. rewrite occ_app. rewrite occ_not_in.
    2:{ intro Hc. apply in_map_iff in Hc. destruct Hc as (h & He & Hh).
        exact (ix11_diag nf f g h Hf Hg (present_lt h Hh) Hne (eq_sym He)). }
    destruct (has f x); [|reflexivity]. cbn [andb]. destruct Hw as (Hn & (Hs & Hin) & _).
    unfold has. destruct (fv_has (ifv x) g) eqn:E; cbn [b2z].
    - rewrite occ_NoDup; [lia| |].
      + apply NoDup_map_in; [apply NoDup_filter, sorted_lt_NoDup; exact Hs|].
        intros y z Hy Hz He. apply filter_In in Hy, Hz.
        apply (ix11_inj nf f y z); try assumption; apply present_lt; tauto.
      + apply in_map. apply filter_In. split; [apply Hin; split; [lia|exact E]|]. apply negb_true_iff, Nat.eqb_neq. exact Hne.
    - rewrite occ_not_in; [lia|]. intro Hc. apply in_map_iff in Hc. destruct Hc as (h & He & Hh).
      apply filter_In in Hh. destruct Hh as [Hh _].
      apply (ix11_inj nf f h g Hf (present_lt h Hh) Hg) in He. subst h. apply Hin in Hh. destruct Hh. congruence.
  Qed.
End OneInst.

Section WithTask.
  Context (T : task) (nf : nat) (f : nat).
  Notation cost := (tree_cost (tk_inst T)).

  Lemma rec_label_spec x org k l :
    let k' := rec_label T nf f x org k l in
    let c := tk_inst T x org l in
    (forall j, k_cnt k' j = k_cnt k j) /\ k_tot k' = k_tot k
    /\ (forall l' j, k_cost k' l' j = (k_cost k l' j + (if (l' =? l)%nat then c * occ (rec_indices nf f x) j else 0))%Z)
    /\ (forall l', k_ctot k' l' = (k_ctot k l' + (if (l' =? l)%nat then c else 0))%Z).
  Proof.
    cbn zeta. unfold rec_label. destruct (tk_inst T x org l =? 0)%Z eqn:E; cbn [k_cnt k_tot k_cost k_ctot].
    - apply Z.eqb_eq in E. rewrite E. repeat split; intros; destruct (l' =? l); lia.
    - repeat split; intros; destruct (l' =? l); rewrite ?add_all_occ; lia.
  Qed.

  Lemma rec_labels_spec x org nl : forall k,
    let k' := fold_left (rec_label T nf f x org) (seq 0 nl) k in
    (forall j, k_cnt k' j = k_cnt k j) /\ k_tot k' = k_tot k
    /\ (forall l' j, l' < nl -> k_cost k' l' j = (k_cost k l' j + tk_inst T x org l' * occ (rec_indices nf f x) j)%Z)
    /\ (forall l', l' < nl -> k_ctot k' l' = (k_ctot k l' + tk_inst T x org l')%Z).
  Proof.
    cbn zeta.
    assert (H : forall m s k, let k' := fold_left (rec_label T nf f x org) (seq s m) k in
      (forall j, k_cnt k' j = k_cnt k j) /\ k_tot k' = k_tot k
      /\ (forall l' j, k_cost k' l' j = (k_cost k l' j + (if ((s <=? l') && (l' <? s + m))%nat then tk_inst T x org l' * occ (rec_indices nf f x) j else 0))%Z)
      /\ (forall l', k_ctot k' l' = (k_ctot k l' + (if ((s <=? l') && (l' <? s + m))%nat then tk_inst T x org l' else 0))%Z)).
    { cbn zeta. induction m as [|m IH]; intros s k; cbn [seq fold_left].
      - repeat split; intros; destruct (s <=? l') eqn:E1; destruct (l' <? s + 0) eqn:E2; cbn [andb];
          rewrite ?Nat.leb_le, ?Nat.leb_gt, ?Nat.ltb_lt, ?Nat.ltb_ge in *; lia.
      - destruct (rec_label_spec x org k s) as (H1 & H2 & H3 & H4).
        destruct (IH (S s) (rec_label T nf f x org k s)) as (G1 & G2 & G3 & G4).
        split; [intro j; rewrite G1; apply H1|]. split; [congruence|]. split; intros.
        + rewrite G3, H3. destruct (Nat.eqb_spec l' s); destruct (S s <=? l') eqn:E1; destruct (l' <? S s + m) eqn:E2;
            destruct (s <=? l') eqn:E3; destruct (l' <? s + S m) eqn:E4; cbn [andb];
            rewrite ?Nat.leb_le, ?Nat.leb_gt, ?Nat.ltb_lt, ?Nat.ltb_ge in *; subst; lia.
        + rewrite G4, H4. destruct (Nat.eqb_spec l' s); destruct (S s <=? l') eqn:E1; destruct (l' <? S s + m) eqn:E2;
            destruct (s <=? l') eqn:E3; destruct (l' <? s + S m) eqn:E4; cbn [andb];
            rewrite ?Nat.leb_le, ?Nat.leb_gt, ?Nat.ltb_lt, ?Nat.ltb_ge in *; subst; lia. }
    intro k. destruct (H nl 0 k) as (H1 & H2 & H3 & H4). split; [exact H1|]. split; [exact H2|]. split; intros.
    - rewrite H3. replace (l' <? 0 + nl) with true by (symmetry; apply Nat.ltb_lt; lia). reflexivity.
    - rewrite H4. replace (l' <? 0 + nl) with true by (symmetry; apply Nat.ltb_lt; lia). reflexivity.
  Qed.

  Lemma rec_insts_spec nl org xs : forall k,
    let k' := fold_left (rec_inst T nf f nl org) xs k in
    (forall j, k_cnt k' j = (k_cnt k j + zsum (map (fun x => occ (rec_indices nf f x) j) xs))%Z)
    /\ k_tot k' = (k_tot k + Z.of_nat (length xs))%Z
    /\ (forall l j, l < nl -> k_cost k' l j = (k_cost k l j + zsum (map (fun x => tk_inst T x org l * occ (rec_indices nf f x) j) xs))%Z)
    /\ (forall l, l < nl -> k_ctot k' l = (k_ctot k l + zsum (map (fun x => tk_inst T x org l) xs))%Z).
  Proof.
    cbn zeta. induction xs as [|x xs IH]; intro k; cbn [fold_left map zsum length].
    - repeat split; intros; lia.
    - destruct (rec_labels_spec x org nl k) as (H1 & H2 & H3 & H4).
      destruct (IH (rec_inst T nf f nl org k x)) as (G1 & G2 & G3 & G4).
      split; [intro j; rewrite G1; unfold rec_inst at 1; cbn [k_cnt]; rewrite add_all_occ, H1; lia|].
      split; [rewrite G2; unfold rec_inst at 1; cbn [k_tot]; rewrite H2; lia|]. split; intros.
      + rewrite G3 by assumption. unfold rec_inst at 1. cbn [k_cost]. rewrite H3 by assumption. lia.
      + rewrite G4 by assumption. unfold rec_inst at 1. cbn [k_ctot]. rewrite H4 by assumption. lia.
  Qed.

  Lemma rec_view_spec nl v : forall org k,
    let k' := rec_view_from T nf f nl org v k in
    (forall j, k_cnt k' j = (k_cnt k j + vsum_from (fun _ x => occ (rec_indices nf f x) j) org v)%Z)
    /\ k_tot k' = (k_tot k + vsum_from (fun _ _ => 1%Z) org v)%Z
    /\ (forall l j, l < nl -> k_cost k' l j = (k_cost k l j + vsum_from (fun o x => tk_inst T x o l * occ (rec_indices nf f x) j) org v)%Z)
    /\ (forall l, l < nl -> k_ctot k' l = (k_ctot k l + vsum_from (fun o x => tk_inst T x o l) org v)%Z).
  Proof.
    cbn zeta. induction v as [|xs v IH]; intros org k; cbn [rec_view_from vsum_from].
    - repeat split; intros; lia.
    - destruct (rec_insts_spec nl org xs k) as (H1 & H2 & H3 & H4).
      destruct (IH (S org) (fold_left (rec_inst T nf f nl org) xs k)) as (G1 & G2 & G3 & G4).
      split; [intro j; rewrite G1, H1; lia|].
      split; [rewrite G2, H2; assert (Hl : zsum (map (fun _ : inst => 1%Z) xs) = Z.of_nat (length xs))
                by (clear; induction xs as [|y ys IH]; cbn [map zsum length]; lia); rewrite Hl; lia|].
      split; intros.
      + rewrite G3, H3 by assumption. lia.
      + rewrite G4, H4 by assumption. lia.
  Qed.

  (** What the reconstruction reads. *)
  Context (v : view).
  Hypothesis Hw : wf_view nf v.
  Hypothesis Hf : f < nf.
  Notation k := (rec_calc T nf f v).

  Lemma rec_tot : k_tot k = Z.of_nat (vsize v).
  Proof. destruct (rec_view_spec (num_labels v) v 0 calc_zero) as (_ & H & _). unfold rec_calc. rewrite H, <- vsum_one. reflexivity. Qed.
  Lemma rec_ctot l : l < num_labels v -> k_ctot k l = cost v (Leaf l).
  Proof. intro Hl. destruct (rec_view_spec (num_labels v) v 0 calc_zero) as (_ & _ & _ & H). unfold rec_calc. rewrite H, cost_leaf by exact Hl. reflexivity. Qed.
  Lemma rec_cnt g : g < nf -> k_cnt k (ixd nf g) = Z.of_nat (vsize (split_right g v)).
  Proof.
    intro Hg. destruct (rec_view_spec (num_labels v) v 0 calc_zero) as (H & _). unfold rec_calc.
    rewrite H, <- vsum_one. unfold split_right. rewrite <- vsum_ind. cbn [calc_zero k_cnt].
    change (vsum_from ?c 0 ?w) with (vsum c w). rewrite Z.add_0_l.
    apply vsum_ext. intros j x Hx. rewrite rec_diag by (try apply Hw; assumption). lia.
  Qed.
  Lemma rec_cost l g : l < num_labels v -> g < nf -> k_cost k l (ixd nf g) = cost (split_right g v) (Leaf l).
  Proof.
    intros Hl Hg. destruct (rec_view_spec (num_labels v) v 0 calc_zero) as (_ & _ & H & _). unfold rec_calc.
    rewrite H, cost_leaf by exact Hl. unfold split_right. rewrite <- vsum_ind. cbn [calc_zero k_cost].
    change (vsum_from ?c 0 ?w) with (vsum c w). rewrite Z.add_0_l.
    apply vsum_ext. intros j x Hx. rewrite rec_diag by (try apply Hw; assumption). reflexivity.
  Qed.
  Lemma rec_cnt2 g : g < nf -> g <> f -> k_cnt k (ix11 nf f g) = Z.of_nat (vsize (split_right g (split_right f v))).
  Proof.
    intros Hg Hne. destruct (rec_view_spec (num_labels v) v 0 calc_zero) as (H & _). unfold rec_calc.
    rewrite H, <- vsum_one, split_right_right, <- vsum_ind. cbn [calc_zero k_cnt].
    change (vsum_from ?c 0 ?w) with (vsum c w). rewrite Z.add_0_l.
    apply vsum_ext. intros j x Hx. rewrite rec_pair by (try apply Hw; assumption). lia.
  Qed.
  Lemma rec_cost2 l g : l < num_labels v -> g < nf -> g <> f -> k_cost k l (ix11 nf f g) = cost (split_right g (split_right f v)) (Leaf l).
  Proof.
    intros Hl Hg Hne. destruct (rec_view_spec (num_labels v) v 0 calc_zero) as (_ & _ & H & _). unfold rec_calc.
    rewrite H, cost_leaf, split_right_right, <- vsum_ind by exact Hl. cbn [calc_zero k_cost].
    change (vsum_from ?c 0 ?w) with (vsum c w). rewrite Z.add_0_l.
    apply vsum_ext. intros j x Hx. rewrite rec_pair by (try apply Hw; assumption). reflexivity.
  Qed.

  Lemma rec_rd_sol1 l : l < num_labels v -> sol1 nf k l f = cost (split_right f v) (Leaf l).
  Proof. intro Hl. unfold sol1. apply rec_cost; assumption. Qed.
  Lemma rec_rd_sol0 l : l < num_labels v -> sol0 nf k l f = cost (split_left f v) (Leaf l).
  Proof. intro Hl. unfold sol0. rewrite rec_cost, rec_ctot by assumption. rewrite (cost_leaf_split T v f l). lia. Qed.

  Section Pair.
    Context (g : nat).
    Hypothesis Hg : g < nf.
    Hypothesis Hne : g <> f.
    Lemma rec_rd_count11 : count11 nf k f g = Z.of_nat (vsize (split_right g (split_right f v))).
    Proof. apply rec_cnt2; assumption. Qed.
    Lemma rec_rd_count10 : count10 nf k f g = Z.of_nat (vsize (split_left g (split_right f v))).
    Proof. unfold count10. rewrite rec_cnt, rec_cnt2 by assumption. rewrite (vsize_split g (split_right f v)). lia. Qed.
    Lemma rec_rd_count01 : count01 nf k f g = Z.of_nat (vsize (split_right g (split_left f v))).
    Proof.
      unfold count01. rewrite rec_cnt, rec_cnt2 by assumption.
      rewrite <- split_comm_lr, (split_comm_rr f g v), (vsize_split f (split_right g v)). lia.
    Qed.
    Lemma rec_rd_count00 : count00 nf k f g = Z.of_nat (vsize (split_left g (split_left f v))).
    Proof.
      unfold count00. rewrite !rec_cnt, rec_cnt2, rec_tot by assumption.
      rewrite (vsize_split f v), (vsize_split g (split_left f v)), (vsize_split f (split_right g v)).
      rewrite <- !split_comm_lr, (split_comm_rr f g v). lia.
    Qed.
    Lemma rec_rd_sol11 l : l < num_labels v -> sol11 nf k l f g = cost (split_right g (split_right f v)) (Leaf l).
    Proof. intro. apply rec_cost2; assumption. Qed.
    Lemma rec_rd_sol10 l : l < num_labels v -> sol10 nf k l f g = cost (split_left g (split_right f v)) (Leaf l).
    Proof. intro. unfold sol10. rewrite rec_cost, rec_cost2 by assumption. rewrite (cost_leaf_split T (split_right f v) g). lia. Qed.
    Lemma rec_rd_sol01 l : l < num_labels v -> sol01 nf k l f g = cost (split_right g (split_left f v)) (Leaf l).
    Proof.
      intro. unfold sol01. rewrite rec_cost, rec_cost2 by assumption.
      rewrite <- split_comm_lr, (split_comm_rr f g v), (cost_leaf_split T (split_right g v) f). lia.
    Qed.
    Lemma rec_rd_sol00 l : l < num_labels v -> sol00 nf k l f g = cost (split_left g (split_left f v)) (Leaf l).
    Proof.
      intro. unfold sol00. rewrite !rec_cost, rec_cost2, rec_ctot by assumption.
      rewrite (cost_leaf_split T v f), (cost_leaf_split T (split_left f v) g), (cost_leaf_split T (split_right g v) f).
      rewrite <- !split_comm_lr, (split_comm_rr f g v). lia.
    Qed.
  End Pair.
End WithTask.
