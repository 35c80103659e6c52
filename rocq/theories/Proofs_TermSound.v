(** The depth-two solver with any minimum leaf size: every answer belongs to a tree. *)
From Coq Require Import List Arith Bool Lia ZArith QArith Lqa Permutation Sorted.
From Verif Require Import Base_Q Model_FeatureVector Model_Data Model_Node Model_Terminal Model_Regression Model_SimpleLinear Model_TermReg Spec_Tree
  Proofs_View Proofs_Diff Proofs_Feature Proofs_Calc Proofs_TermState Props_Regression Proofs_TermReg.
Import ListNotations.
Local Open Scope nat_scope.

Section Sound.
  Context (bc : Q) (nf mls : nat) (N : view -> Z) (L : view -> Q) (v : view) (R : reads) (b : branch).
  Hypothesis Hm : 1 <= mls.

  Fixpoint tokm (u : view) (t : tree) : Prop :=
    match t with Leaf _ => (Z.of_nat mls <= N u)%Z | Split f l r => f < nf /\ tokm (split_left f u) l /\ tokm (split_right f u) r end.
  Definition witm (u : view) (x : qnode) (t : tree) : Prop :=
    tokm u t /\ (n_val x == tv bc L u t)%Q
    /\ match t with Leaf _ => n_feat x = None /\ n_l x = 0 /\ n_r x = 0 | Split f l r => n_feat x = Some f /\ n_l x = nodes l /\ n_r x = nodes r end.
  Lemma witm_nodes u x t : witm u x t -> n_nodes x = nodes t.
  Proof. intros (_ & _ & H). unfold n_nodes. destruct t; destruct H as (-> & A & B); cbn [nodes]; lia. Qed.
  Lemma enough_m z : enough mls z = true <-> (Z.of_nat mls <= z)%Z.
  Proof. unfold enough. apply Z.leb_le. Qed.
  Definition madem (u : view) (d m : nat) (o : option qnode) : Prop := forall x, o = Some x -> exists t, witm u x t /\ depth t <= d /\ nodes t <= m.
  Lemma made_add u d m o c : madem u d m o -> (exists t, witm u c t /\ depth t <= d /\ nodes t <= m) -> madem u d m (qadd o c).
  Proof. intros Ho Hc x Hx. destruct (qadd_le o c) as (y & E & _ & [B|B] & _); rewrite E in Hx; injection Hx as <-; [apply Ho; exact B|rewrite B; exact Hc]. Qed.
  Lemma made_adds u d m o p : madem u d m o -> madem u d m p -> madem u d m (qadds o p).
  Proof. intros Ho Hp x Hx. apply (proj2 (proj2 (qadds_le o p))) in Hx. destruct Hx as [Hx|Hx]; [apply Ho|apply Hp]; exact Hx. Qed.
  Lemma made_more u d d' m m' o : d <= d' -> m <= m' -> madem u d m o -> madem u d' m' o.
  Proof. clear Hm. intros Hd Hm' H x Hx. destruct (H x Hx) as (t & A & B & C). exists t. split; [exact A|]. split; lia. Qed.
  Lemma both_sound f l r o ml mr m : f < nf -> ml + mr + 1 <= m -> madem v 2 m o -> madem (split_left f v) 1 ml l -> madem (split_right f v) 1 mr r -> madem v 2 m (q_both bc f l r o).
  Proof.
    intros Hf Hmm Ho Hl Hr. unfold q_both. destruct l as [x|]; [destruct r as [y|]|destruct r; exact Ho]; [|exact Ho]. apply made_add; [exact Ho|].
    destruct (Hl x eq_refl) as (tl & Wl & Dl & Nl). destruct (Hr y eq_refl) as (tr & Wr & Dr & Nr). exists (Split f tl tr). split; [|cbn [depth nodes]; lia].
    pose proof (witm_nodes _ _ _ Wl) as Kl. pose proof (witm_nodes _ _ _ Wr) as Kr. destruct Wl as (Ol & Vl & _). destruct Wr as (Or & Vr & _).
    split; [cbn [tokm]; auto|]. split; [cbn [q_combine n_val tv]; rewrite Vl, Vr; reflexivity|]. cbn [q_combine n_feat n_l n_r]. auto.
  Qed.

  (** ** One split: the best answer, for any leaf size *)
  Lemma one_sound one : rexact nf N L v R one -> (Z.of_nat mls <= N v)%Z ->
    madem v 1 1 (q_one bc nf mls R) /\ forall t, tokm v t -> nodes t <= 1 -> below (q_one bc nf mls R) (tv bc L v t).
  Proof.
    intros E Hv. unfold q_one. pose proof (re_leaf _ _ _ _ _ _ E ltac:(lia)) as E0.
    assert (G : forall fs o, (forall f, In f fs -> f < nf) -> madem v 1 1 o -> madem v 1 1 (fold_left (q_one_split bc mls R) fs o)
      /\ (forall q, below o q -> below (fold_left (q_one_split bc mls R) fs o) q)
      /\ forall f, In f fs -> (Z.of_nat mls <= N (split_left f v))%Z -> (Z.of_nat mls <= N (split_right f v))%Z -> below (fold_left (q_one_split bc mls R) fs o) (bc + (L (split_left f v) + L (split_right f v)))%Q).
    { induction fs as [|f fs IH]; intros o Hfs Ho; cbn [fold_left]; [split; [exact Ho|]; split; [auto|intros f []]|].
      assert (Hf : f < nf) by (apply Hfs; left; reflexivity). pose proof (re_n1 _ _ _ _ _ _ E false f Hf) as N0. pose proof (re_n1 _ _ _ _ _ _ E true f Hf) as N1. cbn [sd] in N0, N1.
      assert (S : madem v 1 1 (q_one_split bc mls R o f) /\ (forall q, below o q -> below (q_one_split bc mls R o f) q)
        /\ ((Z.of_nat mls <= N (split_left f v))%Z -> (Z.of_nat mls <= N (split_right f v))%Z -> below (q_one_split bc mls R o f) (bc + (L (split_left f v) + L (split_right f v)))%Q)).
      { unfold q_one_split. destruct (enough mls (rd_n1 R false f) && enough mls (rd_n1 R true f)) eqn:Ec.
        - apply andb_true_iff in Ec. rewrite !enough_m, N0, N1 in Ec. destruct Ec as [C0 C1].
          pose proof (re_leaf1 _ _ _ _ _ _ E false f Hf ltac:(cbn [sd]; lia)) as L0. pose proof (re_leaf1 _ _ _ _ _ _ E true f Hf ltac:(cbn [sd]; lia)) as L1. cbn [sd] in L0, L1. split; [|split].
          + apply made_add; [exact Ho|]. exists (Split f (Leaf 0) (Leaf 0)). split; [|cbn; lia]. split; [cbn [tokm]; auto|]. split; [cbn [n_val tv]; rewrite L0, L1; ring|]. cbn. auto.
          + intros q Hq. apply below_add. exact Hq.
          + intros _ _. destruct (qadd_le o (QN (Some f) (rd_leaf1 R false f + rd_leaf1 R true f + bc)%Q 0 0)) as (y & Ey & A & _). exists y. split; [exact Ey|]. cbn [n_val] in A. rewrite L0, L1 in A. lra.
        - split; [exact Ho|]. split; [auto|]. intros A B. exfalso. rewrite N0, N1, (proj2 (enough_m _) A), (proj2 (enough_m _) B) in Ec. discriminate. }
      destruct S as (S1 & S2 & S3). destruct (IH _ (fun g Hg => Hfs g (or_intror Hg)) S1) as (I1 & I2 & I3). split; [exact I1|]. split; [auto|]. intros g [<-|Hg] A B; [apply I2, S3; assumption|apply I3; assumption]. }
    destruct (G (seq 0 nf) (qadd None (QN None (rd_leaf R) 0 0))) as (G1 & G2 & G3).
    - intros f Hf. apply in_seq in Hf. lia.
    - apply made_add; [discriminate|]. exists (Leaf 0). split; [|cbn; lia]. split; [exact Hv|]. split; [exact E0|]. auto.
    - split; [exact G1|]. intros t Ht Hn. destruct t as [a|f l r].
      + apply G2. exists (QN None (rd_leaf R) 0 0). split; [reflexivity|]. cbn [n_val tv]. lra.
      + destruct l as [|? ? ?]; [|cbn in Hn; lia]. destruct r as [|? ? ?]; [|cbn in Hn; lia]. cbn [tokm] in Ht. destruct Ht as (Hf & A & B). cbn [tv]. apply G3; [apply in_seq; lia|exact A|exact B].
  Qed.

  (** ** Pairs *)
  Hypothesis E : rexact nf N L v R false.
  Definition chok (st : qstate) : Prop := (forall s f, f < nf -> madem (sd s f v) 1 1 (q_ch st s f)) /\ madem v 2 2 (q_two st) /\ madem v 2 3 (q_three st).
  Lemma child_sound s f g na nb x y st : g < nf -> na = N (split_left g (sd s f v)) -> nb = N (split_right g (sd s f v)) ->
    ((1 <= na)%Z -> x == L (split_left g (sd s f v)))%Q -> ((1 <= nb)%Z -> y == L (split_right g (sd s f v)))%Q -> chok st -> chok (q_child bc mls s f g na nb x y st).
  Proof.
    intros Hg Ha Hb Hx Hy (A & B & C). unfold q_child. destruct (enough mls na && enough mls nb) eqn:Ec; [|repeat split; assumption]. apply andb_true_iff in Ec. rewrite !enough_m in Ec. destruct Ec as [C0 C1].
    split; [|split; [exact B|exact C]]. intros s' f' Hf'. cbn [q_ch]. unfold ch_set. destruct (Bool.eqb s s' && (f =? f')) eqn:Es; [|apply A; exact Hf'].
    apply andb_true_iff in Es. destruct Es as [E1 E2]. apply Bool.eqb_prop in E1. apply Nat.eqb_eq in E2. subst s' f'. apply made_add; [apply A; exact Hf'|].
    exists (Split g (Leaf 0) (Leaf 0)). split; [|cbn; lia]. split; [cbn [tokm]; rewrite <- Ha, <- Hb; auto|]. split; [cbn [n_val tv]; rewrite (Hx ltac:(lia)), (Hy ltac:(lia)); ring|]. cbn. auto.
  Qed.
  Lemma pair_sound f1 f2 st : f1 < nf -> f2 < nf -> chok st -> chok (q_pair bc mls R f1 st f2).
  Proof.
    intros H1 H2 H. unfold q_pair.
    assert (EN : forall s t, rd_n2 R s t f1 f2 = N (sd t f2 (sd s f1 v))) by (intros; apply (re_n2 _ _ _ _ _ _ E eq_refl); assumption).
    assert (EL : forall s t, (1 <= N (sd t f2 (sd s f1 v)))%Z -> (rd_leaf2 R s t f1 f2 == L (sd t f2 (sd s f1 v)))%Q) by (intros; apply (re_leaf2 _ _ _ _ _ _ E eq_refl); assumption).
    apply child_sound; [exact H1|rewrite EN; exact (f_equal N (split_comm false true f1 f2 v))|rewrite EN; exact (f_equal N (split_comm true true f1 f2 v))| | |].
    1: { rewrite EN. intro K. rewrite (EL _ _ K). rewrite (split_comm false true f1 f2 v). reflexivity. }
    1: { rewrite EN. intro K. rewrite (EL _ _ K). rewrite (split_comm true true f1 f2 v). reflexivity. }
    apply child_sound; [exact H1|rewrite EN; exact (f_equal N (split_comm false false f1 f2 v))|rewrite EN; exact (f_equal N (split_comm true false f1 f2 v))| | |].
    1: { rewrite EN. intro K. rewrite (EL _ _ K). rewrite (split_comm false false f1 f2 v). reflexivity. }
    1: { rewrite EN. intro K. rewrite (EL _ _ K). rewrite (split_comm true false f1 f2 v). reflexivity. }
    apply child_sound; [exact H2|apply EN|apply EN|rewrite EN; apply EL|rewrite EN; apply EL|].
    apply child_sound; [exact H2|apply EN|apply EN|rewrite EN; apply EL|rewrite EN; apply EL|exact H].
  Qed.
  Lemma leaf_sound s f : f < nf -> madem (sd s f v) 1 0 (q_leaf mls R s f).
  Proof.
    intro Hf. unfold q_leaf. destruct (enough mls (rd_n1 R s f)) eqn:Ec; [|discriminate]. rewrite enough_m, (re_n1 _ _ _ _ _ _ E s f Hf) in Ec. apply made_add; [discriminate|].
    exists (Leaf 0). split; [|cbn; lia]. split; [exact Ec|]. split; [apply (re_leaf1 _ _ _ _ _ _ E s f Hf); lia|]. auto.
  Qed.
  Lemma update_sound f st : f < nf -> chok st -> chok (q_update3 bc (q_update2 bc mls R st f) f).
  Proof.
    intros Hf (A & B & C). unfold q_update3, q_update2. split; [exact A|]. cbn [q_ch q_two q_three]. pose proof (A false f Hf) as A0. pose proof (A true f Hf) as A1. cbn [sd] in A0, A1. split.
    - apply (both_sound f _ _ _ 0 1); [exact Hf|lia| |exact (leaf_sound false f Hf)|exact A1]. apply (both_sound f _ _ _ 1 0); [exact Hf|lia|exact B|exact A0|exact (leaf_sound true f Hf)].
    - apply (both_sound f _ _ _ 1 1); [exact Hf|lia|exact C|exact A0|exact A1].
  Qed.
  Lemma loop_sound fs : (forall f, In f fs -> f < nf) -> forall st, chok st -> chok (q_loop bc mls R fs st).
  Proof.
    induction fs as [|f1 r IH]; intros Hfs st H; cbn [q_loop]; [exact H|]. destruct (is_zero (q_three st)); [exact H|]. apply IH; [intros f Hf; apply Hfs; right; exact Hf|].
    assert (Hf1 : f1 < nf) by (apply Hfs; left; reflexivity). apply update_sound; [exact Hf1|]. assert (Hr : forall f, In f r -> f < nf) by (intros f Hf; apply Hfs; right; exact Hf).
    clear -H Hf1 Hr E Hm. revert st H. induction r as [|g r IH]; intros st H; cbn [fold_left]; [exact H|]. apply IH; [intros f Hf; apply Hr; right; exact Hf|]. apply pair_sound; [exact Hf1|apply Hr; left; reflexivity|exact H].
  Qed.
End Sound.

Section Results.
  Context (bc : Q) (nf mls : nat) (N : view -> Z) (L : view -> Q) (v : view).
  Hypothesis Hm : 1 <= mls.
  (** What is known of the results of a call, whatever the leaf size: the solution with one node is
      the best one, the others belong to trees within the limits and are not worse. *)
  Definition sound_ok (one : bool) (r : qres) : Prop := (Z.of_nat mls <= N v)%Z ->
    madem bc nf mls N L v 1 1 (q_r1 r) /\ (forall t, tokm nf mls N v t -> nodes t <= 1 -> below (q_r1 r) (tv bc L v t))
    /\ (one = false -> madem bc nf mls N L v 2 2 (q_r2 r) /\ madem bc nf mls N L v 2 3 (q_r3 r)
        /\ (forall q, below (q_r1 r) q -> below (q_r2 r) q) /\ (forall q, below (q_r2 r) q -> below (q_r3 r) q)).
  Lemma below_adds o p q : below p q -> below (qadds o p) q.
  Proof. intros (x & A & B). destruct (proj1 (qadds_le o p) x A) as (y & C & D). exists y. split; [exact C|lra]. Qed.
  Lemma results_sound (R : reads) b n : 1 <= n -> rexact nf N L v R (n =? 1) -> sound_ok (n =? 1) (q_results bc nf mls R b n).
  Proof.
    intros Hn E Hv. unfold q_results. rewrite (re_n _ _ _ _ _ _ E). replace (N v <? Z.of_nat mls)%Z with false by (symmetry; apply Z.ltb_ge; exact Hv).
    destruct (one_sound bc nf mls N L v R Hm (n =? 1) E Hv) as [O1 O2].
    destruct (n =? 1) eqn:En; cbn [q_r1 q_r2 q_r3].
    { split; [exact O1|]. split; [exact O2|discriminate]. }
    assert (M2 : madem bc nf mls N L v 2 2 (q_one bc nf mls R)) by (apply (made_more bc nf mls N L v 1 2 1 2); [lia|lia|exact O1]).
    assert (NO : forall d m, madem bc nf mls N L v d m None) by (intros d m x [=]).
    destruct (is_zero (q_one bc nf mls R)); cbn [q_r1 q_r2 q_r3]; (split; [exact O1|]; split; [exact O2|]); intros _.
    - assert (A : madem bc nf mls N L v 2 2 (qadds None (q_one bc nf mls R))) by (apply made_adds; [apply NO|exact M2]). split; [exact A|]. split; [apply made_adds; [apply NO|]; apply (made_more bc nf mls N L v 2 2 2 3); [lia|lia|exact A]|].
      split; intros q Hq; apply below_adds; exact Hq.
    - destruct (loop_sound bc nf mls N L v R Hm E (q_features nf mls R b)) with (st := QState (fun _ _ => None) None None) as (_ & A & B).
      + intros f Hf. apply filter_In in Hf. destruct Hf as [Hf _]. apply in_seq in Hf. lia.
      + split; [intros s f _ x [=]|split; apply NO].
      + assert (C : madem bc nf mls N L v 2 2 (qadds (q_two (q_loop bc mls R (q_features nf mls R b) (QState (fun _ _ => None) None None))) (q_one bc nf mls R))) by (apply made_adds; assumption).
        split; [exact C|]. split; [apply made_adds; [exact B|]; apply (made_more bc nf mls N L v 2 2 2 3); [lia|lia|exact C]|]. split; intros q Hq; apply below_adds; exact Hq.
  Qed.
End Results.

(** ** Histories of the regression solver *)
Section Reg.
  Context (cc : bool) (it : inst -> ritem) (nf mls : nat) (bc : Q) (root : view).
  Hypothesis Hok : forall x, item_ok (it x).
  Hypothesis Hplain : cc = false -> forall x, plain_fine (it x).
  Hypothesis Hm : 1 <= mls.
  Hypothesis Hs : view_sorted root.
  Hypothesis Hroot : wf_view nf root.
  Definition qstate_m (st : qterm) : Prop :=
    match qt_data st with
    | None => True
    | Some u => exists b, u = restrict b root /\ 1 <= qt_nodes st /\ qcells cc it nf (qt_nodes st =? 1) u (qt_calc st) /\ sound_ok bc nf mls (NN it) (LL it) u (qt_nodes st =? 1) (qt_res st)
    end.
  Lemma call_sound st b n : 1 <= n -> qstate_m st -> let st' := q_call cc it bc nf mls st (restrict b root) b n in
    qstate_m st' /\ sound_ok bc nf mls (NN it) (LL it) (restrict b root) (n =? 1) (qt_res st').
  Proof.
    intros Hn H. cbn zeta. unfold q_call.
    assert (F : forall k, qcells cc it nf (n =? 1) (restrict b root) k -> let st' := QTerm (Some (restrict b root)) n k (q_results bc nf mls (reads_of cc nf k) b n) in qstate_m st' /\ sound_ok bc nf mls (NN it) (LL it) (restrict b root) (n =? 1) (qt_res st')).
    { intros k Hk. cbn zeta. unfold qstate_m. cbn [qt_data qt_nodes qt_calc qt_res].
      assert (G : sound_ok bc nf mls (NN it) (LL it) (restrict b root) (n =? 1) (q_results bc nf mls (reads_of cc nf k) b n)).
      { apply results_sound; [exact Hm|exact Hn|]. apply reads_exact; try assumption. apply wf_restrict. exact Hroot. }
      split; [exists b|]; auto. }
    destruct (qt_data st) as [u|] eqn:Ed; [|apply F, fresh_cells; assumption].
    destruct (Bool.eqb (n =? 1) (qt_nodes st =? 1)) eqn:Eo; [|apply F, fresh_cells; assumption]. apply Bool.eqb_prop in Eo.
    unfold qstate_m in H. rewrite Ed in H. destruct H as (b0 & -> & Hn0 & Hc0 & Hr0).
    destruct ((vsize (diff_add (restrict b0 root) (restrict b root)) =? 0) && (vsize (diff_remove (restrict b0 root) (restrict b root)) =? 0)) eqn:E0.
    - apply andb_true_iff in E0. destruct E0 as [E1 E2]. apply Nat.eqb_eq in E1, E2. pose proof (diff_none b0 b root Hs E1 E2) as Eq. rewrite Eo, <- Eq.
      split; [|exact Hr0]. unfold qstate_m. rewrite Ed. exists b0. auto.
    - destruct (_ <? _); [|apply F, fresh_cells; assumption]. apply F. rewrite Eo. apply more_cells; assumption.
  Qed.
  Definition q_uses_m (uses : list (branch * quse)) : qterm :=
    fold_left (fun st c => q_use cc it bc nf mls st (restrict (fst c) root) (fst c) (snd c)) uses qterm0.
  Lemma uses_sound uses b n : Forall (fun c => use_ok (snd c)) uses -> 1 <= n -> sound_ok bc nf mls (NN it) (LL it) (restrict b root) (n =? 1) (qt_res (q_uses_m (uses ++ [(b, Solve n)]))).
  Proof.
    intros Hf Hn. unfold q_uses_m. rewrite fold_left_app. cbn [fold_left fst snd q_use]. apply call_sound; [exact Hn|].
    assert (G : forall st, qstate_m st -> qstate_m (fold_left (fun st c => q_use cc it bc nf mls st (restrict (fst c) root) (fst c) (snd c)) uses st)).
    { induction Hf as [|c uses Hc _ IH]; intros st H; cbn [fold_left]; [exact H|]. apply IH. destruct (snd c) as [m|x]; [apply call_sound; assumption|exact I]. }
    apply G. exact I.
  Qed.
End Reg.
