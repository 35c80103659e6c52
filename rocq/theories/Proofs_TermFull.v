(** The depth-two solver with any minimum leaf size: it misses no tree, except trees of two nodes on
    at least three and less than nearly four times as many rows as a leaf needs. *)
From Coq Require Import List Arith Bool Lia ZArith QArith Lqa Permutation Sorted.
From Verif Require Import Base_Q Model_FeatureVector Model_Data Model_Node Model_Terminal Model_Regression Model_SimpleLinear Model_TermReg Spec_Tree
  Proofs_View Proofs_Diff Proofs_Feature Proofs_Calc Proofs_TermState Props_Regression Proofs_TermReg Proofs_TermSound.
Import ListNotations.
Local Open Scope nat_scope.

Section Full.
  Context (bc : Q) (nf mls : nat) (N : view -> Z) (L : view -> Q) (v : view) (R : reads) (b : branch).
  Hypothesis Hbc : (0 <= bc)%Q.
  Hypothesis Hm : 1 <= mls.
  Hypothesis HN : forall u f, N u = (N (split_left f u) + N (split_right f u))%Z.
  Hypothesis HN0 : forall u, (0 <= N u)%Z.
  Hypothesis HN1 : forall u, (1 <= N u)%Z <-> 1 <= vsize u.
  Hypothesis HL : forall u, (0 <= L u)%Q.
  Hypothesis E : rexact nf N L v R false.
  Notation big u := (Z.of_nat mls <= N u)%Z.

  (** The table for root [f] and side [s] knows the split on [g]. *)
  Definition sv (s : bool) (f g : nat) : Q := (bc + (L (split_left g (sd s f v)) + L (split_right g (sd s f v))))%Q.
  Definition covers (st : qstate) (s : bool) (f g : nat) : Prop :=
    big (split_left g (sd s f v)) -> big (split_right g (sd s f v)) -> below (q_ch st s f) (sv s f g).
  Definition keeps (st st' : qstate) : Prop := forall s f q, below (q_ch st s f) q -> below (q_ch st' s f) q.
  Lemma keeps_covers st st' s f g : keeps st st' -> covers st s f g -> covers st' s f g.
  Proof. intros K C A B. apply K, C; assumption. Qed.
  Lemma child_keeps s f g na nb x y st : keeps st (q_child bc mls s f g na nb x y st).
  Proof.
    intros s' f' q H. unfold q_child. destruct (enough mls na && enough mls nb); [|exact H]. cbn [q_ch]. unfold ch_set. destruct (Bool.eqb s s' && (f =? f')); [apply below_add; exact H|exact H].
  Qed.
  Lemma child_covers s f g na nb x y st : na = N (split_left g (sd s f v)) -> nb = N (split_right g (sd s f v)) ->
    ((1 <= na)%Z -> x == L (split_left g (sd s f v)))%Q -> ((1 <= nb)%Z -> y == L (split_right g (sd s f v)))%Q -> covers (q_child bc mls s f g na nb x y st) s f g.
  Proof.
    intros Ha Hb Hx Hy A B. unfold q_child. rewrite Ha, Hb, (proj2 (enough_m mls _) A), (proj2 (enough_m mls _) B). cbn [andb q_ch]. unfold ch_set. rewrite Bool.eqb_reflx, Nat.eqb_refl. cbn [andb].
    destruct (qadd_le (q_ch st s f) (QN (Some g) (x + y + bc)%Q 0 0)) as (z & Ez & Lz & _). exists z. split; [exact Ez|]. cbn [n_val] in Lz. rewrite (Hx ltac:(lia)), (Hy ltac:(lia)) in Lz. unfold sv. lra.
  Qed.
  Lemma pair_covers f1 f2 st : f1 < nf -> f2 < nf -> keeps st (q_pair bc mls R f1 st f2) /\ forall s, covers (q_pair bc mls R f1 st f2) s f1 f2 /\ covers (q_pair bc mls R f1 st f2) s f2 f1.
  Proof.
    intros H1 H2. unfold q_pair.
    assert (EN : forall s t, rd_n2 R s t f1 f2 = N (sd t f2 (sd s f1 v))) by (intros; apply (re_n2 _ _ _ _ _ _ E eq_refl); assumption).
    assert (EL : forall s t, (1 <= rd_n2 R s t f1 f2)%Z -> (rd_leaf2 R s t f1 f2 == L (sd t f2 (sd s f1 v)))%Q) by (intros s t K; apply (re_leaf2 _ _ _ _ _ _ E eq_refl); [assumption|assumption|rewrite <- EN; exact K]).
    cbn zeta. set (s1 := q_child bc mls false f1 f2 _ _ _ _ st). set (s2 := q_child bc mls true f1 f2 _ _ _ _ s1). set (s3 := q_child bc mls false f2 f1 _ _ _ _ s2). set (s4 := q_child bc mls true f2 f1 _ _ _ _ s3).
    assert (K1 : keeps st s1) by apply child_keeps. assert (K2 : keeps s1 s2) by apply child_keeps. assert (K3 : keeps s2 s3) by apply child_keeps. assert (K4 : keeps s3 s4) by apply child_keeps.
    assert (C1 : covers s1 false f1 f2) by (apply child_covers; [apply EN|apply EN|apply (EL false false)|apply (EL false true)]).
    assert (C2 : covers s2 true f1 f2) by (apply child_covers; [apply EN|apply EN|apply (EL true false)|apply (EL true true)]).
    assert (X : forall s t, sd t f2 (sd s f1 v) = sd s f1 (sd t f2 v)) by (intros; apply split_comm).
    assert (C3 : covers s3 false f2 f1).
    { apply child_covers; [rewrite EN, (X false false); reflexivity|rewrite EN, (X true false); reflexivity| |]; intro K; [rewrite (EL _ _ K), (X false false)|rewrite (EL _ _ K), (X true false)]; reflexivity. }
    assert (C4 : covers s4 true f2 f1).
    { apply child_covers; [rewrite EN, (X false true); reflexivity|rewrite EN, (X true true); reflexivity| |]; intro K; [rewrite (EL _ _ K), (X false true)|rewrite (EL _ _ K), (X true true)]; reflexivity. }
    split; [intros s f q H; apply K4, K3, K2, K1; exact H|]. intros [|]; split.
    - exact (keeps_covers _ _ _ _ _ K4 (keeps_covers _ _ _ _ _ K3 C2)).
    - exact C4.
    - exact (keeps_covers _ _ _ _ _ K4 (keeps_covers _ _ _ _ _ K3 (keeps_covers _ _ _ _ _ K2 C1))).
    - exact (keeps_covers _ _ _ _ _ K4 C3).
  Qed.
  Lemma fold_covers f1 r : f1 < nf -> (forall f, In f r -> f < nf) -> forall st, keeps st (fold_left (q_pair bc mls R f1) r st)
    /\ (forall g s, In g r -> covers (fold_left (q_pair bc mls R f1) r st) s f1 g /\ covers (fold_left (q_pair bc mls R f1) r st) s g f1)
    /\ q_two (fold_left (q_pair bc mls R f1) r st) = q_two st /\ q_three (fold_left (q_pair bc mls R f1) r st) = q_three st.
  Proof.
    intros H1. induction r as [|g r IH]; intros Hr st; cbn [fold_left].
    { split; [intros s f q H; exact H|]. split; [intros g s []|auto]. }
    destruct (pair_covers f1 g st H1 (Hr g (or_introl eq_refl))) as [K C]. destruct (IH (fun f Hf => Hr f (or_intror Hf)) (q_pair bc mls R f1 st g)) as (K' & C' & T2 & T3).
    split; [intros s f q H; apply K', K; exact H|]. split.
    - intros h s [<-|Hh]; [|apply C'; exact Hh]. destruct (C s) as [A B]. split; apply (keeps_covers _ _ _ _ _ K'); assumption.
    - assert (T : q_two (q_pair bc mls R f1 st g) = q_two st /\ q_three (q_pair bc mls R f1 st g) = q_three st).
      { unfold q_pair. assert (X : forall s f g na nb x y st, q_two (q_child bc mls s f g na nb x y st) = q_two st /\ q_three (q_child bc mls s f g na nb x y st) = q_three st) by (intros; unfold q_child; destruct (_ && _); auto).
        cbn zeta. rewrite !(proj1 (X _ _ _ _ _ _ _ _)), !(proj2 (X _ _ _ _ _ _ _ _)). auto. }
      rewrite T2, T3. exact T.
  Qed.
  (** A feature does not split the parts it made. *)
  Lemma self_covers st s f : covers st s f f.
  Proof.
    intros A B. exfalso. assert (A' : 1 <= vsize (split_left f (sd s f v))) by (apply HN1; lia). assert (B' : 1 <= vsize (split_right f (sd s f v))) by (apply HN1; lia). destruct s; cbn [sd] in *.
    - assert (vsize (split_left f (split_right f v)) = 0); [|lia]. unfold vsize. rewrite concat_split_left, concat_split_right, filter_filter. rewrite filter_all_false; [reflexivity|]. intros y _. destruct (has f y); reflexivity.
    - assert (vsize (split_right f (split_left f v)) = 0); [|lia]. unfold vsize. rewrite concat_split_right, concat_split_left, filter_filter. rewrite filter_all_false; [reflexivity|]. intros y _. destruct (has f y); reflexivity.
  Qed.
  Lemma both_keeps f l r o q : below o q -> below (q_both bc f l r o) q.
  Proof. intro H. unfold q_both. destruct l; [destruct r; [apply below_add|]|destruct r]; exact H. Qed.
  Lemma both_below f l r o p q : below l p -> below r q -> below (q_both bc f l r o) (bc + (p + q))%Q.
  Proof.
    intros (x & -> & A) (y & -> & B). unfold q_both. destruct (qadd_le o (q_combine bc f x y)) as (z & Ez & Lz & _). exists z. split; [exact Ez|]. cbn [q_combine n_val] in Lz. lra.
  Qed.
  Lemma leaf_below s f : f < nf -> big (sd s f v) -> below (q_leaf mls R s f) (L (sd s f v)).
  Proof.
    intros Hf A. unfold q_leaf. rewrite (re_n1 _ _ _ _ _ _ E s f Hf), (proj2 (enough_m mls _) A). destruct (qadd_le None (QN None (rd_leaf1 R s f) 0 0)) as (z & Ez & Lz & _). exists z. split; [exact Ez|]. cbn [n_val] in Lz.
    rewrite (re_leaf1 _ _ _ _ _ _ E s f Hf ltac:(lia)) in Lz. exact Lz.
  Qed.
  (** What is known of a tree of two or three nodes with root [f]. *)
  Definition two_in (st : qstate) (f : nat) (all : list nat) : Prop := forall s g, In g all -> big (split_left g (sd s f v)) -> big (split_right g (sd s f v)) -> big (sd (negb s) f v) ->
    below (q_two st) (bc + (sv s f g + L (sd (negb s) f v)))%Q.
  Definition three_in (st : qstate) (f : nat) (all : list nat) : Prop := forall g h, In g all -> In h all ->
    big (split_left g (split_left f v)) -> big (split_right g (split_left f v)) -> big (split_left h (split_right f v)) -> big (split_right h (split_right f v)) ->
    below (q_three st) (bc + (sv false f g + sv true f h))%Q.
  Lemma update_in f st all : f < nf -> (forall s g, In g all -> covers st s f g) -> let st' := q_update3 bc (q_update2 bc mls R st f) f in
    keeps st st' /\ (forall q, below (q_two st) q -> below (q_two st') q) /\ (forall q, below (q_three st) q -> below (q_three st') q) /\ two_in st' f all /\ three_in st' f all.
  Proof.
    intros Hf C. cbn zeta. unfold q_update3, q_update2, keeps, two_in, three_in. cbn [q_ch q_two q_three]. split; [auto|]. split; [intros q H; do 2 apply both_keeps; exact H|]. split; [intros q H; apply both_keeps; exact H|]. split.
    - intros s g Hg A B D. destruct s; cbn [negb] in *.
      + eapply below_le; [|apply both_below; [apply (leaf_below false f Hf); exact D|apply (C true g Hg); assumption]]. lra.
      + apply both_keeps. apply both_below; [apply (C false g Hg); assumption|apply (leaf_below true f Hf); exact D].
    - intros g h Hg Hh A B A' B'. apply both_below; [apply (C false g Hg); assumption|apply (C true h Hh); assumption].
  Qed.
  Lemma loop_keeps fs : (forall f, In f fs -> f < nf) -> forall st, (forall q, below (q_two st) q -> below (q_two (q_loop bc mls R fs st)) q) /\ (forall q, below (q_three st) q -> below (q_three (q_loop bc mls R fs st)) q).
  Proof.
    induction fs as [|f r IH]; intros Hfs st; cbn [q_loop]; [auto|]. destruct (is_zero (q_three st)); [auto|].
    assert (Hf : f < nf) by (apply Hfs; left; reflexivity). destruct (fold_covers f r Hf (fun g Hg => Hfs g (or_intror Hg)) st) as (_ & _ & T2 & T3).
    destruct (update_in f (fold_left (q_pair bc mls R f) r st) [] Hf) as (_ & U2 & U3 & _); [intros s g []|]. destruct (IH (fun g Hg => Hfs g (or_intror Hg)) (q_update3 bc (q_update2 bc mls R (fold_left (q_pair bc mls R f) r st) f) f)) as [I2 I3].
    rewrite <- T2, <- T3. split; intros q H; [apply I2, U2|apply I3, U3]; exact H.
  Qed.
  Lemma loop_in all fs : (forall f, In f all -> f < nf) -> forall dn st, dn ++ fs = all -> (forall f g s, In f fs -> In g dn -> covers st s f g) ->
    let st' := q_loop bc mls R fs st in below (q_three st') 0 \/ forall f, In f fs -> two_in st' f all /\ three_in st' f all.
  Proof.
    intro Hall. induction fs as [|f r IH]; intros dn st Ed C; cbn zeta; cbn [q_loop]; [right; intros f []|].
    destruct (is_zero (q_three st)) eqn:Ez; [left; destruct (is_zero_spec _ Ez) as (x & Ex & Vx); exists x; split; [exact Ex|rewrite Vx; apply Qle_refl]|].
    assert (Hin : forall g, In g (f :: r) -> g < nf) by (intros g Hg; apply Hall; rewrite <- Ed; apply in_or_app; right; exact Hg).
    assert (Hf : f < nf) by (apply Hin; left; reflexivity). destruct (fold_covers f r Hf (fun g Hg => Hin g (or_intror Hg)) st) as (K & CC & T2 & T3). set (st1 := fold_left (q_pair bc mls R f) r st) in *.
    destruct (update_in f st1 all Hf) as (K' & U2 & U3 & V2 & V3).
    { intros s g Hg. rewrite <- Ed in Hg. apply in_app_or in Hg. destruct Hg as [Hg|[<-|Hg]]; [apply (keeps_covers st); [exact K|apply C; [left; reflexivity|exact Hg]]|apply self_covers|apply CC; exact Hg]. }
    set (st2 := q_update3 bc (q_update2 bc mls R st1 f) f) in *. destruct (IH (dn ++ [f]) st2) as [Z|I].
    - rewrite <- app_assoc. exact Ed.
    - intros f' g s Hf' Hg. apply (keeps_covers st1); [exact K'|]. apply in_app_or in Hg. destruct Hg as [Hg|[<-|[]]]; [apply (keeps_covers st); [exact K|apply C; [right; exact Hf'|exact Hg]]|apply CC; exact Hf'].
    - left. exact Z.
    - right. intros h [<-|Hh]; [|apply I; exact Hh]. destruct (loop_keeps r (fun g Hg => Hin g (or_intror Hg)) st2) as [L2 L3]. split.
      + intros s g Hg A B D. apply L2, V2; assumption.
      + intros g h Hg Hh A B A' B'. apply L3, V3; assumption.
  Qed.
End Full.

Section Whole.
  Context (bc : Q) (nf mls : nat) (N : view -> Z) (L : view -> Q) (v : view).
  Hypothesis Hbc : (0 <= bc)%Q.
  Hypothesis Hm : 1 <= mls.
  Hypothesis HN : forall u f, N u = (N (split_left f u) + N (split_right f u))%Z.
  Hypothesis HN0 : forall u, (0 <= N u)%Z.
  Hypothesis HN1 : forall u, (1 <= N u)%Z <-> 1 <= vsize u.
  Hypothesis HL : forall u, (0 <= L u)%Q.
  (** Trees with two nodes do not fit, or their features are all tried. *)
  Definition roomy (n : Z) : Prop := (n < 3 * Z.of_nat mls \/ 4 * Z.of_nat mls - 1 <= n)%Z.
  Definition full_ok (one : bool) (r : qres) : Prop := sound_ok bc nf mls N L v one r
    /\ ((Z.of_nat mls <= N v)%Z -> one = false -> roomy (N v) ->
         (forall t, tokm nf mls N v t -> depth t <= 2 -> nodes t <= 3 -> below (q_r3 r) (tv bc L v t))
         /\ ((0 < bc)%Q -> forall t, tokm nf mls N v t -> depth t <= 2 -> nodes t <= 2 -> below (q_r2 r) (tv bc L v t))).
  Lemma tokm_size t : forall u, tokm nf mls N u t -> (Z.of_nat mls * Z.of_nat (nodes t + 1) <= N u)%Z.
  Proof.
    induction t as [a|f l IHl r IHr]; intros u; cbn [tokm nodes]; [lia|]. intros (_ & A & B). specialize (IHl _ A). specialize (IHr _ B). rewrite (HN u f). nia.
  Qed.
  Lemma results_full (R : reads) b n : blind b v -> 1 <= n -> rexact nf N L v R (n =? 1) -> full_ok (n =? 1) (q_results bc nf mls R b n).
  Proof.
    intros Hb Hn E. split; [apply results_sound; assumption|]. intros Hv One Hroom. rewrite One in E. destruct (one_sound bc nf mls N L v R Hm false E Hv) as [O1 O2].
    unfold q_results. rewrite (re_n _ _ _ _ _ _ E), One. replace (N v <? Z.of_nat mls)%Z with false by (symmetry; apply Z.ltb_ge; exact Hv).
    assert (ZB : forall o t, below o 0 -> below o (tv bc L v t)) by (intros o t H; eapply below_le; [|exact H]; apply tv_nonneg; assumption).
    destruct (is_zero (q_one bc nf mls R)) eqn:Ez; cbn [q_r2 q_r3].
    { assert (Z : below (q_one bc nf mls R) 0) by (destruct (is_zero_spec _ Ez) as (x & Ex & Vx); exists x; split; [exact Ex|rewrite Vx; apply Qle_refl]).
      split; [intros t _ _ _; apply ZB; do 2 apply below_adds; exact Z|intros _ t _ _ _; apply ZB, below_adds; exact Z]. }
    set (all := q_features nf mls R b). set (st := q_loop bc mls R all (QState (fun _ _ => None) None None)).
    assert (Hall : forall f, In f all -> f < nf) by (intros f Hf; apply filter_In in Hf; destruct Hf as [Hf _]; apply in_seq in Hf; lia).
    assert (IN : forall f, f < nf -> (Z.of_nat mls <= N (split_left f v))%Z -> (Z.of_nat mls <= N (split_right f v))%Z -> (3 * Z.of_nat mls <= N v)%Z -> In f all).
    { intros f Hf A B C. apply filter_In. split; [apply in_seq; lia|]. rewrite !(re_n1 _ _ _ _ _ _ E _ _ Hf). cbn [sd]. rewrite (proj2 (enough_m _ _) A), (proj2 (enough_m _ _) B), !andb_true_r.
      apply andb_true_iff. split.
      - apply negb_true_iff. destruct (br_has b f) eqn:Eb; [|reflexivity]. assert (1 <= vsize (split_left f v)) by (apply HN1; lia). assert (1 <= vsize (split_right f v)) by (apply HN1; lia). destruct (Hb f Eb); lia.
      - apply negb_true_iff, andb_false_iff. pose proof (HN v f) as S. unfold roomy in Hroom. rewrite !Z.ltb_ge. lia. }
    assert (PART : forall s f g, (Z.of_nat mls <= N (split_left g (sd s f v)))%Z -> (Z.of_nat mls <= N (split_right g (sd s f v)))%Z -> (Z.of_nat mls <= N (split_left g v))%Z /\ (Z.of_nat mls <= N (split_right g v))%Z).
    { intros s f g A B. pose proof (N_part N HN HN0 s f (split_left g v)) as P. pose proof (f_equal N (split_comm false s g f v)) as Q. change (sd false g v) with (split_left g v) in Q. change (sd false g (sd s f v)) with (split_left g (sd s f v)) in Q.
      pose proof (N_part N HN HN0 s f (split_right g v)) as P'. pose proof (f_equal N (split_comm true s g f v)) as Q'. change (sd true g v) with (split_right g v) in Q'. change (sd true g (sd s f v)) with (split_right g (sd s f v)) in Q'. lia. }
    destruct (loop_in bc nf mls N L v R Hm HN1 E all all Hall [] (QState (fun _ _ => None) None None) eq_refl) as [Z|I]; [intros f g s _ []| |]; fold st in Z || fold st in I.
    - split; [intros t _ _ _; apply ZB; destruct Z as (x & Ex & Lx); destruct (proj1 (proj2 (qadds_le (q_three st) (qadds (q_two st) (q_one bc nf mls R)))) x Ex) as (y & Ey & Ly); exists y; split; [exact Ey|lra]|].
      intros Hp t _ _ _. apply ZB, below_adds. destruct Z as (x & Ex & Lx).
      destruct (loop_sound bc nf mls N L v R Hm E all Hall (QState (fun _ _ => None) None None)) as (_ & _ & M); [split; [intros s f _ y [=]|split; intros y [=]]|]. fold st in M.
      destruct (M x Ex) as (t' & (W1 & W2 & _) & _). destruct t' as [a|f l r].
      + eapply below_le; [|apply (O2 (Leaf 0)); [exact Hv|cbn; lia]]. cbn [tv] in *. lra.
      + exfalso. cbn [tv] in W2. pose proof (tv_nonneg bc L Hbc HL l (split_left f v)). pose proof (tv_nonneg bc L Hbc HL r (split_right f v)). lra.
    - assert (TWO : forall t, tokm nf mls N v t -> depth t <= 2 -> nodes t <= 2 -> below (qadds (q_two st) (q_one bc nf mls R)) (tv bc L v t)).
      { intros t Ht Hd Hk. destruct (Nat.le_gt_cases (nodes t) 1) as [H|H]; [apply below_adds, O2; assumption|].
        assert (Q : below (q_two st) (tv bc L v t)).
        { pose proof (tokm_size t v Ht) as S. assert (S3 : (3 * Z.of_nat mls <= N v)%Z) by nia. destruct t as [|f l r]; [cbn in H; lia|]. cbn [tokm] in Ht. destruct Ht as (Hf & Tl & Tr). pose proof (tokm_size l _ Tl) as Sl. pose proof (tokm_size r _ Tr) as Sr.
          assert (If : In f all) by (apply IN; [exact Hf|nia|nia|exact S3]). destruct (I f If) as [I2 _]. cbn [nodes] in Hk, H. cbn [tv].
          destruct l as [a|g [a|] [c|]]; destruct r as [a'|g' [a'|] [c'|]]; cbn [nodes depth] in *; try lia; cbn [tokm] in Tl, Tr.
          - destruct Tr as (Hg & A & B). destruct (PART true f g' A B) as [P0 P1]. eapply below_le; [|apply (I2 true g'); [apply IN; assumption|exact A|exact B|exact Tl]]. unfold sv. cbn [negb sd tv]. lra.
          - destruct Tl as (Hg & A & B). destruct (PART false f g A B) as [P0 P1]. eapply below_le; [|apply (I2 false g); [apply IN; assumption|exact A|exact B|exact Tr]]. unfold sv. cbn [negb sd tv]. lra. }
        destruct Q as (x & Ex & Lx). destruct (proj1 (proj2 (qadds_le (q_two st) (q_one bc nf mls R))) x Ex) as (y & Ey & Ly). exists y. split; [exact Ey|lra]. }
      split; [|intros _; exact TWO]. intros t Ht Hd Hk. destruct (Nat.le_gt_cases (nodes t) 2) as [H|H]; [apply below_adds, TWO; assumption|].
      assert (Q : below (q_three st) (tv bc L v t)).
      { pose proof (tokm_size t v Ht) as S. assert (S3 : (3 * Z.of_nat mls <= N v)%Z) by nia. destruct t as [|f l r]; [cbn in H; lia|]. cbn [tokm] in Ht. destruct Ht as (Hf & Tl & Tr). pose proof (tokm_size l _ Tl) as Sl. pose proof (tokm_size r _ Tr) as Sr.
        assert (If : In f all) by (apply IN; [exact Hf|nia|nia|exact S3]). destruct (I f If) as [_ I3]. cbn [nodes] in Hk, H. cbn [tv].
        destruct l as [a|g [a|] [c|]]; destruct r as [a'|g' [a'|] [c'|]]; cbn [nodes depth] in *; try lia; cbn [tokm] in Tl, Tr.
        destruct Tl as (Hg & A & B). destruct Tr as (Hg' & A' & B'). destruct (PART false f g A B) as [P0 P1]. destruct (PART true f g' A' B') as [P0' P1'].
        eapply below_le; [|apply (I3 g g'); [apply IN; assumption|apply IN; assumption|exact A|exact B|exact A'|exact B']]. unfold sv. cbn [sd tv]. lra. }
      destruct Q as (x & Ex & Lx). destruct (proj1 (proj2 (qadds_le (q_three st) (qadds (q_two st) (q_one bc nf mls R)))) x Ex) as (y & Ey & Ly). exists y. split; [exact Ey|lra].
  Qed.
End Whole.

(** ** Histories of the regression solver *)
Section RegFull.
  Context (cc : bool) (it : inst -> ritem) (nf mls : nat) (bc : Q) (root : view).
  Hypothesis Hok : forall x, item_ok (it x).
  Hypothesis Hplain : cc = false -> forall x, plain_fine (it x).
  Hypothesis Hm : 1 <= mls.
  Hypothesis Hbc : (0 <= bc)%Q.
  Hypothesis Hs : view_sorted root.
  Hypothesis Hroot : wf_view nf root.
  Definition qstate_f (st : qterm) : Prop :=
    match qt_data st with
    | None => True
    | Some u => exists b, u = restrict b root /\ 1 <= qt_nodes st /\ qcells cc it nf (qt_nodes st =? 1) u (qt_calc st) /\ full_ok bc nf mls (NN it) (LL it) u (qt_nodes st =? 1) (qt_res st)
    end.
  Lemma call_full st b n : 1 <= n -> qstate_f st -> let st' := q_call cc it bc nf mls st (restrict b root) b n in
    qstate_f st' /\ full_ok bc nf mls (NN it) (LL it) (restrict b root) (n =? 1) (qt_res st').
  Proof.
    intros Hn H. cbn zeta. unfold q_call.
    assert (F : forall k, qcells cc it nf (n =? 1) (restrict b root) k -> let st' := QTerm (Some (restrict b root)) n k (q_results bc nf mls (reads_of cc nf k) b n) in qstate_f st' /\ full_ok bc nf mls (NN it) (LL it) (restrict b root) (n =? 1) (qt_res st')).
    { intros k Hk. cbn zeta. unfold qstate_f. cbn [qt_data qt_nodes qt_calc qt_res].
      assert (G : full_ok bc nf mls (NN it) (LL it) (restrict b root) (n =? 1) (q_results bc nf mls (reads_of cc nf k) b n)).
      { apply results_full; [exact Hbc|exact Hm|apply NN_split|apply NN_nonneg|apply NN_pos; exact Hok|apply LL_nonneg; exact Hok|apply blind_restrict|exact Hn|]. apply reads_exact; try assumption. apply wf_restrict. exact Hroot. }
      split; [exists b|]; auto. }
    destruct (qt_data st) as [u|] eqn:Ed; [|apply F, fresh_cells; assumption].
    destruct (Bool.eqb (n =? 1) (qt_nodes st =? 1)) eqn:Eo; [|apply F, fresh_cells; assumption]. apply Bool.eqb_prop in Eo.
    unfold qstate_f in H. rewrite Ed in H. destruct H as (b0 & -> & Hn0 & Hc0 & Hr0).
    destruct ((vsize (diff_add (restrict b0 root) (restrict b root)) =? 0) && (vsize (diff_remove (restrict b0 root) (restrict b root)) =? 0)) eqn:E0.
    - apply andb_true_iff in E0. destruct E0 as [E1 E2]. apply Nat.eqb_eq in E1, E2. pose proof (diff_none b0 b root Hs E1 E2) as Eq. rewrite Eo, <- Eq.
      split; [|exact Hr0]. unfold qstate_f. rewrite Ed. exists b0. auto.
    - destruct (_ <? _); [|apply F, fresh_cells; assumption]. apply F. rewrite Eo. apply more_cells; assumption.
  Qed.
  Lemma uses_full uses b n : Forall (fun c => use_ok (snd c)) uses -> 1 <= n -> full_ok bc nf mls (NN it) (LL it) (restrict b root) (n =? 1) (qt_res (q_uses_m cc it nf mls bc root (uses ++ [(b, Solve n)]))).
  Proof.
    intros Hf Hn. unfold q_uses_m. rewrite fold_left_app. cbn [fold_left fst snd q_use]. apply call_full; [exact Hn|].
    assert (G : forall st, qstate_f st -> qstate_f (fold_left (fun st c => q_use cc it bc nf mls st (restrict (fst c) root) (fst c) (snd c)) uses st)).
    { induction Hf as [|c uses Hc _ IH]; intros st H; cbn [fold_left]; [exact H|]. apply IH. destruct (snd c) as [m|x]; [apply call_full; assumption|exact I]. }
    apply G. exact I.
  Qed.
End RegFull.
