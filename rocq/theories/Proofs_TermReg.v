(** The depth-two solver for regression finds the best trees. *)
From Coq Require Import List Arith Bool Lia ZArith QArith Qabs Lqa Permutation Sorted.
From Verif Require Import Proofs_RecCalc Base_Q Model_FeatureVector Model_Data Model_Node Model_Terminal Model_Regression Model_SimpleLinear Model_TermReg Spec_Tree
  Proofs_View Proofs_Diff Proofs_Feature Proofs_Calc Proofs_TermState Props_Regression Model_RegFit Proofs_RegFit.
Import ListNotations.
Local Open Scope nat_scope.

Lemma qlt_spec a b : qlt a b = true <-> (a < b)%Q.
Proof. unfold qlt. rewrite negb_true_iff. split; intro H; [apply Qnot_le_lt; intro L; apply Qle_bool_iff in L; congruence|]. destruct (Qle_bool b a) eqn:E; [|reflexivity]. apply Qle_bool_iff in E. lra. Qed.
Lemma qlt_false a b : qlt a b = false -> (b <= a)%Q.
Proof. intro H. apply Qnot_lt_le. intro L. apply qlt_spec in L. congruence. Qed.

(** ** The best of a set of solutions *)
Definition optb (C : qnode -> Prop) (o : option qnode) : Prop :=
  match o with None => forall c, ~ C c | Some x => C x /\ forall c, C c -> (n_val x <= n_val c)%Q end.
Lemma optb_ext C D o : (forall x, C x <-> D x) -> optb C o -> optb D o.
Proof. intro H. destruct o as [x|]; cbn; [intros [A B]; split; [apply H; exact A|intros c Hc; apply B, H, Hc]|intros A c Hc; apply (A c), H, Hc]. Qed.
Lemma optb_add (C D : qnode -> Prop) o c : optb C o -> D c -> (forall d, D d -> n_val d == n_val c)%Q -> optb (fun x => C x \/ D x) (qadd o c).
Proof.
  intros H Hc HD. unfold qadd. destruct o as [x|]; cbn [optb] in *.
  - destruct H as [A B]. destruct (qlt (n_val c) (n_val x)) eqn:E.
    + apply qlt_spec in E. split; [right; exact Hc|]. intros d [Hd|Hd]; [specialize (B d Hd); lra|rewrite (HD d Hd); lra].
    + apply qlt_false in E. split; [left; exact A|]. intros d [Hd|Hd]; [apply B; exact Hd|rewrite (HD d Hd); exact E].
  - split; [right; exact Hc|]. intros d [Hd|Hd]; [destruct (H d Hd)|rewrite (HD d Hd); lra].
Qed.
Lemma qadd_le o c : exists y, qadd o c = Some y /\ (n_val y <= n_val c)%Q /\ (o = Some y \/ y = c) /\ forall x, o = Some x -> (n_val y <= n_val x)%Q.
Proof.
  unfold qadd. destruct o as [x|].
  - destruct (qlt (n_val c) (n_val x)) eqn:E; eexists; (split; [reflexivity|]).
    + apply qlt_spec in E. split; [lra|]. split; [right; reflexivity|]. intros z [= <-]. lra.
    + apply qlt_false in E. split; [exact E|]. split; [left; reflexivity|]. intros z [= <-]. lra.
  - exists c. split; [reflexivity|]. split; [lra|]. split; [right; reflexivity|discriminate].
Qed.
Lemma qadds_le o p : (forall x, p = Some x -> exists y, qadds o p = Some y /\ (n_val y <= n_val x)%Q)
  /\ (forall x, o = Some x -> exists y, qadds o p = Some y /\ (n_val y <= n_val x)%Q)
  /\ (forall y, qadds o p = Some y -> o = Some y \/ p = Some y).
Proof.
  destruct p as [c|]; cbn [qadds].
  - destruct (qadd_le o c) as (y & E & A & B & D). rewrite E. split; [|split].
    + intros x [= <-]. exists y. auto.
    + intros x Hx. exists y. split; [reflexivity|apply D; exact Hx].
    + intros z [= <-]. destruct B as [B| ->]; auto.
  - split; [discriminate|]. split; [|auto]. intros x ->. exists x. split; [reflexivity|lra].
Qed.
Lemma is_zero_spec o : is_zero o = true -> exists x, o = Some x /\ (n_val x == 0)%Q.
Proof.
  destruct o as [x|]; [|discriminate]. unfold is_zero. intro H. apply Qle_bool_iff in H. exists x. split; [reflexivity|].
  assert (A : (Qabs (0 - n_val x) <= 0)%Q) by lra. pose proof (Qle_Qabs (0 - n_val x)) as B. pose proof (Qle_Qabs (- (0 - n_val x))) as C. rewrite Qabs_opp in C. lra.
Qed.

Section Search.
  Context (bc : Q) (nf : nat) (N : view -> Z) (L : view -> Q) (v : view) (R : reads) (b : branch).
  Hypothesis Hbc : (0 <= bc)%Q.
  Hypothesis HN : forall u f, N u = (N (split_left f u) + N (split_right f u))%Z.
  Hypothesis HN0 : forall u, (0 <= N u)%Z.
  Hypothesis HN1 : forall u, (1 <= N u)%Z <-> 1 <= vsize u.
  Hypothesis HL : forall u, (0 <= L u)%Q.

  Definition sd (s : bool) (f : nat) (u : view) : view := if s then split_right f u else split_left f u.

  (** The reads are right: sizes, and leaf costs of parts that are not empty. *)
  Record rexact (one : bool) : Prop := RExact {
    re_n : rd_n R = N v;
    re_leaf : (1 <= N v)%Z -> (rd_leaf R == L v)%Q;
    re_n1 : forall s f, f < nf -> rd_n1 R s f = N (sd s f v);
    re_leaf1 : forall s f, f < nf -> (1 <= N (sd s f v))%Z -> (rd_leaf1 R s f == L (sd s f v))%Q;
    re_n2 : one = false -> forall s t f g, f < nf -> g < nf -> rd_n2 R s t f g = N (sd t g (sd s f v));
    re_leaf2 : one = false -> forall s t f g, f < nf -> g < nf -> (1 <= N (sd t g (sd s f v)))%Z -> (rd_leaf2 R s t f g == L (sd t g (sd s f v)))%Q }.

  (** The value of a tree, and the trees within the limits. *)
  Fixpoint tv (u : view) (t : tree) : Q :=
    match t with Leaf _ => L u | Split f l r => (bc + (tv (split_left f u) l + tv (split_right f u) r))%Q end.
  Fixpoint tok (u : view) (t : tree) : Prop :=
    match t with Leaf _ => (1 <= N u)%Z | Split f l r => f < nf /\ tok (split_left f u) l /\ tok (split_right f u) r end.
  Lemma tv_nonneg t : forall u, (0 <= tv u t)%Q.
  Proof. induction t as [l|f l IHl r IHr]; intro u; cbn [tv]; [apply HL|]. pose proof (IHl (split_left f u)). pose proof (IHr (split_right f u)). lra. Qed.
  Lemma tok_size t : forall u, tok u t -> (1 <= N u)%Z.
  Proof. induction t as [l|f l IHl r IHr]; intros u; cbn [tok]; [auto|]. intros (_ & A & B). rewrite (HN u f). apply IHl in A. apply IHr in B. lia. Qed.
  (** A solution stands for a tree. *)
  Definition wit (u : view) (x : qnode) (t : tree) : Prop :=
    tok u t /\ (n_val x == tv u t)%Q
    /\ match t with Leaf _ => n_feat x = None /\ n_l x = 0 /\ n_r x = 0 | Split f l r => n_feat x = Some f /\ n_l x = nodes l /\ n_r x = nodes r end.
  Lemma wit_nodes u x t : wit u x t -> n_nodes x = nodes t.
  Proof. intros (_ & _ & H). unfold n_nodes. destruct t; destruct H as (-> & A & B); cbn [nodes]; lia. Qed.

  Lemma enough1 z : enough 1 z = true <-> (1 <= z)%Z.
  Proof. unfold enough. rewrite Z.leb_le. reflexivity. Qed.
  Lemma split_comm s t f g u : sd t g (sd s f u) = sd s f (sd t g u).
  Proof. destruct s, t; cbn [sd]; [apply split_comm_rr|apply split_comm_lr|symmetry; apply split_comm_lr|apply split_comm_ll]. Qed.
  Lemma N_part s f u : (N (sd s f u) <= N u)%Z.
  Proof. pose proof (HN u f). pose proof (HN0 (split_left f u)). pose proof (HN0 (split_right f u)). destruct s; cbn [sd]; lia. Qed.

  (** ** One split *)
  Definition one_cand (P : nat -> Prop) (x : qnode) : Prop :=
    (n_feat x = None /\ n_l x = 0 /\ n_r x = 0 /\ (n_val x == L v)%Q)
    \/ exists f, P f /\ f < nf /\ (1 <= N (split_left f v))%Z /\ (1 <= N (split_right f v))%Z
         /\ n_feat x = Some f /\ n_l x = 0 /\ n_r x = 0 /\ (n_val x == bc + (L (split_left f v) + L (split_right f v)))%Q.
  Lemma q_one_best one : rexact one -> (1 <= N v)%Z -> optb (one_cand (fun f => f < nf)) (q_one bc nf 1 R).
  Proof.
    intros E Hv. unfold q_one.
    assert (G : forall fs (P : nat -> Prop) o, (forall f, In f fs -> f < nf) -> optb (one_cand P) o -> optb (one_cand (fun f => P f \/ In f fs)) (fold_left (q_one_split bc 1 R) fs o)).
    { induction fs as [|f fs IH]; intros P o Hfs Ho; cbn [fold_left].
      - eapply optb_ext; [|exact Ho]. intro x. unfold one_cand. split; (intros [A|(f & B)]; [left; exact A|right; exists f; cbn [In] in *; tauto]).
      - assert (Hf : f < nf) by (apply Hfs; left; reflexivity).
        eapply optb_ext; [|apply (IH (fun g => P g \/ g = f)); [intros g Hg; apply Hfs; right; exact Hg|]].
        + intro x. unfold one_cand. cbn [In]. split; (intros [A|(g & B)]; [left; exact A|right; exists g; intuition congruence]).
        + unfold q_one_split. pose proof (re_n1 _ E false f Hf) as N0. pose proof (re_n1 _ E true f Hf) as N1'. cbn [sd] in *.
          destruct (enough 1 (rd_n1 R false f) && enough 1 (rd_n1 R true f)) eqn:Ec.
          * apply andb_true_iff in Ec. rewrite !enough1, N0, N1' in Ec. destruct Ec as [E0 E1].
            pose proof (re_leaf1 _ E false f Hf E0) as L0. pose proof (re_leaf1 _ E true f Hf E1) as L1. cbn [sd] in *.
            eapply optb_ext; [|apply (optb_add (one_cand P) (fun x => n_feat x = Some f /\ n_l x = 0 /\ n_r x = 0 /\ (n_val x == bc + (L (split_left f v) + L (split_right f v)))%Q) _ _ Ho)].
            -- intro x. unfold one_cand. split.
               ++ intros [[A|(g & A)]|A]; [left; exact A|right; exists g; tauto|right; exists f; tauto].
               ++ intros [A|(g & [A| ->] & B)]; [left; left; exact A|left; right; exists g; tauto|right; tauto].
            -- cbn [n_feat n_l n_r n_val]. repeat split. rewrite L0, L1. ring.
            -- intros d (_ & _ & _ & A). cbn [n_val]. rewrite A, L0, L1. ring.
          * eapply optb_ext; [|exact Ho]. intro x. unfold one_cand. split.
            -- intros [A|(g & A)]; [left; exact A|right; exists g; tauto].
            -- intros [A|(g & [A| ->] & B)]; [left; exact A|right; exists g; tauto|]. exfalso. destruct B as (_ & B0 & B1 & _). rewrite N0, N1' in Ec.
               rewrite (proj2 (enough1 _) B0), (proj2 (enough1 _) B1) in Ec. discriminate. }
    eapply optb_ext; [|apply (G (seq 0 nf) (fun _ => False))].
    - intro x. unfold one_cand. split; (intros [A|(f & B)]; [left; exact A|right; exists f; rewrite in_seq in *; intuition lia]).
    - intros f Hf. apply in_seq in Hf. lia.
    - cbn [qadd optb]. pose proof (re_leaf _ E Hv) as E0. split.
      + left. cbn [n_feat n_l n_r n_val]. auto.
      + intros c [(_ & _ & _ & A)|(f & [] & _)]. cbn [n_val]. rewrite A, E0. lra.
  Qed.
  Lemma one_cand_wit P x : (1 <= N v)%Z -> one_cand P x -> exists t, wit v x t /\ nodes t <= 1.
  Proof.
    intros Hv [(A & B & C & D)|(f & _ & Hf & E0 & E1 & A & B & C & D)].
    - exists (Leaf 0). split; [|cbn; lia]. split; [exact Hv|]. split; [exact D|]. auto.
    - exists (Split f (Leaf 0) (Leaf 0)). split; [|cbn; lia]. split; [cbn [tok]; auto|]. split; [exact D|]. auto.
  Qed.
  (** No tree with at most one split is better. *)
  Definition one_good (o : option qnode) : Prop :=
    exists x, o = Some x /\ (exists t, wit v x t /\ nodes t <= 1) /\ forall t, tok v t -> nodes t <= 1 -> (n_val x <= tv v t)%Q.
  Lemma q_one_good one : rexact one -> (1 <= N v)%Z -> one_good (q_one bc nf 1 R).
  Proof.
    intros E Hv. pose proof (q_one_best one E Hv) as H. destruct (q_one bc nf 1 R) as [x|].
    - destruct H as [A B]. exists x. split; [reflexivity|]. split; [apply (one_cand_wit _ x Hv A)|]. intros t Ht Hn. destruct t as [l|f l r].
      + apply (B (QN None (L v) 0 0)). left. cbn. repeat split; lra.
      + destruct l as [|? ? ?]; [|cbn in Hn; lia]. destruct r as [|? ? ?]; [|cbn in Hn; lia]. cbn [tok] in Ht. cbn [tv].
        apply (B (QN (Some f) (bc + (L (split_left f v) + L (split_right f v)))%Q 0 0)). right. exists f. cbn [n_feat n_l n_r n_val]. repeat split; try tauto; lra.
    - exfalso. apply (H (QN None (L v) 0 0)). left. cbn. repeat split; lra.
  Qed.

  (** ** Pairs *)
  Definition cand (s : bool) (f : nat) (P : nat -> Prop) (x : qnode) : Prop :=
    exists g, P g /\ (1 <= N (split_left g (sd s f v)))%Z /\ (1 <= N (split_right g (sd s f v)))%Z
      /\ n_feat x = Some g /\ n_l x = 0 /\ n_r x = 0 /\ (n_val x == bc + (L (split_left g (sd s f v)) + L (split_right g (sd s f v))))%Q.
  Lemma cand_ext s f P Q x : (forall g, P g <-> Q g) -> cand s f P x <-> cand s f Q x.
  Proof. intro H. split; intros (g & Hg & Hx); exists g; (split; [apply H; exact Hg|exact Hx]). Qed.
  Definition tables (P : nat -> Prop) (f : nat) (st : qstate) : Prop := forall s, optb (cand s f P) (q_ch st s f).
  Lemma tables_ext P Q f st : (forall g, P g <-> Q g) -> tables P f st -> tables Q f st.
  Proof. intros H A s. eapply optb_ext; [|apply A]. intro x. apply cand_ext. exact H. Qed.

  Lemma child_other s f g na nb x y st s' f' : (s <> s' \/ f <> f') -> q_ch (q_child bc 1 s f g na nb x y st) s' f' = q_ch st s' f'.
  Proof.
    intro H. unfold q_child. destruct (_ && _); [|reflexivity]. cbn [q_ch]. unfold ch_set. destruct (Bool.eqb s s') eqn:E1; [|reflexivity]. destruct (Nat.eqb_spec f f') as [E2|]; [|reflexivity].
    apply Bool.eqb_prop in E1. tauto.
  Qed.
  Lemma child_two s f g na nb x y st : q_two (q_child bc 1 s f g na nb x y st) = q_two st /\ q_three (q_child bc 1 s f g na nb x y st) = q_three st.
  Proof. unfold q_child. destruct (_ && _); split; reflexivity. Qed.
  Lemma child_same s f g na nb x y st P :
    na = N (split_left g (sd s f v)) -> nb = N (split_right g (sd s f v)) ->
    ((1 <= na)%Z -> x == L (split_left g (sd s f v)))%Q -> ((1 <= nb)%Z -> y == L (split_right g (sd s f v)))%Q ->
    optb (cand s f P) (q_ch st s f) -> optb (cand s f (fun h => P h \/ h = g)) (q_ch (q_child bc 1 s f g na nb x y st) s f).
  Proof.
    intros Ha Hb Hx Hy H. unfold q_child. destruct (enough 1 na && enough 1 nb) eqn:E.
    - apply andb_true_iff in E. rewrite !enough1 in E. destruct E as [E1 E2]. cbn [q_ch]. unfold ch_set. rewrite Bool.eqb_reflx, Nat.eqb_refl. cbn [andb].
      eapply optb_ext; [|apply (optb_add _ (fun z => n_feat z = Some g /\ n_l z = 0 /\ n_r z = 0 /\ (n_val z == bc + (L (split_left g (sd s f v)) + L (split_right g (sd s f v))))%Q) _ _ H)].
      + intro z. rewrite Ha in E1. rewrite Hb in E2. split.
        * intros [(h & A & B)|A]; [exists h; tauto|exists g; tauto].
        * intros (h & [A| ->] & B); [left; exists h; tauto|right; tauto].
      + cbn [n_feat n_l n_r n_val]. repeat split. rewrite (Hx E1), (Hy E2). ring.
      + intros d (_ & _ & _ & A). cbn [n_val]. rewrite A, (Hx E1), (Hy E2). ring.
    - eapply optb_ext; [|exact H]. intro z. split.
      + intros (h & A & B). exists h. tauto.
      + intros (h & [A| ->] & B); [exists h; tauto|]. exfalso. destruct B as (B1 & B2 & _). rewrite Ha, Hb in E. rewrite (proj2 (enough1 _) B1), (proj2 (enough1 _) B2) in E. discriminate.
  Qed.

  Hypothesis E : rexact false.

  Lemma pair_tables f1 f2 P1 P2 st : f1 <> f2 -> f1 < nf -> f2 < nf -> tables P1 f1 st -> tables P2 f2 st ->
    let st' := q_pair bc 1 R f1 st f2 in
    tables (fun h => P1 h \/ h = f2) f1 st' /\ tables (fun h => P2 h \/ h = f1) f2 st'
    /\ (forall s j, j <> f1 -> j <> f2 -> q_ch st' s j = q_ch st s j) /\ q_two st' = q_two st /\ q_three st' = q_three st.
  Proof.
    intros Hne H1 H2 T1 T2. cbn zeta. unfold q_pair.
    assert (EN : forall s t, rd_n2 R s t f1 f2 = N (sd t f2 (sd s f1 v))) by (intros; apply (re_n2 _ E eq_refl); assumption).
    assert (EL : forall s t, (1 <= N (sd t f2 (sd s f1 v)))%Z -> (rd_leaf2 R s t f1 f2 == L (sd t f2 (sd s f1 v)))%Q) by (intros; apply (re_leaf2 _ E eq_refl); assumption).
    set (st1 := q_child bc 1 false f1 f2 _ _ _ _ st). set (st2 := q_child bc 1 true f1 f2 _ _ _ _ st1). set (st3 := q_child bc 1 false f2 f1 _ _ _ _ st2). set (st4 := q_child bc 1 true f2 f1 _ _ _ _ st3).
    split; [|split; [|split]].
    - intro s. unfold st4. rewrite child_other by (right; congruence). unfold st3. rewrite child_other by (right; congruence). destruct s.
      + unfold st2. apply child_same; [apply EN|apply EN|rewrite EN; apply EL|rewrite EN; apply EL|]. unfold st1. rewrite child_other by (left; discriminate). apply T1.
      + unfold st2. rewrite child_other by (left; discriminate). unfold st1. apply child_same; [apply EN|apply EN|rewrite EN; apply EL|rewrite EN; apply EL|]. apply T1.
    - assert (B : forall s, q_ch st2 s f2 = q_ch st s f2) by (intro s; unfold st2, st1; rewrite !child_other by (right; congruence); reflexivity).
      intro s. destruct s.
      + unfold st4. apply child_same; rewrite ?EN.
        * exact (f_equal N (split_comm false true f1 f2 v)).
        * exact (f_equal N (split_comm true true f1 f2 v)).
        * intro K. rewrite (EL _ _ K). rewrite (split_comm false true f1 f2 v). reflexivity.
        * intro K. rewrite (EL _ _ K). rewrite (split_comm true true f1 f2 v). reflexivity.
        * unfold st3. rewrite child_other by (left; discriminate). rewrite B. apply T2.
      + unfold st4. rewrite child_other by (left; discriminate). unfold st3. apply child_same; rewrite ?EN.
        * exact (f_equal N (split_comm false false f1 f2 v)).
        * exact (f_equal N (split_comm true false f1 f2 v)).
        * intro K. rewrite (EL _ _ K). rewrite (split_comm false false f1 f2 v). reflexivity.
        * intro K. rewrite (EL _ _ K). rewrite (split_comm true false f1 f2 v). reflexivity.
        * rewrite B. apply T2.
    - intros s j J1 J2. unfold st4, st3, st2, st1. rewrite !child_other by (right; congruence). reflexivity.
    - unfold st4, st3, st2, st1. rewrite !(proj1 (child_two _ _ _ _ _ _ _ _)), !(proj2 (child_two _ _ _ _ _ _ _ _)). auto.
  Qed.
  Lemma fold_tables f1 (D : nat -> Prop) r : forall st P1, ~ In f1 r -> NoDup r -> f1 < nf -> (forall f, In f r -> f < nf) ->
    tables P1 f1 st -> (forall f, In f r -> tables D f st) ->
    let st' := fold_left (q_pair bc 1 R f1) r st in
    tables (fun h => P1 h \/ In h r) f1 st' /\ (forall f, In f r -> tables (fun h => D h \/ h = f1) f st')
    /\ (forall s f, f <> f1 -> ~ In f r -> q_ch st' s f = q_ch st s f) /\ q_two st' = q_two st /\ q_three st' = q_three st.
  Proof.
    induction r as [|f2 r IH]; intros st P1 Hni Hnd H1 Hr T1 Tr; cbn [fold_left].
    - split; [eapply tables_ext; [|exact T1]; intro g; cbn [In]; tauto|]. split; [intros f []|]. auto.
    - inversion Hnd as [|? ? Hni2 Hnd2]; subst. assert (Hne : f1 <> f2) by (intro; subst; apply Hni; left; reflexivity).
      destruct (pair_tables f1 f2 P1 D st Hne H1 (Hr f2 (or_introl eq_refl)) T1 (Tr f2 (or_introl eq_refl))) as (A1 & A2 & A3 & A4 & A5). set (st1 := q_pair bc 1 R f1 st f2) in *.
      destruct (IH st1 (fun h => P1 h \/ h = f2)) as (C1 & C2 & C3 & C4 & C5).
      + intro; apply Hni; right; assumption.
      + exact Hnd2.
      + exact H1.
      + intros; apply Hr; right; assumption.
      + exact A1.
      + intros f Hf. assert (f <> f2) by (intro; subst; contradiction). assert (f <> f1) by (intro; subst; apply Hni; right; assumption).
        intro s. rewrite A3 by assumption. apply Tr. right. exact Hf.
      + split; [eapply tables_ext; [|exact C1]; intro g; cbn [In]; intuition congruence|]. split; [|split; [|split; congruence]].
        * intros f [<-|Hf]; [|apply C2; exact Hf]. intro s. rewrite C3 by (congruence || assumption). apply A2.
        * intros s f F1 F2. assert (f <> f2) by (intro; subst; apply F2; left; reflexivity). rewrite C3 by (try assumption; intro; apply F2; right; assumption). apply A3; assumption.
  Qed.

  (** ** Two and three splits *)
  Context (all : list nat).
  Hypothesis Hall : forall f, In f all -> f < nf /\ (1 <= N (split_left f v))%Z /\ (1 <= N (split_right f v))%Z.
  Hypothesis Hnd : NoDup all.
  Definition isall (g : nat) : Prop := In g all.
  Definition made (m : nat) (o : option qnode) : Prop := forall x, o = Some x -> exists t, wit v x t /\ depth t <= 2 /\ nodes t = m.
  Definition below (o : option qnode) (q : Q) : Prop := exists x, o = Some x /\ (n_val x <= q)%Q.
  Definition two_ok (dn : list nat) (o : option qnode) : Prop :=
    made 2 o /\ forall f s c, In f dn -> cand s f isall c -> below o (bc + (n_val c + L (sd (negb s) f v)))%Q.
  Definition three_ok (dn : list nat) (o : option qnode) : Prop :=
    made 3 o /\ forall f c d, In f dn -> cand false f isall c -> cand true f isall d -> below o (bc + (n_val c + n_val d))%Q.

  Lemma below_le o q q' : (q <= q')%Q -> below o q -> below o q'.
  Proof. intros H (x & A & B). exists x. split; [exact A|lra]. Qed.
  Lemma below_add o c q : below o q -> below (qadd o c) q.
  Proof. intros (x & -> & B). destruct (qadd_le (Some x) c) as (y & E1 & _ & _ & D). exists y. split; [exact E1|]. specialize (D x eq_refl). lra. Qed.
  Lemma both_made f m ml mr l r o : In f all -> made m o -> m = ml + mr + 1 ->
    (forall x, l = Some x -> exists t, wit (split_left f v) x t /\ depth t <= 1 /\ nodes t = ml) ->
    (forall x, r = Some x -> exists t, wit (split_right f v) x t /\ depth t <= 1 /\ nodes t = mr) ->
    made m (q_both bc f l r o) /\ (forall q, below o q -> below (q_both bc f l r o) q)
    /\ (forall a c, below l a -> below r c -> below (q_both bc f l r o) (bc + (a + c))%Q).
  Proof.
    intros Hf Ho Hm Hl Hr. destruct (Hall f Hf) as (Hf1 & _). unfold q_both. destruct l as [x|]; [destruct r as [y|]|].
    - destruct (Hl x eq_refl) as (tl & Wl & Dl & Nl). destruct (Hr y eq_refl) as (tr & Wr & Dr & Nr). split; [|split].
      + intros z Hz. destruct (qadd_le o (q_combine bc f x y)) as (z' & E1 & _ & [B| ->] & _); rewrite E1 in Hz; injection Hz as <-; [apply Ho; exact B|].
        exists (Split f tl tr). split; [|cbn [depth nodes]; lia].
        pose proof (wit_nodes _ _ _ Wl) as Kl. pose proof (wit_nodes _ _ _ Wr) as Kr. destruct Wl as (Ol & Vl & _). destruct Wr as (Or & Vr & _).
        split; [cbn [tok]; auto|]. split; [cbn [q_combine n_val tv]; rewrite Vl, Vr; reflexivity|]. cbn [q_combine n_feat n_l n_r]. auto.
      + intros q Hq. apply below_add. exact Hq.
      + intros a c (x' & [= <-] & A) (y' & [= <-] & C). destruct (qadd_le o (q_combine bc f x y)) as (z & E1 & B & _). exists z. split; [exact E1|]. cbn [q_combine n_val] in B. lra.
    - split; [exact Ho|]. split; [auto|]. intros a c _ (? & ? & _). discriminate.
    - split; [destruct r; exact Ho|]. split; [destruct r; auto|]. intros a c (? & ? & _). discriminate.
  Qed.
  Lemma cand_made s f o : In f all -> optb (cand s f isall) o -> forall x, o = Some x -> exists t, wit (sd s f v) x t /\ depth t <= 1 /\ nodes t = 1.
  Proof.
    intros Hf H x ->. destruct H as [(g & Hg & S0 & S1 & A & B & C & D) _]. destruct (Hall g Hg) as (Hg1 & _).
    exists (Split g (Leaf 0) (Leaf 0)). split; [|cbn; lia]. split; [cbn [tok]; auto|]. split; [exact D|]. auto.
  Qed.
  Lemma cand_below s f o c : optb (cand s f isall) o -> cand s f isall c -> below o (n_val c).
  Proof. destruct o as [x|]; intros H Hc; [destruct H as [_ B]; exists x; split; [reflexivity|apply B; exact Hc]|destruct (H c Hc)]. Qed.

  Lemma update_ok f dn st : In f all -> tables isall f st -> two_ok dn (q_two st) -> three_ok dn (q_three st) ->
    let st' := q_update3 bc (q_update2 bc 1 R st f) f in
    two_ok (dn ++ [f]) (q_two st') /\ three_ok (dn ++ [f]) (q_three st') /\ q_ch st' = q_ch st.
  Proof.
    intros Hf T [M2 B2] [M3 B3]. cbn zeta. unfold q_update3, q_update2. cbn [q_ch q_two q_three]. destruct (Hall f Hf) as (Hf1 & S0 & S1).
    assert (LF : forall s, exists x, q_leaf 1 R s f = Some x /\ (n_val x == L (sd s f v))%Q /\ exists t, wit (sd s f v) x t /\ depth t <= 1 /\ nodes t = 0).
    { intro s. assert (K : (1 <= N (sd s f v))%Z) by (destruct s; assumption). unfold q_leaf. rewrite (re_n1 _ E s f Hf1), (proj2 (enough1 _) K). cbn [qadd]. eexists. split; [reflexivity|].
      pose proof (re_leaf1 _ E s f Hf1 K) as V. split; [exact V|]. exists (Leaf 0). split; [|cbn; lia]. split; [exact K|]. split; [exact V|]. auto. }
    destruct (LF false) as (xl & El & Vl & Wl). destruct (LF true) as (xr & Er & Vr & Wr). rewrite El, Er. cbn [sd] in *.
    destruct (both_made f 2 1 0 (q_ch st false f) (Some xr) (q_two st) Hf M2 eq_refl (cand_made false f _ Hf (T false))) as (A1 & A2 & A3); [intros x [= <-]; exact Wr|].
    destruct (both_made f 2 0 1 (Some xl) (q_ch st true f) (q_both bc f (q_ch st false f) (Some xr) (q_two st)) Hf A1 eq_refl) as (C1 & C2 & C3); [intros x [= <-]; exact Wl|apply (cand_made true f _ Hf (T true))|].
    destruct (both_made f 3 1 1 (q_ch st false f) (q_ch st true f) (q_three st) Hf M3 eq_refl (cand_made false f _ Hf (T false)) (cand_made true f _ Hf (T true))) as (D1 & D2 & D3).
    split; [|split; [|reflexivity]].
    - split; [exact C1|]. intros g s c Hg Hc. apply in_app_or in Hg. destruct Hg as [Hg|[<-|[]]]; [apply C2, A2, (B2 g s c Hg Hc)|]. destruct s; cbn [negb sd].
      + eapply below_le; [|apply (C3 (n_val xl) (n_val c)); [exists xl; split; [reflexivity|lra]|apply (cand_below true f); [apply T|exact Hc]]]. lra.
      + apply C2. eapply below_le; [|apply (A3 (n_val c) (n_val xr)); [apply (cand_below false f); [apply T|exact Hc]|exists xr; split; [reflexivity|lra]]]. lra.
    - split; [exact D1|]. intros g c d Hg Hc Hd. apply in_app_or in Hg. destruct Hg as [Hg|[<-|[]]]; [apply D2, (B3 g c d Hg Hc Hd)|].
      apply D3; [apply (cand_below false f); [apply T|exact Hc]|apply (cand_below true f); [apply T|exact Hd]].
  Qed.
  Lemma no_self s f P x : cand s f P x <-> cand s f (fun h => P h /\ h <> f) x.
  Proof.
    split; [|intros (g & [A _] & B); exists g; auto]. intros (g & A & B). exists g. split; [split; [exact A|]|exact B]. intros ->. destruct B as (B0 & B1 & _). apply HN1 in B0. apply HN1 in B1. destruct s; cbn [sd] in *.
    - assert (vsize (split_left f (split_right f v)) = 0); [|lia]. unfold vsize. rewrite concat_split_left, concat_split_right, filter_filter. rewrite filter_all_false; [reflexivity|]. intros y _. destruct (has f y); reflexivity.
    - assert (vsize (split_right f (split_left f v)) = 0); [|lia]. unfold vsize. rewrite concat_split_right, concat_split_left, filter_filter. rewrite filter_all_false; [reflexivity|]. intros y _. destruct (has f y); reflexivity.
  Qed.
  Lemma loop_ok fs : forall dn st, dn ++ fs = all -> (forall f, In f fs -> tables (fun g => In g dn) f st) -> two_ok dn (q_two st) -> three_ok dn (q_three st) ->
    let st' := q_loop bc 1 R fs st in exists dn', two_ok dn' (q_two st') /\ three_ok dn' (q_three st') /\ (dn' = all \/ is_zero (q_three st') = true).
  Proof.
    induction fs as [|f1 r IH]; intros dn st Heq T H2 H3; cbn [q_loop].
    - exists dn. rewrite app_nil_r in Heq. auto.
    - destruct (is_zero (q_three st)) eqn:Ez; [exists dn; auto|].
      assert (Hn : NoDup (dn ++ f1 :: r)) by (rewrite Heq; exact Hnd). assert (Hn1 := NoDup_remove_1 _ _ _ Hn). assert (Hn2 := NoDup_remove_2 _ _ _ Hn).
      assert (Hnr : NoDup r) by (clear -Hn1; induction dn; [exact Hn1|inversion Hn1; auto]).
      assert (Hin : forall f, In f (f1 :: r) -> In f all) by (intros f Hf; rewrite <- Heq; apply in_or_app; right; exact Hf).
      destruct (fold_tables f1 (fun g => In g dn) r st (fun g => In g dn)) as (A1 & A2 & A3 & A4 & A5).
      + intro Hc. apply Hn2. apply in_or_app. right. exact Hc.
      + exact Hnr.
      + apply Hall, Hin. left. reflexivity.
      + intros f Hf. apply Hall, Hin. right. exact Hf.
      + apply T. left. reflexivity.
      + intros f Hf. apply T. right. exact Hf.
      + set (st1 := fold_left (q_pair bc 1 R f1) r st) in *.
        assert (Hfull : tables isall f1 st1).
        { intro s. eapply optb_ext; [|apply A1]. intro x. rewrite (no_self s f1 isall), (no_self s f1 _). apply cand_ext. intro h. unfold isall. rewrite <- Heq, in_app_iff. cbn [In]. intuition congruence. }
        rewrite <- A4 in H2. rewrite <- A5 in H3. destruct (update_ok f1 dn st1 (Hin f1 (or_introl eq_refl)) Hfull H2 H3) as (U2 & U3 & U).
        apply (IH (dn ++ [f1])); [rewrite <- app_assoc; exact Heq| |exact U2|exact U3].
        intros f Hf s. rewrite U. eapply optb_ext; [|apply (A2 f Hf)]. intro x. apply cand_ext. intro g. rewrite in_app_iff. cbn [In]. intuition congruence.
  Qed.
End Search.

(** ** All results *)
Section Whole.
  Context (bc : Q) (nf : nat) (N : view -> Z) (L : view -> Q) (v : view) (R : reads) (b : branch).
  Hypothesis Hbc : (0 <= bc)%Q.
  Hypothesis HN : forall u f, N u = (N (split_left f u) + N (split_right f u))%Z.
  Hypothesis HN0 : forall u, (0 <= N u)%Z.
  Hypothesis HN1 : forall u, (1 <= N u)%Z <-> 1 <= vsize u.
  Hypothesis HL : forall u, (0 <= L u)%Q.
  Hypothesis Hb : blind b v.

  (** The solution for at most [m] splits is that of a tree, and no tree is better. *)
  Definition good (m : nat) (o : option qnode) : Prop :=
    exists x, o = Some x /\ (exists t, wit bc nf N L v x t /\ depth t <= 2 /\ nodes t <= m)
      /\ forall t, tok nf N v t -> depth t <= 2 -> nodes t <= m -> (n_val x <= tv bc L v t)%Q.
  (** What is known of the results of a call with [n] nodes. *)
  Definition results_ok (one : bool) (r : qres) : Prop :=
    (1 <= N v)%Z -> good 1 (q_r1 r) /\ (one = false -> good 3 (q_r3 r) /\ ((0 < bc)%Q -> good 2 (q_r2 r))).

  Lemma one_depth t : nodes t <= 1 -> depth t <= 2.
  Proof. destruct t as [|f l r]; cbn; [lia|]. destruct l; [|cbn; lia]. destruct r; cbn; lia. Qed.
  Lemma one_is_good o : one_good bc nf N L v o -> good 1 o.
  Proof.
    intros (x & A & (t & B & C) & D). exists x. split; [exact A|]. split; [exists t; split; [exact B|]; split; [apply one_depth; exact C|exact C]|]. intros t' Ht _. apply D. exact Ht.
  Qed.
  Lemma zero_good m o x : o = Some x -> (n_val x == 0)%Q -> (exists t, wit bc nf N L v x t /\ depth t <= 2 /\ nodes t <= m) -> good m o.
  Proof. intros A B C. exists x. split; [exact A|]. split; [exact C|]. intros t _ _ _. rewrite B. apply tv_nonneg; assumption. Qed.

  Lemma results_good n : 1 <= n -> rexact nf N L v R (n =? 1) -> results_ok (n =? 1) (q_results bc nf 1 R b n).
  Proof.
    intros Hn E Hv. unfold q_results. rewrite (re_n _ _ _ _ _ _ E). replace (N v <? Z.of_nat 1)%Z with false by (symmetry; apply Z.ltb_ge; lia).
    pose proof (q_one_good bc nf N L v R (n =? 1) E Hv) as H1. destruct (Nat.eqb_spec n 1) as [->|N1].
    { cbn [q_r1]. split; [apply one_is_good; exact H1|discriminate]. }
    destruct (is_zero (q_one bc nf 1 R)) eqn:Ez; cbn [q_r1 q_r2 q_r3]; (split; [apply one_is_good; exact H1|]); intros _.
    { destruct H1 as (x & Ex & (t & W & Ht) & _). rewrite Ex in *. destruct (is_zero_spec _ Ez) as (x' & [= <-] & V). cbn [qadds qadd].
      assert (G : forall m, 1 <= m -> good m (Some x)) by (intros m Hm; apply (zero_good m (Some x) x eq_refl V); exists t; split; [exact W|]; split; [apply one_depth; exact Ht|lia]).
      split; [apply G; lia|intros _; apply G; lia]. }
    set (all := q_features nf 1 R b). set (st := q_loop bc 1 R all (QState (fun _ _ => None) None None)).
    assert (Hall : forall f, In f all -> f < nf /\ (1 <= N (split_left f v))%Z /\ (1 <= N (split_right f v))%Z).
    { intros f Hf. apply filter_In in Hf. destruct Hf as [Hf F]. apply in_seq in Hf. assert (Hf' : f < nf) by lia. split; [exact Hf'|].
      apply andb_true_iff in F. destruct F as [F _]. apply andb_true_iff in F. destruct F as [F F1]. apply andb_true_iff in F. destruct F as [_ F0].
      rewrite (re_n1 _ _ _ _ _ _ E _ _ Hf'), enough1 in F0. rewrite (re_n1 _ _ _ _ _ _ E _ _ Hf'), enough1 in F1. auto. }
    assert (Hnd : NoDup all) by (apply NoDup_filter, seq_NoDup).
    destruct (loop_ok bc nf N L v R HN1 E all Hall Hnd all [] (QState (fun _ _ => None) None None) eq_refl) as (dn & [M2 B2] & [M3 B3] & D).
    { intros f Hf s c (g & [] & _). }
    { split; [intros x [=]|intros f s c []]. }
    { split; [intros x [=]|intros f c d []]. }
    fold st in M2, B2, M3, B3, D. set (two := qadds (q_two st) (q_one bc nf 1 R)).
    (* features of trees with two or three splits take part *)
    assert (IN : forall f, f < nf -> (1 <= N (split_left f v))%Z -> (1 <= N (split_right f v))%Z -> (3 <= N v)%Z -> In f all).
    { intros f Hf S0 S1 S3. apply filter_In. split; [apply in_seq; lia|]. rewrite !(re_n1 _ _ _ _ _ _ E _ _ Hf). cbn [sd]. rewrite (proj2 (enough1 _) S0), (proj2 (enough1 _) S1), !andb_true_r.
      apply andb_true_iff. split.
      - apply negb_true_iff. destruct (br_has b f) eqn:Eb; [|reflexivity]. destruct (Hb f Eb) as [Z|Z]; [apply HN1 in S0; lia|apply HN1 in S1; lia].
      - apply negb_true_iff, andb_false_iff. pose proof (HN v f). rewrite !Z.ltb_ge. lia. }
    (* a split below a split of the data is a candidate *)
    assert (CA : forall s f g l r, f < nf -> tok nf N (sd s f v) (Split g (Leaf l) (Leaf r)) -> (1 <= N (sd (negb s) f v))%Z ->
      In f all /\ exists c, cand bc N L v s f (isall all) c /\ (n_val c == tv bc L (sd s f v) (Split g (Leaf l) (Leaf r)))%Q).
    { intros s f g l r Hf (Hg & K0 & K1) K2. cbn [tok] in K0, K1.
      assert (S1 : (2 <= N (sd s f v))%Z) by (rewrite (HN (sd s f v) g); lia). pose proof (HN v f) as S2.
      assert (S3 : (3 <= N v)%Z) by (destruct s; cbn [sd negb] in *; lia).
      split; [apply IN; try assumption; destruct s; cbn [sd negb] in *; lia|].
      exists (QN (Some g) (bc + (L (split_left g (sd s f v)) + L (split_right g (sd s f v))))%Q 0 0). split; [|cbn [n_val tv]; lra]. exists g. cbn [n_feat n_l n_r n_val]. split; [|repeat split; try assumption; lra].
      apply IN; [exact Hg| | |exact S3].
      + pose proof (N_part N HN HN0 s f (split_left g v)) as P. pose proof (f_equal N (split_comm false s g f v)) as Q. change (sd false g v) with (split_left g v) in Q. change (sd false g (sd s f v)) with (split_left g (sd s f v)) in Q. lia.
      + pose proof (N_part N HN HN0 s f (split_right g v)) as P. pose proof (f_equal N (split_comm true s g f v)) as Q. change (sd true g v) with (split_right g v) in Q. change (sd true g (sd s f v)) with (split_right g (sd s f v)) in Q. lia. }
    assert (W2 : forall x, two = Some x -> exists t, wit bc nf N L v x t /\ depth t <= 2 /\ nodes t <= 2).
    { intros x Hx. apply (proj2 (proj2 (qadds_le _ _))) in Hx. destruct Hx as [Hx|Hx].
      - destruct (M2 x Hx) as (t & A & B & C). exists t. rewrite C. auto.
      - destruct H1 as (x' & Ex & (t & W & Ht) & _). rewrite Ex in Hx. injection Hx as <-. exists t. split; [exact W|]. split; [apply one_depth; exact Ht|lia]. }
    assert (LE1 : forall t, tok nf N v t -> nodes t <= 1 -> below two (tv bc L v t)).
    { intros t Ht Hm. destruct H1 as (x & Ex & _ & B). destruct (proj1 (qadds_le (q_two st) _) x Ex) as (y & Ey & Ly). exists y. split; [exact Ey|]. specialize (B t Ht Hm). lra. }
    assert (LE2 : dn = all -> forall t, tok nf N v t -> depth t <= 2 -> nodes t = 2 -> below two (tv bc L v t)).
    { intros Ed t Ht Hd Hm. assert (Q : below (q_two st) (tv bc L v t)).
      { destruct t as [|f l r]; [discriminate|]. cbn [tok] in Ht. destruct Ht as (Hf & Tl & Tr). cbn [nodes] in Hm. cbn [tv].
        destruct l as [a|g [a|] [c|]]; destruct r as [a'|g' [a'|] [c'|]]; cbn [nodes depth] in *; try lia.
        - destruct (CA true f g' a' c' Hf Tr Tl) as (I & c0 & C0 & V0). cbn [sd] in V0. rewrite <- Ed in I. eapply below_le; [|apply (B2 f true c0 I C0)]. cbn [negb sd]. rewrite V0. cbn [tv]. lra.
        - destruct (CA false f g a c Hf Tl Tr) as (I & c0 & C0 & V0). cbn [sd] in V0. rewrite <- Ed in I. eapply below_le; [|apply (B2 f false c0 I C0)]. cbn [negb sd]. rewrite V0. cbn [tv]. lra. }
      destruct Q as (x & Ex & Lx). destruct (proj1 (proj2 (qadds_le (q_two st) (q_one bc nf 1 R))) x Ex) as (y & Ey & Ly). exists y. split; [exact Ey|lra]. }
    split.
    - (* three *)
      assert (W3 : forall x, qadds (q_three st) two = Some x -> exists t, wit bc nf N L v x t /\ depth t <= 2 /\ nodes t <= 3).
      { intros x Hx. apply (proj2 (proj2 (qadds_le _ _))) in Hx. destruct Hx as [Hx|Hx].
        - destruct (M3 x Hx) as (t & A & B & C). exists t. rewrite C. auto.
        - destruct (W2 x Hx) as (t & A & B & C). exists t. repeat split; try assumption; try apply A; lia. }
      assert (BT : forall q, below two q -> below (qadds (q_three st) two) q).
      { intros q (x & Ex & Lx). destruct (proj1 (qadds_le (q_three st) two) x Ex) as (y & Ey & Ly). exists y. split; [exact Ey|lra]. }
      assert (LE : forall t, tok nf N v t -> depth t <= 2 -> nodes t <= 3 -> below (qadds (q_three st) two) (tv bc L v t)).
      { intros t Ht Hd Hm. destruct (Nat.le_gt_cases (nodes t) 1) as [H|H]; [apply BT, LE1; assumption|]. destruct D as [Ed|Ez3].
        - destruct (Nat.eq_dec (nodes t) 2) as [H2|H2]; [apply BT, LE2; assumption|].
          assert (Q : below (q_three st) (tv bc L v t)).
          { destruct t as [|f l r]; [cbn in H; lia|]. cbn [tok] in Ht. destruct Ht as (Hf & Tl & Tr). cbn [nodes] in Hm, H, H2. cbn [tv].
            destruct l as [a|g [a|] [c|]]; destruct r as [a'|g' [a'|] [c'|]]; cbn [nodes depth] in *; try lia.
            destruct (CA false f g a c Hf Tl (tok_size nf N HN _ _ Tr)) as (I & c0 & C0 & V0). destruct (CA true f g' a' c' Hf Tr (tok_size nf N HN _ _ Tl)) as (_ & d0 & D0 & U0). cbn [sd] in V0, U0. rewrite <- Ed in I.
            eapply below_le; [|apply (B3 f c0 d0 I C0 D0)]. rewrite V0, U0. cbn [tv]. lra. }
          destruct Q as (x & Ex & Lx). destruct (proj1 (proj2 (qadds_le (q_three st) two)) x Ex) as (y & Ey & Ly). exists y. split; [exact Ey|lra].
        - destruct (is_zero_spec _ Ez3) as (x & Ex & V). destruct (proj1 (proj2 (qadds_le (q_three st) two)) x Ex) as (y & Ey & Ly). exists y. split; [exact Ey|]. pose proof (tv_nonneg bc L Hbc HL t v). lra. }
      destruct (LE (Leaf 0)) as (x & Ex & _); [exact Hv|cbn; lia|cbn; lia|]. exists x. split; [exact Ex|]. split; [apply W3; exact Ex|].
      intros t A B C. destruct (LE t A B C) as (y & Ey & Ly). rewrite Ex in Ey. injection Ey as <-. exact Ly.
    - (* two *)
      intro Hpos. destruct D as [Ed|Ez3].
      + destruct (LE1 (Leaf 0)) as (x & Ex & _); [exact Hv|cbn; lia|]. exists x. split; [exact Ex|]. split; [apply W2; exact Ex|].
        intros t A B C. assert (Q : below two (tv bc L v t)) by (destruct (Nat.eq_dec (nodes t) 2); [apply LE2; assumption|apply LE1; [exact A|lia]]).
        destruct Q as (y & Ey & Ly). rewrite Ex in Ey. injection Ey as <-. exact Ly.
      + exfalso. destruct (is_zero_spec _ Ez3) as (x & Ex & V). destruct (M3 x Ex) as (t & (_ & W & _) & _ & Hm). destruct t as [|f l r]; [discriminate|]. cbn [tv] in W.
        pose proof (tv_nonneg bc L Hbc HL l (split_left f v)). pose proof (tv_nonneg bc L Hbc HL r (split_right f v)). lra.
  Qed.
End Whole.

(** ** The counts *)
Inductive field := Tot | Cnt (j : nat) | Cy (j : nat) | Cq (j : nat) | Cw (j : nat) | Sy | Sq | Sw.
Definition comp (k : qcalc) (i : field) : Q :=
  match i with
  | Tot => inject_Z (g_tot k) | Cnt j => inject_Z (g_cnt k j)
  | Cy j => s_y (g_cell k j) | Cq j => s_q (g_cell k j) | Cw j => inject_Z (s_w (g_cell k j))
  | Sy => s_y (g_sum k) | Sq => s_q (g_sum k) | Sw => inject_Z (s_w (g_sum k)) end.

Lemma ds_all d idxs : forall m j, let r := ds_add_all d idxs m j in
  (s_y r == s_y (m j) + s_y d * inject_Z (occ idxs j) /\ s_q r == s_q (m j) + s_q d * inject_Z (occ idxs j) /\ inject_Z (s_w r) == inject_Z (s_w (m j)) + inject_Z (s_w d) * inject_Z (occ idxs j))%Q.
Proof.
  unfold ds_add_all. induction idxs as [|i l IH]; intros m j; cbn [fold_left occ]; [change (inject_Z 0) with 0%Q; cbn zeta; repeat split; ring|].
  destruct (IH (fun j => if j =? i then ds_add (m j) d else m j) j) as (A & B & C). cbn zeta in *. rewrite A, B, C, inject_Z_plus. destruct (j =? i).
  - cbn [ds_add s_y s_q s_w]. rewrite inject_Z_plus. change (inject_Z 1) with 1%Q. repeat split; ring.
  - change (inject_Z 0) with 0%Q. repeat split; ring.
Qed.

Section Counts.
  Context (cc : bool) (it : inst -> ritem) (nf : nat).
  Hypothesis Hok : forall x, item_ok (it x).
  (** The regression task: rows of weight one, and no target is so small that it counts as zero. *)
  Definition plain_fine (i : ritem) : Prop :=
    r_w i = 1 /\ (r_q i == r_y i * r_y i)%Q /\ (r_y i == 0 \/ (1 # 1000000) < Qabs (r_y i) \/ (1 # 1000000) < r_y i * r_y i)%Q.
  Hypothesis Hplain : cc = false -> forall x, plain_fine (it x).

  Definition oc (idx : inst -> list nat) (x : inst) (j : nat) : Q := inject_Z (occ (idx x) j).
  Definition wt (x : inst) : Q := qn (r_w (it x)).
  Definition ctr (idx : inst -> list nat) (i : field) (x : inst) : Q :=
    match i with
    | Tot => wt x | Cnt j => (wt x * oc idx x j)%Q
    | Cy j => (r_y (it x) * oc idx x j)%Q | Cq j => (r_q (it x) * oc idx x j)%Q | Cw j => (wt x * oc idx x j)%Q
    | Sy => r_y (it x) | Sq => r_q (it x) | Sw => wt x end.
  Definition used (i : field) : Prop := match i with Cw _ | Sw => cc = true | _ => True end.

  Lemma weight_z x : inject_Z (rt_weight cc it x) = wt x.
  Proof. unfold rt_weight, wt, qn. destruct (bool_dec cc true) as [->|H]; [reflexivity|]. apply not_true_is_false in H. destruct (Hplain H x) as (A & _). rewrite H, A. reflexivity. Qed.
  Lemma inst_sums x m : let d := rt_inst cc it x m in (s_y d == inject_Z m * r_y (it x) /\ s_q d == inject_Z m * r_q (it x) /\ inject_Z (s_w d) == inject_Z m * wt x)%Q.
  Proof.
    cbn zeta. unfold rt_inst. cbn [s_y s_q s_w]. rewrite inject_Z_mult. split; [reflexivity|]. split; [|reflexivity]. destruct (bool_dec cc true) as [->|H]; [reflexivity|]. apply not_true_is_false in H. rewrite H.
    destruct (Hplain H x) as (_ & A & _). rewrite A. ring.
  Qed.
  (** An instance that counts as zero adds nothing. *)
  Lemma zero_inst x m : (m = 1 \/ m = -1)%Z -> rt_zero cc (rt_inst cc it x m) = true -> cc = false /\ (r_y (it x) == 0 /\ r_q (it x) == 0)%Q.
  Proof.
    intros Hm. unfold rt_zero. destruct (bool_dec cc true) as [E|H].
    - rewrite E. unfold rt_inst. cbn [s_w]. rewrite Z.eqb_eq. destruct (Hok x) as [A _]. nia.
    - apply not_true_is_false in H. destruct (Hplain H x) as (_ & A & B). destruct (inst_sums x m) as (C1 & C2 & _). cbn zeta in C1, C2. set (d := rt_inst cc it x m) in *. rewrite H. intro Z.
      apply andb_true_iff in Z. destruct Z as [Z Z4]. apply andb_true_iff in Z. destruct Z as [Z Z3]. apply andb_true_iff in Z. destruct Z as [Z1 Z2]. apply Qle_bool_iff in Z1, Z2, Z3, Z4. rewrite C1 in Z1, Z3. rewrite C2, A in Z2, Z4.
      split; [reflexivity|]. destruct B as [B|[B|B]].
      + split; [exact B|]. rewrite A, B. ring.
      + exfalso. revert B. apply Qle_not_lt. apply Qabs_Qle_condition. destruct Hm as [->| ->]; [change (inject_Z 1) with 1%Q in *|change (inject_Z (-1)) with (-1)%Q in *]; lra.
      + exfalso. set (yy := (r_y (it x) * r_y (it x))%Q) in *. destruct Hm as [->| ->]; [change (inject_Z 1) with 1%Q in *|change (inject_Z (-1)) with (-1)%Q in *]; lra.
  Qed.
  Lemma upd_comp one m k x i : (m = 1 \/ m = -1)%Z -> used i -> (comp (qupd cc it nf one m k x) i == comp k i + inject_Z m * ctr (touched nf one) i x)%Q.
  Proof.
    intros Hm Hu. unfold qupd. destruct (inst_sums x m) as (C1 & C2 & C3). cbn zeta in C1, C2, C3.
    assert (T : (inject_Z (g_tot k + rt_weight cc it x * m) == inject_Z (g_tot k) + inject_Z m * wt x)%Q) by (rewrite inject_Z_plus, inject_Z_mult, weight_z; ring).
    assert (Cn : forall j, (inject_Z (add_all (m * rt_weight cc it x) (touched nf one x) (g_cnt k) j) == inject_Z (g_cnt k j) + inject_Z m * (wt x * oc (touched nf one) x j))%Q) by (intro j; rewrite add_all_occ, inject_Z_plus, !inject_Z_mult, weight_z; unfold oc; ring).
    destruct (rt_zero cc (rt_inst cc it x m)) eqn:Z.
    - destruct (zero_inst x m Hm Z) as (Hc & Y & Q). destruct i; cbn [comp ctr g_tot g_cnt g_cell g_sum used] in *; try congruence; try exact T; try apply Cn; rewrite ?Y, ?Q; ring.
    - set (d := rt_inst cc it x m) in *. destruct i; cbn [comp ctr g_tot g_cnt g_cell g_sum used ds_add s_y s_q s_w] in *; try exact T; try apply Cn;
        try (destruct (ds_all d (touched nf one x) (g_cell k) j) as (D1 & D2 & D3); cbn zeta in D1, D2, D3; rewrite ?D1, ?D2, ?D3, ?C1, ?C2, ?C3; unfold oc; ring);
        rewrite ?inject_Z_plus, ?C1, ?C2, ?C3; reflexivity.
  Qed.
  Lemma update_comp one m i l : (m = 1 \/ m = -1)%Z -> used i -> forall k, (comp (fold_left (qupd cc it nf one m) l k) i == comp k i + inject_Z m * sumQ (ctr (touched nf one) i) l)%Q.
  Proof. intros Hm Hu. induction l as [|x l IH]; intro k; cbn [fold_left sumQ]; [ring|]. rewrite IH, (upd_comp one m k x i Hm Hu). ring. Qed.

  Definition qcells (one : bool) (v : view) (k : qcalc) : Prop := forall i, used i -> (comp k i == sumQ (ctr (touched nf one) i) (concat v))%Q.
  Lemma fresh_cells one v : qcells one v (qcalc_of cc it nf one v).
  Proof. intros i Hu. unfold qcalc_of, qupdate. rewrite (update_comp one 1 i _ (or_introl eq_refl) Hu). change (inject_Z 1) with 1%Q. destruct i; cbn [comp qcalc_zero g_tot g_cnt g_cell g_sum ds_zero s_y s_q s_w]; change (inject_Z 0) with 0%Q; ring. Qed.
  Lemma sum_diff (F : inst -> Q) p q l :
    (sumQ F (filter p l) + sumQ F (filter (fun x => q x && negb (p x)) l) - sumQ F (filter (fun x => p x && negb (q x)) l) == sumQ F (filter q l))%Q.
  Proof. induction l as [|x l IH]; cbn [filter sumQ]; [reflexivity|]. destruct (p x), (q x); cbn [andb negb sumQ]; lra. Qed.
  Lemma more_cells one root b1 b2 k : view_sorted root -> qcells one (restrict b1 root) k ->
    qcells one (restrict b2 root) (qupdate cc it nf one (diff_remove (restrict b1 root) (restrict b2 root)) (-1) (qupdate cc it nf one (diff_add (restrict b1 root) (restrict b2 root)) 1 k)).
  Proof.
    intros Hs H i Hu. unfold qupdate. rewrite (update_comp one (-1) i _ (or_intror eq_refl) Hu), (update_comp one 1 i _ (or_introl eq_refl) Hu), (H i Hu).
    rewrite diff_add_restrict, diff_remove_restrict by exact Hs. unfold restrict. rewrite !concat_map_filter, <- (sum_diff (ctr (touched nf one) i) (sat b1) (sat b2) (concat root)). change (inject_Z 1) with 1%Q. change (inject_Z (-1)) with (-1)%Q. ring.
  Qed.

  (** ** Reading the counts *)
  Definition NN (u : view) : Z := Z.of_nat (weight (map it (concat u))).
  Definition LL (u : view) : Q := item_err (map it (concat u)).
  Lemma weight_app_filter g (l : list ritem) : weight l = weight (filter (fun x => negb (g x)) l) + weight (filter g l).
  Proof. induction l as [|x l IH]; cbn [filter weight fold_right]; [reflexivity|]. fold (weight l). destruct (g x); cbn [negb weight fold_right]; fold (weight (filter g l)); fold (weight (filter (fun x => negb (g x)) l)); lia. Qed.
  Lemma NN_split u f : NN u = (NN (split_left f u) + NN (split_right f u))%Z.
  Proof.
    unfold NN. rewrite concat_split_left, concat_split_right. rewrite <- Nat2Z.inj_add. f_equal. induction (concat u) as [|x l IH]; cbn [filter map weight fold_right]; [reflexivity|].
    fold (weight (map it l)). destruct (has f x); cbn [negb map weight fold_right]; fold (weight (map it (filter (has f) l))); fold (weight (map it (filter (fun x => negb (has f x)) l))); lia.
  Qed.
  Lemma NN_nonneg u : (0 <= NN u)%Z.
  Proof. unfold NN. lia. Qed.
  Lemma NN_pos u : (1 <= NN u)%Z <-> 1 <= vsize u.
  Proof. unfold NN, vsize. destruct (concat u) as [|x l]; cbn [map weight fold_right length]; [lia|]. destruct (Hok x) as [A _]. lia. Qed.
  Lemma LL_nonneg u : (0 <= LL u)%Q.
  Proof. apply err_nonneg. apply Forall_forall. intros i Hi. apply in_map_iff in Hi. destruct Hi as (x & <- & _). apply Hok. Qed.
  Lemma sum_map (F : ritem -> Q) l : (sumQ F (map it l) == sumQ (fun x => F (it x)) l)%Q.
  Proof. induction l as [|x l IH]; cbn [map sumQ]; [reflexivity|]. rewrite IH. reflexivity. Qed.
  Lemma sum_weight l : (qn (weight (map it l)) == sumQ wt l)%Q.
  Proof. induction l as [|x l IH]; cbn [map sumQ weight fold_right]; [reflexivity|]. fold (weight (map it l)). rewrite qn_add, IH. reflexivity. Qed.

  Lemma cost_exact d n u : n = NN u -> (1 <= n)%Z -> (s_y d == sumQ (fun x => r_y (it x)) (concat u))%Q -> (s_q d == sumQ (fun x => r_q (it x)) (concat u))%Q ->
    (cc = true -> inject_Z (s_w d) == sumQ wt (concat u))%Q -> (rt_cost cc d n == LL u)%Q.
  Proof.
    intros En Hn Y Q W. unfold rt_cost. destruct (Z.eqb_spec n 0) as [|_]; [lia|].
    assert (E : (s_q d - s_y d * s_y d / inject_Z (if cc then s_w d else n) == LL u)%Q).
    { unfold LL. rewrite (proj1 (err_sums _)), !sum_map, Y, Q. assert (D : (inject_Z (if cc then s_w d else n) == qn (weight (map it (concat u))))%Q); [|rewrite D; reflexivity].
      destruct (bool_dec cc true) as [H|H]; [rewrite H, sum_weight; apply W; exact H|]. apply not_true_is_false in H. rewrite H, En. reflexivity. }
    cbn zeta. destruct (qlt _ 0) eqn:Z; [|exact E]. exfalso. apply qlt_spec in Z. rewrite E in Z. pose proof (LL_nonneg u). lra.
  Qed.

  Definition sel (s : bool) (f : nat) (x : inst) : bool := if s then has f x else negb (has f x).
  Lemma sd_filter s f u : concat (sd s f u) = filter (sel s f) (concat u).
  Proof. destruct s; cbn [sd]; [apply concat_split_right|apply concat_split_left]. Qed.
  Lemma sd_filter2 s t f g u : concat (sd t g (sd s f u)) = filter (fun x => sel s f x && sel t g x) (concat u).
  Proof. rewrite !sd_filter, filter_filter. reflexivity. Qed.
  Lemma sum_ind (F : inst -> Q) p l : (sumQ (fun x => F x * inject_Z (b2z (p x))) l == sumQ F (filter p l))%Q.
  Proof. induction l as [|x l IH]; cbn [filter sumQ]; [reflexivity|]. rewrite IH. destruct (p x); cbn [b2z sumQ]; [change (inject_Z 1) with 1%Q|change (inject_Z 0) with 0%Q]; ring. Qed.
  Lemma parts (F : inst -> Q) f g l :
    let P p := sumQ F (filter p l) in
    (P (sel true f) + P (sel false f) == sumQ F l
     /\ P (sel true f) == P (fun x => sel true f x && sel true g x) + P (fun x => sel true f x && sel false g x)
     /\ P (sel true g) == P (fun x => sel true f x && sel true g x) + P (fun x => sel false f x && sel true g x)
     /\ P (sel false f) == P (fun x => sel false f x && sel true g x) + P (fun x => sel false f x && sel false g x))%Q.
  Proof.
    cbn zeta. unfold sel. induction l as [|x l (A & B & C & D)]; cbn [filter sumQ]; [repeat split; reflexivity|].
    destruct (has f x), (has g x); cbn [andb negb sumQ]; repeat split; lra.
  Qed.

  Section Read.
    Context (idx : inst -> list nat) (okp : nat -> nat -> Prop) (v : view) (k : qcalc).
    Hypothesis Hd : forall x f, In x (concat v) -> f < nf -> occ (idx x) (ixd nf f) = b2z (has f x).
    Hypothesis Hp : forall x f g, In x (concat v) -> okp f g -> f < nf -> g < nf -> occ (idx x) (ix11 nf f g) = b2z (has f x && has g x).
    Hypothesis Hc : forall i, used i -> (comp k i == sumQ (ctr idx i) (concat v))%Q.
    Lemma diag_sum (F : inst -> Q) f : f < nf -> (sumQ (fun x => F x * oc idx x (ixd nf f)) (concat v) == sumQ F (filter (sel true f) (concat v)))%Q.
    Proof. intro Hf. unfold sel. rewrite <- (sum_ind F (has f)). apply sumQ_ext. intros x Hx. unfold oc. rewrite (Hd x f Hx Hf). reflexivity. Qed.
    Lemma pair_sum (F : inst -> Q) f g : okp f g -> f < nf -> g < nf -> (sumQ (fun x => F x * oc idx x (ix11 nf f g)) (concat v) == sumQ F (filter (fun x => sel true f x && sel true g x) (concat v)))%Q.
    Proof. intros Ho Hf Hg. unfold sel. rewrite <- (sum_ind F (fun x => has f x && has g x)). apply sumQ_ext. intros x Hx. unfold oc. rewrite (Hp x f g Hx Ho Hf Hg). reflexivity. Qed.
    Lemma z_eq z l : (inject_Z z == sumQ wt l)%Q -> z = Z.of_nat (weight (map it l)).
    Proof. intro H. rewrite <- sum_weight in H. unfold qn in H. apply (proj1 (inject_Z_injective _ _)) in H. exact H. Qed.

    Lemma cT : (inject_Z (g_tot k) == sumQ wt (concat v))%Q. Proof. exact (Hc Tot I). Qed.
    Lemma cY : (s_y (g_sum k) == sumQ (fun x => r_y (it x)) (concat v))%Q. Proof. exact (Hc Sy I). Qed.
    Lemma cQ : (s_q (g_sum k) == sumQ (fun x => r_q (it x)) (concat v))%Q. Proof. exact (Hc Sq I). Qed.
    Lemma cW : cc = true -> (inject_Z (s_w (g_sum k)) == sumQ wt (concat v))%Q. Proof. intro H. exact (Hc Sw H). Qed.
    Lemma read_tot : g_tot k = NN v.
    Proof. apply z_eq. exact (Hc Tot I). Qed.
    Lemma read_n1 s f : f < nf -> q_cnt1 nf k s f = NN (sd s f v).
    Proof.
      intro Hf. pose proof (Hc (Cnt (ixd nf f)) I) as A. cbn [comp ctr] in A. rewrite (diag_sum wt f Hf) in A. pose proof cT as B. cbn [comp ctr] in B.
        destruct (parts wt f f (concat v)) as (P1 & _). cbn zeta in P1. unfold NN. rewrite sd_filter. apply z_eq. unfold q_cnt1. destruct s; [exact A|]. unfold Z.sub. rewrite inject_Z_plus, inject_Z_opp, A, B. lra.
    Qed.
    Lemma read_n2 s t f g : okp f g -> f < nf -> g < nf -> q_cnt2 nf k s t f g = NN (sd t g (sd s f v)).
    Proof.
      intros Ho Hf Hg. pose proof (Hc (Cnt (ixd nf f)) I) as A. pose proof (Hc (Cnt (ixd nf g)) I) as A'. pose proof (Hc (Cnt (ix11 nf f g)) I) as A2. pose proof cT as B. cbn [comp ctr] in A, A', A2, B.
        rewrite (diag_sum wt f Hf) in A. rewrite (diag_sum wt g Hg) in A'. rewrite (pair_sum wt f g Ho Hf Hg) in A2.
        destruct (parts wt f g (concat v)) as (P1 & P2 & P3 & P4). cbn zeta in P1, P2, P3, P4. unfold NN. rewrite sd_filter2. apply z_eq.
        unfold q_cnt2. destruct s, t; unfold Z.sub; rewrite ?inject_Z_plus, ?inject_Z_opp, ?A, ?A', ?A2, ?B; lra.
    Qed.
    Definition sums_to (d : dsum) (l : list inst) : Prop :=
      (s_y d == sumQ (fun x => r_y (it x)) l /\ s_q d == sumQ (fun x => r_q (it x)) l /\ (cc = true -> inject_Z (s_w d) == sumQ wt l))%Q.
    Lemma read_s1 s f : f < nf -> sums_to (q_sum1 nf k s f) (filter (sel s f) (concat v)).
    Proof.
      intro Hf. unfold sums_to, q_sum1. split; [|split; [|intro Hcc]].
        - pose proof (Hc (Cy (ixd nf f)) I) as A. pose proof cY as B. cbn [comp ctr] in A, B. rewrite (diag_sum (fun x => r_y (it x)) f Hf) in A. destruct (parts (fun x => r_y (it x)) f f (concat v)) as (P1 & _). cbn zeta in P1.
          destruct s; [exact A|]. cbn [ds_sub s_y]. rewrite A, B. lra.
        - pose proof (Hc (Cq (ixd nf f)) I) as A. pose proof cQ as B. cbn [comp ctr] in A, B. rewrite (diag_sum (fun x => r_q (it x)) f Hf) in A. destruct (parts (fun x => r_q (it x)) f f (concat v)) as (P1 & _). cbn zeta in P1.
          destruct s; [exact A|]. cbn [ds_sub s_q]. rewrite A, B. lra.
        - pose proof (Hc (Cw (ixd nf f)) Hcc) as A. pose proof (cW Hcc) as B. cbn [comp ctr] in A, B. rewrite (diag_sum wt f Hf) in A. destruct (parts wt f f (concat v)) as (P1 & _). cbn zeta in P1.
          destruct s; [exact A|]. cbn [ds_sub s_w]. unfold Z.sub. rewrite inject_Z_plus, inject_Z_opp, A, B. lra.
    Qed.
    Lemma read_s2 s t f g : okp f g -> f < nf -> g < nf -> sums_to (q_sum2 nf k s t f g) (filter (fun x => sel s f x && sel t g x) (concat v)).
    Proof.
      intros Ho Hf Hg. unfold sums_to, q_sum2. split; [|split; [|intro Hcc]].
        - pose proof (Hc (Cy (ixd nf f)) I) as A. pose proof (Hc (Cy (ixd nf g)) I) as A'. pose proof (Hc (Cy (ix11 nf f g)) I) as A2. pose proof cY as B. cbn [comp ctr] in A, A', A2, B.
          rewrite (diag_sum (fun x => r_y (it x)) f Hf) in A. rewrite (diag_sum (fun x => r_y (it x)) g Hg) in A'. rewrite (pair_sum (fun x => r_y (it x)) f g Ho Hf Hg) in A2.
          destruct (parts (fun x => r_y (it x)) f g (concat v)) as (P1 & P2 & P3 & P4). cbn zeta in P1, P2, P3, P4. destruct s, t; cbn [ds_sub s_y]; rewrite ?A, ?A', ?A2, ?B; lra.
        - pose proof (Hc (Cq (ixd nf f)) I) as A. pose proof (Hc (Cq (ixd nf g)) I) as A'. pose proof (Hc (Cq (ix11 nf f g)) I) as A2. pose proof cQ as B. cbn [comp ctr] in A, A', A2, B.
          rewrite (diag_sum (fun x => r_q (it x)) f Hf) in A. rewrite (diag_sum (fun x => r_q (it x)) g Hg) in A'. rewrite (pair_sum (fun x => r_q (it x)) f g Ho Hf Hg) in A2.
          destruct (parts (fun x => r_q (it x)) f g (concat v)) as (P1 & P2 & P3 & P4). cbn zeta in P1, P2, P3, P4. destruct s, t; cbn [ds_sub s_q]; rewrite ?A, ?A', ?A2, ?B; lra.
        - pose proof (Hc (Cw (ixd nf f)) Hcc) as A. pose proof (Hc (Cw (ixd nf g)) Hcc) as A'. pose proof (Hc (Cw (ix11 nf f g)) Hcc) as A2. pose proof (cW Hcc) as B. cbn [comp ctr] in A, A', A2, B.
          rewrite (diag_sum wt f Hf) in A. rewrite (diag_sum wt g Hg) in A'. rewrite (pair_sum wt f g Ho Hf Hg) in A2.
          destruct (parts wt f g (concat v)) as (P1 & P2 & P3 & P4). cbn zeta in P1, P2, P3, P4. destruct s, t; cbn [ds_sub s_w]; unfold Z.sub; rewrite ?inject_Z_plus, ?inject_Z_opp, ?inject_Z_plus, ?inject_Z_opp, ?A, ?A', ?A2, ?B; lra.
    Qed.
    Lemma read_leaf1 s f : f < nf -> (1 <= NN (sd s f v))%Z -> (rt_cost cc (q_sum1 nf k s f) (q_cnt1 nf k s f) == LL (sd s f v))%Q.
    Proof. intros Hf Hn. destruct (read_s1 s f Hf) as (A & B & C). rewrite <- sd_filter in A, B, C. apply cost_exact; try assumption; rewrite (read_n1 s f Hf); [reflexivity|exact Hn]. Qed.
    Lemma read_leaf2 s t f g : okp f g -> f < nf -> g < nf -> (1 <= NN (sd t g (sd s f v)))%Z -> (rt_cost cc (q_sum2 nf k s t f g) (q_cnt2 nf k s t f g) == LL (sd t g (sd s f v)))%Q.
    Proof. intros Ho Hf Hg Hn. destruct (read_s2 s t f g Ho Hf Hg) as (A & B & C). rewrite <- sd_filter2 in A, B, C. apply cost_exact; try assumption; rewrite (read_n2 s t f g Ho Hf Hg); [reflexivity|exact Hn]. Qed.
  End Read.
  Lemma reads_exact one v k : wf_view nf v -> qcells one v k -> rexact nf NN LL v (reads_of cc nf k) one.
  Proof.
    intros Hwf Hc. set (okp := fun _ _ : nat => one = false).
    assert (Hd : forall x f, In x (concat v) -> f < nf -> occ (touched nf one x) (ixd nf f) = b2z (has f x)) by (intros x f Hx Hf; apply (occ_touched_diag nf one x f (Hwf x Hx) Hf)).
    assert (Hp : forall x f g, In x (concat v) -> okp f g -> f < nf -> g < nf -> occ (touched nf one x) (ix11 nf f g) = b2z (has f x && has g x)) by (intros x f g Hx Ho Hf Hg; unfold okp in Ho; rewrite Ho; apply (occ_touched_pair nf x f g (Hwf x Hx) Hf Hg)).
    split; cbn [reads_of rd_n rd_leaf rd_n1 rd_leaf1 rd_n2 rd_leaf2].
    - exact (read_tot (touched nf one) v k Hc).
    - intro Hn. apply cost_exact; [exact (read_tot (touched nf one) v k Hc)|rewrite (read_tot (touched nf one) v k Hc); exact Hn|exact (Hc Sy I)|exact (Hc Sq I)|intro Hcc; exact (Hc Sw Hcc)].
    - intros s f Hf. exact (read_n1 (touched nf one) v k Hd Hc s f Hf).
    - intros s f Hf Hn. exact (read_leaf1 (touched nf one) v k Hd Hc s f Hf Hn).
    - intros Ho s t f g Hf Hg. exact (read_n2 (touched nf one) okp v k Hd Hp Hc s t f g Ho Hf Hg).
    - intros Ho s t f g Hf Hg Hn. exact (read_leaf2 (touched nf one) okp v k Hd Hp Hc s t f g Ho Hf Hg Hn).
  Qed.

  (** ** Histories of calls *)
  Context (bc : Q) (root : view).
  Hypothesis Hbc : (0 <= bc)%Q.
  Hypothesis Hs : view_sorted root.
  Hypothesis Hroot : wf_view nf root.
  Definition qstate_ok (st : qterm) : Prop :=
    match qt_data st with
    | None => True
    | Some u => exists b, u = restrict b root /\ 1 <= qt_nodes st /\ qcells (qt_nodes st =? 1) u (qt_calc st) /\ results_ok bc nf NN LL u (qt_nodes st =? 1) (qt_res st)
    end.
  Lemma run_good b n k : 1 <= n -> qcells (n =? 1) (restrict b root) k -> results_ok bc nf NN LL (restrict b root) (n =? 1) (q_results bc nf 1 (reads_of cc nf k) b n).
  Proof.
    intros Hn Hk. apply results_good; try assumption; [apply NN_split|apply NN_nonneg|apply NN_pos|apply LL_nonneg|apply blind_restrict|]. apply reads_exact; [apply wf_restrict; exact Hroot|exact Hk].
  Qed.
  Lemma call_good st b n : 1 <= n -> qstate_ok st -> let st' := q_call cc it bc nf 1 st (restrict b root) b n in
    qstate_ok st' /\ results_ok bc nf NN LL (restrict b root) (n =? 1) (qt_res st').
  Proof.
    intros Hn H. cbn zeta. unfold q_call.
    assert (F : forall k, qcells (n =? 1) (restrict b root) k -> let st' := QTerm (Some (restrict b root)) n k (q_results bc nf 1 (reads_of cc nf k) b n) in qstate_ok st' /\ results_ok bc nf NN LL (restrict b root) (n =? 1) (qt_res st')).
    { intros k Hk. cbn zeta. unfold qstate_ok. cbn [qt_data qt_nodes qt_calc qt_res]. pose proof (run_good b n k Hn Hk). split; [exists b|]; auto. }
    destruct (qt_data st) as [u|] eqn:Ed; [|apply F, fresh_cells].
    destruct (Bool.eqb (n =? 1) (qt_nodes st =? 1)) eqn:Eo; [|apply F, fresh_cells]. apply Bool.eqb_prop in Eo.
    unfold qstate_ok in H. rewrite Ed in H. destruct H as (b0 & -> & Hn0 & Hc0 & Hr0).
    destruct ((vsize (diff_add (restrict b0 root) (restrict b root)) =? 0) && (vsize (diff_remove (restrict b0 root) (restrict b root)) =? 0)) eqn:E0.
    - apply andb_true_iff in E0. destruct E0 as [E1 E2]. apply Nat.eqb_eq in E1, E2. pose proof (diff_none b0 b root Hs E1 E2) as Eq. rewrite Eo, <- Eq.
      split; [|exact Hr0]. unfold qstate_ok. rewrite Ed. exists b0. auto.
    - destruct (_ <? _); [|apply F, fresh_cells]. apply F. rewrite Eo. apply more_cells; [exact Hs|exact Hc0].
  Qed.
  (** The uses so far: each on the part of the training data at a branch. *)
  Definition use_ok (e : quse) : Prop := match e with Solve n => 1 <= n | Build _ => True end.
  Definition q_uses (uses : list (branch * quse)) : qterm :=
    fold_left (fun st c => q_use cc it bc nf 1 st (restrict (fst c) root) (fst c) (snd c)) uses qterm0.
  Lemma use_good st b e : use_ok e -> qstate_ok st -> qstate_ok (q_use cc it bc nf 1 st (restrict b root) b e).
  Proof. intros He H. destruct e as [n|x]; [apply call_good; assumption|exact I]. Qed.
  Lemma uses_good uses b n : Forall (fun c => use_ok (snd c)) uses -> 1 <= n -> results_ok bc nf NN LL (restrict b root) (n =? 1) (qt_res (q_uses (uses ++ [(b, Solve n)]))).
  Proof.
    intros Hf Hn. unfold q_uses. rewrite fold_left_app. cbn [fold_left fst snd q_use]. apply call_good; [exact Hn|].
    assert (G : forall st, qstate_ok st -> qstate_ok (fold_left (fun st c => q_use cc it bc nf 1 st (restrict (fst c) root) (fst c) (snd c)) uses st)).
    { induction Hf as [|c uses Hc _ IH]; intros st H; cbn [fold_left]; [exact H|]. apply IH. apply use_good; assumption. }
    apply G. exact I.
  Qed.

  (** ** Construction of the tree *)
  Lemma rec_comp f k x i : used i -> (comp (rec_qupd cc it nf f k x) i == comp k i + ctr (rec_indices nf f) i x)%Q.
  Proof.
    intro Hu. unfold rec_qupd. destruct (inst_sums x 1) as (C1 & C2 & C3). cbn zeta in C1, C2, C3. change (inject_Z 1) with 1%Q in *.
    assert (W : (inject_Z (Z.of_nat (r_w (it x))) == wt x)%Q) by reflexivity.
    destruct (rt_zero cc (rt_inst cc it x 1)) eqn:Z.
    - destruct (zero_inst x 1 (or_introl eq_refl) Z) as (Hcc & Y & Q). set (d := rt_inst cc it x 1) in *. destruct i; cbn [comp ctr g_tot g_cnt g_cell g_sum used ds_add s_y s_q s_w] in *; try congruence;
        rewrite ?add_all_occ, ?inject_Z_plus, ?inject_Z_mult, ?W; unfold oc; rewrite ?C1, ?C2, ?Y, ?Q; ring.
    - set (d := rt_inst cc it x 1) in *. destruct i; cbn [comp ctr g_tot g_cnt g_cell g_sum used ds_add s_y s_q s_w] in *;
        try (destruct (ds_all d (rec_indices nf f x) (g_cell k) j) as (D1 & D2 & D3); cbn zeta in D1, D2, D3; rewrite ?D1, ?D2, ?D3);
        rewrite ?add_all_occ, ?inject_Z_plus, ?inject_Z_mult, ?W; unfold oc; rewrite ?C1, ?C2, ?C3; ring.
  Qed.
  Lemma rec_cells f v i : used i -> (comp (rec_qcalc cc it nf f v) i == sumQ (ctr (rec_indices nf f) i) (concat v))%Q.
  Proof.
    intro Hu. unfold rec_qcalc. assert (G : forall l k, (comp (fold_left (rec_qupd cc it nf f) l k) i == comp k i + sumQ (ctr (rec_indices nf f) i) l)%Q).
    { induction l as [|x l IH]; intro k; cbn [fold_left sumQ]; [ring|]. rewrite IH, (rec_comp f k x i Hu). ring. }
    rewrite G. destruct i; cbn [comp qcalc_zero g_tot g_cnt g_cell g_sum ds_zero s_y s_q s_w]; change (inject_Z 0) with 0%Q; ring.
  Qed.

  (** A tree with numbers at its leaves that are the means. *)
  Fixpoint filled (u : view) (t : tree) (r : rtree) : Prop :=
    match t, r with
    | Leaf _, RLeaf q => (q == item_mean (map it (concat u)))%Q
    | Split f l r, RSplit f' l' r' => f = f' /\ filled (split_left f u) l l' /\ filled (split_right f u) r r'
    | _, _ => False
    end.
  Lemma label_mean d n u : n = NN u -> (1 <= n)%Z -> sums_to d (concat u) -> (rt_label cc d n == item_mean (map it (concat u)))%Q.
  Proof.
    intros En Hn (Y & _ & W). unfold rt_label. destruct (Z.eqb_spec n 0) as [|_]; [lia|]. rewrite (proj2 (err_sums _)), sum_map, Y.
    assert (D : (inject_Z (if cc then s_w d else n) == qn (weight (map it (concat u))))%Q); [|rewrite D; reflexivity].
    destruct (bool_dec cc true) as [H|H]; [rewrite H, sum_weight; apply W; exact H|]. apply not_true_is_false in H. rewrite H, En. reflexivity.
  Qed.
  Lemma same_empty s f u : NN (sd (negb s) f (sd s f u)) = 0%Z.
  Proof.
    unfold NN. rewrite sd_filter2. replace (filter _ (concat u)) with (@nil inst); [reflexivity|]. symmetry. induction (concat u) as [|x l IH]; cbn [filter]; [reflexivity|]. unfold sel at 1 2. destruct s, (has f x); cbn [negb andb]; exact IH.
  Qed.

  Section Child.
    Context (x : qnode) (f : nat) (u : view) (s : bool).
    Hypothesis Hwf : wf_view nf u.
    Hypothesis Hf : f < nf.
    Hypothesis Hx : (0 <= n_val x)%Q.
    Notation k := (rec_qcalc cc it nf f u).
    Notation side := (sd s f u).
    Definition ok_child (n : nat) (p : Q * rtree) : Prop :=
      exists t, tok nf NN side t /\ nodes t = n /\ depth t <= 1 /\ (fst p == tv bc LL side t)%Q /\ filled side t (snd p).
    Lemma rd_hd y g : In y (concat u) -> g < nf -> occ (rec_indices nf f y) (ixd nf g) = b2z (has g y).
    Proof. intros Hy Hg. apply rec_diag; [apply Hwf; exact Hy|exact Hf|exact Hg]. Qed.
    Lemma rd_hp y a g : In y (concat u) -> (a = f /\ g <> f) -> a < nf -> g < nf -> occ (rec_indices nf f y) (ix11 nf a g) = b2z (has a y && has g y).
    Proof. intros Hy [-> Hne] _ Hg. apply rec_pair; [apply Hwf; exact Hy|exact Hf|exact Hg|exact Hne]. Qed.
    Lemma add_child c q t : exists z, (qc_add (n_val x) c q t = c \/ qc_add (n_val x) c q t = Some (q, t)) /\ qc_add (n_val x) c q t = z
      /\ (forall p, c = Some p -> exists p', z = Some p' /\ (fst p' <= fst p)%Q) /\ ((q <= n_val x)%Q -> exists p', z = Some p' /\ (fst p' <= q)%Q).
    Proof.
      eexists. split; [|split; [reflexivity|]]; unfold qc_add; destruct (qlt _ q) eqn:E.
      - left. reflexivity.
      - destruct c as [[q' t']|]; [destruct (qlt q q')|]; auto.
      - split; [intros p ->; exists p; split; [reflexivity|lra]|]. intro L. apply qlt_spec in E. exfalso. assert (n_val x * (1 + (1 # 10000)) == n_val x + n_val x * (1 # 10000))%Q by ring. lra.
      - destruct c as [[q' t']|].
        + destruct (qlt q q') eqn:E2; [apply qlt_spec in E2|apply qlt_false in E2]; (split; [intros p [= <-]|intros _]); eexists; (split; [reflexivity|]); cbn [fst]; lra.
        + split; [discriminate|]. intros _. eexists. split; [reflexivity|]. cbn [fst]. lra.
    Qed.
    Lemma child_leaf : (1 <= NN side)%Z -> (LL side <= n_val x)%Q ->
      exists p, q_best_child cc bc nf 1 x k f s 0 = Some p /\ ok_child 0 p.
    Proof.
      intros Hn Hl. unfold q_best_child. cbn [Nat.eqb].
      assert (G : forall fs c, fold_left (q_split_child cc bc nf 1 x k f s 0) fs c = c). { induction fs as [|g fs IH]; intro c; cbn [fold_left]; [reflexivity|]. rewrite IH. unfold q_split_child. cbn [Nat.eqb negb andb]. destruct (g =? f); reflexivity. }
      rewrite G. set (q := rt_cost cc (q_sum1 nf k s f) (q_cnt1 nf k s f)). set (t := RLeaf _).
      assert (Eq : (q == LL side)%Q) by (apply (read_leaf1 (rec_indices nf f) u k rd_hd (fun i => rec_cells f u i) s f Hf Hn)).
      destruct (add_child None q t) as (z & A & Ez & _ & B). destruct (B ltac:(lra)) as (p' & E & _). rewrite <- Ez in E. destruct A as [A|A]; rewrite A in E; [discriminate|]. injection E as <-.
      exists (q, t). split; [exact A|]. exists (Leaf 0). split; [exact Hn|]. split; [reflexivity|]. split; [cbn; lia|]. split; [exact Eq|].
      cbn [filled snd]. unfold t. apply label_mean; [apply (read_n1 (rec_indices nf f) u k rd_hd (fun i => rec_cells f u i) s f Hf)|rewrite (read_n1 (rec_indices nf f) u k rd_hd (fun i => rec_cells f u i) s f Hf); exact Hn|].
      rewrite sd_filter. apply (read_s1 (rec_indices nf f) u k rd_hd (fun i => rec_cells f u i) s f Hf).
    Qed.
    Lemma child_split l0 : nodes l0 = 1 -> tok nf NN side l0 -> (tv bc LL side l0 <= n_val x)%Q ->
      exists p, q_best_child cc bc nf 1 x k f s 1 = Some p /\ ok_child 1 p /\ (fst p <= tv bc LL side l0)%Q.
    Proof.
      intros Hn Ht Hv. destruct l0 as [|g0 [a|] [c|]]; cbn [nodes] in Hn; try lia. cbn [tok] in Ht. destruct Ht as (Hg0 & T1 & T2). unfold q_best_child. cbn [Nat.eqb].
      assert (N2 : forall t g, g <> f -> g < nf -> q_cnt2 nf k s t f g = NN (sd t g side)) by (intros t g Hne Hg; apply (read_n2 (rec_indices nf f) (fun a g => a = f /\ g <> f) u k rd_hd rd_hp (fun i => rec_cells f u i)); auto).
      assert (L2 : forall t g, g <> f -> g < nf -> (1 <= NN (sd t g side))%Z -> (rt_cost cc (q_sum2 nf k s t f g) (q_cnt2 nf k s t f g) == LL (sd t g side))%Q) by (intros t g Hne Hg; apply (read_leaf2 (rec_indices nf f) (fun a g => a = f /\ g <> f) u k rd_hd rd_hp (fun i => rec_cells f u i)); auto).
      assert (S2 : forall t g, g <> f -> g < nf -> sums_to (q_sum2 nf k s t f g) (concat (sd t g side))) by (intros t g Hne Hg; rewrite sd_filter2; apply (read_s2 (rec_indices nf f) (fun a g => a = f /\ g <> f) u k rd_hd rd_hp (fun i => rec_cells f u i)); auto).
      assert (Hne0 : g0 <> f). { intros ->. pose proof (same_empty s f u) as Z. destruct s; cbn [negb sd] in *; lia. }
      assert (G : forall fs c0, (forall g, In g fs -> g < nf) -> (forall p, c0 = Some p -> ok_child 1 p) ->
        let z := fold_left (q_split_child cc bc nf 1 x k f s 1) fs c0 in
        (forall p, z = Some p -> ok_child 1 p) /\ (forall p, c0 = Some p -> exists p', z = Some p' /\ (fst p' <= fst p)%Q)
        /\ (In g0 fs -> exists p', z = Some p' /\ (fst p' <= tv bc LL side (Split g0 (Leaf a) (Leaf c)))%Q)).
      { induction fs as [|g fs IH]; intros c0 Hin H0; cbn [fold_left]; cbn zeta.
        - split; [exact H0|]. split; [|intros []]. intros p ->. exists p. split; [reflexivity|lra].
        - assert (Hg : g < nf) by (apply Hin; left; reflexivity).
          assert (Q : (forall p, q_split_child cc bc nf 1 x k f s 1 c0 g = Some p -> ok_child 1 p) /\ (forall p, c0 = Some p -> exists p', q_split_child cc bc nf 1 x k f s 1 c0 g = Some p' /\ (fst p' <= fst p)%Q)
            /\ (g = g0 -> exists p', q_split_child cc bc nf 1 x k f s 1 c0 g = Some p' /\ (fst p' <= tv bc LL side (Split g0 (Leaf a) (Leaf c)))%Q)).
          { unfold q_split_child. destruct (Nat.eqb_spec g f) as [->|Hne].
            - split; [exact H0|]. split; [intros p ->; exists p; split; [reflexivity|lra]|congruence].
            - cbn [Nat.eqb negb andb]. destruct (enough 1 (q_cnt2 nf k s false f g) && enough 1 (q_cnt2 nf k s true f g)) eqn:E.
              + apply andb_true_iff in E. destruct E as [E1 E2]. rewrite enough1 in E1, E2. rewrite (N2 _ _ Hne Hg) in E1. rewrite (N2 _ _ Hne Hg) in E2. pose proof (L2 _ _ Hne Hg E1) as V1. pose proof (L2 _ _ Hne Hg E2) as V2.
                match goal with |- context [qc_add _ c0 ?qq ?tt] => set (q := qq); set (t := tt) end.
                assert (Eq : (q == bc + (LL (sd false g side) + LL (sd true g side)))%Q) by (unfold q; rewrite V1, V2; ring).
                destruct (add_child c0 q t) as (z & A & Ez & B1 & B2). rewrite Ez in *. split; [|split; [exact B1|]].
                * intros p Hp. destruct A as [A|A]; [apply H0; congruence|]. assert (p = (q, t)) by congruence. subst p. exists (Split g (Leaf 0) (Leaf 0)). cbn [tok]. split; [split; [exact Hg|split; assumption]|]. split; [reflexivity|]. split; [cbn; lia|]. split; [exact Eq|].
                  cbn [filled snd]. unfold t. split; [reflexivity|]. split; [apply (label_mean _ _ (sd false g side))|apply (label_mean _ _ (sd true g side))]; try (apply S2; assumption); try (apply N2; assumption); rewrite N2 by assumption; assumption.
                * intros ->. cbn [tv] in Hv |- *. cbn [sd] in Eq. destruct (B2 ltac:(lra)) as (p' & C1 & C2). exists p'. split; [exact C1|lra].
              + split; [exact H0|]. split; [intros p ->; exists p; split; [reflexivity|lra]|]. intros ->. exfalso. apply andb_false_iff in E. rewrite <- !not_true_iff_false, !enough1, !N2 in E by assumption. cbn [sd tok] in *. lia. }
          destruct Q as (Q1 & Q2 & Q3). destruct (IH _ (fun h Hh => Hin h (or_intror Hh)) Q1) as (I1 & I2 & I3). split; [exact I1|]. split.
          + intros p Hp. destruct (Q2 p Hp) as (p' & A & B). destruct (I2 p' A) as (p'' & C & D). exists p''. split; [exact C|lra].
          + intros [->|Hi]; [|apply I3; exact Hi]. destruct (Q3 eq_refl) as (p' & A & B). destruct (I2 p' A) as (p'' & C & D). exists p''. split; [exact C|lra]. }
      destruct (G (seq 0 nf) None) as (G1 & _ & G3); [intros g Hg; apply in_seq in Hg; lia|discriminate|]. destruct G3 as (p & A & B); [apply in_seq; lia|]. exists p. split; [exact A|]. split; [apply G1; exact A|exact B].
    Qed.
  End Child.

  Lemma build_good u m x f : wf_view nf u -> good bc nf NN LL u m (Some x) -> n_feat x = Some f ->
    exists r t, q_construct cc it bc nf 1 x u = Some r /\ tok nf NN u t /\ depth t <= 2 /\ nodes t <= m /\ nodes t = n_nodes x /\ (n_val x == tv bc LL u t)%Q /\ filled u t r.
  Proof.
    intros Hwf (x' & [= <-] & (t0 & (W1 & W2 & W3) & D0 & M0) & B) Hfx. destruct t0 as [|f0 l0 r0]; [destruct W3; congruence|]. destruct W3 as (E1 & E2 & E3). assert (f0 = f) by congruence. subst f0. clear E1.
    cbn [tok] in W1. destruct W1 as (Hf & Tl & Tr). cbn [depth nodes] in D0, M0. cbn [tv] in W2.
    pose proof (tv_nonneg bc LL Hbc LL_nonneg l0 (split_left f u)) as P1. pose proof (tv_nonneg bc LL Hbc LL_nonneg r0 (split_right f u)) as P2. assert (Hx0 : (0 <= n_val x)%Q) by lra.
    assert (G : forall s t1, tok nf NN (sd s f u) t1 -> depth t1 <= 1 -> (tv bc LL (sd s f u) t1 <= n_val x)%Q -> exists p, q_best_child cc bc nf 1 x (rec_qcalc cc it nf f u) f s (nodes t1) = Some p /\ ok_child f u s (nodes t1) p /\ (fst p <= tv bc LL (sd s f u) t1)%Q).
    { intros s t1 T1 D1 V1. destruct t1 as [a|g [a|] [c|]]; cbn [depth] in D1; try lia.
      - cbn [nodes]. destruct (child_leaf x f u s Hwf Hf Hx0 T1 V1) as (p & A & C). exists p. split; [exact A|]. split; [exact C|]. destruct C as (t2 & _ & N2 & _ & Q2 & _). destruct t2; [|discriminate]. cbn [tv] in *. lra.
      - cbn [nodes Nat.add] in *. apply (child_split x f u s Hwf Hf Hx0 (Split g (Leaf a) (Leaf c)) eq_refl T1 V1). }
    destruct (G false l0 Tl ltac:(lia)) as ([ql rl] & A1 & (tl & B1 & B2 & B3 & B4 & B5) & C1); [cbn [sd]; lra|]. destruct (G true r0 Tr ltac:(lia)) as ([qr rr] & A2 & (tr & F1 & F2 & F3 & F4 & F5) & C2); [cbn [sd]; lra|].
    cbn [fst snd sd] in *. rewrite <- E2 in A1. rewrite <- E3 in A2. exists (RSplit f rl rr), (Split f tl tr). split; [unfold q_construct; rewrite Hfx, A1, A2; reflexivity|].
    assert (T : tok nf NN u (Split f tl tr)) by (cbn [tok]; auto). split; [exact T|]. split; [cbn [depth]; lia|]. split; [cbn [nodes]; lia|]. split; [unfold n_nodes; rewrite Hfx; cbn [nodes]; lia|]. split; [|cbn [filled]; auto].
    assert (Lo : (n_val x <= tv bc LL u (Split f tl tr))%Q) by (apply B; [exact T|cbn [depth]; lia|cbn [nodes]; lia]). cbn [tv] in *. lra.
  Qed.
End Counts.
