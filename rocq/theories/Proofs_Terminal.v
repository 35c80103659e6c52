(** The depth-two solver returns the best tree with one split, and with three splits. *)
From Coq Require Import List Arith Bool Lia ZArith Sorted.
From Verif Require Import Model_FeatureVector Model_Data Model_Node Model_Cache Model_Terminal Model_Solver Spec_Tree
  Proofs_View Proofs_Diff Proofs_Feature Proofs_Calc Proofs_Base.
Import ListNotations.
Local Open Scope nat_scope.

(** ** The best of a set of candidates *)
Section Best.
  Context (T : task).
  Notation worst := (tk_worst T).

  Definition best (C : node -> Prop) (r : node) : Prop :=
    (C r \/ (r = init_sol T /\ forall c, ~ C c)) /\ (forall c, C c -> (nd_sol r <= nd_sol c)%Z).

  Lemma best_ext C C' r : (forall x, C x <-> C' x) -> best C r -> best C' r.
  Proof.
    intros H [[H1|[H1 H2]] H3]; split.
    - left. apply H. exact H1.
    - intros c Hc. apply H3, H, Hc.
    - right. split; [exact H1|]. intros c Hc. apply (H2 c), H, Hc.
    - intros c Hc. apply H3, H, Hc.
  Qed.

  Lemma best_init : best (fun _ => False) (init_sol T).
  Proof. split; [right; split; [reflexivity|tauto]|intros c []]. Qed.

  Lemma best_add C r c :
    best C r -> (nd_sol c < worst)%Z -> best (fun x => C x \/ x = c) (add_sol r c).
  Proof.
    intros [H1 H3] Hc. unfold add_sol. destruct (nd_sol c <? nd_sol r)%Z eqn:E.
    - apply Z.ltb_lt in E. split; [left; right; reflexivity|].
      intros x [Hx| ->]; [specialize (H3 x Hx); lia|lia].
    - apply Z.ltb_ge in E. destruct H1 as [H1|[-> H2]].
      + split; [left; left; exact H1|]. intros x [Hx| ->]; [apply H3; exact Hx|exact E].
      + cbn [init_sol value_node nd_sol] in E. lia.
  Qed.

  Lemma best_fold {A} (g : A -> node) l : forall C r,
    best C r -> (forall a, In a l -> (nd_sol (g a) < worst)%Z) ->
    best (fun x => C x \/ exists a, In a l /\ x = g a) (fold_left (fun r a => add_sol r (g a)) l r).
  Proof.
    induction l as [|a l IH]; intros C r Hb Hl; cbn [fold_left].
    - eapply best_ext; [|exact Hb]. intro x. split; [auto|]. intros [H|(a & [] & _)]. exact H.
    - eapply best_ext; [|apply (IH _ _ (best_add C r (g a) Hb (Hl a (or_introl eq_refl)))); intros; apply Hl; right; assumption].
      intro x. split.
      + intros [[H|H]|(a' & Ha & H)]; [left; exact H|right; exists a; split; [left; reflexivity|exact H]|right; exists a'; split; [right; exact Ha|exact H]].
      + intros [H|(a' & [->|Ha] & H)]; [left; left; exact H|left; right; exact H|right; exists a'; auto].
  Qed.

  Lemma fold_left_ext {A B} (g h : B -> A -> B) l : (forall b a, In a l -> g b a = h b a) -> forall b, fold_left g l b = fold_left h l b.
  Proof.
    induction l as [|a l IH]; intros H b; [reflexivity|]. cbn [fold_left]. rewrite H by (left; reflexivity).
    apply IH. intros; apply H; right; assumption.
  Qed.

  Lemma best_empty_iff C r : best C r -> (forall c, C c -> is_empty c = false) -> is_empty r = true -> forall c, ~ C c.
  Proof. intros [[H|[-> H]] _] Hne He; [rewrite (Hne r H) in He; discriminate|exact H]. Qed.

  Lemma best_nonempty C r : best C r -> is_empty r = false -> C r.
  Proof. intros [[H|[-> H]] _] He; [exact H|discriminate]. Qed.
End Best.

Lemma ge_mls_spec mls n : ge_mls mls (Z.of_nat n) = true <-> mls <= n.
Proof. unfold ge_mls. rewrite Z.leb_le. lia. Qed.

  Lemma in_la nl a c : In (a, c) (label_assignments nl) <-> a < nl /\ c < nl /\ (nl <= 1 \/ a <> c).
  Proof.
    unfold label_assignments. rewrite filter_In, in_prod_iff, !in_seq. cbn [fst snd].
    rewrite negb_true_iff, andb_false_iff, Nat.ltb_ge, Nat.eqb_neq. intuition lia.
  Qed.

Section Term.
  Context (T : task) (G : cfg) (HT : good_task T).
  Notation nf := (c_nf G).
  Notation mls := (c_mls G).
  Notation cost := (tree_cost (tk_inst T)).
  Notation worst := (tk_worst T).
  Context (v : view) (b : branch) (k : calc).
  Notation nl := (num_labels v).
  Hypothesis Hmls : 1 <= mls.
  Hypothesis Hlt : forall t, (cost v t < worst)%Z.
  Hypothesis Hbr : forall f, br_has b f = true -> vsize (split_left f v) = 0 \/ vsize (split_right f v) = 0.

  Lemma term_bc_root c f : tbc_root T b c f = 0%Z.
  Proof. unfold tbc_root. apply (gt_bc T HT). Qed.
  Lemma term_bc_child c f g : tbc_child T b c f g = 0%Z.
  Proof. unfold tbc_child. apply (gt_bc T HT). Qed.

  (** Costs of the parts are below the worst value. *)
  Lemma part_lt f tl tr : (cost (split_left f v) tl + cost (split_right f v) tr < worst)%Z.
  Proof. rewrite <- tree_cost_split. apply Hlt. Qed.
  Lemma left_lt f t : (cost (split_left f v) t < worst)%Z.
  Proof. pose proof (part_lt f t (Leaf 0)). pose proof (cost_nonneg T HT (split_right f v) (Leaf 0)). lia. Qed.
  Lemma right_lt f t : (cost (split_right f v) t < worst)%Z.
  Proof. pose proof (part_lt f (Leaf 0) t). pose proof (cost_nonneg T HT (split_left f v) (Leaf 0)). lia. Qed.

  (** ** One split *)
  Definition cand_one (x : node) : Prop :=
    (exists l, l < nl /\ x = leaf_node l (cost v (Leaf l)))
    \/ exists f a c, f < nf /\ tk_may T f = true /\ mls <= vsize (split_left f v) /\ mls <= vsize (split_right f v)
         /\ In (a, c) (label_assignments nl)
         /\ x = branch_node f (cost (split_left f v) (Leaf a) + cost (split_right f v) (Leaf c))%Z 0 0.

  Lemma one_leaf_best one : exact T nf one v k ->
    best T (fun x => exists l, l < nl /\ x = leaf_node l (cost v (Leaf l))) (one_leaf k nl (init_sol T)).
  Proof.
    intro E. unfold one_leaf.
    rewrite (fold_left_ext _ (fun r l => add_sol r (leaf_node l (cost v (Leaf l))))).
    - eapply best_ext; [|apply (best_fold T (fun l => leaf_node l (cost v (Leaf l))) _ _ _ (best_init T)); intros; apply Hlt].
      intro x. split.
      + intros [[]|(l & Hl & H)]. apply in_seq in Hl. exists l. split; [lia|exact H].
      + intros (l & Hl & H). right. exists l. split; [apply in_seq; lia|exact H].
    - intros r l Hl. apply in_seq in Hl. rewrite (ex_ctot _ _ _ _ _ E) by lia. reflexivity.
  Qed.

  Lemma solve_one_best one : exact T nf one v k -> best T cand_one (solve_one T nf mls k b nl).
  Proof.
    intro E. unfold solve_one.
    assert (H : forall fs C r, (forall f, In f fs -> f < nf) -> best T C r ->
      best T (fun x => C x \/ exists f a c, In f fs /\ tk_may T f = true /\ mls <= vsize (split_left f v) /\ mls <= vsize (split_right f v)
         /\ In (a, c) (label_assignments nl)
         /\ x = branch_node f (cost (split_left f v) (Leaf a) + cost (split_right f v) (Leaf c))%Z 0 0)
        (fold_left (one_split T nf mls k b nl) fs r)).
    { induction fs as [|f fs IH]; intros C r Hfs Hb; cbn [fold_left].
      - eapply best_ext; [|exact Hb]. intro x. split; [auto|]. intros [H|(f & a & c & [] & _)]. exact H.
      - assert (Hf : f < nf) by (apply Hfs; left; reflexivity).
        unfold one_split at 2. rewrite (rd_count0 _ _ _ _ _ E f Hf), (rd_count1 _ _ _ _ _ E f Hf).
        destruct (tk_may T f && ge_mls mls (Z.of_nat (vsize (split_left f v))) && ge_mls mls (Z.of_nat (vsize (split_right f v)))) eqn:Ec.
        + apply andb_true_iff in Ec. destruct Ec as [Ec E3]. apply andb_true_iff in Ec. destruct Ec as [E1 E2].
          rewrite ge_mls_spec in E2, E3.
          eapply best_ext; [|apply IH; [intros; apply Hfs; right; assumption|]].
          2:{ rewrite (fold_left_ext _ (fun r p => add_sol r (branch_node f (cost (split_left f v) (Leaf (fst p)) + cost (split_right f v) (Leaf (snd p)))%Z 0 0))).
              - apply (best_fold T (fun p => branch_node f (cost (split_left f v) (Leaf (fst p)) + cost (split_right f v) (Leaf (snd p)))%Z 0 0) _ _ _ Hb).
                intros [a c] _. cbn [nd_sol branch_node fst snd]. apply part_lt.
              - intros r' [a c] Hp. apply in_la in Hp. cbn [fst snd].
                rewrite (rd_sol0 _ _ _ _ _ E), (rd_sol1 _ _ _ _ _ E), term_bc_root, Z.add_0_r by tauto. reflexivity. }
          intro x. split.
          * intros [[H|([a c] & Hp & H)]|(f' & a & c & Hf' & H)]; [left; exact H| |].
            -- right. exists f, a, c. cbn [fst snd] in H. repeat split; try assumption. left; reflexivity.
            -- right. exists f', a, c. split; [right; exact Hf'|exact H].
          * intros [H|(f' & a & c & [->|Hf'] & H)]; [left; left; exact H| |].
            -- left. right. exists (a, c). cbn [fst snd]. tauto.
            -- right. exists f', a, c. tauto.
        + eapply best_ext; [|apply IH; [intros; apply Hfs; right; assumption|exact Hb]].
          intro x. split.
          * intros [H|(f' & a & c & Hf' & H)]; [left; exact H|]. right. exists f', a, c. split; [right; exact Hf'|exact H].
          * intros [H|(f' & a & c & [->|Hf'] & H)]; [left; exact H| |].
            -- exfalso. destruct H as (E1 & E2 & E3 & _). rewrite <- ge_mls_spec in E2, E3. rewrite E1, E2, E3 in Ec. discriminate.
            -- right. exists f', a, c. tauto. }
    eapply best_ext; [|apply (H (seq 0 nf) _ _ ltac:(intros f Hf; apply in_seq in Hf; lia) (one_leaf_best one E))].
    intro x. unfold cand_one. split.
    - intros [H1|(f & a & c & Hf & H1)]; [left; exact H1|]. right. exists f, a, c. apply in_seq in Hf. split; [lia|tauto].
    - intros [H1|(f & a & c & Hf & H1)]; [left; exact H1|]. right. exists f, a, c. split; [apply in_seq; lia|tauto].
  Qed.

  Lemma cand_one_wit x : mls <= vsize v -> cand_one x -> wit T G v 1 x /\ num_nodes x <= 1 /\ nd_l x = 0 /\ nd_r x = 0.
  Proof.
    intros Hm [(l & Hl & ->)|(f & a & c & Hf & Hmay & H0 & H1 & Hla & ->)].
    - split; [|split; [cbn; lia|split; reflexivity]]. unfold wit. cbn [leaf_node nd_feat nd_lab nd_sol]. exists l. auto.
    - split; [|split; [cbn; lia|split; reflexivity]]. apply in_la in Hla. unfold wit. cbn [branch_node nd_feat nd_lab nd_sol nd_l nd_r].
      split; [split; assumption|]. split; [lia|]. cbn [Nat.sub Nat.pow]. split; [lia|]. split; [lia|].
      exists (Leaf a), (Leaf c). rewrite <- (num_labels_left f v) in Hla at 1.
      repeat split; cbn [fits leaves_ok depth nodes]; try lia.
      + apply Hla.
      + exact H0.
      + change (length (split_right f v)) with (num_labels (split_right f v)). rewrite num_labels_right. apply Hla.
      + exact H1.
  Qed.

  (** A tree with at most one split is not better than the best candidate. *)
  Lemma cand_one_lb t : alw T G 1 1 v t -> exists x, cand_one x /\ (nd_sol x <= cost v t)%Z.
  Proof.
    intro Ht. destruct t as [l|f tl tr].
    - exists (leaf_node l (cost v (Leaf l))). split; [|cbn [nd_sol leaf_node]; lia]. left. exists l. destruct Ht as (Hf & _). cbn [fits] in Hf. auto.
    - apply allowed_split in Ht. destruct Ht as ((Hf & Hmay) & _ & Hn & Hl & Hr).
      destruct tl as [a|? ? ?]; [|cbn [nodes] in Hn; lia]. destruct tr as [c|? ? ?]; [|cbn [nodes] in Hn; lia].
      pose proof (allowed_size _ _ _ _ _ _ Hl) as S0. pose proof (allowed_size _ _ _ _ _ _ Hr) as S1.
      destruct Hl as (Ha & _). destruct Hr as (Hc & _). cbn [fits] in Ha, Hc.
      change (length (split_left f v)) with (num_labels (split_left f v)) in Ha. rewrite num_labels_left in Ha.
      change (length (split_right f v)) with (num_labels (split_right f v)) in Hc. rewrite num_labels_right in Hc.
      rewrite tree_cost_split.
      destruct (Nat.eq_dec a c) as [->|Hne].
      + exists (leaf_node c (cost v (Leaf c))). split; [left; exists c; auto|]. cbn [nd_sol leaf_node].
        rewrite (leaf_split T v f c). lia.
      + exists (branch_node f (cost (split_left f v) (Leaf a) + cost (split_right f v) (Leaf c))%Z 0 0).
        split; [|cbn [nd_sol branch_node]; lia]. right. exists f, a, c. repeat split; try assumption. apply in_la. auto.
  Qed.

  (** ** Pairs *)
  Hypothesis E : exact T nf false v k.

  Definition sd (s : bool) (f : nat) : view := if s then split_right f v else split_left f v.

  Definition cand (s : bool) (f : nat) (P : nat -> Prop) (x : node) : Prop :=
    exists g a c, P g /\ mls <= vsize (split_left g (sd s f)) /\ mls <= vsize (split_right g (sd s f))
      /\ In (a, c) (label_assignments nl)
      /\ x = branch_node g (cost (split_left g (sd s f)) (Leaf a) + cost (split_right g (sd s f)) (Leaf c))%Z 0 0.

  Lemma sd_lt s f t : (cost (sd s f) t < worst)%Z.
  Proof. destruct s; [apply right_lt|apply left_lt]. Qed.

  Lemma cand_ext s f P Q x : (forall g, P g <-> Q g) -> cand s f P x <-> cand s f Q x.
  Proof. intro H. split; intros (g & a & c & Hg & Hx); exists g, a, c; (split; [apply H; exact Hg|exact Hx]). Qed.

  Lemma cand_nonempty s f P x : cand s f P x -> is_empty x = false.
  Proof. intros (g & a & c & _ & _ & _ & _ & ->). reflexivity. Qed.

  (** Adding one child feature. *)
  Lemma best_child_step s f g P cur costl costr ok :
    best T (cand s f P) cur ->
    (forall l, l < nl -> costl l = cost (split_left g (sd s f)) (Leaf l)) ->
    (forall l, l < nl -> costr l = cost (split_right g (sd s f)) (Leaf l)) ->
    (ok = true <-> mls <= vsize (split_left g (sd s f)) /\ mls <= vsize (split_right g (sd s f))) ->
    best T (cand s f (fun h => P h \/ h = g)) (if (ok : bool) then best_child g nl costl costr 0 cur else cur).
  Proof.
    intros Hb Hcl Hcr Hok. destruct ok.
    - destruct Hok as [Hok _]. destruct (Hok eq_refl) as [S0 S1]. unfold best_child.
      rewrite (fold_left_ext _ (fun r p => add_sol r (branch_node g (cost (split_left g (sd s f)) (Leaf (fst p)) + cost (split_right g (sd s f)) (Leaf (snd p)))%Z 0 0))).
      + eapply best_ext; [|apply (best_fold T (fun p => branch_node g (cost (split_left g (sd s f)) (Leaf (fst p)) + cost (split_right g (sd s f)) (Leaf (snd p)))%Z 0 0) _ _ _ Hb)].
        * intro x. split.
          -- intros [(h & a & c & Hh & Hx)|([a c] & Hp & Hx)].
             ++ exists h, a, c. tauto.
             ++ exists g, a, c. cbn [fst snd] in Hx. tauto.
          -- intros (h & a & c & [Hh| ->] & H0 & H1 & Hp & Hx).
             ++ left. exists h, a, c. auto.
             ++ right. exists (a, c). auto.
        * intros [a c] _. cbn [nd_sol branch_node fst snd]. rewrite <- tree_cost_split. apply sd_lt.
      + intros r [a c] Hp. apply in_la in Hp. cbn [fst snd]. rewrite Hcl, Hcr, Z.add_0_r by tauto. reflexivity.
    - eapply best_ext; [|exact Hb]. intro x. split.
      + intros (h & a & c & Hh & Hx). exists h, a, c. tauto.
      + intros (h & a & c & [Hh| ->] & H0 & H1 & Hx); [exists h, a, c; tauto|].
        destruct Hok as [_ Hok]. specialize (Hok (conj H0 H1)). discriminate.
  Qed.

  (** What one pair step does to the tables. *)
  Lemma pair_step_spec f1 f2 s :
    f1 <> f2 ->
    let s' := pair_step T nf mls k b nl f1 s f2 in
    let c00 := count00 nf k f1 f2 in let c01 := count01 nf k f1 f2 in
    let c10 := count10 nf k f1 f2 in let c11 := count11 nf k f1 f2 in
    ts_two s' = ts_two s /\ ts_three s' = ts_three s
    /\ (forall j, j <> f1 -> j <> f2 -> ch_l s' j = ch_l s j /\ ch_r s' j = ch_r s j)
    /\ ch_l s' f1 = (if ge_mls mls c00 && ge_mls mls c01 then best_child f2 nl (fun l => sol00 nf k l f1 f2) (fun l => sol01 nf k l f1 f2) 0 (ch_l s f1) else ch_l s f1)
    /\ ch_r s' f1 = (if ge_mls mls c10 && ge_mls mls c11 then best_child f2 nl (fun l => sol10 nf k l f1 f2) (fun l => sol11 nf k l f1 f2) 0 (ch_r s f1) else ch_r s f1)
    /\ ch_l s' f2 = (if ge_mls mls c00 && ge_mls mls c10 then best_child f1 nl (fun l => sol00 nf k l f1 f2) (fun l => sol10 nf k l f1 f2) 0 (ch_l s f2) else ch_l s f2)
    /\ ch_r s' f2 = (if ge_mls mls c01 && ge_mls mls c11 then best_child f1 nl (fun l => sol01 nf k l f1 f2) (fun l => sol11 nf k l f1 f2) 0 (ch_r s f2) else ch_r s f2).
  Proof.
    intro Hne. cbn zeta. unfold pair_step. rewrite !term_bc_child.
    assert (N1 : (f1 =? f2) = false) by (apply Nat.eqb_neq; exact Hne).
    assert (N2 : (f2 =? f1) = false) by (apply Nat.eqb_neq; congruence).
    destruct (ge_mls mls (count00 nf k f1 f2)), (ge_mls mls (count01 nf k f1 f2)), (ge_mls mls (count10 nf k f1 f2)), (ge_mls mls (count11 nf k f1 f2));
      cbn [andb ch_l ch_r ts_two ts_three]; unfold fset; rewrite ?N1, ?N2, ?Nat.eqb_refl;
      (split; [reflexivity|split; [reflexivity|split; [|repeat split]]]);
      intros j H1 H2; apply Nat.eqb_neq in H1; apply Nat.eqb_neq in H2; rewrite ?H1, ?H2; split; reflexivity.
  Qed.

  Definition tables (P : nat -> Prop) (f : nat) (s : tstate) : Prop :=
    best T (cand false f P) (ch_l s f) /\ best T (cand true f P) (ch_r s f).

  Lemma tables_ext P Q f s : (forall g, P g <-> Q g) -> tables P f s -> tables Q f s.
  Proof.
    intros H [H1 H2]. split.
    - eapply best_ext; [|exact H1]. intro x. apply cand_ext. exact H.
    - eapply best_ext; [|exact H2]. intro x. apply cand_ext. exact H.
  Qed.

  Lemma pair_step_tables f1 f2 P1 P2 s :
    f1 <> f2 -> f1 < nf -> f2 < nf -> tables P1 f1 s -> tables P2 f2 s ->
    let s' := pair_step T nf mls k b nl f1 s f2 in
    tables (fun h => P1 h \/ h = f2) f1 s' /\ tables (fun h => P2 h \/ h = f1) f2 s'.
  Proof.
    intros Hne H1 H2 [L1 R1] [L2 R2]. cbn zeta.
    destruct (pair_step_spec f1 f2 s Hne) as (_ & _ & _ & EL1 & ER1 & EL2 & ER2).
    unfold tables. rewrite EL1, ER1, EL2, ER2.
    rewrite (rd_count00 _ _ _ _ E), (rd_count01 _ _ _ _ E), (rd_count10 _ _ _ _ E), (rd_count11 _ _ _ _ E) by assumption.
    refine (conj (conj _ _) (conj _ _)); apply best_child_step; try assumption; cbn [sd].
    - intros l Hl. apply (rd_sol00 _ _ _ _ E); assumption.
    - intros l Hl. apply (rd_sol01 _ _ _ _ E); assumption.
    - rewrite andb_true_iff, !ge_mls_spec; tauto.
    - intros l Hl. apply (rd_sol10 _ _ _ _ E); assumption.
    - intros l Hl. apply (rd_sol11 _ _ _ _ E); assumption.
    - rewrite andb_true_iff, !ge_mls_spec; tauto.
    - intros l Hl. rewrite split_comm_ll. apply (rd_sol00 _ _ _ _ E); assumption.
    - intros l Hl. rewrite <- split_comm_lr. apply (rd_sol10 _ _ _ _ E); assumption.
    - rewrite (split_comm_ll f1 f2), (split_comm_lr f1 f2), andb_true_iff, !ge_mls_spec; tauto.
    - intros l Hl. rewrite split_comm_lr. apply (rd_sol01 _ _ _ _ E); assumption.
    - intros l Hl. rewrite split_comm_rr. apply (rd_sol11 _ _ _ _ E); assumption.
    - rewrite (split_comm_lr f2 f1), (split_comm_rr f2 f1), andb_true_iff, !ge_mls_spec; tauto.
  Qed.

  (** The inner loop. *)
  Lemma pair_fold_tables f1 (D : nat -> Prop) r : forall s P1,
    ~ In f1 r -> NoDup r -> f1 < nf -> (forall f, In f r -> f < nf) ->
    tables P1 f1 s -> (forall f, In f r -> tables D f s) ->
    let s' := fold_left (pair_step T nf mls k b nl f1) r s in
    tables (fun h => P1 h \/ In h r) f1 s'
    /\ (forall f, In f r -> tables (fun h => D h \/ h = f1) f s')
    /\ (forall f, f <> f1 -> ~ In f r -> ch_l s' f = ch_l s f /\ ch_r s' f = ch_r s f)
    /\ ts_two s' = ts_two s /\ ts_three s' = ts_three s.
  Proof.
    induction r as [|f2 r IH]; intros s P1 Hni Hnd H1 Hr Ht1 Htr; cbn [fold_left] in *.
    - split; [eapply tables_ext; [|exact Ht1]; intro g; cbn [In]; tauto|]. split; [intros f []|]. auto.
    - inversion Hnd as [|? ? Hni2 Hnd2]; subst.
      assert (Hne : f1 <> f2) by (intro; subst; apply Hni; left; reflexivity).
      assert (H2 : f2 < nf) by (apply Hr; left; reflexivity).
      destruct (pair_step_tables f1 f2 P1 D s Hne H1 H2 Ht1 (Htr f2 (or_introl eq_refl))) as [A1 A2].
      destruct (pair_step_spec f1 f2 s Hne) as (B1 & B2 & B3 & _).
      set (s1 := pair_step T nf mls k b nl f1 s f2) in *.
      destruct (IH s1 (fun h => P1 h \/ h = f2)) as (C1 & C2 & C3 & C4 & C5).
      + intro; apply Hni; right; assumption.
      + exact Hnd2.
      + exact H1.
      + intros; apply Hr; right; assumption.
      + exact A1.
      + intros f Hf. assert (f <> f2) by (intro; subst; contradiction).
        assert (f <> f1) by (intro; subst; apply Hni; right; assumption).
        destruct (B3 f) as [Bl Br]; [assumption..|]. unfold tables. rewrite Bl, Br. apply Htr. right. exact Hf.
      + split; [eapply tables_ext; [|exact C1]; intro g; cbn [In]; intuition congruence|].
        split; [|split; [|split; congruence]].
        * intros f [<-|Hf]; [|apply C2; exact Hf].
          destruct (C3 f2) as [Cl Cr]; [congruence|exact Hni2|]. unfold tables. rewrite Cl, Cr. exact A2.
        * intros f Hf1 Hf2. assert (f <> f2) by (intro; subst; apply Hf2; left; reflexivity).
          destruct (C3 f) as [Cl Cr]; [exact Hf1|intro; apply Hf2; right; assumption|].
          destruct (B3 f) as [Bl Br]; [assumption..|]. split; congruence.
  Qed.

  (** ** Results *)
  Context (all : list nat).
  Hypothesis Hall : forall f, In f all -> f < nf /\ tk_may T f = true
    /\ mls <= vsize (split_left f v) /\ mls <= vsize (split_right f v).
  Hypothesis Hall_nd : NoDup all.

  Definition isall (g : nat) : Prop := In g all.

  Definition two_ok (dn : list nat) (r : node) : Prop :=
    (r = init_sol T \/ (wit T G v 2 r /\ num_nodes r = 2))
    /\ (forall f x l, In f dn -> cand false f isall x -> l < nl -> (nd_sol r <= nd_sol x + cost (split_right f v) (Leaf l))%Z)
    /\ (forall f x l, In f dn -> cand true f isall x -> l < nl -> (nd_sol r <= cost (split_left f v) (Leaf l) + nd_sol x)%Z).
  Definition three_ok (dn : list nat) (r : node) : Prop :=
    (r = init_sol T \/ (wit T G v 2 r /\ num_nodes r = 3))
    /\ (forall f x y, In f dn -> cand false f isall x -> cand true f isall y -> (nd_sol r <= nd_sol x + nd_sol y)%Z).

  Lemma best_leaf_spec w costf :
    num_labels w = nl -> 1 <= nl -> (forall t, (cost w t < worst)%Z) ->
    (forall l, l < nl -> costf l = cost w (Leaf l)) ->
    exists l, l < nl /\ best_leaf T nl costf = leaf_node l (cost w (Leaf l))
      /\ forall l', l' < nl -> (cost w (Leaf l) <= cost w (Leaf l'))%Z.
  Proof.
    intros Hw Hnl Hlw Hc. unfold best_leaf.
    rewrite (fold_left_ext _ (fun r l => add_sol r (leaf_node l (cost w (Leaf l))))).
    2:{ intros r l Hl. apply in_seq in Hl. rewrite Hc by lia. reflexivity. }
    destruct (best_fold T (fun l => leaf_node l (cost w (Leaf l))) (seq 0 nl) _ _ (best_init T)) as [H1 H2].
    { intros l _. apply Hlw. }
    destruct H1 as [[[]|(l & Hl & H1)]|[_ H1]].
    - apply in_seq in Hl. exists l. split; [lia|]. split; [exact H1|]. intros l' Hl'.
      rewrite H1 in H2. specialize (H2 (leaf_node l' (cost w (Leaf l')))). cbn [leaf_node nd_sol] in H2. apply H2.
      right. exists l'. split; [apply in_seq; lia|reflexivity].
    - exfalso. apply (H1 (leaf_node 0 (cost w (Leaf 0)))). right. exists 0. split; [apply in_seq; lia|reflexivity].
  Qed.

  Lemma cand_tree s f x : In f all -> cand s f isall x ->
    exists t, alw T G 1 1 (sd s f) t /\ cost (sd s f) t = nd_sol x /\ num_nodes x = 1 /\ nodes t = 1.
  Proof.
    intros Hf (g & a & c & Hg & S0 & S1 & Hp & ->). apply in_la in Hp. exists (Split g (Leaf a) (Leaf c)).
    destruct (Hall g Hg) as (Hg1 & Hg2 & _).
    assert (Hl : length (sd s f) = nl) by (destruct s; [apply num_labels_right|apply num_labels_left]).
    split; [|split; [rewrite tree_cost_split; reflexivity|split; reflexivity]].
    unfold alw, allowed. cbn [fits leaves_ok depth nodes]. rewrite Hl.
    rewrite <- concat_split_left, <- concat_split_right. unfold vsize in S0, S1.
    repeat split; try assumption; try lia; try (apply Hp).
  Qed.

  Lemma leaf_tree s f l : In f all -> l < nl -> alw T G 1 0 (sd s f) (Leaf l).
  Proof.
    intros Hf Hl. destruct (Hall f Hf) as (_ & _ & S0 & S1).
    assert (Hn : length (sd s f) = nl) by (destruct s; [apply num_labels_right|apply num_labels_left]).
    unfold alw, allowed. cbn [fits leaves_ok depth nodes]. rewrite Hn. unfold vsize in *.
    repeat split; try lia; try assumption. destruct s; assumption.
  Qed.

  Lemma combine_wit f l r nlq nrq tl tr :
    In f all -> alw T G 1 nlq (split_left f v) tl -> alw T G 1 nrq (split_right f v) tr -> nlq <= 1 -> nrq <= 1 ->
    num_nodes l = nlq -> num_nodes r = nrq -> nodes tl = nlq -> nodes tr = nrq ->
    nd_sol l = cost (split_left f v) tl -> nd_sol r = cost (split_right f v) tr ->
    wit T G v 2 (combine_sols T f l r 0) /\ num_nodes (combine_sols T f l r 0) = nlq + nrq + 1
    /\ nd_sol (combine_sols T f l r 0) = (nd_sol l + nd_sol r)%Z.
  Proof.
    intros Hf Hl Hr Bl Br Nl Nr Ml Mr Sl Sr. rewrite (combine0 T _ _ _ HT).
    split; [|split; [unfold num_nodes at 1; cbn [branch_node nd_feat nd_l nd_r]; rewrite Nl, Nr; reflexivity|reflexivity]].
    unfold wit. cbn [branch_node nd_feat nd_lab nd_sol nd_l nd_r]. destruct (Hall f Hf) as (Hf1 & Hf2 & _).
    split; [split; assumption|]. split; [lia|]. rewrite Nl, Nr. cbn [Nat.sub Nat.pow Nat.add Nat.mul].
    split; [lia|]. split; [lia|]. exists tl, tr. rewrite Sl, Sr, Ml, Mr. auto 6.
  Qed.

  Lemma add_two_ok (C : node -> Prop) r c m :
    (r = init_sol T \/ (wit T G v 2 r /\ num_nodes r = m)) -> (wit T G v 2 c /\ num_nodes c = m) ->
    (add_sol r c = init_sol T \/ (wit T G v 2 (add_sol r c) /\ num_nodes (add_sol r c) = m))
    /\ (nd_sol (add_sol r c) <= nd_sol r)%Z /\ (nd_sol (add_sol r c) <= nd_sol c)%Z.
  Proof.
    intros Hr Hc. unfold add_sol. destruct (nd_sol c <? nd_sol r)%Z eqn:Ez.
    - apply Z.ltb_lt in Ez. split; [right; exact Hc|lia].
    - apply Z.ltb_ge in Ez. split; [exact Hr|lia].
  Qed.

  Lemma update_spec f dn s :
    1 <= nl -> In f all -> tables isall f s -> two_ok dn (ts_two s) -> three_ok dn (ts_three s) ->
    let s' := update_three T k b (update_two T nf mls k b nl s f) f in
    two_ok (dn ++ [f]) (ts_two s') /\ three_ok (dn ++ [f]) (ts_three s')
    /\ (forall j, ch_l s' j = ch_l s j) /\ (forall j, ch_r s' j = ch_r s j).
  Proof.
    intros Hnl Hf [Bl Br] (W2 & L2 & R2) (W3 & L3). cbn zeta.
    destruct (Hall f Hf) as (Hf1 & Hf2 & S0 & S1).
    unfold update_two. rewrite term_bc_root.
    rewrite (rd_count0 _ _ _ _ _ E f Hf1), (rd_count1 _ _ _ _ _ E f Hf1).
    rewrite (proj2 (ge_mls_spec _ _) S0), (proj2 (ge_mls_spec _ _) S1).
    destruct (best_leaf_spec (split_left f v) (fun l => sol0 nf k l f)) as (ll & Hll & -> & Mll);
      [apply num_labels_left|exact Hnl|intro; apply left_lt|intros; apply (rd_sol0 _ _ _ _ _ E); assumption|].
    destruct (best_leaf_spec (split_right f v) (fun l => sol1 nf k l f)) as (rl & Hrl & -> & Mrl);
      [apply num_labels_right|exact Hnl|intro; apply right_lt|intros; apply (rd_sol1 _ _ _ _ _ E); assumption|].
    assert (Ell : is_empty (leaf_node ll (cost (split_left f v) (Leaf ll))) = false) by reflexivity.
    assert (Erl : is_empty (leaf_node rl (cost (split_right f v) (Leaf rl))) = false) by reflexivity.
    rewrite Ell, Erl. cbn [negb andb].
    rewrite andb_true_r.
    set (two1 := if negb (is_empty (ch_l s f)) then add_sol (ts_two s) (combine_sols T f (ch_l s f) (leaf_node rl (cost (split_right f v) (Leaf rl))) 0) else ts_two s).
    set (two2 := if negb (is_empty (ch_r s f)) then add_sol two1 (combine_sols T f (leaf_node ll (cost (split_left f v) (Leaf ll))) (ch_r s f) 0) else two1).
    assert (A1 : (two1 = init_sol T \/ (wit T G v 2 two1 /\ num_nodes two1 = 2)) /\ (nd_sol two1 <= nd_sol (ts_two s))%Z
                 /\ (forall x l, cand false f isall x -> l < nl -> (nd_sol two1 <= nd_sol x + cost (split_right f v) (Leaf l))%Z)).
    { unfold two1. destruct (is_empty (ch_l s f)) eqn:Ee; cbn [negb].
      - split; [exact W2|]. split; [lia|]. intros x l Hx. exfalso.
        exact (best_empty_iff T _ _ Bl (fun c Hc => cand_nonempty _ _ _ _ Hc) Ee x Hx).
      - pose proof (best_nonempty T _ _ Bl Ee) as Hc.
        destruct (cand_tree false f _ Hf Hc) as (t & Ht & Hct & Hnn & Hnt). cbn [sd] in Ht, Hct.
        destruct (combine_wit f (ch_l s f) (leaf_node rl (cost (split_right f v) (Leaf rl))) 1 0 t (Leaf rl)) as (Cw & Cn & Cs);
          try assumption; try lia; try reflexivity; [exact (leaf_tree true f rl Hf Hrl)|].
        destruct (add_two_ok (fun _ => True) (ts_two s) _ 2 W2 (conj Cw Cn)) as (D1 & D2 & D3).
        split; [exact D1|]. split; [exact D2|]. intros x l Hx Hl.
        destruct Bl as [_ Bl]. specialize (Bl x Hx). specialize (Mrl l Hl). rewrite Cs in D3. cbn [nd_sol leaf_node] in D3. lia. }
    destruct A1 as (A1 & A2 & A3).
    assert (B1 : (two2 = init_sol T \/ (wit T G v 2 two2 /\ num_nodes two2 = 2)) /\ (nd_sol two2 <= nd_sol two1)%Z
                 /\ (forall x l, cand true f isall x -> l < nl -> (nd_sol two2 <= cost (split_left f v) (Leaf l) + nd_sol x)%Z)).
    { unfold two2. destruct (is_empty (ch_r s f)) eqn:Ee; cbn [negb].
      - split; [exact A1|]. split; [lia|]. intros x l Hx. exfalso.
        exact (best_empty_iff T _ _ Br (fun c Hc => cand_nonempty _ _ _ _ Hc) Ee x Hx).
      - pose proof (best_nonempty T _ _ Br Ee) as Hc.
        destruct (cand_tree true f _ Hf Hc) as (t & Ht & Hct & Hnn & Hnt). cbn [sd] in Ht, Hct.
        destruct (combine_wit f (leaf_node ll (cost (split_left f v) (Leaf ll))) (ch_r s f) 0 1 (Leaf ll) t) as (Cw & Cn & Cs);
          try assumption; try lia; try reflexivity; [exact (leaf_tree false f ll Hf Hll)|].
        destruct (add_two_ok (fun _ => True) two1 _ 2 A1 (conj Cw Cn)) as (D1 & D2 & D3).
        split; [exact D1|]. split; [exact D2|]. intros x l Hx Hl.
        destruct Br as [_ Br]. specialize (Br x Hx). specialize (Mll l Hl). rewrite Cs in D3. cbn [nd_sol leaf_node] in D3. lia. }
    destruct B1 as (B1 & B2 & B3).
    unfold update_three. cbn [ch_l ch_r ts_two ts_three]. rewrite term_bc_root.
    assert (Htwo : two_ok (dn ++ [f]) two2).
    { split; [exact B1|]. split.
      - intros g x l Hg Hx Hl. apply in_app_or in Hg. destruct Hg as [Hg|[<-|[]]].
        + specialize (L2 g x l Hg Hx Hl). lia.
        + specialize (A3 x l Hx Hl). lia.
      - intros g x l Hg Hx Hl. apply in_app_or in Hg. destruct Hg as [Hg|[<-|[]]].
        + specialize (R2 g x l Hg Hx Hl). lia.
        + exact (B3 x l Hx Hl). }
    destruct (is_empty (ch_l s f)) eqn:Eel; [|destruct (is_empty (ch_r s f)) eqn:Eer]; cbn [negb andb ch_l ch_r ts_two ts_three].
    - split; [exact Htwo|]. split; [|auto]. split; [exact W3|]. intros g x y Hg Hx Hy. apply in_app_or in Hg. destruct Hg as [Hg|[<-|[]]].
      + exact (L3 g x y Hg Hx Hy).
      + exfalso. exact (best_empty_iff T _ _ Bl (fun c Hc => cand_nonempty _ _ _ _ Hc) Eel x Hx).
    - split; [exact Htwo|]. split; [|auto]. split; [exact W3|]. intros g x y Hg Hx Hy. apply in_app_or in Hg. destruct Hg as [Hg|[<-|[]]].
      + exact (L3 g x y Hg Hx Hy).
      + exfalso. exact (best_empty_iff T _ _ Br (fun c Hc => cand_nonempty _ _ _ _ Hc) Eer y Hy).
    - split; [exact Htwo|]. split; [|auto].
      pose proof (best_nonempty T _ _ Bl Eel) as Hcl. pose proof (best_nonempty T _ _ Br Eer) as Hcr.
      destruct (cand_tree false f _ Hf Hcl) as (tl & Htl & Hctl & Hnl1 & Hnl2). destruct (cand_tree true f _ Hf Hcr) as (tr & Htr & Hctr & Hnr1 & Hnr2).
      cbn [sd] in *.
      destruct (combine_wit f (ch_l s f) (ch_r s f) 1 1 tl tr) as (Cw & Cn & Cs); try assumption; try lia; try (symmetry; assumption).
      destruct (add_two_ok (fun _ => True) (ts_three s) _ 3 W3 (conj Cw Cn)) as (D1 & D2 & D3).
      split; [exact D1|]. intros g x y Hg Hx Hy. apply in_app_or in Hg. destruct Hg as [Hg|[<-|[]]].
      + specialize (L3 g x y Hg Hx Hy). lia.
      + destruct Bl as [_ Bl]. destruct Br as [_ Br]. specialize (Bl x Hx). specialize (Br y Hy). rewrite Cs in D3. lia.
  Qed.

  Lemma self_child s f P : mls <= vsize v -> forall x, cand s f P x <-> cand s f (fun h => P h /\ h <> f) x.
  Proof.
    intros Hm x. split.
    - intros (g & a & c & Hg & S0 & S1 & H). exists g, a, c. split; [split; [exact Hg|]|auto].
      intros ->. destruct s; cbn [sd] in S0, S1.
      + assert (vsize (split_left f (split_right f v)) = 0); [|lia]. unfold vsize.
        rewrite concat_split_left, concat_split_right, filter_filter.
        rewrite filter_all_false; [reflexivity|]. intros y _. destruct (has f y); reflexivity.
      + assert (vsize (split_right f (split_left f v)) = 0); [|lia]. unfold vsize.
        rewrite concat_split_right, concat_split_left, filter_filter.
        rewrite filter_all_false; [reflexivity|]. intros y _. destruct (has f y); reflexivity.
    - intros (g & a & c & [Hg _] & H). exists g, a, c. auto.
  Qed.

  Lemma pair_loop_spec fs : forall dn s,
    1 <= nl -> mls <= vsize v -> dn ++ fs = all ->
    (forall f, In f fs -> tables (fun g => In g dn) f s) ->
    two_ok dn (ts_two s) -> three_ok dn (ts_three s) ->
    let s' := pair_loop T nf mls k b nl fs s in
    (exists dn', two_ok dn' (ts_two s') /\ three_ok dn' (ts_three s') /\ (dn' = all \/ nd_sol (ts_three s') = 0%Z)).
  Proof.
    induction fs as [|f1 r IH]; intros dn s Hnl Hm Heq Ht H2 H3; cbn [pair_loop].
    - exists dn. rewrite app_nil_r in Heq. auto.
    - rewrite (gt_eq0 T HT). destruct (0 =? nd_sol (ts_three s))%Z eqn:Ez.
      { apply Z.eqb_eq in Ez. exists dn. cbn zeta. auto. }
      assert (Hnd : NoDup (dn ++ f1 :: r)) by (rewrite Heq; exact Hall_nd).
      assert (Hnd1 := NoDup_remove_1 _ _ _ Hnd). assert (Hnd2 := NoDup_remove_2 _ _ _ Hnd).
      assert (Hndr : NoDup r) by (clear -Hnd1; induction dn; [exact Hnd1|inversion Hnd1; auto]).
      assert (Hin : forall f, In f (f1 :: r) -> In f all) by (intros f Hf; rewrite <- Heq; apply in_or_app; right; exact Hf).
      destruct (pair_fold_tables f1 (fun g => In g dn) r s (fun g => In g dn)) as (A1 & A2 & A3 & A4 & A5).
      + intro Hc. apply Hnd2. apply in_or_app. right. exact Hc.
      + exact Hndr.
      + apply Hall, Hin. left. reflexivity.
      + intros f Hf. apply Hall, Hin. right. exact Hf.
      + apply Ht. left. reflexivity.
      + intros f Hf. apply Ht. right. exact Hf.
      + set (s1 := fold_left (pair_step T nf mls k b nl f1) r s) in *.
        assert (Hfull : tables isall f1 s1).
        { assert (Hiff : forall h, (In h dn \/ In h r) /\ h <> f1 <-> isall h /\ h <> f1).
          { intro h. unfold isall. rewrite <- Heq, in_app_iff. cbn [In]. intuition congruence. }
          destruct A1 as [A1l A1r]. split.
          - eapply best_ext; [|exact A1l]. intro x. rewrite (self_child false f1 isall Hm), (self_child false f1 _ Hm). apply cand_ext. exact Hiff.
          - eapply best_ext; [|exact A1r]. intro x. rewrite (self_child true f1 isall Hm), (self_child true f1 _ Hm). apply cand_ext. exact Hiff. }
        rewrite <- A4 in H2. rewrite <- A5 in H3.
        destruct (update_spec f1 dn s1 Hnl (Hin f1 (or_introl eq_refl)) Hfull H2 H3) as (U2 & U3 & Ul & Ur).
        apply (IH (dn ++ [f1])); try assumption.
        * rewrite <- app_assoc. exact Heq.
        * intros f Hf. specialize (A2 f Hf). unfold tables. rewrite Ul, Ur. eapply tables_ext; [|exact A2].
          intro g. rewrite in_app_iff. cbn [In]. intuition congruence.
  Qed.
End Term.

(** ** The whole solver *)
Section Whole.
  Context (T : task) (G : cfg) (HT : good_task T).
  Notation nf := (c_nf G).
  Notation mls := (c_mls G).
  Notation cost := (tree_cost (tk_inst T)).
  Notation worst := (tk_worst T).
  Context (v : view) (b : branch).
  Hypothesis Hmls : 1 <= mls.
  Hypothesis Hlt : forall t, (cost v t < worst)%Z.
  Hypothesis Hbr : forall f, br_has b f = true -> vsize (split_left f v) = 0 \/ vsize (split_right f v) = 0.
  Hypothesis Hwf : wf_view nf v.
  Hypothesis Hnl : 1 <= num_labels v.
  Hypothesis Hsize : mls <= vsize v.

  Notation calc n := (calc_of T nf (n =? 1) v).
  Notation res n := (term_solve T nf mls v b n).

  Lemma whole_exact n : exact T nf (n =? 1) v (calc n).
  Proof. apply calc_of_exact; [apply (gt_true T HT)|exact Hwf]. Qed.

  Lemma whole_big n : (k_tot (calc n) <? Z.of_nat mls)%Z = false.
  Proof. rewrite (ex_tot _ _ _ _ _ (whole_exact n)). apply Z.ltb_ge. lia. Qed.

  Lemma one_cases n : n <> 0 ->
    best T (cand_one T G v) (r_one (res n)).
  Proof.
    intro Hn. unfold term_solve, term_results. rewrite whole_big.
    assert (H : best T (cand_one T G v) (solve_one T nf mls (calc n) b (num_labels v))) by (eapply solve_one_best; try eassumption; apply whole_exact).
    destruct (n =? 1); [exact H|]. destruct (tk_eq T 0 _); exact H.
  Qed.

  Lemma cand_one_exists : exists x, cand_one T G v x.
  Proof. exists (leaf_node 0 (cost v (Leaf 0))). left. exists 0. split; [lia|reflexivity]. Qed.

  (** One split: the result is a tree with at most one split, and none is better. *)
  Lemma term_one n : n <> 0 ->
    wit T G v 1 (r_one (res n)) /\ num_nodes (r_one (res n)) <= 1 /\ LB T G v 1 1 (nd_sol (r_one (res n))).
  Proof.
    intro Hn. destruct (one_cases n Hn) as [[H1|[_ H1]] H2].
    - destruct (cand_one_wit T G v Hmls _ Hsize H1) as (W & N & _). split; [exact W|]. split; [exact N|].
      intros t Ht. destruct (cand_one_lb T G v Hmls t Ht) as (x & Hx & Hle). specialize (H2 x Hx). lia.
    - exfalso. destruct cand_one_exists as (x & Hx). exact (H1 x Hx).
  Qed.

  Lemma in_pair_features k f : exact T nf false v k ->
    (In f (pair_features T nf mls k b) <-> f < nf /\ tk_may T f = true
      /\ mls <= vsize (split_left f v) /\ mls <= vsize (split_right f v)
      /\ (2 * mls <= vsize (split_left f v) \/ 2 * mls <= vsize (split_right f v))).
  Proof.
    intro Ek. unfold pair_features. rewrite filter_In, in_seq.
    split.
    - intros [Hf H]. assert (Hf' : f < nf) by lia.
      rewrite (rd_count0 _ _ _ _ _ Ek f Hf'), (rd_count1 _ _ _ _ _ Ek f Hf') in H.
      rewrite !andb_true_iff, !ge_mls_spec, !negb_true_iff, andb_false_iff, !Z.ltb_ge in H. intuition lia.
    - intros (Hf & Hmay & S0 & S1 & Hor). split; [lia|].
      rewrite (rd_count0 _ _ _ _ _ Ek f Hf), (rd_count1 _ _ _ _ _ Ek f Hf).
      rewrite !andb_true_iff, !ge_mls_spec, !negb_true_iff, andb_false_iff, !Z.ltb_ge.
      assert (Eb : br_has b f = false) by (destruct (br_has b f) eqn:Eb; [destruct (Hbr f Eb); lia|reflexivity]).
      intuition lia.
  Qed.

  Lemma init_tables f s : best T (cand T G v s f (fun g => In g [])) (init_sol T).
  Proof. split; [right; split; [reflexivity|]|]; intros c (g & a & d & [] & _). Qed.

  (** Shape of the results for two and three splits. *)
  Lemma term_many n : 2 <= n ->
    exists two three dn,
      let all := pair_features T nf mls (calc n) b in
      let one := r_one (res n) in
      r_two (res n) = add_sol two one /\ r_three (res n) = add_sol three (r_two (res n))
      /\ ((nd_sol one = 0%Z /\ two = init_sol T /\ three = init_sol T)
          \/ (two_ok T G v all dn two /\ three_ok T G v all dn three /\ (dn = all \/ nd_sol three = 0%Z))).
  Proof.
    intro Hn. assert (Hn1 : (n =? 1) = false) by (apply Nat.eqb_neq; lia).
    pose proof (whole_exact n) as Ek. rewrite Hn1 in Ek.
    unfold term_solve, term_results. rewrite whole_big. rewrite Hn1. rewrite (gt_eq0 T HT).
    destruct (0 =? nd_sol (solve_one T nf mls (calc_of T nf false v) b (num_labels v)))%Z eqn:Ez.
    - apply Z.eqb_eq in Ez. exists (init_sol T), (init_sol T), []. cbn [r_one r_two r_three].
      split; [reflexivity|]. split; [reflexivity|]. left. split; [symmetry; exact Ez|auto].
    - set (all := pair_features T nf mls (calc_of T nf false v) b).
      assert (Hall : forall f, In f all -> f < nf /\ tk_may T f = true /\ mls <= vsize (split_left f v) /\ mls <= vsize (split_right f v)).
      { intros f Hf. apply (in_pair_features _ f Ek) in Hf. tauto. }
      assert (Hnd : NoDup all) by (apply NoDup_filter, seq_NoDup).
      set (s0 := TState (fun _ => init_sol T) (fun _ => init_sol T) (init_sol T) (init_sol T)).
      destruct (pair_loop_spec T G HT v b (calc_of T nf false v) Hmls Hlt Ek all Hall Hnd all [] s0 Hnl Hsize eq_refl) as (dn & D2 & D3 & D4).
      + intros f Hf. split; apply init_tables.
      + split; [left; reflexivity|]. split; intros f x l [].
      + split; [left; reflexivity|]. intros f x y [].
      + eexists _, _, dn. cbn [r_one r_two r_three]. split; [reflexivity|]. split; [reflexivity|]. right. auto.
  Qed.

  Lemma add_sol_cases a c : (add_sol a c = c /\ (nd_sol c < nd_sol a)%Z) \/ (add_sol a c = a /\ (nd_sol a <= nd_sol c)%Z).
  Proof.
    unfold add_sol. destruct (nd_sol c <? nd_sol a)%Z eqn:Ez; [left; apply Z.ltb_lt in Ez|right; apply Z.ltb_ge in Ez]; auto.
  Qed.

  Lemma wit_12 w r : wit T G w 1 r -> wit T G w 2 r.
  Proof. intro H. eapply wit_mono; [exact H|lia]. Qed.

  (** Two and three splits: witnesses and order of the values. *)
  Lemma term_wits n : 2 <= n ->
    let r := res n in
    wit T G v 2 (r_two r) /\ num_nodes (r_two r) <= 2
    /\ wit T G v 2 (r_three r) /\ num_nodes (r_three r) <= 3
    /\ (nd_sol (r_two r) <= nd_sol (r_one r))%Z /\ (nd_sol (r_three r) <= nd_sol (r_two r))%Z
    /\ (num_nodes (r_two r) <= 1 -> r_two r = r_one r)
    /\ (num_nodes (r_three r) <= 2 -> r_three r = r_two r).
  Proof.
    intro Hn. cbn zeta. destruct (term_many n Hn) as (two & three & dn & Hm). cbn zeta in Hm.
    destruct Hm as (E2 & E3 & Hm). destruct (term_one n ltac:(lia)) as (W1 & N1 & _).
    assert (Hw1 : (nd_sol (r_one (res n)) < worst)%Z).
    { destruct (wit_tree T G _ _ _ W1) as (t & _ & <-). apply Hlt. }
    assert (H2 : two = init_sol T \/ (wit T G v 2 two /\ num_nodes two = 2)).
    { destruct Hm as [(_ & -> & _)|((H & _) & _)]; [left; reflexivity|exact H]. }
    assert (H3 : three = init_sol T \/ (wit T G v 2 three /\ num_nodes three = 3)).
    { destruct Hm as [(_ & _ & ->)|(_ & (H & _) & _)]; [left; reflexivity|exact H]. }
    assert (A : wit T G v 2 (r_two (res n)) /\ num_nodes (r_two (res n)) <= 2 /\ (nd_sol (r_two (res n)) <= nd_sol (r_one (res n)))%Z
                /\ (num_nodes (r_two (res n)) <= 1 -> r_two (res n) = r_one (res n))).
    { rewrite E2. destruct (add_sol_cases two (r_one (res n))) as [[-> Hz]|[-> Hz]].
      - split; [apply wit_12; exact W1|]. split; [lia|]. split; [lia|auto].
      - destruct H2 as [->|[W2 N2]]; [cbn [init_sol value_node nd_sol] in Hz; lia|].
        split; [exact W2|]. split; [lia|]. split; [exact Hz|intro; lia]. }
    destruct A as (W2 & N2 & L2 & M2).
    assert (Hw2 : (nd_sol (r_two (res n)) < worst)%Z) by lia.
    split; [exact W2|]. split; [exact N2|]. rewrite E3.
    destruct (add_sol_cases three (r_two (res n))) as [[-> Hz]|[-> Hz]].
    - split; [exact W2|]. split; [lia|]. split; [exact L2|]. split; [lia|]. split; [exact M2|auto].
    - destruct H3 as [->|[W3 N3]]; [cbn [init_sol value_node nd_sol] in Hz; lia|].
      split; [exact W3|]. split; [lia|]. split; [exact L2|]. split; [exact Hz|]. split; [exact M2|intro; lia].
  Qed.

  (** Shape of trees of depth two. *)
  Lemma child_cases s f t :
    mls = 1 ->
    f < nf -> tk_may T f = true -> alw T G 1 1 (sd v s f) t ->
    mls <= vsize (split_left f v) -> mls <= vsize (split_right f v) ->
    (exists l, l < num_labels v /\ (cost (sd v s f) (Leaf l) <= cost (sd v s f) t)%Z)
    \/ (exists x, cand T G v s f (isall (pair_features T nf mls (calc_of T nf false v) b)) x /\ (nd_sol x <= cost (sd v s f) t)%Z
        /\ In f (pair_features T nf mls (calc_of T nf false v) b)).
  Proof.
    intros Hm1 Hf Hmay Ht S0 S1.
    assert (Ek : exact T nf false v (calc_of T nf false v)) by (apply calc_of_exact; [apply (gt_true T HT)|exact Hwf]).
    assert (Hnl' : length (sd v s f) = num_labels v) by (destruct s; [apply num_labels_right|apply num_labels_left]).
    destruct t as [l|g tl tr].
    - left. exists l. split; [|lia]. destruct Ht as (H & _). cbn [fits] in H. lia.
    - apply allowed_split in Ht. destruct Ht as ((Hg & Hgm) & _ & Hn & Hl & Hr).
      destruct tl as [a|? ? ?]; [|cbn [nodes] in Hn; lia]. destruct tr as [c|? ? ?]; [|cbn [nodes] in Hn; lia].
      pose proof (allowed_size _ _ _ _ _ _ Hl) as Q0. pose proof (allowed_size _ _ _ _ _ _ Hr) as Q1.
      destruct Hl as (Ha & _). destruct Hr as (Hc & _). cbn [fits] in Ha, Hc.
      change (length (split_left g (sd v s f))) with (num_labels (split_left g (sd v s f))) in Ha.
      change (length (split_right g (sd v s f))) with (num_labels (split_right g (sd v s f))) in Hc.
      rewrite num_labels_left in Ha. rewrite num_labels_right in Hc. unfold num_labels in Ha, Hc. rewrite Hnl' in Ha, Hc.
      destruct (Nat.eq_dec a c) as [->|Hne].
      + left. exists c. split; [exact Hc|]. rewrite tree_cost_split, (leaf_split T (sd v s f) g c). lia.
      + right. exists (branch_node g (cost (split_left g (sd v s f)) (Leaf a) + cost (split_right g (sd v s f)) (Leaf c))%Z 0 0).
        assert (Hfs : vsize v = vsize (split_left f v) + vsize (split_right f v)) by apply vsize_split.
        assert (Hgs : vsize (sd v s f) = vsize (split_left g (sd v s f)) + vsize (split_right g (sd v s f))) by apply vsize_split.
        assert (Hgf : vsize v = vsize (split_left g v) + vsize (split_right g v)) by apply vsize_split.
        assert (Hsub0 : vsize (split_left g (sd v s f)) <= vsize (split_left g v)).
        { destruct s; cbn [sd].
          - rewrite split_comm_lr, (vsize_split f (split_left g v)). lia.
          - rewrite split_comm_ll, (vsize_split f (split_left g v)). lia. }
        assert (Hsub1 : vsize (split_right g (sd v s f)) <= vsize (split_right g v)).
        { destruct s; cbn [sd].
          - rewrite split_comm_rr, (vsize_split f (split_right g v)). lia.
          - rewrite <- split_comm_lr, (vsize_split f (split_right g v)). lia. }
        assert (Hsz : vsize (sd v s f) = vsize (split_left f v) \/ vsize (sd v s f) = vsize (split_right f v)) by (destruct s; auto).
        split; [|split].
        * exists g, a, c. split; [|split; [exact Q0|split; [exact Q1|split; [apply in_la; auto|reflexivity]]]].
          unfold isall. apply (in_pair_features _ g Ek). repeat split; try assumption; try lia.
        * rewrite tree_cost_split. cbn [nd_sol branch_node]. lia.
        * apply (in_pair_features _ f Ek). repeat split; try assumption. lia.
  Qed.

  (** Three splits: no tree of depth two is better (leaf size one). *)
  Lemma term_three n : mls = 1 -> 2 <= n -> LB T G v 2 3 (nd_sol (r_three (res n))).
  Proof.
    intros Hm1 Hn t Ht. destruct (term_many n Hn) as (two & three & dn & Hm). cbn zeta in Hm.
    destruct Hm as (E2 & E3 & Hm). destruct (term_wits n Hn) as (_ & _ & _ & _ & L21 & L32 & _).
    destruct (term_one n ltac:(lia)) as (_ & _ & LB1).
    assert (Hn1 : (n =? 1) = false) by (apply Nat.eqb_neq; lia). rewrite Hn1 in Hm.
    set (all := pair_features T nf mls (calc_of T nf false v) b) in *.
    pose proof (cost_nonneg T HT v t) as Hnn.
    assert (Hsmall : nd_sol (r_one (res n)) = 0%Z \/ nd_sol three = 0%Z -> (nd_sol (r_three (res n)) <= cost v t)%Z).
    { intros [Hz|Hz]; [lia|]. rewrite E3. destruct (add_sol_cases three (r_two (res n))) as [[-> ?]|[-> ?]]; lia. }
    destruct Hm as [(Hz & _)|((_ & T2l & T2r) & (_ & T3) & [Hdn|Hz])]; [apply Hsmall; auto| |apply Hsmall; auto].
    subst dn.
    assert (H3two : (nd_sol (r_two (res n)) <= nd_sol two)%Z) by (rewrite E2; destruct (add_sol_cases two (r_one (res n))) as [[-> ?]|[-> ?]]; lia).
    assert (H3three : (nd_sol (r_three (res n)) <= nd_sol three)%Z) by (rewrite E3; destruct (add_sol_cases three (r_two (res n))) as [[-> ?]|[-> ?]]; lia).
    destruct t as [l|f tl tr].
    - assert (H : (nd_sol (r_one (res n)) <= cost v (Leaf l))%Z); [|lia]. apply LB1.
      destruct Ht as (Hf & Hl & _ & _). unfold alw, allowed. cbn [fits leaves_ok depth nodes] in *. auto with arith.
    - pose proof Ht as Ht0. apply allowed_split in Ht. destruct Ht as (Hof & _ & Hnn' & Hl & Hr). destruct Hof as [Hf Hmay].
      pose proof (allowed_size _ _ _ _ _ _ Hl) as S0. pose proof (allowed_size _ _ _ _ _ _ Hr) as S1.
      assert (Hsl : forall w t', allowed (ok_feat T G) mls (2 - 1) (nodes t') w t' -> alw T G 1 1 w t').
      { intros w t' Ha. pose proof Ha as (A1 & A2 & A3 & _). pose proof (nodes_le_full t' 1 A3). cbn in H. unfold alw, allowed. auto. }
      apply Hsl in Hl. apply Hsl in Hr. rewrite tree_cost_split.
      destruct (child_cases false f tl Hm1 Hf Hmay Hl S0 S1) as [(l & Hl1 & Hl2)|(x & Hx1 & Hx2 & Hx3)];
      destruct (child_cases true f tr Hm1 Hf Hmay Hr S0 S1) as [(l' & Hr1 & Hr2)|(y & Hy1 & Hy2 & Hy3)]; cbn [sd] in *.
      + assert (H : (nd_sol (r_one (res n)) <= cost v (Split f (Leaf l) (Leaf l')))%Z).
        { apply LB1. unfold alw, allowed. cbn [fits leaves_ok depth nodes].
          rewrite <- concat_split_left, <- concat_split_right. unfold vsize in S0, S1. unfold num_labels in *. repeat split; try assumption; lia. }
        rewrite tree_cost_split in H. lia.
      + specialize (T2r f y l Hy3 Hy1 Hl1). lia.
      + specialize (T2l f x l' Hx3 Hx1 Hr1). lia.
      + specialize (T3 f x y Hx3 Hx1 Hy1). lia.
  Qed.
End Whole.
