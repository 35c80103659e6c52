(** Reconstruction of a depth-two tree from a solution node. *)
From Coq Require Import List Arith Bool Lia ZArith.
From Verif Require Import Model_FeatureVector Model_Data Model_Node Model_Cache Model_Terminal Model_Solver
  Spec_Tree Proofs_View Proofs_Diff Proofs_Feature Proofs_Calc Proofs_Base Proofs_RecCalc.
Import ListNotations.
Local Open Scope nat_scope.

Lemma fold_best {A} (h : rchild -> A -> rchild) (good : rchild -> Prop) (cand : A -> Z -> Prop) l :
  (forall r a, In a l -> good r -> good (h r a)) ->
  (forall r a, In a l -> (nd_sol (rc_node (h r a)) <= nd_sol (rc_node r))%Z) ->
  (forall r a z, In a l -> cand a z -> (nd_sol (rc_node (h r a)) <= z)%Z) ->
  forall r, good r ->
  good (fold_left h l r) /\ (nd_sol (rc_node (fold_left h l r)) <= nd_sol (rc_node r))%Z
  /\ (forall a z, In a l -> cand a z -> (nd_sol (rc_node (fold_left h l r)) <= z)%Z).
Proof.
  induction l as [|a l IH]; intros Hg Hm Hc r Hr; cbn [fold_left].
  - split; [exact Hr|]. split; [lia|]. intros a z [].
  - destruct (IH (fun r a' H => Hg r a' (or_intror H)) (fun r a' H => Hm r a' (or_intror H)) (fun r a' z H => Hc r a' z (or_intror H)) (h r a)) as (A1 & A2 & A3).
    { apply Hg; [left; reflexivity|exact Hr]. }
    split; [exact A1|]. pose proof (Hm r a (or_introl eq_refl)). split; [lia|].
    intros a' z [<-|Hin] Hz; [|eapply A3; eassumption]. pose proof (Hc r a z (or_introl eq_refl) Hz). lia.
Qed.

Lemma fold_left_pair {A B C} (step : B * C -> A -> B * C) (sl : B -> A -> B) (sr : C -> A -> C) l :
  (forall p a, step p a = (sl (fst p) a, sr (snd p) a)) ->
  forall p, fold_left step l p = (fold_left sl l (fst p), fold_left sr l (snd p)).
Proof.
  intro H. induction l as [|a l IH]; intro p; cbn [fold_left]; [apply surjective_pairing|].
  rewrite IH, H. reflexivity.
Qed.

Section RecTree.
  Context (T : task) (G : cfg) (HT : good_task T).
  Notation nf := (c_nf G).
  Notation mls := (c_mls G).
  Notation cost := (tree_cost (tk_inst T)).
  Notation worst := (tk_worst T).
  Hypothesis Hmls : 1 <= mls.
  Hypothesis Hmay : forall f, f < nf -> tk_may T f = true.

  (** A candidate child: still empty, or a tree for the part [w] of the data. *)
  Definition gc (w : view) (n : nat) (r : rchild) : Prop :=
    r = rc0 T \/ exists t, rec_tree r = Some t /\ alw T G 1 n w t /\ nodes t = n /\ nd_sol (rc_node r) = cost w t.

  Lemma rec_leaf_spec sol w nl costf cur :
    num_labels w = nl -> mls <= vsize w -> (forall l, l < nl -> costf l = cost w (Leaf l)) -> gc w 0 cur ->
    let r := rec_leaf T sol nl costf cur in
    gc w 0 r /\ forall l, l < nl -> (cost w (Leaf l) <= sol)%Z -> (nd_sol (rc_node r) <= cost w (Leaf l))%Z.
  Proof.
    intros Hnl Hsz Hc Hg. cbn zeta. unfold rec_leaf.
    destruct (fold_best (fun r l => if tk_sdom T sol (costf l) then r
        else if (costf l <? nd_sol (rc_node r))%Z then RChild (leaf_node l (costf l)) 0 0 else r) (gc w 0)
        (fun l z => z = cost w (Leaf l) /\ (cost w (Leaf l) <= sol)%Z) (seq 0 nl)) with (r := cur) as (A1 & _ & A3); try assumption.
    - intros r l Hl Hr. apply in_seq in Hl. destruct (tk_sdom T sol (costf l)); [exact Hr|]. destruct (costf l <? _)%Z; [|exact Hr].
      right. exists (Leaf l). split; [reflexivity|]. split; [apply leaf_allowed; lia|]. split; [reflexivity|].
      cbn [rc_node leaf_node nd_sol]. apply Hc. lia.
    - intros r l Hl. destruct (tk_sdom T sol (costf l)); [lia|]. destruct (costf l <? _)%Z eqn:El; [|lia].
      apply Z.ltb_lt in El. cbn [rc_node leaf_node nd_sol]. lia.
    - intros r l z Hl [-> Hz]. apply in_seq in Hl. rewrite Hc by lia.
      destruct (tk_sdom T sol _) eqn:E1; [apply (gt_sdom T HT) in E1; pose proof (cost_nonneg T HT w (Leaf l)); lia|].
      destruct (_ <? nd_sol _)%Z eqn:E2.
      + cbn [rc_node leaf_node nd_sol]. lia.
      + apply Z.ltb_ge in E2. exact E2.
    - split; [exact A1|]. intros l Hl Hz. apply (A3 l); [apply in_seq; lia|auto].
  Qed.

  Lemma rec_split_spec sol w nl g costl costr bc cur :
    bc = 0%Z -> num_labels w = nl -> g < nf -> mls <= vsize (split_left g w) -> mls <= vsize (split_right g w) ->
    (forall l, l < nl -> costl l = cost (split_left g w) (Leaf l)) ->
    (forall l, l < nl -> costr l = cost (split_right g w) (Leaf l)) -> gc w 1 cur ->
    let r := rec_split T sol nl g costl costr bc cur in
    gc w 1 r /\ (nd_sol (rc_node r) <= nd_sol (rc_node cur))%Z
    /\ forall a c, a < nl -> c < nl -> (cost w (Split g (Leaf a) (Leaf c)) <= sol)%Z ->
         (nd_sol (rc_node r) <= cost w (Split g (Leaf a) (Leaf c)))%Z.
  Proof.
    intros -> Hnl Hgf S0 S1 Hcl Hcr Hg. cbn zeta. unfold rec_split.
    set (cs := fun p : nat * nat => combine_sols T g (leaf_node (fst p) (costl (fst p))) (leaf_node (snd p) (costr (snd p))) 0%Z).
    assert (Hcs : forall a c, a < nl -> c < nl -> nd_sol (cs (a, c)) = cost w (Split g (Leaf a) (Leaf c))).
    { intros a c Ha Hc. unfold cs. rewrite (combine0 T _ _ _ HT). cbn [fst snd branch_node leaf_node nd_sol].
      rewrite Hcl, Hcr, tree_cost_split by assumption. reflexivity. }
    destruct (fold_best (fun r p => if tk_sdom T sol (nd_sol (cs p)) then r
        else if (nd_sol (cs p) <? nd_sol (rc_node r))%Z then RChild (cs p) (fst p) (snd p) else r) (gc w 1)
        (fun p z => z = nd_sol (cs p) /\ (z <= sol)%Z) (list_prod (seq 0 nl) (seq 0 nl))) with (r := cur) as (A1 & A2 & A3); try assumption.
    - intros r [a c] Hl Hr. apply in_prod_iff in Hl. rewrite !in_seq in Hl.
      destruct (tk_sdom T sol _); [exact Hr|]. destruct (nd_sol (cs (a, c)) <? nd_sol (rc_node r))%Z; [|exact Hr].
      right. exists (Split g (Leaf a) (Leaf c)). split; [reflexivity|]. split.
      + apply allowed_split. split; [split; [exact Hgf|apply Hmay; exact Hgf]|]. split; [lia|]. cbn [Nat.sub nodes]. split; [lia|].
        split; apply leaf_allowed; rewrite ?num_labels_left, ?num_labels_right; lia.
      + split; [reflexivity|]. cbn [rc_node]. apply Hcs; lia.
    - intros r p Hl. destruct (tk_sdom T sol _); [lia|]. destruct (nd_sol (cs p) <? nd_sol (rc_node r))%Z eqn:El; [|lia].
      apply Z.ltb_lt in El. cbn [rc_node]. lia.
    - intros r [a c] z Hl [-> Hz]. apply in_prod_iff in Hl. rewrite !in_seq in Hl. set (p := (a, c)) in *.
      assert (Hp : (0 <= nd_sol (cs p))%Z) by (unfold p; rewrite Hcs by lia; apply (cost_nonneg T HT)).
      destruct (tk_sdom T sol _) eqn:E1; [apply (gt_sdom T HT) in E1; lia|]. destruct (nd_sol (cs p) <? nd_sol (rc_node r))%Z eqn:E2.
      + cbn [rc_node]. lia.
      + apply Z.ltb_ge in E2. exact E2.
    - split; [exact A1|]. split; [exact A2|]. intros a c Ha Hc Hz. rewrite <- Hcs by assumption.
      apply (A3 (a, c)); [apply in_prod; apply in_seq; lia|]. split; [reflexivity|]. rewrite Hcs by assumption. exact Hz.
  Qed.

  Lemma gc_done w n r tw : gc w n r -> (nd_sol (rc_node r) <= cost w tw)%Z -> (cost w tw < worst)%Z ->
    exists t, (nd_sol (rc_node r) =? worst)%Z = false /\ rec_tree r = Some t /\ alw T G 1 n w t /\ nodes t = n /\ (cost w t <= cost w tw)%Z.
  Proof.
    intros [->|(t & H1 & H2 & H3 & H4)] Hle Hlt.
    - exfalso. cbn [rc0 rc_node init_sol value_node nd_sol] in Hle. lia.
    - exists t. rewrite <- H4. split; [apply Z.eqb_neq; lia|]. auto.
  Qed.

  Lemma nodes0 t : nodes t = 0 -> exists l, t = Leaf l.
  Proof. destruct t; [eauto|discriminate]. Qed.
  Lemma nodes1 t : nodes t = 1 -> exists g a c, t = Split g (Leaf a) (Leaf c).
  Proof.
    destruct t as [|g tl tr]; [discriminate|]. cbn [nodes]. intro H.
    destruct (nodes0 tl ltac:(lia)) as [a ->]. destruct (nodes0 tr ltac:(lia)) as [c ->]. eauto.
  Qed.

  (** One side of the reconstruction: [w] is the part of the data, [leaf] and [step] what the
      code computes for it. *)
  Lemma side_spec sol w n tw (leaf : rchild) (step : rchild -> nat -> rchild) f :
    (cost w tw < worst)%Z -> (cost w tw <= sol)%Z -> alw T G 1 n w tw -> nodes tw = n -> n <= 1 ->
    (n = 0 -> gc w 0 leaf /\ (forall l, l < num_labels w -> (cost w (Leaf l) <= sol)%Z -> (nd_sol (rc_node leaf) <= cost w (Leaf l))%Z)
              /\ forall r g, step r g = r) ->
    (n = 1 -> leaf = rc0 T) ->
    (n = 1 -> forall r g, g < nf -> g = f \/ ~ (mls <= vsize (split_left g w) /\ mls <= vsize (split_right g w)) -> step r g = r) ->
    (n = 1 -> forall r g, g < nf -> g <> f -> mls <= vsize (split_left g w) -> mls <= vsize (split_right g w) -> gc w 1 r ->
       gc w 1 (step r g) /\ (nd_sol (rc_node (step r g)) <= nd_sol (rc_node r))%Z
       /\ forall a c, a < num_labels w -> c < num_labels w -> (cost w (Split g (Leaf a) (Leaf c)) <= sol)%Z ->
          (nd_sol (rc_node (step r g)) <= cost w (Split g (Leaf a) (Leaf c)))%Z) ->
    (vsize (split_left f w) = 0 \/ vsize (split_right f w) = 0) ->
    let r := fold_left step (seq 0 nf) leaf in
    gc w n r /\ (nd_sol (rc_node r) <= cost w tw)%Z.
  Proof.
    intros Hlt Hle Ht Hn Hn1 H0 H1 Hskip Hstep Hf. cbn zeta. destruct n as [|[|n]]; [| |lia].
    - destruct (H0 eq_refl) as (A1 & A2 & A3).
      assert (He : forall l r, fold_left step l r = r).
      { induction l as [|g l IH]; intro r; cbn [fold_left]; [reflexivity|]. rewrite IH. apply A3. }
      rewrite He. split; [exact A1|]. destruct (nodes0 tw Hn) as [l ->]. apply A2; [|exact Hle].
      destruct Ht as (Hfit & _). exact Hfit.
    - destruct (nodes1 tw Hn) as (g & a & c & ->). rewrite (H1 eq_refl).
      apply allowed_split in Ht. destruct Ht as ((Hg & _) & _ & _ & Hl & Hr).
      pose proof (allowed_size _ _ _ _ _ _ Hl) as S0. pose proof (allowed_size _ _ _ _ _ _ Hr) as S1.
      destruct Hl as (La & _). destruct Hr as (Lc & _). cbn [fits] in La, Lc.
      change (length (split_left g w)) with (num_labels (split_left g w)) in La. rewrite num_labels_left in La.
      change (length (split_right g w)) with (num_labels (split_right g w)) in Lc. rewrite num_labels_right in Lc.
      assert (Hne : g <> f) by (intros ->; lia).
      (* the fold keeps good candidates; the bad ones are skipped *)
      assert (Hgen : forall l, (forall h, In h l -> h < nf) -> forall r, gc w 1 r ->
        gc w 1 (fold_left step l r) /\ (nd_sol (rc_node (fold_left step l r)) <= nd_sol (rc_node r))%Z
        /\ (In g l -> (nd_sol (rc_node (fold_left step l r)) <= cost w (Split g (Leaf a) (Leaf c)))%Z)).
      { induction l as [|h l IH]; intros Hb r Hr; cbn [fold_left].
        - split; [exact Hr|]. split; [lia|intros []].
        - assert (Hh : h < nf) by (apply Hb; left; reflexivity).
          assert (Hb' : forall h, In h l -> h < nf) by (intros; apply Hb; right; assumption).
          destruct (Nat.eq_dec h f) as [->|Hhf].
          { rewrite (Hskip eq_refl r f Hh (or_introl eq_refl)). destruct (IH Hb' r Hr) as (B1 & B2 & B3).
            split; [exact B1|]. split; [exact B2|]. intros [He|Hin]; [congruence|auto]. }
          destruct (le_lt_dec mls (vsize (split_left h w))) as [X0|X0].
          2:{ rewrite (Hskip eq_refl r h Hh) by (right; lia). destruct (IH Hb' r Hr) as (B1 & B2 & B3).
              split; [exact B1|]. split; [exact B2|]. intros [He|Hin]; [subst h; lia|auto]. }
          destruct (le_lt_dec mls (vsize (split_right h w))) as [X1|X1].
          2:{ rewrite (Hskip eq_refl r h Hh) by (right; lia). destruct (IH Hb' r Hr) as (B1 & B2 & B3).
              split; [exact B1|]. split; [exact B2|]. intros [He|Hin]; [subst h; lia|auto]. }
          destruct (Hstep eq_refl r h Hh Hhf X0 X1 Hr) as (C1 & C2 & C3).
          destruct (IH Hb' _ C1) as (B1 & B2 & B3). split; [exact B1|]. split; [lia|].
          intros [He|Hin]; [subst h|auto]. specialize (C3 a c La Lc Hle). lia. }
      destruct (Hgen (seq 0 nf)) with (r := rc0 T) as (A1 & _ & A3).
      + intros h Hh. apply in_seq in Hh. lia.
      + left. reflexivity.
      + split; [exact A1|]. apply A3. apply in_seq. lia.
  Qed.

  (** ConstructOptimalTree of the depth-two solver never fails on a solution that has a
      witness, and the tree it builds is at least as good as the value of the solution. *)
  Lemma term_construct_spec x v b d : d <= 2 ->
    wf_view nf v -> (forall t, (cost (v) t < worst)%Z) -> (forall f t, (cost (split_left f v) t < worst)%Z) -> (forall f t, (cost (split_right f v) t < worst)%Z) ->
    wit T G v d x ->
    exists t, term_construct T nf mls x v b = Some t /\ alw T G d (num_nodes x) v t /\ nodes t = num_nodes x /\ (cost v t <= nd_sol x)%Z.
  Proof.
    intros Hd2 Hwf Hlt Hltl Hltr Hw. unfold term_construct, num_nodes. unfold wit in Hw. destruct (nd_feat x) as [f|] eqn:Ef.
    - destruct Hw as (Hok & Hd & Hnl & Hnr & tl & tr & Hl & Hr & Hs & El & Er).
      assert (P1 : 2 ^ (d - 1) <= 2 ^ 1) by (apply Nat.pow_le_mono_r; lia). change (2 ^ 1) with 2 in P1.
      set (k := rec_calc T nf f v). set (nl := num_labels v).
      pose proof (cost_nonneg T HT (split_left f v) tl) as Nl. pose proof (cost_nonneg T HT (split_right f v) tr) as Nr.
      pose proof (allowed_size _ _ _ _ _ _ Hl) as Sl. pose proof (allowed_size _ _ _ _ _ _ Hr) as Sr.
      destruct Hok as [Hf Hf2].
      set (sl := fun (r : rchild) (f2 : nat) => if f2 =? f then r else
        if negb (nd_l x =? 0) && ge_mls mls (count00 nf k f f2) && ge_mls mls (count01 nf k f f2)
        then rec_split T (nd_sol x) nl f2 (fun l => sol00 nf k l f f2) (fun l => sol01 nf k l f f2)
               (tbc_child T b (count00 nf k f f2 + count01 nf k f f2) f f2) r else r).
      set (sr := fun (r : rchild) (f2 : nat) => if f2 =? f then r else
        if negb (nd_r x =? 0) && ge_mls mls (count10 nf k f f2) && ge_mls mls (count11 nf k f f2)
        then rec_split T (nd_sol x) nl f2 (fun l => sol10 nf k l f f2) (fun l => sol11 nf k l f f2)
               (tbc_child T b (count10 nf k f f2 + count11 nf k f f2) f f2) r else r).
      set (lc := if nd_l x =? 0 then rec_leaf T (nd_sol x) nl (fun l => sol0 nf k l f) (rc0 T) else rc0 T).
      set (rc := if nd_r x =? 0 then rec_leaf T (nd_sol x) nl (fun l => sol1 nf k l f) (rc0 T) else rc0 T).
      cbn zeta.
      match goal with |- context [fold_left ?st (seq 0 nf) (lc, rc)] => set (step := st) end.
      assert (Hp : (if negb (nd_l x =? 0) || negb (nd_r x =? 0) then fold_left step (seq 0 nf) (lc, rc) else (lc, rc))
                   = (fold_left sl (seq 0 nf) lc, fold_left sr (seq 0 nf) rc)).
      { assert (Hst : forall p a, step p a = (sl (fst p) a, sr (snd p) a)).
        { intros p a. unfold step, sl, sr. destruct (a =? f); [apply surjective_pairing|]. reflexivity. }
        pose proof (fold_left_pair step sl sr (seq 0 nf) Hst (lc, rc)) as Hfp. cbn [fst snd] in Hfp. rewrite <- Hfp.
        destruct (nd_l x =? 0) eqn:E1; destruct (nd_r x =? 0) eqn:E2; cbn [negb orb]; try reflexivity.
        assert (Hid : forall l p, fold_left step l p = p).
        { induction l as [|a l IH]; intro p; cbn [fold_left]; [reflexivity|]. rewrite IH, Hst. unfold sl, sr. rewrite ?E1, ?E2.
          cbn [negb andb]. destruct (a =? f); destruct p; reflexivity. }
        symmetry. apply Hid. }
      rewrite Hp. cbn [fst snd].
      assert (Ge : forall n, ge_mls mls (Z.of_nat n) = (mls <=? n)).
      { intro n. unfold ge_mls. destruct (Nat.leb_spec mls n); [apply Z.leb_le|apply Z.leb_gt]; lia. }
      assert (Hfe : vsize (split_left f (split_right f v)) = 0 /\ vsize (split_right f (split_left f v)) = 0).
      { unfold vsize. rewrite concat_split_left, concat_split_right, concat_split_right, concat_split_left, !filter_filter.
        rewrite !filter_all_false; [auto| |]; intros y _; destruct (has f y); reflexivity. }
      destruct (side_spec (nd_sol x) (split_left f v) (nd_l x) tl lc sl f) as [A1 A2]; try assumption; try lia; try (apply Hltl).
      { eapply allowed_mono; [exact Hl|lia|lia]. }
      { intro H0. unfold lc, sl. rewrite H0. cbn [Nat.eqb negb andb].
        destruct (rec_leaf_spec (nd_sol x) (split_left f v) nl (fun l => sol0 nf k l f) (rc0 T)) as [B1 B2];
          [apply num_labels_left|exact Sl|intros l Hl'; apply rec_rd_sol0; assumption|left; reflexivity|].
        split; [exact B1|]. split; [rewrite num_labels_left; exact B2|]. intros r g. destruct (g =? f); reflexivity. }
      { intro H1. unfold lc. rewrite H1. reflexivity. }
      { intros H1 r g Hg Hc. unfold sl, k. destruct (Nat.eqb_spec g f); [reflexivity|]. destruct Hc as [Hc|Hc]; [congruence|].
        rewrite rec_rd_count00, rec_rd_count01, !Ge by assumption. rewrite H1. cbn [Nat.eqb negb andb].
        destruct (Nat.leb_spec mls (vsize (split_left g (split_left f v)))); [|reflexivity].
        destruct (Nat.leb_spec mls (vsize (split_right g (split_left f v)))); [|reflexivity]. tauto. }
      { intros H1 r g Hg Hne X0 X1 Hgr. unfold sl, k. apply Nat.eqb_neq in Hne as Hne'. rewrite Hne'.
        rewrite rec_rd_count00, rec_rd_count01, !Ge by assumption. rewrite H1. apply Nat.leb_le in X0 as X0', X1 as X1'.
        rewrite X0', X1'. cbn [Nat.eqb negb andb].
        rewrite num_labels_left. apply rec_split_spec; try assumption; try (unfold tbc_child; apply (gt_bc T HT)); try (apply num_labels_left);
          intros l Hl'; [apply rec_rd_sol00|apply rec_rd_sol01]; assumption. }
      destruct (side_spec (nd_sol x) (split_right f v) (nd_r x) tr rc sr f) as [B1 B2]; try assumption; try lia; try (apply Hltr).
      { eapply allowed_mono; [exact Hr|lia|lia]. }
      { intro H0. unfold rc, sr. rewrite H0. cbn [Nat.eqb negb andb].
        destruct (rec_leaf_spec (nd_sol x) (split_right f v) nl (fun l => sol1 nf k l f) (rc0 T)) as [C1 C2];
          [apply num_labels_right|exact Sr|intros l Hl'; apply rec_rd_sol1; assumption|left; reflexivity|].
        split; [exact C1|]. split; [rewrite num_labels_right; exact C2|]. intros r g. destruct (g =? f); reflexivity. }
      { intro H1. unfold rc. rewrite H1. reflexivity. }
      { intros H1 r g Hg Hc. unfold sr, k. destruct (Nat.eqb_spec g f); [reflexivity|]. destruct Hc as [Hc|Hc]; [congruence|].
        rewrite rec_rd_count10, rec_rd_count11, !Ge by assumption. rewrite H1. cbn [Nat.eqb negb andb].
        destruct (Nat.leb_spec mls (vsize (split_left g (split_right f v)))); [|reflexivity].
        destruct (Nat.leb_spec mls (vsize (split_right g (split_right f v)))); [|reflexivity]. tauto. }
      { intros H1 r g Hg Hne X0 X1 Hgr. unfold sr, k. apply Nat.eqb_neq in Hne as Hne'. rewrite Hne'.
        rewrite rec_rd_count10, rec_rd_count11, !Ge by assumption. rewrite H1. apply Nat.leb_le in X0 as X0', X1 as X1'.
        rewrite X0', X1'. cbn [Nat.eqb negb andb].
        rewrite num_labels_right. apply rec_split_spec; try assumption; try (unfold tbc_child; apply (gt_bc T HT)); try (apply num_labels_right);
          intros l Hl'; [apply rec_rd_sol10|apply rec_rd_sol11]; assumption. }
      cbn zeta in *.
      destruct (gc_done _ _ _ _ A1 A2 (Hltl f tl)) as (t1 & Q1 & R1 & U1 & V1 & W1).
      destruct (gc_done _ _ _ _ B1 B2 (Hltr f tr)) as (t2 & Q2 & R2 & U2 & V2 & W2).
      rewrite Q1, Q2, R1, R2. cbn [orb]. exists (Split f t1 t2). split; [reflexivity|].
      assert (D1 : depth t1 <= d - 1).
      { destruct (Nat.eq_dec (nd_l x) 0) as [E0|E0]; [rewrite E0 in V1; destruct (nodes0 t1 V1) as [? ->]; cbn; lia|].
        destruct d as [|[|d]]; cbn [Nat.sub Nat.pow] in *; [lia|lia|]. destruct U1 as (_ & _ & U1 & _). lia. }
      assert (D2 : depth t2 <= d - 1).
      { destruct (Nat.eq_dec (nd_r x) 0) as [E0|E0]; [rewrite E0 in V2; destruct (nodes0 t2 V2) as [? ->]; cbn; lia|].
        destruct d as [|[|d]]; cbn [Nat.sub Nat.pow] in *; [lia|lia|]. destruct U2 as (_ & _ & U2 & _). lia. }
      split.
      + apply allowed_split. split; [split; assumption|]. split; [lia|]. split; [lia|]. split.
        * destruct U1 as (U1a & U1b & _ & U1d). repeat split; try assumption; lia.
        * destruct U2 as (U2a & U2b & _ & U2d). repeat split; try assumption; lia.
      + split; [cbn [nodes]; lia|]. rewrite tree_cost_split. lia.
    - destruct Hw as (l & -> & Hl & Hm & Hs). exists (Leaf l). split; [reflexivity|].
      split; [apply leaf_allowed; assumption|]. split; [reflexivity|]. lia.
  Qed.
End RecTree.
