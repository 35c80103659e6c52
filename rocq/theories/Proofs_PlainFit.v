(** Fit for tasks with costs at the branching nodes, without lower bounds and depth-two solver:
    preprocessing, search, reconstruction and undoing the flips. *)
From Coq Require Import List Arith Bool Lia ZArith Permutation.
From Verif Require Import Model_FeatureVector Model_Data Model_Node Model_Cache Model_Terminal Model_Heap Model_Solver Model_Preproc
  Spec_Tree Spec_Rows Proofs_View Proofs_Base Proofs_Heap Proofs_Preproc Proofs_Plain.
Import ListNotations.
Local Open Scope nat_scope.

(** Two paths that test the same features. *)
Definition half (c : nat) : nat := c / 2.
Definition same_tests (b b' : branch) : Prop := forall g, In g (map half b) <-> In g (map half b').
Lemma half_code f p : half (br_code f p) = f.
Proof. unfold half, br_code. destruct p; rewrite Nat.mul_comm, Nat.div_add_l by lia; cbn [Nat.div Nat.divmod fst]; apply Nat.add_0_r. Qed.

Section PlainFit.
  Context (T : task) (HT : plain_task T) (W : switches) (P : params) (nf : nat) (clk : nat -> bool) (v : view) (Z0 : Z).
  Notation mls := (w_mls W).
  Notation worst := (tk_worst T).
  Hypothesis Hmls : 1 <= mls.
  Hypothesis Hmay : forall f, f < nf -> tk_may T f = true.
  Hypothesis Hld : loaded nf v.
  Hypothesis Hnl : 1 <= num_labels v.
  Hypothesis Hsz : mls <= vsize v.
  Hypothesis Hleaf : forall u u' l, map (map iid) u = map (map iid) u' -> tk_leaf T u l = tk_leaf T u' l.
  Hypothesis Hbr : forall n b b' f, same_tests b b' -> bcost T n b f = bcost T n b' f.
  (** Either all branching nodes cost the same, or no feature equals another one or its
      complement. *)
  Hypothesis Hdup : (forall n b b' f f', bcost T n b f = bcost T n b' f')
    \/ (forall f f1 p q, f < nf -> f1 < nf -> (forall x, In x (concat v) -> xorb p (has f x) = xorb q (has f1 x)) -> f = f1).
  Hypothesis Hlb : w_lb W = false.
  Hypothesis Hterm : w_term W = false.
  Hypothesis Hsp : tk_sparse T = true -> w_ub W = true /\ exists k, forall n b f, bcost T n b f = k.
  Hypothesis Hdata : w_data W = true -> forall n b b' f, bcost T n b f = bcost T n b' f.
  Hypothesis Hz : forall u b t, vsize u <= vsize v -> depth t <= p_depth P -> (tcost T u b t <= Z0)%Z.
  Hypothesis HzT : tells T Z0.
  Hypothesis Hzw : (Z0 < worst)%Z.

  Notation pv := (pview T mls nf v).
  Notation pg := (pg T mls nf v).
  Notation pfl := (pfl T mls nf v).
  Notation pdead := (pdead T mls nf v).
  Notation R := (fit T W P nf clk v).
  Notation G := (mk_cfg W nf pdead clk).
  Notation A := (solve T G P pv (init_sol T) (init_state G (w_branch W) (w_data W) (vsize pv))).
  Notation ok := (fun f => f < nf).

  Lemma pfit_eq : R = mk_result T pfl pv A.
  Proof. unfold fit. rewrite (preprocess_eq T mls nf v). reflexivity. Qed.
  Lemma pcfg_order u f : In f (c_order G u) <-> f < nf.
  Proof.
    cbn [mk_cfg c_order]. destruct (w_gini W).
    - rewrite (Permutation_in' eq_refl (order_gini_perm nf u)). rewrite in_seq. lia.
    - unfold order_in. rewrite in_seq. lia.
  Qed.

  Lemma in_add b f p c : In c (br_add b f p) <-> In c b \/ c = br_code f p.
  Proof.
    unfold br_add. split.
    - intros I. apply (Permutation_in _ (sort_nat_perm _)) in I. rewrite in_app_iff in I. cbn [In] in I. intuition congruence.
    - intros I. apply (Permutation_in _ (Permutation_sym (sort_nat_perm _))). rewrite in_app_iff. cbn [In]. intuition congruence.
  Qed.
  Lemma tests_add b b' f p p' : same_tests b b' -> same_tests (br_add b f p) (br_add b' f p').
  Proof.
    intros H g. assert (E : forall b p, In g (map half (br_add b f p)) <-> In g (map half b) \/ g = f).
    { intros b0 p0. rewrite !in_map_iff. split.
      - intros (c & <- & Hc). apply in_add in Hc. destruct Hc as [Hc| ->]; [left; eauto|right; apply half_code].
      - intros [(c & <- & Hc)| ->]; [exists c; split; [reflexivity|apply in_add; auto]|exists (br_code f p0); split; [apply half_code|apply in_add; auto]]. }
    rewrite !E. specialize (H g). tauto.
  Qed.
  Definition Rb (b b' : branch) : Prop := (forall n c c' f f', bcost T n c f = bcost T n c' f') \/ same_tests b b'.
  Lemma Rb_add b b' f p p' : Rb b b' -> Rb (br_add b f p) (br_add b' f p').
  Proof. intros [H|H]; [left; exact H|right; apply tests_add; exact H]. Qed.
  Lemma Rb_bcost b b' n f : Rb b b' -> bcost T n b f = bcost T n b' f.
  Proof. intros [H|H]; [apply H|apply Hbr; exact H]. Qed.

  Lemma filters_map (g : inst -> inst) (p : inst -> bool) u : map (filter p) (map (map g) u) = map (map g) (map (filter (fun x => p (g x))) u).
  Proof. rewrite !map_map. apply map_ext. intro xs. apply filter_map_comm. Qed.
  Lemma filters_ext (p q : inst -> bool) u : (forall x, In x (concat u) -> p x = q x) -> map (filter p) u = map (filter q) u.
  Proof. intro H. apply map_ext_in. intros xs Hx. apply filter_ext_in. intros x Hi. apply H. apply in_concat. eauto. Qed.
  Lemma concat_filters (p : inst -> bool) (u : view) : concat (map (filter p) u) = filter p (concat u).
  Proof. induction u as [|xs u IH]; [reflexivity|]. cbn [map concat]. rewrite IH, filter_app. reflexivity. Qed.
  Lemma filters_filters (p q : inst -> bool) (u : view) : map (filter p) (map (filter q) u) = map (filter (fun x => q x && p x)) u.
  Proof. rewrite map_map. apply map_ext. intro xs. apply filter_filter. Qed.
  Lemma size_map (g : inst -> inst) u : vsize (map (map g) u) = vsize u.
  Proof. unfold vsize. rewrite concat_map_map. apply map_length. Qed.
  Notation U p := (map (filter p) v).
  Lemma leaf_map p l : tk_leaf T (map (map pg) (U p)) l = tk_leaf T (U p) l.
  Proof.
    apply Hleaf. rewrite map_map. apply map_ext_in. intros xs Hx. rewrite map_map. apply map_ext_in. intros x Hi.
    apply (pg_spec T mls nf v Hld). apply in_map_iff in Hx. destruct Hx as (ys & <- & Hy). apply filter_In in Hi. apply in_concat. exists ys. tauto.
  Qed.

  Lemma cost_unflip nl t : forall p b b', Rb b b' -> fits (fun f => f < nf) nl t -> leaves_ok mls (map pg (filter p (concat v))) t ->
    tcost T (map (map pg) (U p)) b t = tcost T (U p) b' (unflip pfl t).
  Proof.
    induction t as [l|f l IHl r IHr]; intros p b b' Hb Hf Hl.
    - apply leaf_map.
    - destruct Hf as (Hf & Hfl & Hfr). destruct Hl as (Hll & Hlr).
      set (xs := filter p (concat v)) in *.
      assert (Hxs : forall x, In x xs -> In x (concat v)) by (intros x Hx; apply filter_In in Hx; apply Hx).
      assert (Ep : pdead f = false).
      { destruct (pdead f) eqn:Ep; [exfalso|reflexivity]. pose proof (leaves_ok_size _ _ _ Hlr) as Hs.
        rewrite filter_all_false in Hs; [cbn in Hs; lia|]. intros y Hy. apply in_map_iff in Hy. destruct Hy as (x & <- & Hx).
        apply (pview_red T mls nf v Hmls Hld); [exact Ep|]. apply (pview_in T mls nf v). exists x. auto. }
      assert (F3 : forall x, In x (concat v) -> has f (pg x) = xorb (pfl f) (has f x)).
      { intros x Hx. destruct (pg_spec T mls nf v Hld x Hx) as (_ & _ & Hg). rewrite Hg by exact Hf. rewrite Ep. reflexivity. }
      rewrite filter_map_comm in Hll, Hlr. unfold xs in Hll, Hlr. rewrite filter_filter in Hll, Hlr.
      specialize (fun b b' Hb => IHl _ b b' Hb Hfl Hll). specialize (fun b b' Hb => IHr _ b b' Hb Hfr Hlr).
      assert (E1 : split_left f (map (map pg) (U p)) = map (map pg) (U (fun x => p x && negb (has f (pg x))))).
      { unfold split_left. rewrite filters_map, filters_filters. reflexivity. }
      assert (E2 : split_right f (map (map pg) (U p)) = map (map pg) (U (fun x => p x && has f (pg x)))).
      { unfold split_right. rewrite filters_map, filters_filters. reflexivity. }
      assert (E3 : forall s, map (filter (fun x => xorb s (has f x))) (U p) = U (fun x => p x && xorb (xorb (pfl f) s) (has f (pg x)))).
      { intro s. rewrite filters_filters. apply filters_ext. intros x Hx. rewrite (F3 x Hx). destruct (pfl f), s, (has f x); reflexivity. }
      assert (E3l := E3 true). assert (E3r := E3 false). clear E3.
      cbn [tcost unflip]. rewrite E1, E2, size_map, (Rb_bcost b b' _ f Hb).
      assert (Sl : split_left f (U p) = map (filter (fun x => xorb true (has f x))) (U p)) by reflexivity.
      assert (Sr : split_right f (U p) = map (filter (fun x => xorb false (has f x))) (U p)) by (unfold split_right; apply filters_ext; intros x _; destruct (has f x); reflexivity).
      assert (X : forall s, U (fun x => p x && xorb s (has f (pg x))) = if s then U (fun x => p x && negb (has f (pg x))) else U (fun x => p x && has f (pg x))).
      { intros []; apply filters_ext; intros x _; destruct (has f (pg x)); reflexivity. }
      destruct (pfl f) eqn:Efl; cbn [tcost]; rewrite Sl, Sr, E3l, E3r, !X; cbn [xorb].
      + rewrite (IHl (br_left b f) (br_right b' f) (Rb_add _ _ _ _ _ Hb)), (IHr (br_right b f) (br_left b' f) (Rb_add _ _ _ _ _ Hb)). lia.
      + rewrite (IHl (br_left b f) (br_left b' f) (Rb_add _ _ _ _ _ Hb)), (IHr (br_right b f) (br_right b' f) (Rb_add _ _ _ _ _ Hb)). reflexivity.
  Qed.

  Lemma cost_norm nl t : forall p b b', Rb b b' -> fits ok nl t -> leaves_ok mls (filter p (concat v)) t ->
    exists t', fits (fun f => f < nf /\ tk_may T f = true) nl t' /\ leaves_ok mls (map pg (filter p (concat v))) t'
      /\ depth t' = depth t /\ nodes t' = nodes t /\ tcost T (map (map pg) (U p)) b t' = tcost T (U p) b' t.
  Proof.
    induction t as [l|f l IHl r IHr]; intros p b b' Hb Hf Hl.
    - exists (Leaf l). cbn [fits leaves_ok depth nodes tcost] in *. rewrite map_length. split; [exact Hf|]. split; [exact Hl|]. split; [reflexivity|]. split; [reflexivity|]. apply leaf_map.
    - destruct Hf as (Hf & Hfl & Hfr). destruct Hl as (Hll & Hlr).
      set (xs := filter p (concat v)) in *.
      assert (E : exists f1, f1 < nf /\ (f1 = f \/ (forall n b b' f f', bcost T n b f = bcost T n b' f')) /\ forall x, In x (concat v) -> has f x = xorb (pfl f) (has f1 (pg x))).
      { destruct (pdead f) eqn:Ep.
        - destruct (pdead_cases T mls nf v Hmls Hld f Ep) as [[H|H]|(f1 & H1 & H2 & H3)].
          + exfalso. pose proof (leaves_ok_size _ _ _ Hlr) as Hs. unfold xs in Hs.
            pose proof (filter_le mls Hmls (fun x => has f x) p (concat v)). unfold pos_count in H.
            change (filter (fun x => has f x)) with (filter (has f)) in *. lia.
          + exfalso. pose proof (leaves_ok_size _ _ _ Hll) as Hs. unfold xs in Hs.
            pose proof (filter_le mls Hmls (fun x => negb (has f x)) p (concat v)). unfold pos_count in H.
            pose proof (filter_length_split (has f) (concat v)). lia.
          + exists f1. split; [exact H1|]. split.
            { destruct Hdup as [Hd|Hd]; [right; exact Hd|left; symmetry; exact (Hd f f1 _ _ Hf H1 H3)]. }
            intros x Hx. destruct (pg_spec T mls nf v Hld x Hx) as (_ & _ & Hg).
            rewrite Hg by exact H1. rewrite H2, <- H3 by exact Hx. destruct (pfl f), (has f x); reflexivity.
        - exists f. split; [exact Hf|]. split; [auto|]. intros x Hx. destruct (pg_spec T mls nf v Hld x Hx) as (_ & _ & Hg).
          rewrite Hg by exact Hf. rewrite Ep. destruct (pfl f), (has f x); reflexivity. }
      destruct E as (f1 & F1 & F2 & F3).
      assert (Hbc : forall n, bcost T n b f1 = bcost T n b' f).
      { intro n. destruct F2 as [-> |F2]; [apply Rb_bcost; exact Hb|apply F2]. }
      assert (Hb2 : forall q q', Rb (br_add b f1 q) (br_add b' f q')).
      { intros q q'. destruct F2 as [-> |F2]; [apply Rb_add; exact Hb|left; exact F2]. }
      unfold xs in Hll, Hlr. rewrite filter_filter in Hll, Hlr.
      assert (E1 : forall s, map (filter (fun x => xorb s (has f1 x))) (map (map pg) (U p)) = map (map pg) (U (fun x => p x && xorb (xorb (pfl f) s) (has f x)))).
      { intro s. rewrite filters_map, filters_filters. f_equal. apply filters_ext. intros x Hx. rewrite (F3 x Hx). destruct (pfl f), s, (has f1 (pg x)); reflexivity. }
      assert (E2 : forall s, filter (fun x => xorb s (has f1 x)) (map pg xs) = map pg (filter (fun x => p x && xorb (xorb (pfl f) s) (has f x)) (concat v))).
      { intro s. rewrite filter_map_comm. unfold xs. rewrite filter_filter. f_equal. apply filter_ext_in. intros x Hx. rewrite (F3 x Hx). destruct (pfl f), s, (has f1 (pg x)); reflexivity. }
      assert (X : forall s, U (fun x => p x && xorb s (has f x)) = if s then U (fun x => p x && negb (has f x)) else U (fun x => p x && has f x)).
      { intros []; apply filters_ext; intros x _; destruct (has f x); reflexivity. }
      assert (Y : forall s, filter (fun x => p x && xorb s (has f x)) (concat v) = if s then filter (fun x => p x && negb (has f x)) (concat v) else filter (fun x => p x && has f x) (concat v)).
      { intros []; apply filter_ext_in; intros x _; destruct (has f x); reflexivity. }
      assert (Sl : forall u, split_left f1 u = map (filter (fun x => xorb true (has f1 x))) u) by reflexivity.
      assert (Sr : forall u, split_right f1 u = map (filter (fun x => xorb false (has f1 x))) u) by (intro u; unfold split_right; apply filters_ext; intros x _; destruct (has f1 x); reflexivity).
      assert (Tl : split_left f (U p) = U (fun x => p x && negb (has f x))) by (unfold split_left; apply filters_filters).
      assert (Tr : split_right f (U p) = U (fun x => p x && has f x)) by (unfold split_right; apply filters_filters).
      assert (Zl : forall ys : list inst, filter (fun x => negb (has f1 x)) ys = filter (fun x => xorb true (has f1 x)) ys) by reflexivity.
      assert (Zr : forall ys : list inst, filter (fun x => has f1 x) ys = filter (fun x => xorb false (has f1 x)) ys) by (intro ys; apply filter_ext_in; intros x _; destruct (has f1 x); reflexivity).
      specialize (IHl _ (br_add b f1 (pfl f)) (br_left b' f) (Hb2 _ _) Hfl Hll). specialize (IHr _ (br_add b f1 (negb (pfl f))) (br_right b' f) (Hb2 _ _) Hfr Hlr).
      destruct IHl as (l' & L1 & L2 & L3 & L4 & L5). destruct IHr as (r' & R1 & R2 & R3 & R4 & R5).
      destruct (pfl f) eqn:Efl; [exists (Split f1 r' l')|exists (Split f1 l' r')]; cbn [fits leaves_ok depth nodes tcost].
      + split; [auto|]. split; [rewrite Zl, Zr, !E2, !Y; cbn [xorb]; auto|]. split; [lia|]. split; [lia|].
        rewrite Sl, Sr, !E1, !X, Tl, Tr, size_map, Hbc. cbn [xorb negb] in *. unfold br_left at 1, br_right at 1. unfold br_left, br_right in *. rewrite R5, L5. lia.
      + split; [auto|]. split; [rewrite Zl, Zr, !E2, !Y; cbn [xorb]; auto|]. split; [lia|]. split; [lia|].
        rewrite Sl, Sr, !E1, !X, Tl, Tr, size_map, Hbc. cbn [xorb negb] in *. unfold br_left, br_right in *. rewrite R5, L5. lia.
  Qed.

  Lemma U_true : U (fun _ => true) = v.
  Proof. rewrite <- (map_id v) at 2. apply map_ext. intro xs. apply filter_true. Qed.
  Lemma Rb_refl b : Rb b b.
  Proof. right. intro g. tauto. Qed.
  Lemma palw_from d n t : alw T G d n pv t -> allowed ok mls d n v (unflip pfl t)
    /\ tcost T pv [] t = tcost T v [] (unflip pfl t) /\ nodes (unflip pfl t) = nodes t.
  Proof.
    intros (H1 & H2 & H3 & H4). change (length pv) with (num_labels pv) in H1. rewrite pview_labels in H1.
    unfold pview in H2. rewrite concat_map_map in H2.
    assert (H1' : fits (fun f => f < nf) (num_labels v) t).
    { clear - H1. induction t as [l|f l IHl r IHr]; [exact H1|]. cbn [fits] in *. destruct H1 as ((B & _) & C & D). auto. }
    destruct (unflip_any T mls nf v Hmls Hld (num_labels v) t (fun _ => true)) as (A1 & A2 & A3 & A4 & A5); rewrite ?filter_true in *; try assumption.
    pose proof (cost_unflip (num_labels v) t (fun _ => true) [] [] (Rb_refl []) H1') as Hcu. rewrite filter_true, U_true in Hcu. specialize (Hcu H2).
    split; [|split; [exact Hcu|exact A4]]. split; [exact A1|]. split; [exact A2|]. split; lia.
  Qed.
  Lemma palw_to d n t : allowed ok mls d n v t -> exists t', alw T G d n pv t' /\ tcost T pv [] t' = tcost T v [] t.
  Proof.
    intros (H1 & H2 & H3 & H4). destruct (cost_norm (length v) t (fun _ => true) [] [] (Rb_refl [])) as (t' & A1 & A2 & A3 & A4 & A5); rewrite ?filter_true in *; try assumption.
    rewrite U_true in A5. exists t'. split; [|exact A5]. unfold alw, allowed. change (length pv) with (num_labels pv). rewrite pview_labels.
    split; [exact A1|]. split; [unfold pview; rewrite concat_map_map; exact A2|]. split; lia.
  Qed.
  Lemma train_cost t : forall u b, fst (train_score T u b t) = tcost T u b t.
  Proof.
    induction t as [l|f l IHl r IHr]; intros u b; cbn [train_score tcost]; [reflexivity|].
    specialize (IHl (split_left f u) (br_left b f)). specialize (IHr (split_right f u) (br_right b f)).
    destruct (train_score T (split_left f u) _ l), (train_score T (split_right f u) _ r). cbn [fst] in *. subst. unfold get_bc, bcost. destruct (tk_bc T); lia.
  Qed.

  Definition pbound : Z := Z.min worst (p_ub P).
  Lemma U0_pbound : U0 T P = pbound.
  Proof.
    unfold U0, pbound, add_sol, init_sol, value_node. cbn [nd_sol]. destruct (p_ub P <? worst)%Z eqn:E; cbn [nd_sol];
      [apply Z.ltb_lt in E|apply Z.ltb_ge in E]; lia.
  Qed.
  Theorem plain_fit_spec : ((p_all P = true \/ p_nodes P = 1) -> p_nodes P <= 2 ^ p_depth P - 1) -> fr_proven R = true ->
    (fr_tree R = None /\ forall t, allowed ok mls (p_depth P) (p_nodes P) v t -> (pbound < tcost T v [] t)%Z)
    \/ (exists t, fr_tree R = Some t
        /\ allowed ok mls (Nat.min (p_depth P) (p_nodes P)) (2 ^ Nat.min (p_depth P) (p_nodes P) - 1) v t
        /\ (w_branch W = false -> w_data W = false -> nodes t <= p_nodes P)
        /\ option_map fst (fr_train R) = Some (tcost T v [] t)
        /\ (exists t0, allowed ok mls (p_depth P) (p_nodes P) v t0 /\ tcost T v [] t0 = nd_sol (fr_value R))
        /\ (forall t', allowed ok mls (p_depth P) (p_nodes P) v t' -> (pbound < tcost T v [] t')%Z \/ (nd_sol (fr_value R) <= tcost T v [] t')%Z)
        /\ (tcost T v [] t <= nd_sol (fr_value R))%Z).
  Proof.
    intros Hlim Hp. rewrite pfit_eq in *. cbn [mk_result fr_proven fr_tree fr_train fr_value] in *.
    assert (Hred : forall f x, c_redundant G f = true -> In x (concat pv) -> has f x = false).
    { intros f x Hf Hx. apply (pview_red T mls nf v Hmls Hld f x Hf Hx). }
    assert (Hpnl : 1 <= num_labels pv) by (rewrite pview_labels; exact Hnl).
    assert (Hpsz : mls <= vsize pv) by (rewrite pview_size; exact Hsz).
    assert (Hpz : forall b t, alw T G (p_depth P) (2 ^ p_depth P - 1) (restrict b pv) t -> (tcost T (restrict b pv) b t <= Z0)%Z).
    { intros b t (_ & _ & H & _). apply Hz; [|exact H]. rewrite <- (pview_size T mls nf v). unfold vsize, restrict. rewrite concat_filters. pose proof (filter_length_split (sat b) (concat pv)). change (fun x : inst => sat b x) with (sat b) in *. lia. }
    destruct (solve_spec T G HT pv (vsize pv) (p_depth P) Z0 (w_data W) (pview_ids T mls nf v Hld) Hred Hmls pcfg_order Hpnl Hlb Hterm Hsp Hdata Hpz HzT Hzw
       P (le_n _) Hpsz (init_state G (w_branch W) (w_data W) (vsize pv))) as [(A1 & A2 & A3)|(t & A1 & A2 & A3 & A4 & A5 & A6 & A7)].
    - unfold init_state. cbn [s_c]. replace (Model_Solver.c_lb G) with false by (symmetry; exact Hlb). apply CInv_empty.
    - exact Hlim.
    - exact Hp.
    - left. rewrite A2. split; [reflexivity|]. intros t Ht. destruct (palw_to _ _ _ Ht) as (t' & B1 & B2). rewrite <- B2, <- U0_pbound. apply A3. exact B1.
    - right. rewrite A1. exists (unflip pfl t). split; [reflexivity|]. destruct (palw_from _ _ _ A4) as (B1 & B2 & B3).
      split; [exact B1|]. split; [intros U1 U2; rewrite B3; apply A5; unfold cache_used, init_state; cbn [s_c cc_use_branch cc_use_data]; rewrite U1, U2; reflexivity|].
      split; [cbn [option_map]; rewrite train_cost, B2; reflexivity|]. split.
      { pose proof (wt_tree T G pv Hmls Hpnl [] _ _ A2) as (t0 & C1 & C2 & C3). rewrite restrict_nil in C1, C2. destruct (palw_from _ _ _ C1) as (D1 & D2 & D3).
        exists (unflip pfl t0). split; [eapply allowed_mono; [exact D1|lia|exact A3]|congruence]. }
      split.
      + intros t' Ht'. destruct (palw_to _ _ _ Ht') as (t'' & C1 & C2). rewrite <- C2, <- U0_pbound. auto.
      + rewrite <- B2. exact A7.
  Qed.
End PlainFit.
