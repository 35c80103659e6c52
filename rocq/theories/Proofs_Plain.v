(** The search for tasks with costs at the branching nodes, without lower bounds and without the
    depth-two solver: upper bounds, caches and node budgets keep the optimum. *)
From Coq Require Import List Arith Bool Lia ZArith.
From Verif Require Import Model_FeatureVector Model_Data Model_Node Model_Cache Model_Terminal Model_Solver
  Spec_Tree Proofs_View Proofs_Diff Proofs_Base Proofs_Cache Proofs_Keep.
Import ListNotations.
Local Open Scope nat_scope.

Definition bcost (T : task) (n : nat) (b : branch) (f : nat) : Z :=
  match tk_bc T with Some g => g n b f | None => 0%Z end.

(** The cost of a tree: leaves and branching nodes. *)
Fixpoint tcost (T : task) (v : view) (b : branch) (t : tree) : Z :=
  match t with
  | Leaf l => tk_leaf T v l
  | Split f l r => (bcost T (vsize v) b f + tcost T (split_left f v) (br_left b f) l + tcost T (split_right f v) (br_right b f) r)%Z
  end.

Record plain_task (T : task) : Prop := PlainTask {
  pt_leaf : forall v l, (0 <= tk_leaf T v l)%Z;
  pt_bc : forall n b f, (0 <= bcost T n b f)%Z;
  pt_md : (0 <= tk_mindiff T <= 1)%Z;
  pt_sdom : forall a b, tk_sdom T a b = true -> (a < Z.max 0 b)%Z;
  pt_dom : forall a, (0 <= a)%Z -> tk_dom T a a = true;
  pt_eq0 : forall b, tk_eq T 0 b = (0 =? b)%Z }.

Lemma tcost_nonneg T : plain_task T -> forall t v b, (0 <= tcost T v b t)%Z.
Proof.
  intros HT. induction t as [l|f l IHl r IHr]; intros v b; cbn [tcost]; [apply (pt_leaf T HT)|].
  pose proof (pt_bc T HT (vsize v) b f). specialize (IHl (split_left f v) (br_left b f)). specialize (IHr (split_right f v) (br_right b f)). lia.
Qed.
Lemma tcost_free T : (forall n b b' f, bcost T n b f = bcost T n b' f) -> forall t v b b', tcost T v b t = tcost T v b' t.
Proof.
  intros H. induction t as [l|f l IHl r IHr]; intros v b b'; cbn [tcost]; [reflexivity|].
  rewrite (H (vsize v) b b' f), (IHl _ (br_left b f) (br_left b' f)), (IHr _ (br_right b f) (br_right b' f)). reflexivity.
Qed.
Lemma tcost_nodes T k : plain_task T -> (forall n b f, bcost T n b f = k) -> forall t v b, (k * Z.of_nat (nodes t) <= tcost T v b t)%Z.
Proof.
  intros HT H. induction t as [l|f l IHl r IHr]; intros v b; cbn [tcost nodes]; [pose proof (pt_leaf T HT v l); lia|].
  rewrite (H (vsize v) b f). specialize (IHl (split_left f v) (br_left b f)). specialize (IHr (split_right f v) (br_right b f)). lia.
Qed.

Lemma combine_bc T v b f l r : combine_sols T f l r (get_bc T v b f)
  = branch_node f (bcost T (vsize v) b f + nd_sol l + nd_sol r) (num_nodes l) (num_nodes r).
Proof. unfold combine_sols, get_bc, bcost. destruct (tk_bc T); f_equal; lia. Qed.

(** ** What no call changes *)
Definition fr (s s' : st) : Prop :=
  s_on s' = s_on s /\ (s_late s = true -> s_late s' = true) /\ (s_on s = false -> s_late s' = s_late s).
Lemma fr_refl s : fr s s.
Proof. unfold fr. auto. Qed.
Lemma fr_trans s1 s2 s3 : fr s1 s2 -> fr s2 s3 -> fr s1 s3.
Proof. unfold fr. intros (A1 & A2 & A3) (B1 & B2 & B3). repeat split; [congruence|auto|]. intro H. rewrite B3 by congruence. auto. Qed.
Definition timely (s : st) : Prop := s_late s = false.
Lemma fr_timely s s' : fr s s' -> timely s' -> timely s.
Proof. unfold timely. intros (_ & H & _) Ht. destruct (s_late s); [|reflexivity]. rewrite H in Ht by reflexivity. discriminate. Qed.
Lemma fr_time G s : fr s (snd (in_time G s)).
Proof. unfold in_time, fr. destruct (s_on s) eqn:E; cbn [snd s_on s_late]; repeat split; try congruence. intros ->. reflexivity. Qed.
Lemma time_fr G s ok s' : in_time G s = (ok, s') -> fr s s' /\ s_c s' = s_c s /\ (ok = false -> ~ timely s').
Proof.
  intro H. pose proof (fr_time G s) as F. rewrite H in F. cbn [snd] in F. split; [exact F|].
  unfold in_time in H. destruct (s_on s); injection H as <- <-; cbn [s_c s_late]; (split; [reflexivity|]); [|discriminate].
  unfold timely. cbn [s_late]. intros Hn Ht. rewrite Ht in Hn. discriminate.
Qed.

Section Fr.
  Context (T : task) (G : cfg).
  Let keeps (s0 : st) : forall s, fr s0 s -> fr s0 (snd (in_time G s)).
  Proof. intros s H. eapply fr_trans; [exact H|apply fr_time]. Qed.
  Lemma fr_sub fuel v b ub d n s : fr s (snd (solve_sub T G fuel v b ub d n s)).
  Proof. apply (keep_sub T G (fr s)); try (intros; assumption); [apply keeps|apply fr_refl]. Qed.
  Lemma fr_size fuel d n f bc sw lv lbr rv rbr L ls : fr (l_st L) (l_st (fst (size_step T G (solve_sub T G fuel) d n f bc sw lv lbr rv rbr L ls))).
  Proof.
    apply (keep_size T G (fr (l_st L))); try (intros; assumption); [apply keeps| |apply fr_refl].
    unfold rec_keep. intros v b ub d' n' s H. eapply fr_trans; [exact H|apply fr_sub].
  Qed.
  Lemma fr_sizes fuel d n f bc sw lv lbr rv rbr sizes : forall L,
    fr (l_st L) (l_st (size_loop (size_step T G (solve_sub T G fuel) d n f bc sw lv lbr rv rbr) L sizes)).
  Proof.
    induction sizes as [|k r IH]; intros L; cbn [size_loop]; [apply fr_refl|].
    pose proof (fr_size fuel d n f bc sw lv lbr rv rbr L k) as H1. destruct (size_step _ _ _ _ _ _ _ _ _ _ _ _ L k) as [L' stop]. cbn [fst] in H1.
    destruct stop; [exact H1|]. eapply fr_trans; [exact H1|apply IH].
  Qed.
  Lemma fr_features fuel v b d n blb fs L : fr (l_st L) (l_st (feature_loop T G (solve_sub T G fuel) v b d n blb L fs)).
  Proof.
    apply (keep_features T G (fr (l_st L))); try (intros; assumption); [apply keeps| |apply fr_refl].
    unfold rec_keep. intros v' b' ub d' n' s H. eapply fr_trans; [exact H|apply fr_sub].
  Qed.
End Fr.

Lemma archive_c G s v b d : s_c (update_archive G s v b d) = s_c s.
Proof. unfold update_archive. destruct (c_sim G); reflexivity. Qed.
Lemma fr_archive G s c v b d : fr s (update_archive G (set_c s c) v b d).
Proof. unfold update_archive. destruct (c_sim G); unfold fr; cbn [set_ar set_c s_on s_late]; auto. Qed.

Lemma lower_cached_some ca v b n : forall k ld ln, lower_cached ca v b n k = Some (ld, ln) ->
  1 <= ld <= k /\ ln <= n /\ c_is_optimal ca v b ld ln = true.
Proof.
  induction k as [|k IH]; intros ld ln; cbn [lower_cached]; [discriminate|].
  destruct (c_is_optimal ca v b (S k) (Nat.min n (2 ^ k))) eqn:Eo.
  - intro H. injection H as <- <-. repeat split; try lia. exact Eo.
  - intro H. apply IH in H. destruct H as (H1 & H2 & H3). repeat split; try lia. exact H3.
Qed.

Lemma add_le a b : (nd_sol (add_sol a b) <= nd_sol a)%Z.
Proof. unfold add_sol. destruct (nd_sol b <? nd_sol a)%Z eqn:E; [apply Z.ltb_lt in E|]; lia. Qed.
Lemma add_either a b : add_sol a b = a \/ add_sol a b = b.
Proof. unfold add_sol. destruct (nd_sol b <? nd_sol a)%Z; auto. Qed.
Lemma alw_cap T G d n v t : alw T G d n v t -> alw T G (Nat.min d n) (Nat.min n (2 ^ Nat.min d n - 1)) v t.
Proof.
  intros (A1 & A2 & A3 & A4). pose proof (depth_le_nodes t). repeat split; try assumption; [lia|].
  apply Nat.min_glb; [exact A4|]. apply nodes_le_full. lia.
Qed.
Lemma opt_eqb a b : opt_nat_eqb a b = true -> a = b.
Proof. destruct a, b; cbn; intro H; try discriminate; [apply Nat.eqb_eq in H; congruence|reflexivity]. Qed.
Lemma node_eqb_true a b : node_eqb a b = true -> a = b.
Proof.
  unfold node_eqb. rewrite !andb_true_iff. intros ((((H1 & H2) & H3) & H4) & H5).
  apply opt_eqb in H1, H2. apply Z.eqb_eq in H3. apply Nat.eqb_eq in H4, H5.
  destruct a, b; cbn in *; congruence.
Qed.
Lemma depth_cases T s root res : forall len k0 last, (len = 0 -> last = k0) ->
  let k := find_depth T s root res (seq k0 len) last in
  (k < k0 + len /\ c_is_optimal (s_c s) root [] k (num_nodes res) = true /\ c_retrieve T (s_c s) root [] k (num_nodes res) = res)
  \/ k = k0 + len.
Proof.
  induction len as [|len IH]; intros k0 last Hl; cbn [seq find_depth]; [right; rewrite Hl by reflexivity; lia|].
  destruct (c_is_optimal (s_c s) root [] k0 (num_nodes res) && node_eqb (c_retrieve T (s_c s) root [] k0 (num_nodes res)) res) eqn:Ec.
  - apply andb_true_iff in Ec. destruct Ec as [E1 E2]. apply node_eqb_true in E2. left. split; [lia|]. auto.
  - destruct (IH (S k0) (S k0) ltac:(reflexivity)) as [(A1 & A2)|A]; [left; split; [lia|exact A2]|right; lia].
Qed.
Lemma leaf_keeps T G v ub : c_ub G = false -> snd (solve_leaf T G v ub) = ub.
Proof.
  intro Hu. unfold solve_leaf. destruct (sat_mls G v 1); [|reflexivity].
  generalize (init_sol T). induction (seq 0 (num_labels v)) as [|l r IH]; intro x; cbn [fold_left]; [reflexivity|].
  unfold leaf_step at 2. rewrite Hu. cbn [andb fst snd]. unfold upd_ub at 1. rewrite Hu. cbn [andb]. apply IH.
Qed.

Section Plain.
  Context (T : task) (G : cfg) (HT : plain_task T) (root : view) (N D : nat) (Z0 : Z) (ud : bool).
  Notation nf := (c_nf G).
  Notation mls := (c_mls G).
  Notation worst := (tk_worst T).
  Notation V b := (restrict b root).
  Notation c b t := (tcost T (restrict b root) b t).
  Hypothesis Hids : ids_ok N root.
  Hypothesis Hred : forall f x, c_redundant G f = true -> In x (concat root) -> has f x = false.
  Hypothesis Hmls : 1 <= mls.
  Hypothesis Horder : forall v f, In f (c_order G v) <-> f < nf.
  Hypothesis Hnl : 1 <= num_labels root.
  Hypothesis Hnolb : Model_Solver.c_lb G = false.
  Hypothesis Hnoterm : c_term G = false.
  Hypothesis Hsp : tk_sparse T = true -> c_ub G = true /\ exists k, forall n b f, bcost T n b f = k.
  Hypothesis Hfree : ud = true -> forall n b b' f, bcost T n b f = bcost T n b' f.
  Hypothesis Hz : forall b t, alw T G D (2 ^ D - 1) (V b) t -> (c b t <= Z0)%Z.
  Hypothesis HzT : tells T Z0.
  Hypothesis Hzw : (Z0 < worst)%Z.

  Lemma c_split b f l r : c b (Split f l r) = (bcost T (vsize (V b)) b f + c (br_left b f) l + c (br_right b f) r)%Z.
  Proof. cbn [tcost]. rewrite restrict_left, restrict_right. reflexivity. Qed.
  Lemma c_nonneg b t : (0 <= c b t)%Z.
  Proof. apply tcost_nonneg. exact HT. Qed.
  Lemma alw_top d n v t : d <= D -> alw T G d n v t -> alw T G D (2 ^ D - 1) v t.
  Proof. intros Hd (A1 & A2 & A3 & A4). repeat split; try assumption; [lia|apply nodes_le_full; lia]. Qed.
  Lemma c_le b d n t : d <= D -> alw T G d n (V b) t -> (c b t <= Z0)%Z.
  Proof. intros Hd H. apply Hz. eapply alw_top; eassumption. Qed.
  Lemma c_lt b d n t : d <= D -> alw T G d n (V b) t -> (c b t < worst)%Z.
  Proof. intros Hd H. pose proof (c_le b d n t Hd H). lia. Qed.
  Lemma V_nl b : num_labels (V b) = num_labels root.
  Proof. unfold num_labels, restrict. apply map_length. Qed.
  Lemma small_sdom z a : (0 <= z)%Z -> (z <= Z0)%Z -> tk_sdom T a z = (a <? z)%Z.
  Proof.
    intros H0 H1. destruct HzT as [Hs _]. destruct (a <? z)%Z eqn:E.
    - apply Z.ltb_lt in E. apply Hs; lia.
    - apply Z.ltb_ge in E. destruct (tk_sdom T a z) eqn:Ed; [|reflexivity]. apply (pt_sdom T HT) in Ed. lia.
  Qed.
  Lemma small_sdom_l z a : (0 <= z)%Z -> (z <= Z0)%Z -> (0 <= a)%Z -> tk_sdom T z a = (z <? a)%Z.
  Proof.
    intros H0 H1 H2. destruct HzT as [Hs _]. destruct (z <? a)%Z eqn:E.
    - apply Z.ltb_lt in E. apply Hs; lia.
    - apply Z.ltb_ge in E. destruct (tk_sdom T z a) eqn:Ed; [|reflexivity]. apply (pt_sdom T HT) in Ed. lia.
  Qed.

  Definition LBb (b : branch) (d n : nat) (z : Z) : Prop := forall t, alw T G d n (V b) t -> (z <= c b t)%Z.
  Lemma LBb_mono b d n d' n' z : LBb b d n z -> d' <= d -> n' <= n -> LBb b d' n' z.
  Proof. intros H Hd Hn t Ht. apply H. eapply allowed_mono; eauto. Qed.

  Definition wt (b : branch) (d : nat) (r : node) : Prop :=
    match nd_feat r with
    | None => exists l, nd_lab r = Some l /\ l < num_labels (V b) /\ mls <= vsize (V b) /\ nd_sol r = c b (Leaf l)
    | Some f => ok_feat T G f /\ 1 <= d /\ nd_l r <= 2 ^ (d - 1) - 1 /\ nd_r r <= 2 ^ (d - 1) - 1
        /\ exists tl tr, alw T G (d - 1) (nd_l r) (split_left f (V b)) tl /\ alw T G (d - 1) (nd_r r) (split_right f (V b)) tr
             /\ nd_sol r = c b (Split f tl tr) /\ nodes tl = nd_l r /\ nodes tr = nd_r r
    end.
  Lemma wt_tree b d r : wt b d r -> exists t, alw T G d (num_nodes r) (V b) t /\ c b t = nd_sol r /\ nodes t = num_nodes r.
  Proof.
    unfold wt, num_nodes. destruct (nd_feat r) as [f|] eqn:Hf.
    - intros (Hok & Hd & _ & _ & tl & tr & Hl & Hr & Hs & El & Er). exists (Split f tl tr). split; [|split; [congruence|cbn [nodes]; lia]].
      apply allowed_split. pose proof Hl as (_ & _ & _ & Hnl'). pose proof Hr as (_ & _ & _ & Hnr).
      repeat split; try (apply Hok); try lia.
      + apply Hl. + apply Hl. + apply Hl. + apply Hr. + apply Hr. + apply Hr.
    - intros (l & Hl & Hlt & Hm & Hs). exists (Leaf l). split; [|split; [symmetry; exact Hs|reflexivity]].
      unfold alw, allowed. cbn [fits leaves_ok depth nodes]. unfold num_labels in Hlt. unfold vsize in Hm. lia.
  Qed.
  Lemma wt_mono b d d' r : wt b d r -> Nat.min d (num_nodes r) <= d' -> wt b d' r.
  Proof.
    unfold wt, num_nodes. destruct (nd_feat r) as [f|] eqn:Hf; [|auto].
    intros (Hok & Hd & Hnl' & Hnr & tl & tr & Hl & Hr & Hs & El & Er) Hmin.
    assert (Hd' : 1 <= d') by lia.
    assert (Hb : nd_l r <= 2 ^ (d' - 1) - 1 /\ nd_r r <= 2 ^ (d' - 1) - 1 /\ depth tl <= d' - 1 /\ depth tr <= d' - 1).
    { destruct Hl as (_ & _ & Hl3 & Hl4), Hr as (_ & _ & Hr3 & Hr4). destruct (le_lt_dec d d') as [Hle|Hgt].
      - assert (2 ^ (d - 1) <= 2 ^ (d' - 1)) by (apply Nat.pow_le_mono_r; lia). lia.
      - pose proof (Nat.pow_gt_lin_r 2 (d' - 1) ltac:(lia)). pose proof (depth_le_nodes tl). pose proof (depth_le_nodes tr). lia. }
    destruct Hb as (B1 & B2 & B3 & B4).
    split; [exact Hok|]. split; [exact Hd'|]. split; [exact B1|]. split; [exact B2|]. exists tl, tr.
    destruct Hl as (? & ? & ? & ?), Hr as (? & ? & ? & ?). repeat split; assumption.
  Qed.
  Lemma wt_nonempty b d r : wt b d r -> is_empty r = false.
  Proof. unfold wt, is_empty. destruct (nd_feat r); [reflexivity|]. intros (l & Hl & _). rewrite Hl. reflexivity. Qed.
  Lemma wt_range b d r : d <= D -> wt b d r -> (0 <= nd_sol r <= Z0)%Z.
  Proof. intros Hd H. apply wt_tree in H. destruct H as (t & A & <- & _). split; [apply c_nonneg|eapply c_le; eassumption]. Qed.
  Lemma wt_leaf b d l : l < num_labels (V b) -> mls <= vsize (V b) -> wt b d (leaf_node l (c b (Leaf l))).
  Proof. intros Hl Hm. unfold wt. cbn [leaf_node nd_feat nd_lab nd_sol]. exists l. auto. Qed.

  (** ** The caches *)
  Definition Ent (b : branch) (e : entry) : Prop := e_is_opt e = true ->
    wt b (e_d e) (e_opt e) /\ num_nodes (e_opt e) <= e_n e /\ LBb b (e_d e) (e_n e) (nd_sol (e_opt e)).
  Definition CInv (ca : caches) : Prop :=
    cc_n ca = N /\ cc_use_lb ca = false /\ cc_use_data ca = ud
    /\ (forall b, Forall (Ent b) (bc_get ca b)) /\ (ud = true -> forall b, Forall (Ent b) (dc_get ca (V b))).

  Lemma Ent_free b b' e : ud = true -> V b = V b' -> Ent b e -> Ent b' e.
  Proof.
    intros Hu Hv He Ho. destruct (He Ho) as (W1 & W2 & W3).
    assert (Hc : forall t, c b t = c b' t) by (intro t; rewrite Hv; apply (tcost_free T (Hfree Hu))).
    split; [|split; [exact W2|]].
    - unfold wt in *. rewrite <- Hv. destruct (nd_feat (e_opt e)).
      + destruct W1 as (A1 & A2 & A3 & A4 & tl & tr & A5 & A6 & A7 & A8). repeat (split; [assumption|]). exists tl, tr.
        split; [exact A5|]. split; [exact A6|]. split; [|exact A8]. rewrite A7, Hc, Hv. reflexivity.
      + destruct W1 as (l & A1 & A2 & A3 & A4). exists l. repeat (split; [assumption|]). rewrite A4, Hc, Hv. reflexivity.
    - intros t Ht. rewrite <- Hc. apply W3. rewrite Hv. exact Ht.
  Qed.
  Lemma CInv_bc ca b es : CInv ca -> Forall (Ent b) es -> CInv (bc_set ca b es).
  Proof.
    intros (H1 & H2 & H3 & H4 & H5) Hes. split; [exact H1|]. split; [exact H2|]. split; [exact H3|]. split; [|exact H5].
    intro b'. rewrite bc_get_set. destruct (br_eqb b' b) eqn:Eb; [|apply H4]. apply br_eqb_eq in Eb. subst b'. exact Hes.
  Qed.
  Lemma CInv_dc ca b es : CInv ca -> Forall (Ent b) es -> CInv (dc_set ca (V b) es).
  Proof.
    intros (H1 & H2 & H3 & H4 & H5) Hes. split; [exact H1|]. split; [exact H2|]. split; [exact H3|]. split; [exact H4|].
    intros Hu b'. rewrite dc_get_set, H1. destruct (bits_eqb _ _) eqn:Eb; [|apply H5; exact Hu]. apply bits_eqb_eq in Eb.
    eapply Forall_impl; [|exact Hes]. intros e. apply Ent_free; [exact Hu|]. symmetry. apply (dkey_restrict_eq N); assumption.
  Qed.
  Lemma CInv_store ca b sol d n : CInv ca -> wt b d sol -> num_nodes sol <= n -> LBb b d n (nd_sol sol) -> CInv (c_store ca (V b) b sol d n).
  Proof.
    intros HI Hw Hn Hlb. pose proof (wt_nonempty _ _ _ Hw) as Hs.
    assert (Hnew : forall db nb, num_nodes sol <= nb <= n -> Nat.min d (num_nodes sol) <= db <= d -> Ent b (Entry sol sol db nb)).
    { intros db nb Hnb Hdb _. cbn [e_opt e_d e_n]. split; [eapply wt_mono; [exact Hw|lia]|]. split; [lia|].
      eapply LBb_mono; [exact Hlb|lia|lia]. }
    unfold c_store.
    assert (H1 : CInv (if cc_use_branch ca then bc_set ca b (es_store (bc_get ca b) sol (Nat.min d n) (num_nodes sol) d n) else ca)).
    { destruct (cc_use_branch ca); [|exact HI]. apply CInv_bc; [exact HI|]. apply es_store_all; [exact Hs|apply HI|].
      intros db nb Hnb Hdb. apply Hnew; lia. }
    destruct (cc_use_data _) eqn:Eu; [|exact H1]. apply CInv_dc; [exact H1|].
    apply es_store_all; [exact Hs| |exact Hnew]. destruct H1 as (_ & _ & A & _ & B). apply B. congruence.
  Qed.
  Lemma CInv_upd ca v b lb d n : CInv ca -> c_upd_lb T ca v b lb d n = ca.
  Proof. intros (_ & H & _). unfold c_upd_lb. rewrite H. reflexivity. Qed.
  Lemma CInv_retrieve ca b d n : CInv ca -> c_retrieve T ca (V b) b d n = init_sol T
    \/ (is_empty (c_retrieve T ca (V b) b d n) = false /\ wt b d (c_retrieve T ca (V b) b d n)
        /\ num_nodes (c_retrieve T ca (V b) b d n) <= n /\ LBb b d n (nd_sol (c_retrieve T ca (V b) b d n))).
  Proof.
    intros (_ & _ & Hu & Hb & Hd). unfold c_retrieve.
    assert (Hes : forall es, Forall (Ent b) es ->
      es_retrieve T es d n = init_sol T \/
      (wt b d (es_retrieve T es d n) /\ num_nodes (es_retrieve T es d n) <= n /\ LBb b d n (nd_sol (es_retrieve T es d n)))).
    { intros es H. destruct (es_retrieve_find T (fun _ => True) es d n) as [H1|(e & Hin & H1 & H2 & H3 & H4)]; [left; exact H1|right].
      rewrite Forall_forall in H. specialize (H e Hin H3). rewrite H4. rewrite H1, H2 in H. exact H. }
    set (rb := if cc_use_branch ca then _ else _).
    assert (Hrb : rb = init_sol T \/ (wt b d rb /\ num_nodes rb <= n /\ LBb b d n (nd_sol rb))).
    { unfold rb. destruct (cc_use_branch ca); [apply Hes, Hb|left; reflexivity]. }
    set (rd := if cc_use_data ca then _ else _).
    assert (Hrd : rd = init_sol T \/ (wt b d rd /\ num_nodes rd <= n /\ LBb b d n (nd_sol rd))).
    { unfold rd. destruct (cc_use_data ca) eqn:Ed; [apply Hes, Hd; congruence|left; reflexivity]. }
    clearbody rb rd. cbn zeta.
    destruct (is_empty rb) eqn:E1.
    - destruct (is_empty rd) eqn:E2; [left; reflexivity|].
      destruct Hrd as [->|H]; [discriminate|]. right. auto.
    - destruct Hrb as [->|H]; [discriminate|]. right. auto.
  Qed.
  Lemma CInv_empty ub : CInv (Caches ub ud false N [] []).
  Proof. repeat (split; [reflexivity|]). split; intros; constructor. Qed.

  (** ** Leaves *)
  Definition lf_inv (b : branch) (ub : node) (k : nat) (p : node * node) : Prop :=
    (exists l, l < k /\ fst p = leaf_node l (c b (Leaf l))
       /\ (forall l', l' < k -> (c b (Leaf l) <= c b (Leaf l'))%Z)
       /\ (c_ub G = true -> nd_sol (snd p) = nd_sol (fst p) /\ (nd_sol (fst p) <= nd_sol ub)%Z))
    \/ (fst p = init_sol T /\ snd p = ub
        /\ (forall l', l' < k -> c_ub G = true /\ (nd_sol ub < c b (Leaf l'))%Z)).
  Lemma lf_fold b ub k : (forall l, l < k -> (c b (Leaf l) <= Z0)%Z) ->
    lf_inv b ub k (fold_left (leaf_step T G (V b)) (seq 0 k) (init_sol T, ub)).
  Proof.
    induction k as [|k IH]; intro Hb.
    - right. cbn [seq fold_left fst snd]. repeat split; intros; lia.
    - specialize (IH (fun l Hl => Hb l (Nat.lt_lt_succ_r _ _ Hl))). specialize (Hb k (Nat.lt_succ_diag_r k)).
      rewrite seq_S, fold_left_app. cbn [fold_left].
      set (p := fold_left (leaf_step T G (V b)) (seq 0 k) (init_sol T, ub)) in *.
      unfold leaf_step. cbn [Nat.add]. change (tk_leaf T (V b) k) with (c b (Leaf k)).
      pose proof (c_nonneg b (Leaf k)) as H0. set (x := c b (Leaf k)) in *.
      cbn [nd_sol leaf_node]. rewrite (small_sdom x) by assumption.
      assert (Ha : forall a, nd_sol (add_sol a (leaf_node k x)) = Z.min (nd_sol a) x).
      { intro a. unfold add_sol. cbn [nd_sol leaf_node]. destruct (x <? nd_sol a)%Z eqn:E; cbn [nd_sol leaf_node]; [apply Z.ltb_lt in E|apply Z.ltb_ge in E]; lia. }
      destruct (c_ub G && (nd_sol (snd p) <? x)%Z) eqn:Hskip.
      + apply andb_true_iff in Hskip. destruct Hskip as [Hub Hlt]. apply Z.ltb_lt in Hlt.
        destruct IH as [(l & Hl & Hf & Hmin & Hu)|(Hf & Hs & Hall)].
        * left. exists l. split; [lia|]. split; [exact Hf|]. split; [|exact Hu].
          intros l' Hl'. destruct (Nat.eq_dec l' k) as [->|]; [|apply Hmin; lia].
          destruct (Hu Hub) as [He _]. rewrite Hf in He. cbn [nd_sol leaf_node] in He. fold x. lia.
        * right. repeat split; try assumption. destruct (Nat.eq_dec l' k) as [->|]; [|apply Hall; lia].
          rewrite Hs in Hlt. exact Hlt.
      + assert (Hle : c_ub G = true -> (x <= nd_sol (snd p))%Z).
        { intro Hub. rewrite Hub in Hskip. cbn [andb] in Hskip. apply Z.ltb_ge in Hskip. exact Hskip. }
        destruct IH as [(l & Hl & Hf & Hmin & Hu)|(Hf & Hs & Hall)].
        * left. cbn [fst snd].
          assert (He : add_sol (fst p) (leaf_node k x) = leaf_node k x /\ (x < c b (Leaf l))%Z
                       \/ add_sol (fst p) (leaf_node k x) = leaf_node l (c b (Leaf l)) /\ (c b (Leaf l) <= x)%Z).
          { rewrite Hf. unfold add_sol. cbn [nd_sol leaf_node]. destruct (x <? c b (Leaf l))%Z eqn:E; [left|right]; (split; [reflexivity|]); [apply Z.ltb_lt in E|apply Z.ltb_ge in E]; lia. }
          assert (Hux : c_ub G = true -> nd_sol (upd_ub G (snd p) (leaf_node k x)) = nd_sol (add_sol (fst p) (leaf_node k x))
                        /\ (nd_sol (add_sol (fst p) (leaf_node k x)) <= nd_sol ub)%Z).
          { intro Hub. unfold upd_ub. rewrite Hub, !Ha. destruct (Hu Hub) as [-> ?]. lia. }
          destruct He as [[He Hx]|[He Hx]]; [exists k|exists l]; (split; [lia|]; split; [exact He|]; split; [|exact Hux]);
            intros l' Hl'; (destruct (Nat.eq_dec l' k) as [->|]; [fold x; lia|]); specialize (Hmin l' ltac:(lia)); lia.
        * left. cbn [fst snd]. exists k. split; [lia|].
          assert (He : add_sol (fst p) (leaf_node k x) = leaf_node k x).
          { rewrite Hf. unfold add_sol. cbn [nd_sol leaf_node init_sol value_node]. destruct (x <? worst)%Z eqn:E; [reflexivity|]. apply Z.ltb_ge in E. lia. }
          rewrite He. split; [reflexivity|]. rewrite Hs in Hle. split.
          -- intros l' Hl'. destruct (Nat.eq_dec l' k) as [->|]; [fold x; lia|].
             destruct (Hall l' ltac:(lia)) as [Hub ?]. specialize (Hle Hub). fold x. lia.
          -- intro Hub. specialize (Hle Hub). unfold upd_ub. rewrite Hub, Ha, Hs. cbn [nd_sol leaf_node]. lia.
  Qed.
  Lemma leaf_spec b ub : mls <= vsize (V b) -> lf_inv b ub (num_labels (V b)) (solve_leaf T G (V b) ub).
  Proof.
    intro Hm. unfold solve_leaf, sat_mls. rewrite Nat.mul_1_r.
    destruct (mls <=? vsize (V b)) eqn:E; [|apply Nat.leb_gt in E; lia].
    apply lf_fold. intros l Hl. apply Hz. apply leaf_allowed; assumption.
  Qed.

  Definition over (b : branch) (d n : nat) (ub r : node) : Prop :=
    c_ub G = true /\ (nd_sol ub < nd_sol r)%Z /\ forall t, alw T G d n (V b) t -> (nd_sol ub < c b t)%Z.
  Definition post (b : branch) (d n : nat) (ub r : node) : Prop :=
    (r = init_sol T /\ c_ub G = true /\ forall t, alw T G d n (V b) t -> (nd_sol ub < c b t)%Z)
    \/ (wt b d r /\ num_nodes r <= n /\ (LBb b d n (nd_sol r) \/ over b d n ub r)).

  Lemma leaf_post b d n ub : mls <= vsize (V b) -> (forall t, alw T G d n (V b) t -> exists l, t = Leaf l) ->
    post b d n ub (fst (solve_leaf T G (V b) ub)).
  Proof.
    intros Hm Hall. destruct (leaf_spec b ub Hm) as [(l & Hl & Hf & Hmin & _)|(Hf & _ & Hno)]; rewrite Hf.
    - right. split; [apply wt_leaf; assumption|]. split; [unfold num_nodes; cbn [leaf_node nd_feat]; lia|]. left.
      intros t Ht. destruct (Hall t Ht) as [l' ->]. apply Hmin. destruct Ht as [A _]. exact A.
    - left. split; [reflexivity|]. split; [apply (Hno 0); rewrite V_nl; lia|].
      intros t Ht. destruct (Hall t Ht) as [l' ->]. apply Hno. destruct Ht as [A _]. exact A.
  Qed.
  Lemma zero_leaf b d n t : d = 0 \/ n = 0 -> alw T G d n (V b) t -> exists l, t = Leaf l.
  Proof. intros H (_ & _ & A & B). destruct t as [l|f l r]; [eauto|]. cbn [depth nodes] in A, B. lia. Qed.
  Lemma small_leaf b d n t : vsize (V b) < 2 * mls -> alw T G d n (V b) t -> exists l, t = Leaf l.
  Proof.
    intros H Ht. destruct t as [l|f l r]; [eauto|]. apply allowed_split in Ht. destruct Ht as (_ & _ & _ & A & B).
    apply allowed_size in A. apply allowed_size in B. rewrite (vsize_split f (V b)) in H. lia.
  Qed.

  (** ** The budget of nodes *)
  Lemma reduce_spec b ub d n d' n' : d <= n <= 2 ^ d - 1 -> reduce_budget T (V b) b ub d n = (d', n') ->
    d' <= d /\ n' <= n /\ d' <= n' <= 2 ^ d' - 1
    /\ forall t, alw T G d n (V b) t -> alw T G d' n' (V b) t \/ (c_ub G = true /\ (nd_sol ub < c b t)%Z).
  Proof.
    intros Hn. unfold reduce_budget.
    assert (Hsame : (d, n) = (d', n') -> d' <= d /\ n' <= n /\ d' <= n' <= 2 ^ d' - 1
      /\ forall t, alw T G d n (V b) t -> alw T G d' n' (V b) t \/ (c_ub G = true /\ (nd_sol ub < c b t)%Z)).
    { intro H. injection H as <- <-. repeat (split; [lia|]). auto. }
    case_eq (tk_sparse T); intro Es; [|exact Hsame]. destruct (Hsp Es) as (Hu & k & Hk).
    destruct (tk_huge T (nd_sol ub)); [exact Hsame|].
    change (get_bc T (V b) b 0) with (bcost T (vsize (V b)) b 0). rewrite Hk.
    destruct (k <=? 0)%Z eqn:Ek; [exact Hsame|]. apply Z.leb_gt in Ek.
    set (m := Z.to_nat (nd_sol ub / k)).
    destruct ((m <? n) && (Nat.min d m <? d)) eqn:Em; [|exact Hsame]. clear Hsame.
    apply andb_true_iff in Em. destruct Em as [E1 E2]. apply Nat.ltb_lt in E1. apply Nat.ltb_lt in E2.
    intro H. injection H as <- <-. assert (Hmin : Nat.min d m = m) by lia. rewrite Hmin in *.
    pose proof (Nat.pow_gt_lin_r 2 m ltac:(lia)) as Hp.
    split; [lia|]. split; [lia|]. split; [lia|].
    intros t (A1 & A2 & A3 & A4). destruct (le_lt_dec (nodes t) m) as [Hle|Hgt].
    - left. pose proof (depth_le_nodes t). repeat split; try assumption; [lia|].
      apply Nat.min_glb; [exact A4|apply nodes_le_full; lia].
    - right. split; [exact Hu|]. pose proof (tcost_nodes T k HT Hk t (V b) b) as Hc.
      assert (Hm : (nd_sol ub / k < Z.of_nat (nodes t))%Z) by (unfold m in Hgt; lia).
      assert (k * (nd_sol ub / k + 1) <= k * Z.of_nat (nodes t))%Z by (apply Z.mul_le_mono_nonneg_l; lia).
      pose proof (Z.mul_succ_div_gt (nd_sol ub) k Ek). lia.
  Qed.
  Lemma post_lift b ub d n d' n' r : d' <= d -> n' <= n ->
    (forall t, alw T G d n (V b) t -> alw T G d' n' (V b) t \/ (c_ub G = true /\ (nd_sol ub < c b t)%Z)) ->
    post b d' n' ub r -> post b d n ub r.
  Proof.
    intros Hd Hn Hall [(-> & Hu & Hno)|(W1 & W2 & W3)].
    - left. split; [reflexivity|]. split; [exact Hu|]. intros t Ht. destruct (Hall t Ht) as [A|[_ A]]; [apply Hno; exact A|exact A].
    - right. split; [eapply wt_mono; [exact W1|lia]|]. split; [lia|]. unfold over. destruct (c_ub G) eqn:Hu.
      + destruct W3 as [W3|(_ & W3 & W4)].
        * destruct (Z_le_gt_dec (nd_sol r) (nd_sol ub)) as [Hle|Hgt].
          -- left. intros t Ht. destruct (Hall t Ht) as [A|[_ A]]; [apply W3; exact A|lia].
          -- right. split; [reflexivity|]. split; [lia|]. intros t Ht. destruct (Hall t Ht) as [A|[_ A]]; [specialize (W3 t A); lia|exact A].
        * right. split; [reflexivity|]. split; [exact W3|]. intros t Ht. destruct (Hall t Ht) as [A|[_ A]]; [apply W4; exact A|exact A].
      + left. destruct W3 as [W3|(W3 & _)]; [|congruence]. intros t Ht. destruct (Hall t Ht) as [A|[A _]]; [apply W3; exact A|discriminate].
  Qed.

  Definition contract (fuel : nat) : Prop :=
    forall b ub d n s r s', d < fuel -> d <= D -> mls <= vsize (V b) -> d <= n <= 2 ^ d - 1 ->
    CInv (s_c s) -> solve_sub T G fuel (V b) b ub d n s = (r, s') -> timely s' -> CInv (s_c s') /\ post b d n ub r.

  Section General.
    Context (fuel : nat) (Hrc : contract fuel) (b : branch) (ub0 : node) (d n : nat).
    Hypothesis Hd : 1 <= d.
    Hypothesis HdD : d <= D.
    Hypothesis Hdf : d <= fuel.
    Hypothesis Hn : d <= n <= 2 ^ d - 1.
    Notation v := (V b).
    Notation rec := (solve_sub T G fuel).

    Definition beats (S : node) (z : Z) : Prop :=
      if is_empty S then (nd_sol ub0 < z)%Z else (nd_sol S <= z)%Z.
    Definition LI (cov : tree -> Prop) (L : loop) : Prop :=
      CInv (s_c (l_st L))
      /\ (l_sols L = init_sol T \/ (wt b d (l_sols L) /\ num_nodes (l_sols L) <= n))
      /\ (c_ub G = false -> is_empty (l_sols L) = false)
      /\ (c_ub G = true -> if is_empty (l_sols L) then nd_sol (l_ub L) = nd_sol ub0
                           else nd_sol (l_ub L) = nd_sol (l_sols L) /\ (nd_sol (l_sols L) <= nd_sol ub0)%Z)
      /\ (forall t, cov t -> alw T G d n v t -> beats (l_sols L) (c b t)).
    Lemma LI_cov (cov cov' : tree -> Prop) L : (forall t, cov' t -> alw T G d n v t -> cov t) -> LI cov L -> LI cov' L.
    Proof. intros H (H1 & H2 & H3 & H4 & H5). repeat (split; [assumption|]). auto. Qed.
    Lemma LI_more (cov cov' : tree -> Prop) L : LI cov L -> (forall t, cov' t -> alw T G d n v t -> beats (l_sols L) (c b t)) ->
      LI (fun t => cov t \/ cov' t) L.
    Proof. intros (H1 & H2 & H3 & H4 & H5) H. repeat (split; [assumption|]). intros t [A|A]; auto. Qed.
    Lemma LI_with_inf (cov : tree -> Prop) L lb s' : LI cov L -> CInv (s_c s') -> LI cov (with_inf L lb s').
    Proof. intros (H1 & H2 & H3 & H4 & H5) HS. split; [exact HS|]. repeat (split; [assumption|]). exact H5. Qed.
    Lemma LI_with_st (cov : tree -> Prop) L s' : LI cov L -> CInv (s_c s') -> LI cov (with_st L s').
    Proof. intros (H1 & H2 & H3 & H4 & H5) HS. split; [exact HS|]. repeat (split; [assumption|]). exact H5. Qed.
    Lemma worst_pos : mls <= vsize v -> (0 <= Z0)%Z.
    Proof. intro H. pose proof (c_nonneg b (Leaf 0)). pose proof (Hz b (Leaf 0) ltac:(apply leaf_allowed; [rewrite V_nl; lia|exact H])). lia. Qed.
    Lemma LI_sol cov L : mls <= vsize v -> LI cov L -> (0 <= nd_sol (l_sols L))%Z /\ (is_empty (l_sols L) = true -> nd_sol (l_sols L) = worst)
      /\ (is_empty (l_sols L) = false -> (nd_sol (l_sols L) <= Z0)%Z).
    Proof.
      intros Hsz (_ & [-> | [Hw _]] & _).
      - pose proof (worst_pos Hsz). split; [cbn; lia|]. split; [reflexivity|discriminate].
      - rewrite (wt_nonempty _ _ _ Hw). pose proof (wt_range _ _ _ HdD Hw). split; [lia|]. split; [discriminate|lia].
    Qed.
    Lemma pow_split : 2 ^ d = 2 * 2 ^ (d - 1) /\ d <= 2 ^ (d - 1).
    Proof.
      replace d with (S (d - 1)) at 1 3 by lia. cbn [Nat.pow]. split; [lia|].
      pose proof (Nat.pow_gt_lin_r 2 (d - 1)). lia.
    Qed.

    Section Size.
      Context (f : nat) (sw : bool) (ls : nat).
      Notation rs := (n - ls - 1).
      Notation ld := (Nat.min (d - 1) ls).
      Notation rd := (Nat.min (d - 1) rs).
      Notation lbr := (if sw then br_right b f else br_left b f).
      Notation rbr := (if sw then br_left b f else br_right b f).
      Notation lv := (V lbr).
      Notation rv := (V rbr).
      Notation bc := (bcost T (vsize v) b f).
      Hypothesis Hok : ok_feat T G f.
      Hypothesis Hls : min_size d n <= ls <= max_size d n.
      Hypothesis Hlv : mls <= vsize lv.
      Hypothesis Hrv : mls <= vsize rv.
      Hypothesis Hsz : mls <= vsize v.

      Definition cls (t : tree) : Prop :=
        exists tl tr, t = Split f tl tr /\ nodes (if sw then tr else tl) <= ls /\ nodes (if sw then tl else tr) <= rs.

      Lemma size_bounds : ls + rs + 1 = n /\ ld <= ls <= 2 ^ ld - 1 /\ rd <= rs <= 2 ^ rd - 1.
      Proof.
        pose proof pow_split as [P1 P2]. unfold min_size, max_size in Hls.
        assert (A1 : ls <= 2 ^ (d - 1) - 1) by lia. assert (A2 : rs <= 2 ^ (d - 1) - 1) by lia.
        assert (Hgen : forall k, k <= 2 ^ (d - 1) - 1 -> Nat.min (d - 1) k <= k <= 2 ^ (Nat.min (d - 1) k) - 1).
        { intros k Hk. destruct (Nat.min_dec (d - 1) k) as [E|E]; rewrite E; [lia|].
          pose proof (Nat.pow_gt_lin_r 2 k). lia. }
        split; [lia|]. split; apply Hgen; assumption.
      Qed.
      Lemma cls_alw t : cls t -> alw T G d n v t ->
        exists ta tb, alw T G ld ls lv ta /\ alw T G rd rs rv tb /\ c b t = (bc + c lbr ta + c rbr tb)%Z.
      Proof.
        intros (tl & tr & -> & Ha & Hb) Ht. apply allowed_split in Ht. destruct Ht as (_ & _ & _ & Hl & Hr).
        rewrite c_split. rewrite restrict_left in Hl. rewrite restrict_right in Hr.
        assert (Hm : forall w t k, allowed (ok_feat T G) mls (d - 1) (nodes t) w t -> nodes t <= k -> alw T G (Nat.min (d - 1) k) k w t).
        { intros w t k (H1 & H2 & H3 & _) Hk. repeat split; try assumption. pose proof (depth_le_nodes t). lia. }
        destruct sw; [exists tr, tl|exists tl, tr]; (split; [apply Hm; assumption|]; split; [apply Hm; assumption|]; lia).
      Qed.
      Definition PLB (z : Z) : Prop :=
        forall ta tb, alw T G ld ls lv ta -> alw T G rd rs rv tb -> (z <= bc + c lbr ta + c rbr tb)%Z.
      Lemma PLB_cls z t : PLB z -> cls t -> alw T G d n v t -> (z <= c b t)%Z.
      Proof. intros H Hc Ht. destruct (cls_alw t Hc Ht) as (ta & tb & Ha & Hb & ->). auto. Qed.

      (** What a failed child call says about the class. *)
      Lemma sub_beats L o x y : c_ub G = true ->
        (if is_empty (l_sols L) then nd_sol (l_ub L) = nd_sol ub0 /\ nd_sol (l_sols L) = worst
         else nd_sol (l_ub L) = nd_sol (l_sols L)) ->
        (0 <= nd_sol (l_sols L))%Z ->
        (nd_sol (subtract_ubs T G (l_ub L) o (l_sols L) (get_bc T v b f)) < x)%Z -> (nd_sol o <= y)%Z -> (bc + x + y < worst)%Z -> (0 <= y)%Z ->
        beats (l_sols L) (bc + x + y).
      Proof.
        intros Hu HL Hsl. unfold subtract_ubs, beats. rewrite Hu. cbn [value_node nd_sol].
        change (get_bc T v b f) with bc. pose proof (pt_bc T HT (vsize v) b f) as Hbc.
        pose proof (pt_md T HT) as Hmd. unfold zsub.
        destruct (is_empty (l_sols L)).
        - destruct HL as [-> ->]. destruct (tk_dom T worst (nd_sol ub0)); intros; lia.
        - rewrite HL. intros Hx Hy _ Hy0. rewrite (pt_dom T HT) in Hx by exact Hsl. lia.
      Qed.

      Lemma new_wt lsol rsol : wt lbr ld lsol -> num_nodes lsol <= ls -> wt rbr rd rsol -> num_nodes rsol <= rs ->
        let new := if sw then combine_sols T f rsol lsol (get_bc T v b f) else combine_sols T f lsol rsol (get_bc T v b f) in
        wt b d new /\ num_nodes new <= n /\ nd_sol new = (bc + nd_sol lsol + nd_sol rsol)%Z.
      Proof.
        intros Hl Hln Hr Hrn. pose proof size_bounds as (S3 & S4 & S5).
        assert (S1 : ls <= 2 ^ (d - 1) - 1) by (pose proof pow_split; unfold min_size, max_size in Hls; lia).
        assert (S2 : rs <= 2 ^ (d - 1) - 1) by (pose proof pow_split; unfold min_size, max_size in Hls; lia).
        assert (Hup : forall w k x, wt w (Nat.min (d - 1) k) x -> wt w (d - 1) x)
          by (intros w k x Hx; eapply wt_mono; [exact Hx|lia]).
        apply Hup in Hl. apply Hup in Hr.
        apply wt_tree in Hl. destruct Hl as (tl & Hl & El & Fl). apply wt_tree in Hr. destruct Hr as (tr & Hr & Er & Fr).
        destruct sw; cbn zeta; rewrite combine_bc.
        - split; [|split; [change (num_nodes rsol + num_nodes lsol + 1 <= n); lia|cbn [branch_node nd_sol]; lia]].
          unfold wt. cbn [branch_node nd_feat nd_l nd_r nd_sol]. rewrite restrict_left, restrict_right.
          split; [exact Hok|]. split; [exact Hd|]. split; [lia|]. split; [lia|].
          exists tr, tl. split; [exact Hr|]. split; [exact Hl|]. rewrite c_split. repeat split; lia.
        - split; [|split; [change (num_nodes lsol + num_nodes rsol + 1 <= n); lia|cbn [branch_node nd_sol]; lia]].
          unfold wt. cbn [branch_node nd_feat nd_l nd_r nd_sol]. rewrite restrict_left, restrict_right.
          split; [exact Hok|]. split; [exact Hd|]. split; [lia|]. split; [lia|].
          exists tl, tr. split; [exact Hl|]. split; [exact Hr|]. rewrite c_split. repeat split; lia.
      Qed.

      Lemma size_step_spec (cov : tree -> Prop) L L' stop :
        LI cov L -> size_step T G rec d n f (get_bc T v b f) sw lv lbr rv rbr L ls = (L', stop) -> timely (l_st L') ->
        LI (fun t => cov t \/ cls t) L' /\ stop = false.
      Proof.
        intros HL HE Ht. pose proof size_bounds as (S3 & S4 & S5).
        pose proof HL as (H1 & H2 & H3 & H4 & H5). destruct (LI_sol _ _ Hsz HL) as (Hsl0 & Hslw & Hslz). unfold size_step in HE.
        unfold lr_lb in HE. rewrite Hnolb in HE. cbv iota in HE.
        assert (HS0 : c_ub G = true ->
          if is_empty (l_sols L) then nd_sol (l_ub L) = nd_sol ub0 /\ nd_sol (l_sols L) = worst else nd_sol (l_ub L) = nd_sol (l_sols L)).
        { intro Hu. specialize (H4 Hu). destruct (is_empty (l_sols L)); [auto|tauto]. }
        assert (Hprune : forall z, c_ub G = true -> (nd_sol (l_ub L) < z)%Z -> beats (l_sols L) z).
        { intros z Hu Hlt. specialize (HS0 Hu). unfold beats. destruct (is_empty (l_sols L)); lia. }
        destruct (c_ub G && tk_sdom T (nd_sol (l_ub L)) (nd_sol init_lb)) eqn:Eb1.
        { injection HE as <- <-. split; [|reflexivity]. apply LI_with_inf; [|exact H1]. apply LI_more; [exact HL|].
          apply andb_true_iff in Eb1. destruct Eb1 as [Hu Hlt]. apply (pt_sdom T HT) in Hlt. cbn [init_lb value_node nd_sol] in Hlt.
          intros t _ _. apply Hprune; [exact Hu|]. pose proof (c_nonneg b t). lia. }
        destruct (tk_eq T (nd_sol init_lb) (nd_sol (l_sols L))) eqn:Eb2.
        { injection HE as <- <-. split; [|reflexivity]. cbn [init_lb value_node nd_sol] in Eb2. rewrite (pt_eq0 T HT) in Eb2. apply Z.eqb_eq in Eb2.
          apply LI_more; [exact HL|]. intros t _ _. unfold beats. destruct (is_empty (l_sols L)).
          - specialize (Hslw eq_refl). pose proof (worst_pos Hsz). lia.
          - pose proof (c_nonneg b t). lia. }
        clear Eb1 Eb2.
        pose proof (fr_sub T G fuel lv lbr (subtract_ubs T G (l_ub L) init_lb (l_sols L) (get_bc T v b f)) ld ls (l_st L)) as Fr1.
        destruct (rec lv lbr (subtract_ubs T G (l_ub L) init_lb (l_sols L) (get_bc T v b f)) ld ls (l_st L)) as [lsol s1'] eqn:Er1.
        cbn [snd] in Fr1.
        destruct (in_time G s1') as [ok1 s1] eqn:Ei1. destruct (time_fr _ _ _ _ Ei1) as (Fi1 & Ic1 & Io1).
        assert (Hleft : timely s1 -> CInv (s_c s1) /\ post lbr ld ls (subtract_ubs T G (l_ub L) init_lb (l_sols L) (get_bc T v b f)) lsol).
        { intro Ht1. pose proof (fr_timely _ _ Fi1 Ht1) as Ht1'. rewrite Ic1.
          exact (Hrc lbr _ ld ls (l_st L) lsol s1' ltac:(lia) ltac:(lia) Hlv S4 H1 Er1 Ht1'). }
        destruct ok1; cbn [negb] in HE.
        2:{ injection HE as <- <-. cbn [with_st l_st] in Ht. destruct (Io1 eq_refl Ht). }
        assert (Hlt_b : forall x ta tb, alw T G ld ls lv ta -> alw T G rd rs rv tb -> x = (bc + c lbr ta + c rbr tb)%Z -> (x < worst)%Z).
        { intros x ta tb Ha Hb ->. destruct Ha as (A1 & A2 & A3 & A4), Hb as (B1 & B2 & B3 & B4).
          replace (bc + c lbr ta + c rbr tb)%Z with (c b (Split f (if sw then tb else ta) (if sw then ta else tb)))
            by (rewrite c_split; destruct sw; lia).
          apply c_lt with (d := d) (n := S (nodes ta + nodes tb)); [exact HdD|]. apply allowed_split. rewrite restrict_left, restrict_right.
          split; [exact Hok|]. split; [exact Hd|]. destruct sw; (split; [lia|]; split; repeat split; try assumption; lia). }
        assert (Hfl : forall u, c_ub G = true -> u = subtract_ubs T G (l_ub L) init_lb (l_sols L) (get_bc T v b f) ->
                  (forall ta, alw T G ld ls lv ta -> (nd_sol u < c lbr ta)%Z) ->
                  forall t, cls t -> alw T G d n v t -> beats (l_sols L) (c b t)).
        { intros u Hu -> Hall t Hc Hal. destruct (cls_alw t Hc Hal) as (ta & tb & Ha & Hb & Ec). rewrite Ec.
          apply (sub_beats L init_lb); [exact Hu|apply HS0; exact Hu|exact Hsl0|apply Hall; exact Ha| | |apply c_nonneg].
          - cbn [init_lb value_node nd_sol]. apply c_nonneg.
          - eapply Hlt_b; [exact Ha|exact Hb|reflexivity]. }
        destruct (is_empty lsol) eqn:Ee1.
        { injection HE as <- <-. cbn [with_inf l_st] in Ht. destruct (Hleft Ht) as [HS1 Hp1].
          split; [|reflexivity]. apply LI_with_inf; [|exact HS1]. apply LI_more; [exact HL|].
          destruct Hp1 as [(_ & Hu & Hall)|[Hw _]]; [|rewrite (wt_nonempty _ _ _ Hw) in Ee1; discriminate].
          eapply Hfl; [exact Hu|reflexivity|exact Hall]. }
        assert (Hl2 : timely s1 -> wt lbr ld lsol /\ num_nodes lsol <= ls
                  /\ (LBb lbr ld ls (nd_sol lsol) \/ over lbr ld ls (subtract_ubs T G (l_ub L) init_lb (l_sols L) (get_bc T v b f)) lsol)).
        { intro Ht1. destruct (Hleft Ht1) as [_ [[-> _]|Hw]]; [discriminate|exact Hw]. }
        pose proof (fr_sub T G fuel rv rbr (subtract_ubs T G (l_ub L) lsol (l_sols L) (get_bc T v b f)) rd rs s1) as Fr2.
        destruct (rec rv rbr (subtract_ubs T G (l_ub L) lsol (l_sols L) (get_bc T v b f)) rd rs s1) as [rsol s2'] eqn:Er2.
        cbn [snd] in Fr2.
        destruct (in_time G s2') as [ok2 s2] eqn:Ei2. destruct (time_fr _ _ _ _ Ei2) as (Fi2 & Ic2 & Io2).
        assert (Hright : timely s2 -> timely s1 /\ CInv (s_c s2) /\ post rbr rd rs (subtract_ubs T G (l_ub L) lsol (l_sols L) (get_bc T v b f)) rsol).
        { intro Ht2. pose proof (fr_timely _ _ Fi2 Ht2) as Ht2'. pose proof (fr_timely _ _ Fr2 Ht2') as Ht1.
          destruct (Hleft Ht1) as [HS1 _]. split; [exact Ht1|]. rewrite Ic2.
          exact (Hrc rbr _ rd rs s1 rsol s2' ltac:(lia) ltac:(lia) Hrv S5 HS1 Er2 Ht2'). }
        destruct ok2; cbn [negb] in HE.
        2:{ injection HE as <- <-. cbn [with_st l_st] in Ht. destruct (Io2 eq_refl Ht). }
        assert (Hfr : forall u, c_ub G = true -> u = subtract_ubs T G (l_ub L) lsol (l_sols L) (get_bc T v b f) -> LBb lbr ld ls (nd_sol lsol) ->
                  (forall tb, alw T G rd rs rv tb -> (nd_sol u < c rbr tb)%Z) ->
                  forall t, cls t -> alw T G d n v t -> beats (l_sols L) (c b t)).
        { intros u Hu -> Hlb Hall t Hc Hal. destruct (cls_alw t Hc Hal) as (ta & tb & Ha & Hb & Ec). rewrite Ec.
          replace (bc + c lbr ta + c rbr tb)%Z with (bc + c rbr tb + c lbr ta)%Z by lia.
          apply (sub_beats L lsol); [exact Hu|apply HS0; exact Hu|exact Hsl0|apply Hall; exact Hb|apply Hlb; exact Ha| |apply c_nonneg].
          eapply Hlt_b; [exact Ha|exact Hb|lia]. }
        destruct (is_empty rsol) eqn:Ee2.
        { injection HE as <- <-. cbn [with_inf l_st] in Ht. destruct (Hright Ht) as (Ht1 & HS2 & Hp2).
          split; [|reflexivity]. apply LI_with_inf; [|exact HS2]. apply LI_more; [exact HL|].
          destruct Hp2 as [(_ & Hu & Hall)|[Hw _]]; [|rewrite (wt_nonempty _ _ _ Hw) in Ee2; discriminate].
          destruct (Hl2 Ht1) as (_ & _ & [Hl|(_ & _ & Hl)]); [eapply Hfr|eapply Hfl]; eauto. }
        set (new := if sw then combine_sols T f rsol lsol (get_bc T v b f) else combine_sols T f lsol rsol (get_bc T v b f)) in *.
        assert (Hfin : timely s2 -> CInv (s_c s2) /\ wt b d new /\ num_nodes new <= n
                  /\ (PLB (nd_sol new) \/ (c_ub G = true /\ beats (l_sols L) (nd_sol new) /\ forall t, cls t -> alw T G d n v t -> beats (l_sols L) (c b t)))).
        { intro Ht2. destruct (Hright Ht2) as (Ht1 & HS2 & Hp2). destruct (Hl2 Ht1) as (W1 & W2 & W3).
          destruct Hp2 as [[-> _]|(W4 & W5 & W6)]; [discriminate|].
          destruct (new_wt lsol rsol W1 W2 W4 W5) as (N1 & N2 & N3). fold new in N1, N2, N3.
          repeat (split; [assumption|]). pose proof (wt_range _ _ _ HdD N1) as Rn.
          assert (Hld : ld <= D) by lia. assert (Hrd : rd <= D) by lia.
          pose proof (wt_range _ _ _ Hld W1) as Rl. pose proof (wt_range _ _ _ Hrd W4) as Rr.
          destruct W3 as [W3|(Hu & X1 & X2)].
          - destruct W6 as [W6|(Hu & X1 & X2)].
            + left. intros ta tb Ha Hb. specialize (W3 ta Ha). specialize (W6 tb Hb). lia.
            + right. split; [exact Hu|]. split; [|eapply Hfr; [exact Hu|reflexivity|exact W3|exact X2]].
              rewrite N3. replace (bc + nd_sol lsol + nd_sol rsol)%Z with (bc + nd_sol rsol + nd_sol lsol)%Z by lia.
              apply (sub_beats L lsol); [exact Hu|apply HS0; exact Hu|exact Hsl0|exact X1|lia|lia|lia].
          - right. split; [exact Hu|]. split; [|eapply Hfl; [exact Hu|reflexivity|exact X2]].
            rewrite N3. apply (sub_beats L init_lb); [exact Hu|apply HS0; exact Hu|exact Hsl0|exact X1|cbn [init_lb value_node nd_sol]; lia|lia|lia]. }
        destruct (c_ub G && tk_sdom T (nd_sol (l_ub L)) (nd_sol new)) eqn:Eb3.
        { injection HE as <- <-. cbn [with_inf l_st] in Ht. destruct (Hfin Ht) as (HS2 & Hw & _ & Hp).
          split; [|reflexivity]. apply LI_with_inf; [|exact HS2]. apply LI_more; [exact HL|].
          apply andb_true_iff in Eb3. destruct Eb3 as [Hu Hlt]. apply (pt_sdom T HT) in Hlt.
          pose proof (wt_range _ _ _ HdD Hw). destruct Hp as [Hp|(_ & _ & Hp)]; [|exact Hp].
          intros t Hc Hal. apply Hprune; [exact Hu|]. pose proof (PLB_cls _ t Hp Hc Hal). lia. }
        injection HE as <- <-. cbn [l_st] in Ht. destruct (Hfin Ht) as (HS2 & Hw & Hnn & Hp). split; [|reflexivity].
        pose proof (wt_range _ _ _ HdD Hw) as Rn. pose proof (wt_nonempty _ _ _ Hw) as Hne.
        unfold LI. cbn [l_st l_sols l_ub l_inf]. split; [exact HS2|].
        rewrite (small_sdom (nd_sol new)) in Eb3 by lia. rewrite (small_sdom_l (nd_sol new)) by lia.
        assert (Hua : nd_sol (add_sol (l_ub L) new) = Z.min (nd_sol (l_ub L)) (nd_sol new)).
        { unfold add_sol. destruct (nd_sol new <? nd_sol (l_ub L))%Z eqn:E; [apply Z.ltb_lt in E|apply Z.ltb_ge in E]; lia. }
        assert (Hnlt : c_ub G = true -> (nd_sol new <= nd_sol (l_ub L))%Z).
        { intro Hu. rewrite Hu in Eb3. cbn [andb] in Eb3. apply Z.ltb_ge in Eb3. exact Eb3. }
        destruct (nd_sol new <? nd_sol (l_sols L))%Z eqn:Elt.
        - apply Z.ltb_lt in Elt. split; [right; auto|]. rewrite Hne. split; [reflexivity|]. split.
          + intro Hu. specialize (H4 Hu). specialize (Hnlt Hu). unfold upd_ub. rewrite Hu, Hua.
            destruct (is_empty (l_sols L)); lia.
          + unfold beats at 1. rewrite Hne. intros t [Hc|Hc] Hal.
            * specialize (H5 t Hc Hal). unfold beats in H5. destruct (is_empty (l_sols L)) eqn:He; [|lia].
              assert (Hu : c_ub G = true) by (destruct (c_ub G); [reflexivity|specialize (H3 eq_refl); discriminate]).
              specialize (H4 Hu). specialize (Hnlt Hu). cbv iota in H4. lia.
            * destruct Hp as [Hp|(Hu & Hp & _)]; [apply PLB_cls; assumption|].
              specialize (H4 Hu). specialize (Hnlt Hu). unfold beats in Hp. destruct (is_empty (l_sols L)); lia.
        - apply Z.ltb_ge in Elt. split; [exact H2|]. split; [exact H3|].
          assert (He : is_empty (l_sols L) = false) by (destruct (is_empty (l_sols L)); [specialize (Hslw eq_refl); lia|reflexivity]).
          rewrite He in *. split.
          + intro Hu. specialize (H4 Hu). unfold upd_ub. rewrite Hu, Hua. lia.
          + intros t [Hc|Hc] Hal; [apply H5; assumption|]. destruct Hp as [Hp|(_ & _ & Hp)]; [|apply Hp; assumption].
            unfold beats. rewrite He. pose proof (PLB_cls _ t Hp Hc Hal). lia.
      Qed.
    End Size.

    Lemma size_loop_spec f (sw : bool) :
      ok_feat T G f -> mls <= vsize v -> mls <= vsize (V (if sw then br_right b f else br_left b f)) ->
      mls <= vsize (V (if sw then br_left b f else br_right b f)) ->
      forall sizes (cov : tree -> Prop) L,
      (forall k, In k sizes -> min_size d n <= k <= max_size d n) -> LI cov L ->
      let L' := size_loop (size_step T G rec d n f (get_bc T v b f) sw (V (if sw then br_right b f else br_left b f)) (if sw then br_right b f else br_left b f)
                                  (V (if sw then br_left b f else br_right b f)) (if sw then br_left b f else br_right b f)) L sizes in
      timely (l_st L') -> LI (fun t => cov t \/ exists k, In k sizes /\ cls f sw k t) L'.
    Proof.
      intros Hok Hsz Hlv Hrv. induction sizes as [|k sizes IH]; intros cov L Hk HL; cbn [size_loop]; cbn zeta; intro Ht.
      - apply LI_cov with (cov := cov); [|exact HL]. intros t [H|(k & Hin & _)] _; [exact H|destruct Hin].
      - pose proof (size_step_spec f sw k Hok (Hk k (or_introl eq_refl)) Hlv Hrv Hsz cov L) as Hstep.
        destruct (size_step T G rec d n f _ sw _ _ _ _ L k) as [L' stop] eqn:Es.
        specialize (Hstep L' stop HL eq_refl).
        destruct stop; [destruct (Hstep Ht) as [_ Hst]; discriminate|].
        assert (Ht' : timely (l_st L')) by (eapply fr_timely; [|exact Ht]; apply fr_sizes).
        destruct (Hstep Ht') as [HL' _].
        assert (Hk' : forall k, In k sizes -> min_size d n <= k <= max_size d n) by (intros; apply Hk; right; assumption).
        pose proof (IH (fun t => cov t \/ cls f sw k t) L' Hk' HL' Ht) as IH'. eapply LI_cov; [|exact IH'].
        intros t [H|(k0 & [<-|Hin] & H)] _; [left; left; exact H|left; right; exact H|right; eauto].
    Qed.
    Lemma size_choice na nb : na + nb + 1 <= n -> na <= 2 ^ (d - 1) - 1 -> nb <= 2 ^ (d - 1) - 1 ->
      exists k, In k (seq (min_size d n) (S (max_size d n) - min_size d n)) /\ na <= k /\ nb <= n - k - 1.
    Proof.
      intros H1 H2 H3. pose proof pow_split as [P1 P2]. exists (Nat.max na (min_size d n)).
      rewrite in_seq. unfold min_size, max_size. lia.
    Qed.
    Lemma skip_alw f tl tr : br_has b f || negb (tk_may T f) || c_redundant G f = true -> ~ alw T G d n v (Split f tl tr).
    Proof.
      intros H Ht. apply allowed_split in Ht. destruct Ht as ([_ Hmay] & _ & _ & Hl & Hr).
      apply allowed_size in Hl. apply allowed_size in Hr.
      apply orb_true_iff in H. destruct H as [H|H]; [apply orb_true_iff in H; destruct H as [H|H]|].
      - destruct (br_has_empty b f root H) as [X|X]; rewrite X in *; lia.
      - rewrite Hmay in H. discriminate.
      - assert (Hs0 : vsize (split_right f v) = 0); [|lia]. unfold vsize.
        destruct (concat (split_right f v)) as [|x l] eqn:Ex; [reflexivity|]. exfalso.
        assert (Hin : In x (concat (split_right f v))) by (rewrite Ex; left; reflexivity).
        rewrite concat_split_right in Hin. apply filter_In in Hin. destruct Hin as [Hin Hx].
        apply in_restrict in Hin. destruct Hin as [Hin _].
        rewrite (Hred f x H Hin) in Hx. discriminate.
    Qed.
    Lemma feature_step_spec f (cov : tree -> Prop) L L' : f < nf -> mls <= vsize v ->
      LI cov L -> feature_step T G rec v b d n f L = Some L' -> timely (l_st L') ->
      LI (fun t => cov t \/ exists tl tr, t = Split f tl tr) L'.
    Proof.
      intros Hf Hsz HL. unfold feature_step.
      destruct (br_has b f || negb (tk_may T f) || c_redundant G f) eqn:Esk.
      { intro H. injection H as <-. intros _. eapply LI_cov; [|exact HL]. intros t [H|(tl & tr & ->)] Ht; [exact H|].
        exfalso. eapply skip_alw; eassumption. }
      destruct (tk_sparse T && c_ub G && (nd_sol (l_ub L) <? get_bc T v b f)%Z); [discriminate|].
      assert (Hok : ok_feat T G f).
      { split; [exact Hf|]. destruct (tk_may T f); [reflexivity|]. cbn [negb] in Esk. rewrite orb_true_r in Esk. discriminate. }
      unfold sat_mls. rewrite !Nat.mul_1_r. rewrite restrict_left, restrict_right.
      destruct (mls <=? vsize (V (br_left b f))) eqn:E1; cbn [negb orb].
      2:{ intro H. injection H as <-. intros _. eapply LI_cov; [|exact HL]. intros t [H|(tl & tr & ->)] Ht; [exact H|].
          exfalso. apply allowed_split in Ht. destruct Ht as (_ & _ & _ & Hl & _). apply allowed_size in Hl. rewrite restrict_left in Hl.
          apply Nat.leb_gt in E1. lia. }
      destruct (mls <=? vsize (V (br_right b f))) eqn:E2; cbn [negb orb].
      2:{ intro H. injection H as <-. intros _. eapply LI_cov; [|exact HL]. intros t [H|(tl & tr & ->)] Ht; [exact H|].
          exfalso. apply allowed_split in Ht. destruct Ht as (_ & _ & _ & _ & Hr). apply allowed_size in Hr. rewrite restrict_right in Hr.
          apply Nat.leb_gt in E2. lia. }
      apply Nat.leb_le in E1. apply Nat.leb_le in E2.
      assert (Hsizes : forall k, In k (seq (min_size d n) (S (max_size d n) - min_size d n)) -> min_size d n <= k <= max_size d n).
      { intros k Hk. apply in_seq in Hk. lia. }
      destruct (vsize (V (br_left b f)) <? vsize (V (br_right b f))); intro H; injection H as <-; intro Ht.
      - pose proof (size_loop_spec f true Hok Hsz E2 E1 _ cov L Hsizes HL Ht) as HL'. eapply LI_cov; [|exact HL'].
        intros t [H|(tl & tr & ->)] Hal; [left; exact H|]. right.
        apply allowed_split in Hal. destruct Hal as (_ & _ & Hnn & Hl & Hr).
        destruct (size_choice (nodes tr) (nodes tl)) as (k & K1 & K2 & K3); [lia| | |].
        + destruct Hr as (_ & _ & Hdr & _). exact (nodes_le_full tr (d - 1) Hdr).
        + destruct Hl as (_ & _ & Hdl & _). exact (nodes_le_full tl (d - 1) Hdl).
        + exists k. split; [exact K1|]. exists tl, tr. auto.
      - pose proof (size_loop_spec f false Hok Hsz E1 E2 _ cov L Hsizes HL Ht) as HL'. eapply LI_cov; [|exact HL'].
        intros t [H|(tl & tr & ->)] Hal; [left; exact H|]. right.
        apply allowed_split in Hal. destruct Hal as (_ & _ & Hnn & Hl & Hr).
        destruct (size_choice (nodes tl) (nodes tr)) as (k & K1 & K2 & K3); [lia| | |].
        + destruct Hl as (_ & _ & Hdl & _). exact (nodes_le_full tl (d - 1) Hdl).
        + destruct Hr as (_ & _ & Hdr & _). exact (nodes_le_full tr (d - 1) Hdr).
        + exists k. split; [exact K1|]. exists tl, tr. auto.
    Qed.
    (** The loop is left early only when no split can be paid for. *)
    Lemma feature_stop f (cov : tree -> Prop) L : mls <= vsize v -> LI cov L -> feature_step T G rec v b d n f L = None ->
      LI (fun t => cov t \/ exists g tl tr, t = Split g tl tr) L.
    Proof.
      intros Hsz HL. unfold feature_step.
      destruct (br_has b f || negb (tk_may T f) || c_redundant G f); [discriminate|].
      case_eq (tk_sparse T); intro Es.
      2:{ cbn [andb]. destruct (_ || _); [discriminate|]. destruct (_ <? _); discriminate. }
      destruct (Hsp Es) as (Hu & k & Hk). rewrite Hu. cbn [andb]. change (get_bc T v b f) with (bcost T (vsize v) b f). rewrite Hk.
      destruct (nd_sol (l_ub L) <? k)%Z eqn:El.
      2:{ destruct (_ || _); [discriminate|]. destruct (_ <? _); discriminate. }
      intros _. apply Z.ltb_lt in El. apply LI_more; [exact HL|]. intros t (g & tl & tr & ->) _.
      destruct HL as (_ & _ & _ & H4 & _). specialize (H4 Hu). rewrite c_split, Hk.
      pose proof (c_nonneg (br_left b g) tl). pose proof (c_nonneg (br_right b g) tr).
      unfold beats. destruct (is_empty (l_sols L)); lia.
    Qed.
    Lemma feature_loop_spec blb fs : forall (cov : tree -> Prop) L,
      (forall f, In f fs -> f < nf) ->
      (forall t, alw T G d n v t -> cov t \/ exists f tl tr, In f fs /\ t = Split f tl tr) ->
      mls <= vsize v -> LI cov L ->
      timely (l_st (feature_loop T G rec v b d n blb L fs)) -> LI (fun _ => True) (feature_loop T G rec v b d n blb L fs).
    Proof.
      induction fs as [|f fs IH]; intros cov L Hfs Hcov Hsz HL; cbn [feature_loop].
      - intros _. eapply LI_cov; [|exact HL]. intros t _ Ht. destruct (Hcov t Ht) as [H|(? & ? & ? & [] & _)]. exact H.
      - destruct (in_time G (l_st L)) as [ok s] eqn:Ei. destruct (time_fr _ _ _ _ Ei) as (Fi & Ic & Io).
        destruct ok; cbn [negb].
        2:{ intro Ht. destruct (Io eq_refl Ht). }
        rewrite Hnolb. cbn [andb].
        assert (HL1 : LI cov (with_st L s)) by (apply LI_with_st; [exact HL|rewrite Ic; apply HL]).
        destruct (feature_step T G rec v b d n f (with_st L s)) as [L2|] eqn:Ef.
        + intro Ht. pose proof (fr_timely _ _ (fr_features T G fuel v b d n blb fs L2) Ht) as Ht2.
          pose proof (feature_step_spec f cov _ L2 (Hfs f (or_introl eq_refl)) Hsz HL1 Ef Ht2) as HL3.
          refine (IH _ L2 (fun g Hg => Hfs g (or_intror Hg)) _ Hsz HL3 Ht).
          intros t Hal. destruct (Hcov t Hal) as [H|(g & tl & tr & [<-|Hg] & ->)]; [left; left; exact H|left; right; eauto|right; eauto 6].
        + intros _. pose proof (feature_stop f cov _ Hsz HL1 Ef) as HL3. eapply LI_cov; [|exact HL3].
          intros t _ Hal. destruct (Hcov t Hal) as [H|(g & tl & tr & Hg & ->)]; [left; exact H|right; eauto].
    Qed.

    Lemma general_spec s r s' : mls <= vsize v -> CInv (s_c s) ->
      general_case T G rec v b ub0 d n s = (r, s') -> timely s' -> CInv (s_c s') /\ post b d n ub0 r.
    Proof.
      intros Hsz HS. unfold general_case.
      pose proof (fun Hall => leaf_post b d n ub0 Hsz Hall) as Hlp. pose proof (leaf_spec b ub0 Hsz) as Hleaf.
      destruct (solve_leaf T G v ub0) as [sols0 u0] eqn:Esl. cbn [fst] in Hlp.
      unfold sat_mls. destruct (mls * 2 <=? vsize v) eqn:E2; cbn [negb].
      2:{ intro H. injection H as <- <-. intros _. split; [exact HS|]. apply Hlp. intros t Ht.
          apply Nat.leb_gt in E2. eapply small_leaf; [|exact Ht]. lia. }
      clear Hlp E2.
      match goal with |- context [let '(a, c) := ?x in _] => set (X := x) end.
      destruct X as [sols1 u1] eqn:EX. subst X. cbv zeta.
      set (L := feature_loop T G rec v b d n _ _ _).
      intro H. injection H as <- <-. intro Ht.
      assert (Hin : LI (fun t => exists l, t = Leaf l) (Loop u1 sols1 (init_sol T) s)).
      { assert (H0 : LI (fun t => exists l, t = Leaf l) (Loop u0 sols0 (init_sol T) s)).
        { unfold LI. cbn [l_st l_sols l_ub]. split; [exact HS|].
          destruct Hleaf as [(l & Hl & Hf & Hmin & Hu)|(Hf & Hu & Hno)]; cbn [fst snd] in *.
          - subst sols0. split; [right; split; [apply wt_leaf; assumption|unfold num_nodes; cbn [leaf_node nd_feat]; lia]|].
            unfold is_empty. cbn [leaf_node nd_feat nd_lab]. split; [reflexivity|]. split; [exact Hu|].
            intros t [l' ->] Hal. unfold beats, is_empty. cbn [leaf_node nd_feat nd_lab nd_sol]. apply Hmin. apply Hal.
          - subst sols0 u0. split; [left; reflexivity|]. destruct (Hno 0 ltac:(rewrite V_nl; lia)) as [Hu _]. split; [congruence|]. split; [reflexivity|].
            intros t [l' ->] Hal. unfold beats, is_empty. cbn [init_sol value_node nd_feat nd_lab]. apply Hno. apply Hal. }
        destruct (lower_cached (s_c s) v b n (d - 1)) as [[ld ln]|] eqn:El.
        2:{ injection EX as <- <-. exact H0. }
        apply lower_cached_some in El. destruct El as (El1 & El2 & El3).
        apply (is_optimal_retrieve T) in El3.
        destruct (CInv_retrieve (s_c s) b ld ln HS) as [Hc|(_ & Hw & Hnn & _)]; [rewrite Hc in El3; discriminate|].
        set (cd := c_retrieve T (s_c s) v b ld ln) in *. cbv zeta in EX.
        assert (Hwd : wt b d cd) by (eapply wt_mono; [exact Hw|lia]).
        pose proof (wt_range _ _ _ HdD Hwd) as Hcr. rewrite (small_sdom (nd_sol cd)) in EX by lia.
        destruct (c_ub G && (nd_sol u0 <? nd_sol cd)%Z) eqn:Eu; injection EX as <- <-; [exact H0|].
        assert (Hle : c_ub G = true -> (nd_sol cd <= nd_sol u0)%Z).
        { intro Hu. rewrite Hu in Eu. cbn [andb] in Eu. apply Z.ltb_ge in Eu. exact Eu. }
        assert (Hua : nd_sol (add_sol u0 cd) = Z.min (nd_sol u0) (nd_sol cd)).
        { unfold add_sol. destruct (nd_sol cd <? nd_sol u0)%Z eqn:E; [apply Z.ltb_lt in E|apply Z.ltb_ge in E]; lia. }
        destruct H0 as (A1 & A2 & A3 & A4 & A5). cbn [l_st l_sols l_ub] in *. unfold LI. cbn [l_st l_sols l_ub]. split; [exact A1|].
        assert (Has : add_sol sols0 cd = if (nd_sol cd <? nd_sol sols0)%Z then cd else sols0) by reflexivity. rewrite Has. clear Has.
        destruct (nd_sol cd <? nd_sol sols0)%Z eqn:Elt.
        - apply Z.ltb_lt in Elt. split; [right; split; [exact Hwd|lia]|]. rewrite El3. split; [reflexivity|]. split.
          + intro Hu. specialize (A4 Hu). specialize (Hle Hu). rewrite Hua. destruct (is_empty sols0); lia.
          + unfold beats at 1. rewrite El3. intros t Hc Hal. specialize (A5 t Hc Hal). unfold beats in A5.
            destruct (is_empty sols0) eqn:He; [|lia].
            assert (Hu : c_ub G = true) by (destruct (c_ub G); [reflexivity|specialize (A3 eq_refl); discriminate]).
            specialize (A4 Hu). specialize (Hle Hu). cbv iota in A4. lia.
        - apply Z.ltb_ge in Elt. split; [exact A2|]. split; [exact A3|]. split; [|exact A5].
          assert (He : is_empty sols0 = false).
          { destruct A2 as [->|[Hx _]]; [cbn in Elt; lia|exact (wt_nonempty _ _ _ Hx)]. }
          rewrite He in *. intro Hu. specialize (A4 Hu). rewrite Hua. lia. }
      assert (HtL : timely (l_st L)) by (eapply fr_timely; [|exact Ht]; apply fr_archive).
      assert (HF : LI (fun _ => True) L).
      { refine (feature_loop_spec _ _ _ _ _ _ Hsz Hin HtL).
        - intros f Hf. apply (Horder v). exact Hf.
        - intros t Hal. destruct t as [l|f tl tr]; [left; eauto|]. right. exists f, tl, tr. split; [|reflexivity].
          apply Horder. destruct Hal as (Hfit & _). apply Hfit. }
      destruct HF as (G1 & G2 & G3 & G4 & G5).
      rewrite archive_c. cbn [set_c s_c].
      destruct (is_empty (l_sols L)) eqn:He; cbn [negb].
      - rewrite CInv_upd by exact G1. split; [exact G1|]. left.
        assert (Hx : l_sols L = init_sol T) by (destruct G2 as [X|[X _]]; [exact X|rewrite (wt_nonempty _ _ _ X) in He; discriminate]).
        split; [exact Hx|]. split; [destruct (c_ub G); [reflexivity|specialize (G3 eq_refl); discriminate]|].
        intros t Hal. specialize (G5 t I Hal). unfold beats in G5. rewrite He in G5. exact G5.
      - destruct G2 as [X|[Hw Hnn]]; [rewrite X in He; discriminate|].
        assert (Hlb : LBb b d n (nd_sol (l_sols L))).
        { intros t Hal. specialize (G5 t I Hal). unfold beats in G5. rewrite He in G5. exact G5. }
        split; [apply CInv_store; assumption|]. right. split; [exact Hw|]. split; [exact Hnn|left; exact Hlb].
    Qed.
  End General.

  Theorem solve_sub_contract fuel : contract fuel.
  Proof.
    induction fuel as [|fuel IH]; intros b ub d n s r s' Hdf HdD Hsz Hn HS; [lia|]. cbn [solve_sub].
    destruct (in_time G s) as [ok s1] eqn:Ei. destruct (time_fr _ _ _ _ Ei) as (Fi & Ic & Io).
    assert (HS1 : CInv (s_c s1)) by (rewrite Ic; exact HS).
    destruct ok; cbn [negb].
    2:{ intro H. injection H as <- <-. intro Ht. destruct (Io eq_refl Ht). }
    destruct (reduce_budget T (V b) b ub d n) as [d' n'] eqn:Er. apply reduce_spec in Er; [|exact Hn]. destruct Er as (R1 & R2 & R3 & R4).
    destruct ((d' =? 0) || (n' =? 0)) eqn:E0.
    { intro H. injection H as <- <-. intros _. split; [exact HS1|]. eapply post_lift; [exact R1|exact R2|exact R4|]. apply leaf_post; [exact Hsz|]. intros t Ht.
      eapply zero_leaf; [|exact Ht]. apply orb_true_iff in E0. destruct E0 as [E0|E0]; apply Nat.eqb_eq in E0; auto. }
    apply orb_false_iff in E0. destruct E0 as [E0 E0']. apply Nat.eqb_neq in E0. apply Nat.eqb_neq in E0'.
    destruct (is_empty (c_retrieve T (s_c s1) (V b) b d' n')) eqn:Ec; cbn [negb].
    2:{ intro H. injection H as <- <-. intros _. split; [exact HS1|]. eapply post_lift; [exact R1|exact R2|exact R4|].
        destruct (CInv_retrieve (s_c s1) b d' n' HS1) as [Hx|(_ & W1 & W2 & W3)]; [rewrite Hx in Ec; discriminate|].
        right. split; [exact W1|]. split; [exact W2|left; exact W3]. }
    rewrite Hnolb, Hnoterm. cbn [andb]. intros H Ht.
    destruct (general_spec fuel IH b ub d' n' ltac:(lia) ltac:(lia) ltac:(lia) R3 s1 r s' Hsz HS1 H Ht) as [A B].
    split; [exact A|]. eapply post_lift; [exact R1|exact R2|exact R4|exact B].
  Qed.

  (** ** Reconstruction *)
  Definition good (s : st) : Prop := CInv (s_c s) /\ s_on s = false /\ timely s.
  Lemma sub_good fuel b ub d n s r s' : d < fuel -> d <= D -> mls <= vsize (V b) -> d <= n <= 2 ^ d - 1 -> nd_sol ub = worst ->
    good s -> solve_sub T G fuel (V b) b ub d n s = (r, s') ->
    good s' /\ wt b d r /\ num_nodes r <= n /\ LBb b d n (nd_sol r).
  Proof.
    intros Hd HdD Hsz Hn Hub (H1 & H2 & H3) E1. pose proof (fr_sub T G fuel (V b) b ub d n s) as (F1 & _ & F3). rewrite E1 in F1, F3. cbn [snd] in F1, F3.
    assert (Ht : timely s') by (unfold timely; rewrite F3 by exact H2; exact H3).
    destruct (solve_sub_contract fuel b ub d n s r s' Hd HdD Hsz Hn H1 E1 Ht) as [A1 A2].
    split; [exact (conj A1 (conj (eq_trans F1 H2) Ht))|].
    destruct A2 as [(_ & _ & A2)|(A2 & A3 & A4)].
    - exfalso. assert (Hlf : alw T G d n (V b) (Leaf 0)) by (apply leaf_allowed; [rewrite V_nl; lia|exact Hsz]).
      specialize (A2 _ Hlf). pose proof (c_lt b d n _ HdD Hlf). lia.
    - split; [exact A2|]. split; [exact A3|]. destruct A4 as [A4|(_ & A4 & _)]; [exact A4|].
      pose proof (wt_range _ _ _ HdD A2). lia.
  Qed.
  Lemma scan_good s b dm sizes sol k : good s -> mls <= vsize (V b) -> scan_child T G s (V b) b dm sizes = Some (sol, k) ->
    In k sizes /\ wt b (Nat.min dm k) sol /\ num_nodes sol <= k /\ LBb b (Nat.min dm k) k (nd_sol sol).
  Proof.
    intros (H1 & H2 & _) Hsz. induction sizes as [|j r IH]; cbn [scan_child]; [discriminate|].
    destruct (j =? 0) eqn:Ej.
    - apply Nat.eqb_eq in Ej. subst j.
      destruct (leaf_post b 0 0 (init_sol T) Hsz ltac:(intros t; apply zero_leaf; left; reflexivity)) as [(_ & _ & Hno)|(A1 & A2 & A3)].
      + exfalso. assert (Hlf : alw T G 0 0 (V b) (Leaf 0)) by (apply leaf_allowed; [rewrite V_nl; lia|exact Hsz]).
        specialize (Hno _ Hlf). pose proof (c_lt b 0 0 _ (Nat.le_0_l D) Hlf). cbn [init_sol value_node nd_sol] in Hno. lia.
      + rewrite (wt_nonempty _ _ _ A1). intro H. injection H as <- <-. split; [left; reflexivity|]. rewrite Nat.min_0_r.
        split; [exact A1|]. split; [exact A2|]. destruct A3 as [A3|(_ & A3 & _)]; [exact A3|].
        pose proof (wt_range _ _ _ (Nat.le_0_l D) A1). cbn [init_sol value_node nd_sol] in A3. lia.
    - destruct (is_empty (c_retrieve T (s_c s) (V b) b (Nat.min dm j) j)) eqn:Ee.
      + intro H. destruct (IH H) as [A1 A2]. split; [right; exact A1|exact A2].
      + intro H. injection H as <- <-. split; [left; reflexivity|].
        destruct (CInv_retrieve (s_c s) b (Nat.min dm j) j H1) as [Hx|(_ & A)]; [rewrite Hx in Ee; discriminate|exact A].
  Qed.
  Lemma child_good b d n a t s sol cd k s' : good s -> 1 <= d -> d <= D -> a <= 2 ^ (d - 1) - 1 -> alw T G (d - 1) a (V b) t ->
    child_sol T G (V b) b d n a s = ((sol, cd, k), s') ->
    good s' /\ cd <= d - 1 /\ cd <= k /\ wt b cd sol /\ (nd_sol sol <= c b t)%Z
    /\ (cache_used (s_c s) = false -> cache_used (s_c s') = false /\ num_nodes sol <= a).
  Proof.
    intros Hs Hd HdD Ha Ht. unfold child_sol.
    assert (Hsz : mls <= vsize (V b)) by (eapply allowed_size; exact Ht).
    assert (Hdep : depth t <= a) by (pose proof (depth_le_nodes t); destruct Ht as (_ & _ & _ & ?); lia).
    assert (Hle : forall cd k z, Nat.min (d - 1) a <= cd -> a <= k -> LBb b cd k z -> (z <= c b t)%Z).
    { intros cd' k' z Hc Hk HL. apply HL. destruct Ht as (A1 & A2 & A3 & A4). repeat split; try assumption; lia. }
    set (from := Nat.max a (min_size d n)).
    destruct (if cache_used (s_c s) then _ else None) as [[sol' k']|] eqn:Ef.
    - destruct (cache_used (s_c s)) eqn:Eu; [|discriminate]. intro H. injection H as <- <- <- <-.
      destruct (scan_good _ _ _ _ _ _ Hs Hsz Ef) as (A1 & A2 & A3 & A4). apply in_seq in A1.
      split; [exact Hs|]. split; [lia|]. split; [lia|]. split; [exact A2|]. split; [|rewrite Eu; discriminate].
      apply Hle with (cd := Nat.min (d - 1) k') (k := k'); [lia|lia|exact A4].
    - clear Ef. set (cd0 := Nat.min (d - 1) a). set (k0 := if cache_used (s_c s) then _ else a).
      assert (Hk : a <= k0) by (unfold k0, from; destruct (cache_used (s_c s)); lia).
      assert (Hn : cd0 <= a <= 2 ^ cd0 - 1).
      { split; [unfold cd0; lia|]. unfold cd0. destruct (Nat.min_spec (d - 1) a) as [[_ ->]|[_ ->]]; [exact Ha|].
        pose proof (Nat.pow_gt_lin_r 2 a). lia. }
      destruct (solve_sub T G (S cd0) (V b) b (init_sol T) cd0 a s) as [r1 s1] eqn:E1.
      pose proof (used_sub T G (S cd0) (V b) b (init_sol T) cd0 a s _ eq_refl) as Hu. rewrite E1 in Hu. cbn [snd] in Hu.
      assert (HcD : cd0 <= D) by (unfold cd0; lia).
      destruct (sub_good (S cd0) b (init_sol T) cd0 a s r1 s1 ltac:(lia) HcD Hsz Hn eq_refl Hs E1) as (B1 & B2 & B3 & B4).
      rewrite (wt_nonempty _ _ _ B2).
      intro H. injection H as <- <- <- <-. split; [exact B1|]. split; [unfold cd0; lia|]. split; [unfold cd0; lia|].
      split; [exact B2|]. split; [apply Hle with (3 := B4); unfold cd0; lia|]. intro Hx. split; [congruence|exact B3].
  Qed.
  Theorem construct_spec fuel : forall sol b d0 n0 s ot s',
    Nat.min d0 n0 < fuel -> Nat.min d0 n0 <= D -> CInv (s_c s) -> timely s -> wt b (Nat.min d0 n0) sol ->
    construct T G fuel sol (V b) b d0 n0 s = (ot, s') ->
    good s' /\ exists t, ot = Some t /\ alw T G (Nat.min d0 n0) (2 ^ Nat.min d0 n0 - 1) (V b) t
      /\ (c b t <= nd_sol sol)%Z
      /\ (cache_used (s_c s) = false -> cache_used (s_c s') = false /\ nodes t <= num_nodes sol).
  Proof.
    induction fuel as [|fuel IH]; intros sol b d0 n0 s0 ot s' Hf HdD HS Ht Hw; [lia|].
    cbn [construct]. set (d := Nat.min d0 n0) in *. set (n := Nat.min n0 (2 ^ d - 1)). set (s := set_on s0 false).
    assert (Hs : good s) by (split; [|split]; assumption || reflexivity).
    destruct ((d =? 0) || (n =? 0) || (num_nodes sol =? 0)) eqn:E0.
    { assert (Hf' : nd_feat sol = None).
      { unfold wt in Hw. destruct (nd_feat sol) as [f|] eqn:Ef; [|reflexivity]. exfalso.
        destruct Hw as (_ & Hd & _). pose proof (Nat.pow_gt_lin_r 2 d ltac:(lia)).
        assert (num_nodes sol <> 0) by (unfold num_nodes; rewrite Ef; lia).
        rewrite !orb_true_iff, !Nat.eqb_eq in E0. unfold n in E0. lia. }
      unfold wt in Hw. rewrite Hf' in Hw. destruct Hw as (l & E1 & E2 & E3 & E4). rewrite E1.
      intro H. injection H as <- <-. split; [exact Hs|]. exists (Leaf l). split; [reflexivity|].
      split; [apply leaf_allowed; assumption|]. split; [rewrite E4; lia|]. intro Hu. split; [exact Hu|]. cbn [nodes]. lia. }
    rewrite Hnoterm. cbn [andb]. unfold wt in Hw. destruct (nd_feat sol) as [f|] eqn:Ef.
    2:{ unfold num_nodes in E0. rewrite Ef in E0. rewrite !orb_true_r in E0. discriminate. }
    destruct Hw as (Hok & Hd1 & Hl & Hr & tl & tr & Atl & Atr & Hsol & _).
    rewrite restrict_left, restrict_right in *. rewrite c_split in Hsol.
    destruct (child_sol T G (V (br_left b f)) (br_left b f) d n (nd_l sol) s) as [[[lsol ld] ls] s1] eqn:E1.
    destruct (child_good (br_left b f) d n (nd_l sol) tl s lsol ld ls s1 Hs Hd1 HdD Hl Atl E1) as (G1 & L1 & L2 & L3 & L4 & L5).
    destruct (child_sol T G (V (br_right b f)) (br_right b f) d n (nd_r sol) s1) as [[[rsol rd] rs] s2] eqn:E2.
    destruct (child_good (br_right b f) d n (nd_r sol) tr s1 rsol rd rs s2 G1 Hd1 HdD Hr Atr E2) as (G2 & R1 & R2 & R3 & R4 & R5).
    destruct (construct T G fuel lsol _ _ ld ls s2) as [lt s3] eqn:E3.
    destruct (IH lsol (br_left b f) ld ls s2 lt s3) as (G3 & t1 & -> & B1 & B2 & B3); try (rewrite Nat.min_l by exact L2); try assumption; try apply G2; [lia|lia|].
    destruct (construct T G fuel rsol _ _ rd rs s3) as [rt s4] eqn:E4.
    destruct (IH rsol (br_right b f) rd rs s3 rt s4) as (G4 & t2 & -> & C1 & C2 & C3); try (rewrite Nat.min_l by exact R2); try assumption; try apply G3; [lia|lia|].
    rewrite Nat.min_l in B1 by exact L2. rewrite Nat.min_l in C1 by exact R2.
    intro H. injection H as <- <-. split; [exact G4|]. exists (Split f t1 t2). split; [reflexivity|].
    assert (Hsp' : alw T G d (2 ^ d - 1) (V b) (Split f t1 t2)).
    { assert (A : depth (Split f t1 t2) <= d) by (cbn [depth]; destruct B1 as (_ & _ & ? & _), C1 as (_ & _ & ? & _); lia).
      apply allowed_split. rewrite restrict_left, restrict_right.
      pose proof (nodes_le_full _ _ A) as A'. cbn [depth nodes] in A, A'.
      split; [exact Hok|]. split; [exact Hd1|]. split; [lia|].
      destruct B1 as (? & ? & ? & ?), C1 as (? & ? & ? & ?). repeat split; try assumption; lia. }
    split; [exact Hsp'|]. split.
    - rewrite c_split. lia.
    - intro Hu. destruct (L5 Hu) as [U1 U2]. destruct (R5 U1) as [U3 U4]. destruct (B3 U3) as [U5 U6]. destruct (C3 U5) as [U7 U8].
      split; [exact U7|]. unfold num_nodes. rewrite Ef. cbn [nodes]. lia.
  Qed.

  (** ** The loop over the budgets *)
  Section Outer.
    Context (P : params).
    Hypothesis HPD : p_depth P <= D.
    Hypothesis Hsz : mls <= vsize root.
    Definition U0 : Z := nd_sol (add_sol (init_sol T) (value_node (p_ub P))).
    Notation rc t := (tcost T root [] t).

    Definition OI (cur M : nat) (cov : tree -> Prop) (Q : outer) : Prop :=
      CInv (s_c (o_st Q)) /\ cur <= D /\ (nd_sol (o_ub Q) <= worst)%Z
      /\ (o_res Q = init_sol T \/ (wt [] cur (o_res Q) /\ num_nodes (o_res Q) <= M))
      /\ (if is_empty (o_res Q) then c_ub G = true /\ nd_sol (o_ub Q) = U0
          else (Z.min (nd_sol (o_res Q) - tk_mindiff T) U0 <= nd_sol (o_ub Q))%Z)
      /\ (forall t, cov t -> (U0 < rc t)%Z \/ (is_empty (o_res Q) = false /\ (nd_sol (o_res Q) <= rc t)%Z)).

    Lemma wt_sol_lt d r : d <= D -> wt [] d r -> (nd_sol r < worst)%Z.
    Proof. intros Hd H. pose proof (wt_range _ _ _ Hd H). lia. Qed.
    Lemma step_core cur M cov Q d n sol s s' gub' :
      OI cur M cov Q -> cur <= d -> d <= D -> d <= n <= 2 ^ d - 1 -> n <= M ->
      solve_sub T G (S d) root [] (o_ub Q) d n (o_st Q) = (sol, s) ->
      s_c s' = s_c s -> timely s ->
      (nd_sol (add_sol (o_res Q) sol) = worst -> gub' = add_sol (o_ub Q) sol) ->
      (nd_sol (add_sol (o_res Q) sol) <> worst -> (nd_sol gub' <= worst)%Z /\
         (Z.min (nd_sol (add_sol (o_res Q) sol) - tk_mindiff T) (nd_sol (add_sol (o_ub Q) sol)) <= nd_sol gub')%Z) ->
      OI d M (fun t => cov t \/ alw T G d n root t) (Outer (add_sol (o_res Q) sol) gub' s' d).
    Proof.
      intros (H1 & H2 & H3 & H4 & H5 & H6) Hcur HdD Hn HM E1 Ec Ht Hg1 Hg2.
      rewrite <- (restrict_nil root) in E1 at 1.
      assert (Hsz' : mls <= vsize (V [])) by (rewrite restrict_nil; exact Hsz).
      destruct (solve_sub_contract (S d) [] (o_ub Q) d n (o_st Q) sol s ltac:(lia) HdD Hsz' Hn H1 E1 Ht) as [A1 A2].
      assert (W0 : o_res Q = init_sol T \/ wt [] d (o_res Q) /\ num_nodes (o_res Q) <= M).
      { destruct H4 as [H4|[H4 H4']]; [auto|right]. split; [|exact H4']. eapply wt_mono; [exact H4|]. lia. }
      assert (W : add_sol (o_res Q) sol = init_sol T \/ (wt [] d (add_sol (o_res Q) sol) /\ num_nodes (add_sol (o_res Q) sol) <= M)).
      { destruct (add_either (o_res Q) sol) as [-> | ->]; [exact W0|].
        destruct A2 as [[-> _]|(A2 & A3 & _)]; [auto|right; split; [exact A2|lia]]. }
      assert (WE : is_empty (add_sol (o_res Q) sol) = true <-> nd_sol (add_sol (o_res Q) sol) = worst).
      { destruct W as [-> | [W _]]; [split; reflexivity|]. pose proof (wt_sol_lt _ _ HdD W). rewrite (wt_nonempty _ _ _ W).
        split; [discriminate|lia]. }
      assert (Hle : (nd_sol (add_sol (o_res Q) sol) <= nd_sol (o_res Q))%Z /\ (nd_sol (add_sol (o_res Q) sol) <= nd_sol sol)%Z).
      { unfold add_sol. destruct (nd_sol sol <? nd_sol (o_res Q))%Z eqn:El; [apply Z.ltb_lt in El|apply Z.ltb_ge in El]; lia. }
      assert (Hne : is_empty (add_sol (o_res Q) sol) = true -> is_empty (o_res Q) = true /\ sol = init_sol T).
      { intro He. apply WE in He. split.
        - destruct H4 as [-> | [H4 _]]; [reflexivity|]. pose proof (wt_sol_lt _ _ H2 H4). lia.
        - destruct A2 as [[-> _]|[A2 _]]; [reflexivity|]. pose proof (wt_sol_lt _ _ HdD A2). lia. }
      unfold OI. cbn [o_st o_res o_ub]. pose proof (pt_md T HT) as Hmd.
      split; [rewrite Ec; exact A1|]. split; [exact HdD|].
      assert (Hgle : (nd_sol (add_sol (o_ub Q) sol) <= nd_sol (o_ub Q))%Z) by apply add_le.
      split. { destruct (Z.eq_dec (nd_sol (add_sol (o_res Q) sol)) worst) as [Ew|Ew]; [rewrite (Hg1 Ew); lia|apply Hg2; exact Ew]. }
      split; [exact W|]. split.
      - destruct (is_empty (add_sol (o_res Q) sol)) eqn:Ee.
        + destruct (Hne eq_refl) as [E0 ->]. rewrite E0 in H5. split; [apply H5|]. rewrite Hg1 by (apply WE; reflexivity).
          unfold add_sol. cbn [init_sol value_node nd_sol]. destruct (worst <? nd_sol (o_ub Q))%Z eqn:El; [apply Z.ltb_lt in El; lia|apply H5].
        + destruct Hg2 as [_ Hg2]; [intro Hw; apply WE in Hw; congruence|].
          assert (Z.min (nd_sol (add_sol (o_res Q) sol) - tk_mindiff T) U0 <= nd_sol (o_ub Q))%Z.
          { destruct (is_empty (o_res Q)); [destruct H5 as [_ ->]; lia|]. lia. }
          revert Hg2. unfold add_sol at 2. destruct (nd_sol sol <? nd_sol (o_ub Q))%Z; lia.
      - assert (Hall : forall t, (nd_sol (o_ub Q) < rc t)%Z -> (U0 < rc t)%Z \/ (is_empty (add_sol (o_res Q) sol) = false /\ (nd_sol (add_sol (o_res Q) sol) <= rc t)%Z)).
        { intros t A3. destruct (is_empty (o_res Q)) eqn:E0; [left; lia|].
          destruct (Z.min_spec (nd_sol (o_res Q) - tk_mindiff T) U0) as [[_ Hm]|[_ Hm]]; rewrite Hm in H5; [|left; lia].
          right. split; [|lia]. destruct (is_empty (add_sol (o_res Q) sol)); [destruct (Hne eq_refl); congruence|reflexivity]. }
        intros t Ht'. destruct Ht' as [Ht'|Ht'].
        + destruct (H6 t Ht') as [?|[C1 C2]]; [auto|right]. split; [|lia].
          destruct (is_empty (add_sol (o_res Q) sol)); [destruct (Hne eq_refl); congruence|reflexivity].
        + assert (Ht0 : alw T G d n (V []) t) by (rewrite restrict_nil; exact Ht').
          assert (Hc0 : c [] t = rc t) by (rewrite restrict_nil; reflexivity).
          destruct A2 as [(_ & _ & A3)|(A2 & _ & [A3|(_ & _ & A3)])].
          * apply Hall. rewrite <- Hc0. apply A3. exact Ht0.
          * right. specialize (A3 t Ht0). rewrite Hc0 in A3. split; [|lia].
            destruct (is_empty (add_sol (o_res Q) sol)); [|reflexivity]. destruct (Hne eq_refl) as [_ ->]. apply wt_nonempty in A2. discriminate.
          * apply Hall. rewrite <- Hc0. apply A3. exact Ht0.
    Qed.
    Lemma on_time s ok s' : in_time G s = (ok, s') -> s_on s = true -> s_on s' = true /\ s_c s' = s_c s /\ (ok = true -> s_late s' = false)
       /\ (ok = false -> s_late s' = true) /\ (s_late s = true -> s_late s' = true).
    Proof.
      unfold in_time. intros H Ho. rewrite Ho in H. injection H as <- <-. cbn [s_on s_c s_late].
      repeat split; try reflexivity; [apply negb_true_iff|apply negb_false_iff|intros ->; reflexivity].
    Qed.
    Lemma sub_frame d n ub s r s' : solve_sub T G (S d) root [] ub d n s = (r, s') -> s_on s = true -> s_on s' = true /\ (s_late s = true -> s_late s' = true).
    Proof.
      intros He Ho. pose proof (fr_sub T G (S d) root [] ub d n s) as F.
      rewrite He in F. cbn [snd] in F. destruct F as (F1 & F2 & _). split; [congruence|exact F2].
    Qed.
    Lemma depth_step_spec cur M cov Q d Q' ok :
      OI cur M cov Q -> s_on (o_st Q) = true -> cur <= d -> d <= D -> d <= p_nodes P -> p_nodes P <= M ->
      depth_step T G P root Q d = (Q', ok) ->
      s_on (o_st Q') = true /\ (s_late (o_st Q) = true -> s_late (o_st Q') = true) /\ o_mds Q' = d /\ ok = negb (s_late (o_st Q'))
      /\ (timely (o_st Q') -> OI d M (fun t => cov t \/ alw T G d (Nat.min (p_nodes P) (2 ^ d - 1)) root t) Q').
    Proof.
      intros HO Hon Hcur HdD Hd HM. unfold depth_step. set (n := Nat.min (p_nodes P) (2 ^ d - 1)) in *.
      destruct (solve_sub T G (S d) root [] (o_ub Q) d n (o_st Q)) as [sol s] eqn:E1.
      destruct (in_time G (set_mdf s d)) as [ok' s1] eqn:E2. intro H. injection H as <- <-. cbn [o_st o_mds].
      destruct (sub_frame _ _ _ _ _ _ E1 Hon) as [F1 F2].
      destruct (on_time _ _ _ E2 F1) as (T1 & T2 & T4 & T5 & T6). cbn [set_mdf s_c s_late] in T2, T6.
      split; [exact T1|]. split; [auto|]. split; [reflexivity|]. split; [destruct ok'; [rewrite (T4 eq_refl)|rewrite (T5 eq_refl)]; reflexivity|]. intro Ht.
      pose proof (Nat.pow_gt_lin_r 2 d ltac:(lia)) as Hp.
      eapply step_core with (n := n); try eassumption; try (unfold n; lia).
      - unfold timely in *. destruct (s_late s); [|reflexivity]. rewrite T6 in Ht by reflexivity. discriminate.
      - intros ->. rewrite Z.eqb_refl. reflexivity.
      - intro Hw. apply Z.eqb_neq in Hw. rewrite Hw. cbn [nd_sol].
        pose proof HO as (_ & _ & H3 & _). pose proof (add_le (o_ub Q) sol). lia.
    Qed.
    Lemma nodes_step_spec cur M cov Q n Q' ok :
      OI cur M cov Q -> s_on (o_st Q) = true -> cur <= Nat.min (p_depth P) n -> n <= 2 ^ Nat.min (p_depth P) n - 1 -> n <= M ->
      nodes_step T G P root Q n = (Q', ok) ->
      s_on (o_st Q') = true /\ (s_late (o_st Q) = true -> s_late (o_st Q') = true) /\ o_mds Q' <= Nat.max (o_mds Q) (Nat.min (p_depth P) n)
      /\ ok = negb (s_late (o_st Q'))
      /\ (timely (o_st Q') -> o_mds Q' = Nat.min (p_depth P) n /\ OI (Nat.min (p_depth P) n) M (fun t => cov t \/ alw T G (Nat.min (p_depth P) n) n root t) Q').
    Proof.
      intros HO Hon Hcur Hn HM. unfold nodes_step. set (d := Nat.min (p_depth P) n) in *.
      destruct (in_time G (o_st Q)) as [ok0 s0] eqn:E0. destruct (on_time _ _ _ E0 Hon) as (S1 & S2 & S4 & S5 & S6).
      destruct ok0; cbn [negb].
      2:{ intro H. injection H as <- <-. cbn [o_res o_mds o_st o_ub]. specialize (S5 eq_refl). rewrite S5. split; [exact S1|]. split; [auto|]. split; [lia|].
          split; [reflexivity|]. unfold timely. rewrite S5. discriminate. }
      destruct (solve_sub T G (S d) root [] (o_ub Q) d n s0) as [sol s] eqn:E1.
      cbv zeta. destruct (in_time G (set_mdf s (int_log2 (n + 1)))) as [ok' s1] eqn:E2. intro H. injection H as <- <-. cbn [o_st o_mds].
      destruct (sub_frame _ _ _ _ _ _ E1 S1) as [F1 F2].
      destruct (on_time _ _ _ E2 F1) as (T1 & T2 & T4 & T5 & T6). cbn [set_mdf s_c s_late] in T2, T6.
      split; [exact T1|]. split; [auto|]. split; [lia|]. split; [destruct ok'; [rewrite (T4 eq_refl)|rewrite (T5 eq_refl)]; reflexivity|]. intro Ht. split; [reflexivity|].
      assert (HO' : OI cur M cov (Outer (o_res Q) (o_ub Q) s0 (o_mds Q))).
      { destruct HO as (A1 & A3). split; [cbn [o_st]; rewrite S2; exact A1|exact A3]. }
      change (o_res Q) with (o_res (Outer (o_res Q) (o_ub Q) s0 (o_mds Q))).
      eapply step_core with (n := n); try eassumption; cbn [o_res o_ub o_st]; try assumption; try (unfold d in *; lia).
      - unfold timely in *. destruct (s_late s); [|reflexivity]. rewrite T6 in Ht by reflexivity. discriminate.
      - intros ->. rewrite Z.eqb_refl. reflexivity.
      - intro Hw. apply Z.eqb_neq in Hw. rewrite Hw. cbn [nd_sol].
        pose proof HO as (_ & H2 & H3 & H4 & _). pose proof (pt_md T HT). pose proof (add_le (o_res Q) sol).
        assert (nd_sol (o_res Q) <= worst)%Z by (destruct H4 as [-> | [H4 _]]; [cbn; lia|pose proof (wt_sol_lt _ _ H2 H4); lia]). lia.
    Qed.
    Lemma depth_loop M len : forall d0 cur cov Q,
      OI cur M cov Q -> s_on (o_st Q) = true -> cur <= d0 -> d0 + len <= D -> d0 + len <= p_nodes P -> p_nodes P <= M ->
      let Q' := outer_loop (depth_step T G P root) Q (seq d0 (S len)) in
      s_on (o_st Q') = true /\ o_mds Q' <= d0 + len
      /\ (timely (o_st Q') -> OI (o_mds Q') M (fun t => alw T G (d0 + len) (Nat.min (p_nodes P) (2 ^ (d0 + len) - 1)) root t) Q').
    Proof.
      assert (Hcov : forall (cov cov' : tree -> Prop) q cur, (forall t, cov' t -> cov t) -> OI cur M cov q -> OI cur M cov' q).
      { intros cov cov' q cur H (A1 & A2 & A3 & A4 & A5 & A6). repeat (split; [assumption|]). auto. }
      induction len as [|len IH]; intros d0 cur cov Q HO Hon Hc HdD Hd HM; rewrite <- cons_seq; cbn [outer_loop].
      - destruct (depth_step T G P root Q d0) as [Q1 ok] eqn:E1.
        destruct (depth_step_spec _ _ _ _ _ _ _ HO Hon Hc ltac:(lia) ltac:(lia) HM E1) as (A1 & _ & A3 & _ & A5).
        assert (Hx : (if ok then outer_loop (depth_step T G P root) Q1 (seq (S d0) 0) else Q1) = Q1) by (destruct ok; reflexivity).
        rewrite Hx. split; [exact A1|]. rewrite A3, !Nat.add_0_r. split; [lia|]. intro Ht.
        eapply Hcov; [|apply A5; exact Ht]. intros t Hy. right. exact Hy.
      - destruct (depth_step T G P root Q d0) as [Q1 ok] eqn:E1.
        destruct (depth_step_spec _ _ _ _ _ _ _ HO Hon Hc ltac:(lia) ltac:(lia) HM E1) as (A1 & A2 & A3 & A4 & A5).
        unfold timely in *. destruct (s_late (o_st Q1)) eqn:El; cbn [negb] in A4; subst ok.
        + split; [exact A1|]. rewrite A3. split; [lia|]. rewrite El. discriminate.
        + destruct (IH (S d0) d0 _ Q1 (A5 eq_refl) A1 ltac:(lia) ltac:(lia) ltac:(lia) HM) as (B1 & B2 & B3).
          replace (d0 + S len) with (S d0 + len) by lia. auto.
    Qed.
    Lemma nodes_loop M len : forall n0 cur cov Q,
      OI cur M cov Q -> s_on (o_st Q) = true -> cur <= Nat.min (p_depth P) n0 -> o_mds Q <= p_depth P -> 1 <= n0 ->
      n0 + len <= 2 ^ p_depth P - 1 -> n0 + len <= M ->
      let Q' := outer_loop (nodes_step T G P root) Q (seq n0 (S len)) in
      s_on (o_st Q') = true /\ o_mds Q' <= p_depth P
      /\ (timely (o_st Q') -> OI (o_mds Q') M (fun t => alw T G (Nat.min (p_depth P) (n0 + len)) (n0 + len) root t) Q').
    Proof.
      assert (Hcov : forall (cov cov' : tree -> Prop) q cur, (forall t, cov' t -> cov t) -> OI cur M cov q -> OI cur M cov' q).
      { intros cov cov' q cur H (A1 & A2 & A3 & A4 & A5 & A6). repeat (split; [assumption|]). auto. }
      assert (Hpow : forall n, n <= 2 ^ p_depth P - 1 -> n <= 2 ^ Nat.min (p_depth P) n - 1).
      { intros n Hn. destruct (Nat.min_spec (p_depth P) n) as [[_ ->]|[_ ->]]; [exact Hn|].
        pose proof (Nat.pow_gt_lin_r 2 n ltac:(lia)). lia. }
      induction len as [|len IH]; intros n0 cur cov Q HO Hon Hc Hm H1 Hd HM; rewrite <- cons_seq; cbn [outer_loop].
      - destruct (nodes_step T G P root Q n0) as [Q1 ok] eqn:E1.
        assert (Hx : (if ok then outer_loop (nodes_step T G P root) Q1 (seq (S n0) 0) else Q1) = Q1) by (destruct ok; reflexivity).
        rewrite Hx.
        destruct (nodes_step_spec _ _ _ _ _ _ _ HO Hon Hc ltac:(apply Hpow; lia) ltac:(lia) E1) as (A1 & _ & A3 & _ & A5).
        split; [exact A1|]. split; [lia|]. rewrite !Nat.add_0_r. intro Ht. destruct (A5 Ht) as [-> A6].
        eapply Hcov; [|exact A6]. intros t Hy. right. exact Hy.
      - destruct (nodes_step T G P root Q n0) as [Q1 ok] eqn:E1.
        destruct (nodes_step_spec _ _ _ _ _ _ _ HO Hon Hc ltac:(apply Hpow; lia) ltac:(lia) E1) as (A1 & A2 & A3 & A4 & A5).
        unfold timely in *. destruct (s_late (o_st Q1)) eqn:El; cbn [negb] in A4; subst ok.
        + split; [exact A1|]. split; [lia|]. rewrite El. discriminate.
        + destruct (A5 eq_refl) as [A6 A7].
          destruct (IH (S n0) _ _ Q1 A7 A1 ltac:(lia) ltac:(lia) ltac:(lia) ltac:(lia) ltac:(lia)) as (B1 & B2 & B3).
          replace (n0 + S len) with (S n0 + len) by lia. auto.
    Qed.
    Lemma first_ub_spec s : CInv (s_c s) ->
      let '(res, gub) := first_ub T G P root (init_sol T) in
      OI 0 0 (fun t => exists l, t = Leaf l /\ l < num_labels root) (Outer res gub s (p_depth P)).
    Proof.
      intros HS. unfold first_ub. cbn [is_empty init_sol value_node nd_feat nd_lab].
      pose proof (leaf_spec [] (add_sol (init_sol T) (value_node (p_ub P)))) as H. rewrite !restrict_nil in H. specialize (H Hsz).
      destruct (solve_leaf T G root (add_sol (init_sol T) (value_node (p_ub P)))) as [res gub] eqn:Esl.
      pose proof (add_le (init_sol T) (value_node (p_ub P))) as HU. cbn [init_sol value_node nd_sol] in HU.
      pose proof (pt_md T HT) as Hmd. unfold lf_inv in H. rewrite restrict_nil in H.
      unfold OI. cbn [o_st o_res o_ub]. split; [exact HS|]. split; [lia|].
      destruct H as [(l & Hl & Hf & Hb & Hu)|(Hf & Hs & Hno)]; cbn [fst snd] in *; rewrite Hf in *.
      - cbn [leaf_node nd_sol] in *.
        assert (Hlf : alw T G 0 0 (V []) (Leaf l)) by (rewrite restrict_nil; apply leaf_allowed; assumption).
        pose proof (c_lt [] 0 0 _ (Nat.le_0_l D) Hlf) as Hlt. rewrite restrict_nil in Hlt.
        assert (Hgub : c_ub G = false -> nd_sol gub = U0).
        { intro Hu0. unfold U0. assert (Hg : gub = snd (solve_leaf T G root (add_sol (init_sol T) (value_node (p_ub P))))) by (rewrite Esl; reflexivity).
          rewrite Hg, leaf_keeps by exact Hu0. reflexivity. }
        split. { destruct (c_ub G) eqn:Ec; [destruct (Hu eq_refl) as [-> ?]; lia|rewrite (Hgub eq_refl); exact HU]. }
        split. { right. split; [|cbn; lia]. unfold wt. cbn [leaf_node nd_feat nd_lab nd_sol]. rewrite restrict_nil. exists l. auto. }
        cbn [is_empty leaf_node nd_feat nd_lab].
        split. { destruct (c_ub G) eqn:Ec; [destruct (Hu eq_refl) as [-> _]; lia|]. rewrite (Hgub eq_refl). lia. }
        intros t (l' & -> & Hl'). right. split; [reflexivity|]. apply Hb. exact Hl'.
      - split; [rewrite Hs; exact HU|]. split; [auto|]. cbn [is_empty init_sol value_node nd_feat nd_lab].
        split. { split; [apply (Hno 0); exact Hnl|]. rewrite Hs. reflexivity. }
        intros t (l' & -> & Hl'). left. apply (Hno l' Hl').
    Qed.
    Definition lim_ok : Prop := (p_all P = true \/ p_nodes P = 1) -> p_nodes P <= 2 ^ p_depth P - 1.
    Theorem solve_spec s0 : CInv (s_c s0) -> lim_ok ->
      let A := solve T G P root (init_sol T) s0 in a_proven A = true ->
      (a_sol A = init_sol T /\ a_tree A = None
         /\ (forall t, alw T G (p_depth P) (p_nodes P) root t -> (U0 < rc t)%Z))
      \/ (exists t, a_tree A = Some t /\ wt [] (p_depth P) (a_sol A) /\ num_nodes (a_sol A) <= p_nodes P
         /\ alw T G (Nat.min (p_depth P) (p_nodes P)) (2 ^ Nat.min (p_depth P) (p_nodes P) - 1) root t
         /\ (cache_used (s_c s0) = false -> nodes t <= p_nodes P)
         /\ (forall t', alw T G (p_depth P) (p_nodes P) root t' -> (U0 < rc t')%Z \/ (nd_sol (a_sol A) <= rc t')%Z)
         /\ (rc t <= nd_sol (a_sol A))%Z).
    Proof.
      intros HS Hlim. unfold solve.
      set (s := St (s_c s0) (s_ar s0) (s_tick s0) false true 0 (s_err s0)).
      pose proof (first_ub_spec s HS) as HO.
      destruct (first_ub T G P root (init_sol T)) as [res gub].
      set (Q0 := Outer res gub s (p_depth P)) in *.
      match goal with |- context [in_time G (o_st ?q)] => set (Q := q) end.
      assert (Q4 : cache_used (s_c s0) = false -> cache_used (s_c (o_st Q)) = false).
      { intro Hu. unfold Q. assert (HL : forall step, (forall q k, cache_used (s_c (o_st q)) = false -> cache_used (s_c (o_st (fst (step q k)))) = false) ->
          forall ks q, cache_used (s_c (o_st q)) = false -> cache_used (s_c (o_st (outer_loop step q ks))) = false).
        { intros step Hst. induction ks as [|k ks IH]; intros q Hq; cbn [outer_loop]; [exact Hq|].
          specialize (Hst q k Hq). destruct (step q k) as [q' ok]. cbn [fst] in Hst. destruct ok; [apply IH|]; exact Hst. }
        assert (Hit : forall st, s_c (snd (in_time G st)) = s_c st) by (intro st; unfold in_time; destruct (s_on st); reflexivity).
        destruct (_ =? 1); (apply HL; [|exact Hu]); intros q k Hq.
        - unfold nodes_step. pose proof (Hit (o_st q)) as H1. destruct (in_time G (o_st q)) as [ok s1]. cbn [snd] in H1.
          destruct ok; cbn [negb fst o_st]; [|congruence]. rewrite <- H1 in Hq.
          pose proof (used_sub T G (S (Nat.min (p_depth P) k)) root [] (o_ub q) (Nat.min (p_depth P) k) k s1 _ Hq) as H2.
          destruct (solve_sub _ _ _ _ _ _ _ _ s1) as [sol s2]. cbn [snd] in H2.
          pose proof (Hit (set_mdf s2 (int_log2 (k + 1)))) as H3. destruct (in_time G (set_mdf s2 (int_log2 (k + 1)))) as [ok2 s3]. cbn [snd fst o_st] in *. rewrite H3. exact H2.
        - unfold depth_step.
          pose proof (used_sub T G (S k) root [] (o_ub q) k (Nat.min (p_nodes P) (2 ^ k - 1)) (o_st q) _ Hq) as H2.
          destruct (solve_sub _ _ _ _ _ _ _ _ (o_st q)) as [sol s2]. cbn [snd] in H2.
          pose proof (Hit (set_mdf s2 k)) as H3. destruct (in_time G (set_mdf s2 k)) as [ok2 s3]. cbn [snd fst o_st] in *. rewrite H3. exact H2. }
      assert (HQ : s_on (o_st Q) = true /\ o_mds Q <= p_depth P
        /\ (timely (o_st Q) -> exists cur', cur' <= o_mds Q /\ OI cur' (p_nodes P) (fun t => alw T G (p_depth P) (p_nodes P) root t) Q)).
      { assert (HO' : OI 0 (p_nodes P) (fun t => exists l, t = Leaf l /\ l < num_labels root) Q0).
        { destruct HO as (B1 & B2 & B3 & B4 & B5). split; [exact B1|]. split; [exact B2|]. split; [exact B3|]. split; [|exact B5].
          destruct B4 as [B4|[B4 B4']]; [auto|right]. split; [exact B4|lia]. }
        assert (Hcov : forall (cov cov' : tree -> Prop) q cur, (forall t, cov' t -> cov t) -> OI cur (p_nodes P) cov q -> OI cur (p_nodes P) cov' q).
        { intros cov cov' q cur H (A1 & A2 & A3 & A4 & A5 & A6). repeat (split; [assumption|]). auto. }
        unfold Q. destruct ((if p_all P then 1 else p_nodes P) =? 1) eqn:Em.
        - assert (Hor : p_all P = true \/ p_nodes P = 1).
          { destruct (p_all P); [auto|]. apply Nat.eqb_eq in Em. auto. }
          specialize (Hlim Hor). destruct (p_nodes P) as [|len] eqn:En.
          + cbn [seq outer_loop]. split; [reflexivity|]. split; [cbn; lia|]. intros _.
            exists 0. split; [lia|]. eapply Hcov; [|exact HO']. intros t (A1 & _ & A3 & A4).
            destruct t as [l|]; [|cbn [nodes] in A4; lia]. exists l. split; [reflexivity|exact A1].
          + destruct (nodes_loop (S len) len 1 0 _ Q0 HO' eq_refl ltac:(lia) ltac:(cbn; lia) ltac:(lia) ltac:(lia) ltac:(lia)) as (A1 & A2 & A3).
            split; [exact A1|]. split; [exact A2|]. intro Ht. specialize (A3 Ht).
            eexists. split; [apply le_n|]. eapply Hcov; [|exact A3]. intros t Ha. cbv beta.
            replace (1 + len) with (S len) by lia. apply alw_cap in Ha. eapply allowed_mono; [exact Ha|lia|lia].
        - set (md := Nat.min (p_depth P) (p_nodes P)). set (d0 := Nat.min 2 md).
          replace (S md - d0) with (S (md - d0)) by (unfold d0; lia).
          destruct (depth_loop (p_nodes P) (md - d0) d0 0 _ Q0 HO' eq_refl ltac:(lia) ltac:(unfold d0, md; lia) ltac:(unfold d0, md; lia) ltac:(lia)) as (A1 & A2 & A3).
          replace (d0 + (md - d0)) with md in * by (unfold d0; lia).
          split; [exact A1|]. split; [assert (md <= p_depth P) by (unfold md; lia); lia|]. intro Ht. specialize (A3 Ht).
          eexists. split; [apply le_n|]. eapply Hcov; [|exact A3]. intros t Ha. apply alw_cap. exact Ha. }
      destruct HQ as (Q1 & Q2 & Q3). clearbody Q. clear HO Q0 res gub.
      destruct (in_time G (o_st Q)) as [proven s1] eqn:Et. destruct (on_time _ _ _ Et Q1) as (T1 & T2 & T4 & T5 & T6).
      assert (Htime : proven = true -> timely (o_st Q) /\ timely s1).
      { intro Hp. specialize (T4 Hp). split; [|exact T4]. unfold timely. destruct (s_late (o_st Q)); [|reflexivity]. rewrite T6 in T4 by reflexivity. discriminate. }
      destruct (nd_sol (o_res Q) =? worst)%Z eqn:Ew; cbn zeta.
      - cbn [a_sol a_tree a_proven]. intro Hp. left. destruct (Htime Hp) as [Ht _].
        destruct (Q3 Ht) as (cur & C1 & (_ & C2 & _ & C4 & C5 & C6)). apply Z.eqb_eq in Ew.
        assert (He : o_res Q = init_sol T) by (destruct C4 as [C4|[C4 _]]; [exact C4|apply (wt_sol_lt _ _ C2) in C4; lia]).
        split; [exact He|]. split; [reflexivity|]. intros t Ha. destruct (C6 t Ha) as [?|[C8 _]]; [assumption|].
        rewrite He in C8. discriminate.
      - match goal with |- context [construct T G (S ?x)] => set (dep := x) end.
        destruct (construct T G (S dep) (o_res Q) root [] dep (num_nodes (o_res Q)) s1) as [ot s2] eqn:Ec.
        cbn [a_sol a_tree a_proven]. intro Hp. right. destruct (Htime Hp) as [Ht Ht1].
        destruct (Q3 Ht) as (cur & C1 & (C2 & C3 & _ & C4 & C5 & C6)). apply Z.eqb_neq in Ew.
        destruct C4 as [C4|[C4 C4']]; [rewrite C4 in Ew; cbn in Ew; lia|].
        assert (HS1 : CInv (s_c s1)) by (rewrite T2; exact C2).
        assert (Hwd : wt [] (o_mds Q) (o_res Q)) by (eapply wt_mono; [exact C4|lia]).
        assert (Hdep : wt [] (Nat.min dep (num_nodes (o_res Q))) (o_res Q) /\ dep <= o_mds Q).
        { unfold dep. set (from := int_log2 (num_nodes (o_res Q) + 1)). set (top := Nat.min (o_mds Q) (num_nodes (o_res Q))).
          split; [|lia].
          destruct (depth_cases T s1 root (o_res Q) (S top - from) from (Nat.max from (S top)) ltac:(lia)) as [(A1 & A2 & A3)|A].
          - set (k := find_depth _ _ _ _ _ _) in *.
            assert (Hk : wt [] k (o_res Q)).
            { rewrite <- (restrict_nil root) in A3 at 1.
              destruct (CInv_retrieve (s_c s1) [] k (num_nodes (o_res Q)) HS1) as [Hx|(_ & W1 & _)].
              - rewrite A3 in Hx. rewrite Hx in Ew. cbn in Ew. lia.
              - rewrite A3 in W1. exact W1. }
            eapply wt_mono with (d := Nat.min k (o_mds Q)); [|lia].
            destruct (Nat.min_spec k (o_mds Q)) as [[_ ->]|[_ ->]]; assumption.
          - rewrite A. eapply wt_mono; [exact Hwd|]. unfold top. lia. }
        destruct Hdep as [Hdw Hdm].
        assert (Ec' : construct T G (S dep) (o_res Q) (V []) [] dep (num_nodes (o_res Q)) s1 = (ot, s2)) by (rewrite restrict_nil; exact Ec).
        destruct (construct_spec (S dep) (o_res Q) [] dep (num_nodes (o_res Q)) s1 ot s2 ltac:(lia) ltac:(lia) HS1 Ht1 Hdw Ec') as (D1 & t & -> & D2 & D3 & D4).
        rewrite restrict_nil in D2, D3. exists t. split; [reflexivity|].
        split; [eapply wt_mono; [exact Hwd|lia]|]. split; [exact C4'|].
        split. { eapply allowed_mono; [exact D2|lia|]. assert (2 ^ Nat.min dep (num_nodes (o_res Q)) <= 2 ^ Nat.min (p_depth P) (p_nodes P)) by (apply Nat.pow_le_mono_r; lia). lia. }
        split. { intro Hu. assert (Hu1 : cache_used (s_c s1) = false) by (rewrite T2; apply Q4; exact Hu). destruct (D4 Hu1). lia. }
        split; [|exact D3].
        intros t' Ha. destruct (C6 t' Ha) as [?|[_ ?]]; auto.
    Qed.
  End Outer.
End Plain.
