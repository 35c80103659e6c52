(** Regression fits: the values of the search are the squared errors of regression trees. *)
From Coq Require Import List Arith Bool Lia ZArith QArith Qround Qminmax Lqa Permutation.
From Verif Require Import Base_Q Model_FeatureVector Model_Data Model_Node Model_Cache Model_Terminal Model_Heap Model_Solver Model_Preproc Model_CostComplex Model_Regression Model_Tasks Model_RegFit
  Spec_Tree Spec_Rows Spec_Tasks Spec_Reg Proofs_View Proofs_Feature Proofs_Base Proofs_Preproc Proofs_Plain Proofs_PlainFit Proofs_Near Proofs_NearFit Proofs_Task Props_Regression.
Import ListNotations.
Local Open Scope nat_scope.

Lemma zfact_pos n : (0 < zfact n)%Z.
Proof. induction n as [|n IH]; cbn [zfact]; lia. Qed.
Lemma zfact_div n w : 1 <= w <= n -> exists k, zfact n = (k * Z.of_nat w)%Z.
Proof.
  induction n as [|n IH]; intro H; [lia|]. change (zfact (S n)) with (Z.of_nat (S n) * zfact n)%Z. destruct (Nat.eq_dec w (S n)) as [->|N].
  - exists (zfact n). lia.
  - destruct IH as (k & ->); [lia|]. exists (Z.of_nat (S n) * k)%Z. lia.
Qed.
Lemma qfloor_int (q : Q) z : (q == inject_Z z)%Q -> Qfloor q = z.
Proof. intro H. rewrite (Qfloor_comp _ _ H). apply Qfloor_Z. Qed.

(** The tree without its predictions. *)
Fixpoint shape (t : rtree) : tree := match t with RLeaf _ => Leaf 0 | RSplit f l r => Split f (shape l) (shape r) end.
Lemma shape_depth t : depth (shape t) = rdepth t.
Proof. induction t; cbn; congruence. Qed.
Lemma shape_nodes t : nodes (shape t) = rnodes t.
Proof. induction t; cbn; congruence. Qed.
Lemma shape_fits nf t : fits (fun f => f < nf) 1 (shape t) <-> rfits nf t.
Proof. induction t as [c|f l IHl r IHr]; cbn [shape fits rfits]; [lia|]. rewrite IHl, IHr. reflexivity. Qed.
Lemma fill_depth t : forall xs, rdepth (fill xs t) = depth t.
Proof. induction t as [l|f l IHl r IHr]; intro xs; cbn [fill rdepth depth]; [reflexivity|]. rewrite IHl, IHr. reflexivity. Qed.
Lemma fill_nodes t : forall xs, rnodes (fill xs t) = nodes t.
Proof. induction t as [l|f l IHl r IHr]; intro xs; cbn [fill rnodes nodes]; [reflexivity|]. rewrite IHl, IHr. reflexivity. Qed.
Lemma fill_fits nf t : forall xs, fits (fun f => f < nf) 1 t -> rfits nf (fill xs t).
Proof. induction t as [l|f l IHl r IHr]; intro xs; cbn [fill rfits fits]; [trivial|]. intros (A & B & C). auto. Qed.

(** The error of the best leaves for a tree. *)
Fixpoint terr (ys : list ritem) (t : tree) : Q :=
  match t with
  | Leaf _ => item_err ys
  | Split f l r => (terr (filter (fun i => negb (has f (r_x i))) ys) l + terr (filter (fun i => has f (r_x i)) ys) r)%Q
  end.
Lemma err_sums ys : (item_err ys == sumQ r_q ys - sumQ r_y ys * sumQ r_y ys / qn (weight ys))%Q /\ (item_mean ys == sumQ r_y ys / qn (weight ys))%Q.
Proof. unfold item_err, item_mean. destruct (cc_sums_eq ys) as [[A B] C]. destruct (cc_sums ys) as [[y q] w]. cbn [fst snd] in *. subst w. rewrite A, B. split; reflexivity. Qed.
Lemma weight_pos ys : Forall item_ok ys -> ys <> [] -> 0 < weight ys.
Proof. intros H N. destruct ys as [|i ys]; [congruence|]. inversion H as [|? ? [W _] _]; subst. cbn. lia. Qed.
Lemma err_best ys c : Forall item_ok ys -> (item_err ys <= cc_leaf_costs ys c)%Q.
Proof.
  intro H. rewrite (leaf_costs_sum ys c H), <- phi_sum. destruct (err_sums ys) as [E _]. rewrite E. unfold phi.
  destruct ys as [|i ys]; [cbn [sumQ weight fold_right]; change (qn 0) with 0%Q; change (0 - 0 * 0 / 0)%Q with 0%Q; lra|]. apply square_min. apply qn_pos. apply weight_pos; [exact H|discriminate].
Qed.
Lemma err_mean ys : Forall item_ok ys -> (cc_leaf_costs ys (item_mean ys) == item_err ys)%Q.
Proof.
  intro H. rewrite (leaf_costs_sum ys _ H), <- phi_sum. destruct (err_sums ys) as [E M]. rewrite E. unfold phi. rewrite M.
  destruct ys as [|i ys]; [vm_compute; reflexivity|]. apply square_at. apply qn_pos. apply weight_pos; [exact H|discriminate].
Qed.
Lemma err_nonneg ys : Forall item_ok ys -> (0 <= item_err ys)%Q.
Proof. intro H. rewrite <- (err_mean ys H). unfold cc_leaf_costs. destruct (cc_sums ys) as [[y q] w]. apply Q.le_max_l. Qed.
Lemma err_squares ys : Forall item_ok ys -> (item_err ys <= sumQ r_q ys)%Q.
Proof. intro H. pose proof (err_best ys 0 H) as B. rewrite (leaf_costs_sum ys 0 H), <- phi_sum in B. unfold phi in B. lra. Qed.
Lemma terr_fill t : forall ys, Forall item_ok ys -> (cc_tree_cost ys (fill ys t) == terr ys t)%Q.
Proof.
  induction t as [l|f l IHl r IHr]; intros ys H; cbn [fill cc_tree_cost terr]; [apply err_mean; exact H|].
  rewrite IHl, IHr by (apply forall_filter; exact H). reflexivity.
Qed.
Lemma terr_best t : forall ys, Forall item_ok ys -> (terr ys (shape t) <= cc_tree_cost ys t)%Q.
Proof.
  induction t as [c|f l IHl r IHr]; intros ys H; cbn [shape cc_tree_cost terr]; [apply err_best; exact H|].
  pose proof (IHl _ (forall_filter _ (fun i => negb (has f (r_x i))) _ H)). pose proof (IHr _ (forall_filter _ (fun i => has f (r_x i)) _ H)). lra.
Qed.
Lemma weight_filter g ys : weight (filter g ys) <= weight ys.
Proof. induction ys as [|i ys IH]; [cbn; lia|]. cbn [filter]. destruct (g i); unfold weight in *; cbn [fold_right]; lia. Qed.

(** Items with whole sums. *)
Definition whole (i : ritem) : Prop := (exists a, r_y i == inject_Z a)%Q /\ (exists b, r_q i == inject_Z b)%Q.
Lemma whole_sums ys : Forall whole ys -> (exists a, sumQ r_y ys == inject_Z a)%Q /\ (exists b, sumQ r_q ys == inject_Z b)%Q.
Proof.
  induction 1 as [|i ys [(a & A) (b & B)] _ [(a' & A') (b' & B')]]; cbn [sumQ]; [split; exists 0%Z; reflexivity|].
  split; [exists (a + a')%Z; rewrite A, A', inject_Z_plus; reflexivity|exists (b + b')%Z; rewrite B, B', inject_Z_plus; reflexivity].
Qed.

Section Items.
  Context (S : Z) (xs : list ritem) (bc : option Z) (nf : nat) (qmax : Z).
  Notation T := (reg_task S xs bc).
  Notation v := (item_view xs).
  Notation bcv := (match bc with Some z => z | None => 0%Z end).
  Hypothesis HS : (0 < S)%Z.
  Hypothesis Hdiv : forall w, 1 <= w <= weight xs -> exists k, S = (k * Z.of_nat w)%Z.
  Hypothesis Hok : Forall item_ok xs.
  Hypothesis Hwh : Forall whole xs.
  Hypothesis Hfv : Forall (fun i => exists bits, length bits = nf /\ ifv (r_x i) = fv_make bits) xs.
  Hypothesis Hbc : (0 <= bcv)%Z.
  Hypothesis Hq : Forall (fun i => (r_q i <= inject_Z qmax)%Q) xs.
  Hypothesis Hqm : (0 <= qmax)%Z.

  Notation pairs := (combine (seq 0 (length xs)) xs).
  Notation mk := (fun p : nat * ritem => Inst (fst p) (ifv (r_x (snd p)))).

  Lemma pairs_in k i : In (k, i) pairs -> k < length xs /\ nth k xs no_item = i.
  Proof.
    intro H. assert (G : forall l s, In (k, i) (combine (seq s (length l)) l) -> s <= k < s + length l /\ nth (k - s) l no_item = i).
    { induction l as [|x l IH]; intros s; cbn [length seq combine]; [intros []|]. intros [[= <- <-]|Hin].
      - split; [lia|]. rewrite Nat.sub_diag. reflexivity.
      - apply IH in Hin. destruct Hin as [A B]. split; [lia|]. replace (k - s) with (Datatypes.S (k - Datatypes.S s)) by lia. exact B. }
    apply G in H. rewrite Nat.sub_0_r in H. split; [lia|apply H].
  Qed.
  Lemma pairs_snd : map snd pairs = xs.
  Proof. assert (G : forall (l : list ritem) s, map snd (combine (seq s (length l)) l) = l) by (induction l as [|x l IH]; intro s; cbn; [reflexivity|rewrite IH; reflexivity]). apply G. Qed.
  Lemma pairs_fst : map fst pairs = seq 0 (length xs).
  Proof. assert (G : forall (l : list ritem) s, map fst (combine (seq s (length l)) l) = seq s (length l)) by (induction l as [|x l IH]; intro s; cbn; [reflexivity|rewrite IH; reflexivity]). apply G. Qed.
  Lemma item_size : vsize v = length xs.
  Proof. unfold vsize, item_view. cbn [concat]. rewrite app_nil_r, map_length, combine_length, seq_length. lia. Qed.
  Lemma item_loaded : loaded nf v.
  Proof.
    assert (Hids : map iid (concat v) = seq 0 (length xs)) by (unfold item_view; cbn [concat]; rewrite app_nil_r, map_map; cbn [iid]; exact pairs_fst).
    constructor.
    - intros x Hx. unfold item_view in Hx. cbn [concat] in Hx. rewrite app_nil_r in Hx. apply in_map_iff in Hx. destruct Hx as ([k i] & <- & Hin). cbn [ifv snd].
      apply (proj1 (Forall_forall _ _) Hfv). rewrite <- pairs_snd. apply in_map_iff. exists (k, i). auto.
    - rewrite Hids. apply seq_NoDup.
    - intros x Hx. rewrite item_size. apply (in_map iid) in Hx. rewrite Hids in Hx. apply in_seq in Hx. lia.
    - unfold item_view. constructor; [|constructor].
      assert (G : forall (l : list ritem) s, Sorted.StronglySorted (fun x y => iid x < iid y) (map mk (combine (seq s (length l)) l))).
      { induction l as [|i l IH]; intro s; cbn [length seq combine map]; constructor; [apply IH|]. apply Forall_forall. intros y Hy. apply in_map_iff in Hy. destruct Hy as ([k j] & <- & Hin).
        apply in_combine_l in Hin. apply in_seq in Hin. cbn [iid fst]. lia. }
      apply G.
  Qed.

  (** Parts of the data as lists of numbered items. *)
  Definition part (L : list (nat * ritem)) : view := [map mk L].
  Lemma part_left f L : split_left f (part L) = part (filter (fun p => negb (has f (r_x (snd p)))) L).
  Proof. unfold part, split_left. cbn [map]. rewrite filter_map_comm. reflexivity. Qed.
  Lemma part_right f L : split_right f (part L) = part (filter (fun p => has f (r_x (snd p))) L).
  Proof. unfold part, split_right. cbn [map]. rewrite filter_map_comm. reflexivity. Qed.
  Lemma part_items L : incl L pairs -> view_items xs (part L) = map snd L.
  Proof.
    intro H. unfold view_items, part. cbn [concat]. rewrite app_nil_r, map_map. apply map_ext_in. intros [k i] Hin. cbn [iid fst snd]. apply (pairs_in k i (H _ Hin)).
  Qed.
  Lemma map_snd_filter (g : ritem -> bool) (L : list (nat * ritem)) : map snd (filter (fun p => g (snd p)) L) = filter g (map snd L).
  Proof. rewrite filter_map_comm. reflexivity. Qed.
  Lemma leaf_whole ys : Forall item_ok ys -> Forall whole ys -> weight ys <= weight xs -> exists z, (inject_Z S * item_err ys == inject_Z z)%Q.
  Proof.
    intros H1 H2 H3. destruct (err_sums ys) as [E _]. destruct (whole_sums ys H2) as [(a & A) (b & B)].
    destruct ys as [|i ys].
    - exists 0%Z. rewrite E. cbn [sumQ weight fold_right]. change (qn 0) with 0%Q. change (0 - 0 * 0 / 0)%Q with 0%Q. ring.
    - pose proof (weight_pos (i :: ys) H1 ltac:(discriminate)) as Hw. destruct (Hdiv (weight (i :: ys)) ltac:(lia)) as (k & Hk).
      exists (S * b - k * (a * a))%Z. rewrite E, A, B. unfold Z.sub. rewrite inject_Z_plus, inject_Z_opp, !inject_Z_mult.
      assert (HQ : (inject_Z S == inject_Z k * qn (weight (i :: ys)))%Q) by (rewrite Hk, inject_Z_mult; reflexivity).
      pose proof (qn_pos _ Hw). rewrite HQ. field. lra.
  Qed.
  Lemma part_cost t : forall L b, incl L pairs -> weight (map snd L) <= weight xs ->
    (inject_Z (tcost T (part L) b t) == inject_Z S * terr (map snd L) t + inject_Z bcv * qn (nodes t))%Q.
  Proof.
    induction t as [l|f l IHl r IHr]; intros L b HL HW; cbn [tcost terr nodes].
    - cbn [reg_task tk_leaf]. rewrite (part_items L HL).
      assert (H1 : Forall item_ok (map snd L) /\ Forall whole (map snd L)).
      { split; apply Forall_forall; intros i Hi; apply in_map_iff in Hi; destruct Hi as ([k j] & <- & Hin); apply HL in Hin; apply in_combine_r in Hin; cbn [snd];
          [apply (proj1 (Forall_forall _ _) Hok)|apply (proj1 (Forall_forall _ _) Hwh)]; exact Hin. }
      destruct (leaf_whole _ (proj1 H1) (proj2 H1) HW) as (z & Hz). rewrite (qfloor_int _ _ Hz), <- Hz. change (qn 0) with 0%Q. ring.
    - rewrite !inject_Z_plus, part_left, part_right.
      assert (F : forall g, incl (filter g L) pairs) by (intros g p Hp; apply filter_In in Hp; apply HL; apply Hp).
      assert (FW : forall g : ritem -> bool, weight (map snd (filter (fun p => g (snd p)) L)) <= weight xs) by (intro g; rewrite map_snd_filter; pose proof (weight_filter g (map snd L)); lia).
      rewrite (IHl _ (br_left b f) (F _) (FW (fun i => negb (has f (r_x i))))), (IHr _ (br_right b f) (F _) (FW (fun i => has f (r_x i)))).
      rewrite (map_snd_filter (fun i => negb (has f (r_x i)))), (map_snd_filter (fun i => has f (r_x i))).
      assert (E : bcost T (vsize (part L)) b f = bcv) by (unfold bcost; cbn [reg_task tk_bc]; destruct bc; reflexivity). rewrite E.
      rewrite qn_S, qn_add. ring.
  Qed.
  Lemma view_cost t : (inject_Z (tcost T v [] t) == inject_Z S * terr xs t + inject_Z bcv * qn (nodes t))%Q.
  Proof. change v with (part pairs). rewrite (part_cost t pairs [] (incl_refl _)); [|rewrite pairs_snd; lia]. rewrite pairs_snd. reflexivity. Qed.

  Lemma no_item_ok : item_ok no_item.
  Proof. split; [cbn; lia|]. cbn. vm_compute. discriminate. Qed.
  Lemma view_items_ok u : Forall item_ok (view_items xs u).
  Proof.
    apply Forall_forall. intros i Hi. apply in_map_iff in Hi. destruct Hi as (x & <- & _). destruct (nth_in_or_default (iid x) xs no_item) as [H|H]; [apply (proj1 (Forall_forall _ _) Hok); exact H|rewrite H; exact no_item_ok].
  Qed.
  Lemma view_items_q u : (sumQ r_q (view_items xs u) <= inject_Z (Z.of_nat (vsize u) * qmax))%Q.
  Proof.
    unfold view_items, vsize. induction (concat u) as [|x l IH]; cbn [map sumQ length]; [vm_compute; discriminate|].
    replace (Z.of_nat (Datatypes.S (length l)) * qmax)%Z with (qmax + Z.of_nat (length l) * qmax)%Z by lia. rewrite inject_Z_plus.
    assert (r_q (nth (iid x) xs no_item) <= inject_Z qmax)%Q; [|lra].
    destruct (nth_in_or_default (iid x) xs no_item) as [H|H]; [apply (proj1 (Forall_forall _ _) Hq); exact H|rewrite H]. cbn [no_item r_q]. change 0%Q with (inject_Z 0). rewrite <- Zle_Qle. exact Hqm.
  Qed.
  Lemma leaf_range u l : (0 <= tk_leaf T u l <= S * (Z.of_nat (vsize u) * qmax))%Z.
  Proof.
    cbn [reg_task tk_leaf]. pose proof (err_nonneg _ (view_items_ok u)) as H0. pose proof (err_squares _ (view_items_ok u)) as H1. pose proof (view_items_q u) as H2.
    assert (HSq : (0 < inject_Z S)%Q) by (change 0%Q with (inject_Z 0); rewrite <- Zlt_Qlt; exact HS).
    set (e := item_err (view_items xs u)) in *. split.
    - change 0%Z with (Qfloor (inject_Z 0)). apply Qfloor_resp_le. change (inject_Z 0) with 0%Q. apply Qmult_le_0_compat; lra.
    - rewrite <- (Qfloor_Z (S * (Z.of_nat (vsize u) * qmax))). apply Qfloor_resp_le. rewrite (inject_Z_mult S). rewrite Qmult_comm, (Qmult_comm (inject_Z S)). apply Qmult_le_compat_r; lra.
  Qed.
  Lemma bcost_eq n b f : bcost T n b f = bcv.
  Proof. unfold bcost. cbn [reg_task tk_bc]. destruct bc; reflexivity. Qed.
  Lemma reg_plain : plain_task T.
  Proof.
    constructor.
    - intros u l. apply leaf_range.
    - intros n b f. rewrite bcost_eq. exact Hbc.
    - cbn. lia.
    - exact t_sdom_lt.
    - exact t_dom_refl.
    - exact t_eq_0.
  Qed.
  Lemma reg_near : near_task T.
  Proof. constructor; [exact reg_plain|reflexivity|]. intros a b _ H. cbn [reg_task tk_sdom] in H. unfold t_sdom in H. apply Z.ltb_ge in H. exact H. Qed.
  Lemma tcost_bound t : forall u b, (tcost T u b t <= S * (Z.of_nat (vsize u) * qmax) + bcv * Z.of_nat (nodes t))%Z.
  Proof.
    induction t as [l|f l IHl r IHr]; intros u b; cbn [tcost nodes]; [pose proof (leaf_range u l); lia|].
    specialize (IHl (split_left f u) (br_left b f)). specialize (IHr (split_right f u) (br_right b f)). rewrite bcost_eq.
    pose proof (vsize_split f u) as E. rewrite E, Nat2Z.inj_add. lia.
  Qed.

  (** Leaves of trees on lists of items. *)
  Fixpoint ileaves (m : nat) (ys : list ritem) (t : tree) : Prop :=
    match t with
    | Leaf _ => m <= length ys
    | Split f l r => ileaves m (filter (fun i => negb (has f (r_x i))) ys) l /\ ileaves m (filter (fun i => has f (r_x i)) ys) r
    end.
  Lemma part_leaves m t : forall L, leaves_ok m (concat (part L)) t <-> ileaves m (map snd L) t.
  Proof.
    induction t as [l|f l IHl r IHr]; intro L; cbn [leaves_ok ileaves].
    - unfold part. cbn [concat]. rewrite app_nil_r, !map_length. reflexivity.
    - rewrite <- (map_snd_filter (fun i => negb (has f (r_x i)))), <- (map_snd_filter (fun i => has f (r_x i))), <- IHl, <- IHr.
      unfold part. cbn [concat]. rewrite !app_nil_r, !filter_map_comm. reflexivity.
  Qed.
  Lemma item_leaves m t : leaves_ok m (concat v) t <-> ileaves m xs t.
  Proof. change v with (part pairs). rewrite part_leaves, pairs_snd. reflexivity. Qed.

  Context (W : switches) (P : params) (clk : nat -> bool).
  Hypothesis Hmls : 1 <= w_mls W <= length xs.
  Hypothesis Hlb : w_lb W = false.
  Hypothesis Hterm : w_term W = false.
  Hypothesis Hub : bc <> None -> w_ub W = true.
  Hypothesis Hnodes : p_all P = true \/ p_nodes P = 1 -> p_nodes P <= 2 ^ p_depth P - 1.
  Hypothesis Hmost : (S * (Z.of_nat (length xs) * qmax) + bcv * Z.of_nat (2 ^ p_depth P - 1) <= S * Z.min (upper_bound (p_ub P)) (2 ^ 1023))%Z.
  Hypothesis Hlab : Forall (fun i => (r_y i < inject_Z int32_max * qn (r_w i))%Q) xs.

  Lemma mean_label ys : Forall (fun i => (r_y i < inject_Z int32_max * qn (r_w i))%Q) ys -> Forall item_ok ys -> no_label (item_mean ys) = false.
  Proof.
    intros H1 H2. unfold no_label. destruct (Qeq_bool (item_mean ys) (inject_Z int32_max)) eqn:E; [|reflexivity]. exfalso. apply Qeq_bool_iff in E.
    rewrite (proj2 (err_sums ys)) in E. destruct ys as [|i ys]; [vm_compute in E; discriminate|].
    pose proof (weight_pos (i :: ys) H2 ltac:(discriminate)) as Hw. apply qn_pos in Hw.
    assert (X : forall zs, Forall (fun i => (r_y i < inject_Z int32_max * qn (r_w i))%Q) zs -> (sumQ r_y zs <= inject_Z int32_max * qn (weight zs))%Q).
    { induction 1 as [|z zs Hz _ IH]; cbn [sumQ weight fold_right]; [change (qn 0) with 0%Q; lra|]. rewrite qn_add. unfold weight in IH. lra. }
    inversion H1 as [|? ? Hi Hr]; subst. apply X in Hr.
    assert (Y : (sumQ r_y (i :: ys) < inject_Z int32_max * qn (weight (i :: ys)))%Q) by (cbn [sumQ weight fold_right]; rewrite qn_add; unfold weight in Hr; lra).
    set (w := qn (weight (i :: ys))) in *. set (y := sumQ r_y (i :: ys)) in *. assert (Z : (y == y / w * w)%Q) by (field; lra). rewrite E in Z. lra.
  Qed.
  Lemma walks_fill t : forall ys, Forall (fun i => (r_y i < inject_Z int32_max * qn (r_w i))%Q) ys -> Forall item_ok ys -> walks (fill ys t) = true.
  Proof.
    induction t as [l|f l IHl r IHr]; intros ys H1 H2; cbn [fill walks]; [rewrite mean_label by assumption; reflexivity|].
    rewrite IHl, IHr by (apply forall_filter; assumption). reflexivity.
  Qed.
  Lemma nodes_full t : nodes t <= 2 ^ depth t - 1.
  Proof.
    induction t as [l|f l IHl r IHr]; cbn [nodes depth]; [cbn; lia|].
    pose proof (Nat.pow_le_mono_r 2 (depth l) (Nat.max (depth l) (depth r)) ltac:(lia) ltac:(lia)).
    pose proof (Nat.pow_le_mono_r 2 (depth r) (Nat.max (depth l) (depth r)) ltac:(lia) ltac:(lia)).
    rewrite Nat.pow_succ_r'. pose proof (Nat.pow_nonzero 2 (depth l)). pose proof (Nat.pow_nonzero 2 (depth r)). lia.
  Qed.

  Notation R := (fit_items S bc xs W P nf clk).
  Theorem items_fit : rg_proven R = true ->
    exists t, rg_tree R = Some (fill xs t) /\ rg_walks R = true
      /\ fits (fun f => f < nf) 1 t /\ ileaves (w_mls W) xs t /\ depth t <= p_depth P /\ nodes t <= 2 ^ p_depth P - 1
      /\ (exists s, rg_score R = Some s /\ s == terr xs t / qn (weight xs))%Q
      /\ forall t', fits (fun f => f < nf) 1 t' -> ileaves (w_mls W) xs t' -> depth t' <= p_depth P -> nodes t' <= p_nodes P ->
           q_at_most (slack (p_depth P)) (terr xs t + inject_Z bcv / inject_Z S * qn (nodes t)) (terr xs t' + inject_Z bcv / inject_Z S * qn (nodes t')).
  Proof.
    intro Hp. unfold fit_items in *. cbn [rg_proven rg_tree rg_score rg_walks] in *.
    set (P' := Params (p_depth P) (p_nodes P) (p_all P) (S * upper_bound (p_ub P))) in *.
    set (Z0 := (S * (Z.of_nat (length xs) * qmax) + bcv * Z.of_nat (2 ^ p_depth P - 1))%Z) in *.
    assert (HZ0 : (Z0 <= S * upper_bound (p_ub P) /\ Z0 <= S * 2 ^ 1023)%Z) by nia.
    assert (HSq : (0 < inject_Z S)%Q) by (change 0%Q with (inject_Z 0); rewrite <- Zlt_Qlt; exact HS).
    assert (Hdm : (10001 * 2 ^ 1023 < 10000 * dbl_max)%Z) by (vm_compute; reflexivity).
    destruct (near_fit T reg_near W P' nf clk v Z0) as (t & R1 & R2 & R3 & R4).
    - lia.
    - reflexivity.
    - exact item_loaded.
    - cbn. lia.
    - rewrite item_size. lia.
    - intros u u' l E. cbn [reg_task tk_leaf]. assert (X : map iid (concat u) = map iid (concat u')) by (rewrite !concat_map, E; reflexivity).
      assert (Y : forall u, view_items xs u = map (fun k => nth k xs no_item) (map iid (concat u))) by (intro; unfold view_items; rewrite map_map; reflexivity).
      rewrite !Y, X. reflexivity.
    - intros n b b' f _. rewrite !bcost_eq. reflexivity.
    - left. intros. rewrite !bcost_eq. reflexivity.
    - exact Hlb.
    - exact Hterm.
    - intro E. split; [apply Hub; cbn [reg_task tk_sparse] in E; destruct bc; discriminate|]. exists bcv. intros. apply bcost_eq.
    - intros _ n b b' f. rewrite !bcost_eq. reflexivity.
    - intros u b t Hu Hd. cbn [P' p_depth] in Hd. rewrite item_size in Hu. pose proof (tcost_bound t u b) as B. pose proof (nodes_full t) as N.
      assert (2 ^ depth t <= 2 ^ p_depth P) by (apply Nat.pow_le_mono_r; lia). assert (nodes t <= 2 ^ p_depth P - 1) by lia.
      assert (S * (Z.of_nat (vsize u) * qmax) <= S * (Z.of_nat (length xs) * qmax))%Z by (apply Z.mul_le_mono_nonneg_l; [lia|apply Z.mul_le_mono_nonneg_r; lia]).
      assert (bcv * Z.of_nat (nodes t) <= bcv * Z.of_nat (2 ^ p_depth P - 1))%Z by (apply Z.mul_le_mono_nonneg_l; lia).
      unfold Z0. lia.
    - intros z Hz. cbn [reg_task tk_sdom tk_worst]. unfold t_sdom. apply Z.ltb_lt. nia.
    - cbn [reg_task tk_worst]. nia.
    - exact Hnodes.
    - exact Hp.
    - cbn [P' p_ub]. lia.
    - cbn [P' p_depth p_nodes] in *. destruct R2 as (A1 & A2 & A3 & A4). rewrite R1. cbn [option_map]. exists t. split; [reflexivity|]. split; [apply walks_fill; assumption|].
      split; [exact A1|]. split; [apply item_leaves; exact A2|]. split; [lia|].
      split; [pose proof (Nat.pow_le_mono_r 2 (Nat.min (p_depth P) (p_nodes P)) (p_depth P) ltac:(lia) ltac:(lia)); lia|]. split.
      + eexists. split; [reflexivity|]. rewrite (proj2 (cc_sums_eq xs)), (terr_fill t xs Hok). reflexivity.
      + intros t' B1 B2 B3 B4. assert (Ht' : allowed (fun f => f < nf) (w_mls W) (p_depth P) (p_nodes P) v t') by (split; [exact B1|]; split; [apply item_leaves; exact B2|]; auto).
        specialize (R4 t' Ht'). unfold at_most in R4. unfold q_at_most. rewrite Zle_Qle, !inject_Z_mult, !view_cost in R4.
        set (a := inject_Z (10000 ^ _)) in *. set (b := inject_Z (10001 ^ _)) in *. set (x := qn (nodes t)) in *. set (y := qn (nodes t')) in *.
        apply (Qmult_le_l _ _ (inject_Z S) HSq).
        assert (E1 : (inject_Z S * ((terr xs t + inject_Z bcv / inject_Z S * x) * a) == (inject_Z S * terr xs t + inject_Z bcv * x) * a)%Q) by (field; lra).
        assert (E2 : (inject_Z S * ((terr xs t' + inject_Z bcv / inject_Z S * y) * b) == (inject_Z S * terr xs t' + inject_Z bcv * y) * b)%Q) by (field; lra).
        rewrite E1, E2. exact R4.
  Qed.
End Items.
