(** C103: the depth-two solver for regression trees. *)
From Coq Require Import List Arith Bool Lia ZArith QArith Qabs Lqa Permutation Sorted.
From Verif Require Import Base_Q Model_FeatureVector Model_Data Model_Node Model_Terminal Model_Regression Model_SimpleLinear Model_RegFit Model_TermReg
  Spec_Tree Spec_Rows Spec_Reg Spec_TermReg Proofs_View Proofs_Diff Proofs_Feature Proofs_Calc Proofs_TermState Props_Regression Proofs_RegFit Props_RegFit Proofs_TermReg.
Import ListNotations.
Local Open Scope nat_scope.

(** * From views to items *)
Definition code (p : path) : branch := map (fun c => br_code (fst c) (snd c)) p.
Definition isat (b : branch) (i : ritem) : bool := forallb (fun c => Bool.eqb (has (c / 2) (r_x i)) (Nat.odd c)) b.

Section Items.
  Context (cc : bool) (xs : list ritem) (nf : nat).
  Notation it := (rt_item xs).
  Notation root := (rt_view xs).
  Hypothesis Hok : Forall item_ok xs.
  Hypothesis Hfv : Forall (fun i => exists bits, length bits = nf /\ ifv (r_x i) = fv_make bits) xs.

  Lemma it_ok x : item_ok (it x).
  Proof. unfold rt_item. destruct (nth_in_or_default (iid x) xs no_item) as [H|H]; [apply (proj1 (Forall_forall _ _) Hok _ H)|rewrite H; apply no_item_ok]. Qed.
  Lemma root_concat : concat root = map (fun p => Inst (fst p) (fv_compute_pairs (ifv (r_x (snd p))))) (combine (seq 0 (length xs)) xs).
  Proof. unfold rt_view, item_view. cbn [map concat]. rewrite app_nil_r, map_map. reflexivity. Qed.
  Lemma root_in x : In x (concat root) -> In (it x) xs /\ ifv x = fv_compute_pairs (ifv (r_x (it x))).
  Proof.
    rewrite root_concat. intro H. apply in_map_iff in H. destruct H as ([k i] & <- & H). unfold rt_item. cbn [iid fst snd ifv]. destruct (pairs_in xs k i H) as [A B]. rewrite B. split; [|reflexivity]. rewrite <- B. apply nth_In. exact A.
  Qed.
  Lemma root_items : map it (concat root) = xs.
  Proof.
    rewrite root_concat, map_map. rewrite (map_ext_in _ (@snd nat ritem)); [apply pairs_snd|]. intros [k i] H. unfold rt_item. cbn [iid fst snd]. apply (pairs_in xs k i H).
  Qed.
  Lemma root_sorted : view_sorted root.
  Proof.
    unfold rt_view, item_view. cbn [map]. constructor; [|constructor].
    assert (G : forall (l : list ritem) s, id_sorted (map (fun x => Inst (iid x) (fv_compute_pairs (ifv x))) (map (fun p => Inst (fst p) (ifv (r_x (snd p)))) (combine (seq s (length l)) l)))).
    { induction l as [|i l IH]; intro s; cbn [length seq combine map]; constructor; [apply IH|]. apply Forall_forall. intros y Hy. rewrite map_map in Hy. apply in_map_iff in Hy. destruct Hy as ([k j] & <- & Hin).
      apply in_combine_l in Hin. apply in_seq in Hin. unfold id_lt. cbn [iid fst]. lia. }
    apply G.
  Qed.
  Lemma root_wf : wf_view nf root.
  Proof.
    intros x Hx. destruct (root_in x Hx) as [A B]. destruct (proj1 (Forall_forall _ _) Hfv _ A) as (bits & C & D). rewrite D in B. pose proof (fv_make_ok bits) as F. split; [|split].
    - rewrite B. exact C.
    - rewrite B. exact F.
    - rewrite B. cbn [fv_compute_pairs fv_pairs fv_present]. change (fv_num (fv_make bits)) with (length bits). rewrite C. reflexivity.
  Qed.
  Lemma root_has x f : In x (concat root) -> has f x = has f (r_x (it x)).
  Proof. intro H. destruct (root_in x H) as [_ A]. unfold has. rewrite A. reflexivity. Qed.
  Definition inside (u : view) : Prop := incl (concat u) (concat root).
  Lemma inside_sd s f u : inside u -> inside (sd s f u).
  Proof. intros H x Hx. rewrite sd_filter in Hx. apply filter_In in Hx. apply H. tauto. Qed.
  Lemma items_left f u : inside u -> map it (concat (split_left f u)) = filter (fun i => negb (has f (r_x i))) (map it (concat u)).
  Proof. unfold inside. rewrite concat_split_left. induction (concat u) as [|x l IH]; intro H; [reflexivity|]. cbn [map filter]. rewrite (root_has x f (H x (or_introl eq_refl))). destruct (has f (r_x (it x))); cbn [negb map]; rewrite IH by (intros y Hy; apply H; right; exact Hy); reflexivity. Qed.
  Lemma items_right f u : inside u -> map it (concat (split_right f u)) = filter (fun i => has f (r_x i)) (map it (concat u)).
  Proof. unfold inside. rewrite concat_split_right. induction (concat u) as [|x l IH]; intro H; [reflexivity|]. cbn [map filter]. rewrite (root_has x f (H x (or_introl eq_refl))). destruct (has f (r_x (it x))); cbn [map]; rewrite IH by (intros y Hy; apply H; right; exact Hy); reflexivity. Qed.
  Lemma items_at b : map it (concat (restrict b root)) = filter (isat b) xs /\ inside (restrict b root).
  Proof.
    unfold inside, restrict. rewrite concat_map_filter. split; [|intros x Hx; apply filter_In in Hx; tauto]. assert (G : forall l, incl l (concat root) -> map it (filter (sat b) l) = filter (isat b) (map it l)); [|rewrite G by (intro; auto); f_equal; apply root_items].
    induction l as [|x l IH]; intro H; [reflexivity|].
    assert (E : sat b x = isat b (it x)). { unfold sat, isat. clear -H. induction b as [|c b IHb]; [reflexivity|]. cbn [forallb]. rewrite IHb. unfold sat_code. rewrite (root_has x _ (H x (or_introl eq_refl))). reflexivity. }
    cbn [map filter]. rewrite E. destruct (isat b (it x)); cbn [map]; rewrite IH by (intros y Hy; apply H; right; exact Hy); reflexivity.
  Qed.
  (** Values and limits of trees. *)
  Lemma tv_items bc t : forall u, inside u -> (tv bc (LL it) u t == terr (map it (concat u)) t + bc * qn (nodes t))%Q.
  Proof.
    induction t as [l|f l IHl r IHr]; intros u H; cbn [tv terr nodes]; [unfold LL; change (qn 0) with 0%Q; ring|].
    rewrite (IHl _ (inside_sd false f u H)), (IHr _ (inside_sd true f u H)). cbn [sd]. rewrite (items_left f u H), (items_right f u H), qn_S, qn_add. ring.
  Qed.
  Lemma tok_items t : forall u, inside u -> (tok nf (NN it) u t <-> rfits nf (fill [] t) /\ ileaves 1 (map it (concat u)) t).
  Proof.
    assert (G : forall t l l', rfits nf (fill l t) <-> rfits nf (fill l' t)) by (induction t0 as [|f l IHl r IHr]; intros a a'; cbn [fill rfits]; [tauto|]; rewrite (IHl _ (filter (fun i => negb (has f (r_x i))) a')), (IHr _ (filter (fun i => has f (r_x i)) a')); reflexivity).
    induction t as [l|f l IHl r IHr]; intros u H; cbn [tok fill rfits ileaves].
    - rewrite (NN_pos it it_ok u). unfold vsize. rewrite map_length. tauto.
    - rewrite (IHl _ (inside_sd false f u H)), (IHr _ (inside_sd true f u H)). cbn [sd]. rewrite (items_left f u H), (items_right f u H). cbn [filter]. tauto.
  Qed.
End Items.

(** * From items to rows *)
Lemma code_sat p i r : (forall f, has f (r_x i) = negb (nth f (fst r) 0 =? 0)) -> isat (code p) i = on_path p r.
Proof.
  intro H. unfold isat, code, on_path. induction p as [|[f d] p IH]; [reflexivity|]. cbn [map forallb fst snd]. rewrite IH. f_equal. pose proof (sat_code_br f d (r_x i)) as E. unfold sat_code in E. rewrite E, H. reflexivity.
Qed.
(** The items at a path stand for the rows at the path. *)
Definition stands (ys : list ritem) (rows : list rrow) : Prop :=
  Forall item_ok ys /\ alike ys rows /\ forall t, (cc_tree_cost ys t == row_sse rows t)%Q.

Lemma alike_filter p ys rows : alike ys rows -> alike (filter (isat (code p)) ys) (rows_at p rows).
Proof.
  intros [A B]. unfold rows_at. split.
  - intros i Hi. apply filter_In in Hi. destruct Hi as [Hi E]. destruct (A i Hi) as (r & Hr & H). exists r. split; [|exact H]. apply filter_In. split; [exact Hr|]. rewrite <- (code_sat p i r H). exact E.
  - intros r Hr. apply filter_In in Hr. destruct Hr as [Hr E]. destruct (B r Hr) as (i & Hi & H). exists i. split; [|exact H]. apply filter_In. split; [exact Hi|]. rewrite (code_sat p i r H). exact E.
Qed.
Lemma sum_if {A} (F : A -> Q) p l : (sumQ F (filter p l) == sumQ (fun x => if p x then F x else 0) l)%Q.
Proof. induction l as [|x l IH]; cbn [filter sumQ]; [reflexivity|]. destruct (p x); cbn [sumQ]; rewrite IH; ring. Qed.

Lemma plain_fits nf rows : Forall (fun r => length (fst r) = nf) rows -> Forall (fun i => exists bits, length bits = nf /\ ifv (r_x i) = fv_make bits) (plain_items rows).
Proof.
  intro H. apply Forall_forall. intros i Hi. apply in_map_iff in Hi. destruct Hi as (p & <- & Hi). destruct (rr_in rows p Hi) as (r & A & B & _). eexists. split; [|exact B]. rewrite map_length. apply (proj1 (Forall_forall _ _) H r A).
Qed.
Lemma plain_ok rows : Forall item_ok (plain_items rows).
Proof. unfold plain_items. apply Forall_map, Forall_forall. intros p _. split; [cbn; lia|]. cbn [r_y r_q r_w]. change (qn 1) with 1%Q. lra. Qed.
Lemma plain_stands p rows : stands (filter (isat (code p)) (plain_items rows)) (rows_at p rows).
Proof.
  split; [|split].
  - apply forall_filter, plain_ok.
  - apply alike_filter. pose proof (plain_like rows) as F. split.
    + intros i Hi. induction F as [|j r js rs H _ IH]; [destruct Hi|]. destruct Hi as [->|Hi]; [exists r; split; [left; reflexivity|intro f; apply like_has; exact H]|]. destruct (IH Hi) as (r' & A & B). exists r'. split; [right; exact A|exact B].
    + intros r Hr. induction F as [|j r' js rs H _ IH]; [destruct Hr|]. destruct Hr as [->|Hr]; [exists j; split; [left; reflexivity|intro f; apply like_has; exact H]|]. destruct (IH Hr) as (i & A & B). exists i. split; [right; exact A|exact B].
  - intro t. rewrite tree_cost_sum by (apply forall_filter, plain_ok). unfold row_sse, rows_at. rewrite !sum_if. unfold plain_items.
    induction (rr_like rows) as [|q r ps rs [H E] _ IH]; cbn [map sumQ]; [reflexivity|]. rewrite IH. rewrite (code_sat p (RI (fst q) 0 (snd q) (snd q * snd q)%Q 1) r) by (intro f; apply like_has; exact H).
    destruct (on_path p r); [|reflexivity]. unfold item_cost, phi. cbn [r_x r_y r_q r_w]. change (qn 1) with 1%Q. rewrite (like_value t _ _ H), E. ring.
Qed.

(** Merged rows: sums over a part that respects the groups. *)
Lemma group_mask (s : inst -> bool) (p : inst -> Q) rest : forall cur y q n w, 0 < n -> Forall item_ok rest ->
  (forall i j, In i (cur :: rest) -> In j (cur :: rest) -> r_uid i = r_uid j -> s (r_x i) = s (r_x j) /\ p (r_x i) = p (r_x j)) ->
  ((w <? n) = false -> (y == r_y cur /\ q == r_q cur)%Q /\ n = r_w cur) ->
  (sumQ (fun i => if s (r_x i) then item_cost (p (r_x i)) i else 0) (cc_group cur y q n w rest) == (if s (r_x cur) then phi (p (r_x cur)) y q n else 0) + sumQ (fun i => if s (r_x i) then item_cost (p (r_x i)) i else 0) rest)%Q.
Proof.
  induction rest as [|c rest IH]; intros cur y q n w N0 OK SP SM; cbn [cc_group sumQ]; [unfold item_cost; cbn [r_x r_y r_q r_w]; reflexivity|].
  inversion OK as [|? ? [W _] OK']; subst. destruct (r_uid cur =? r_uid c) eqn:U.
  - apply Nat.eqb_eq in U. rewrite IH; [|lia|exact OK'| |].
    + destruct (SP cur c (or_introl eq_refl) (or_intror (or_introl eq_refl)) U) as [E1 E2]. rewrite <- E1, <- E2. destruct (s (r_x cur)); [|ring]. unfold item_cost, phi. rewrite qn_add. ring.
    + intros i j I J. apply SP; cbn in *; intuition.
    + intros L. apply Nat.ltb_ge in L. lia.
  - cbn [sumQ]. rewrite IH; [|exact W|exact OK'| |].
    + unfold close_item. destruct (w <? n) eqn:L; unfold item_cost, phi; cbn [r_x r_y r_q r_w].
      * destruct (s (r_x cur)), (s (r_x c)); ring.
      * destruct (SM eq_refl) as [[Y Q] N]. subst n. destruct (s (r_x cur)), (s (r_x c)); rewrite ?Y, ?Q; ring.
    + intros i j I J. apply SP; cbn in *; intuition.
    + intros _. repeat split; reflexivity.
Qed.
Lemma merged_from rows xs : cc_merge (reg_preprocess (rr rows)) = Some xs -> forall (P : inst -> nat -> Q -> Q -> nat -> Prop), (forall x u y q n x' u' y' q' n', P x u y q n -> P x' u' y' q' n' -> P x u (y + y')%Q (q + q')%Q (n + n')) ->
  Forall (fun i => P (r_x i) (r_uid i) (r_y i) (r_q i) (r_w i)) (reg_preprocess (rr rows)) -> Forall (fun i => P (r_x i) (r_uid i) (r_y i) (r_q i) (r_w i)) xs.
Proof.
  intros HM P HA HF. unfold cc_merge in HM. pose proof (id_sort_perm (reg_preprocess (rr rows))) as HP. destruct (id_sort (reg_preprocess (rr rows))) as [|c rest]; [discriminate|]. injection HM as <-.
  assert (F : Forall (fun i => P (r_x i) (r_uid i) (r_y i) (r_q i) (r_w i)) (c :: rest)) by (apply (Permutation_Forall (Permutation_sym HP)); exact HF).
  apply group_all; [exact HA| |exact F]. inversion F; assumption.
Qed.
Lemma merged_ok rows xs : cc_merge (reg_preprocess (rr rows)) = Some xs -> Forall item_ok xs.
Proof.
  intro HM. apply (merged_from rows xs HM (fun _ _ y q n => 0 < n /\ (y * y <= qn n * q)%Q)); [|exact (pre_ok rows)]. intros x u y q n x' u' y' q' n' [A1 A2] [B1 B2]. split; [lia|]. apply item_ok_add; assumption.
Qed.
Lemma merged_pre rows xs : cc_merge (reg_preprocess (rr rows)) = Some xs -> forall i, In i xs -> exists j, In j (reg_preprocess (rr rows)) /\ r_x i = r_x j /\ r_uid i = r_uid j.
Proof.
  intros HM. apply Forall_forall. apply (merged_from rows xs HM (fun x u _ _ _ => exists j, In j (reg_preprocess (rr rows)) /\ x = r_x j /\ u = r_uid j)); [auto|]. apply Forall_forall. intros i Hi. exists i. auto.
Qed.
Lemma merged_fits nf rows xs : cc_merge (reg_preprocess (rr rows)) = Some xs -> Forall (fun r => length (fst r) = nf) rows -> Forall (fun i => exists bits, length bits = nf /\ ifv (r_x i) = fv_make bits) xs.
Proof.
  intros HM H. apply Forall_forall. intros i Hi. destruct (merged_pre rows xs HM i Hi) as (j & Hj & E & _). destruct (pre_in rows j Hj) as (r & Hr & L & _). eexists. rewrite E. split; [|exact L].
  rewrite map_length. apply (proj1 (Forall_forall _ _) H r Hr).
Qed.
Lemma same_has rows i j : In i (reg_preprocess (rr rows)) -> In j (reg_preprocess (rr rows)) -> r_uid i = r_uid j -> forall f, has f (r_x i) = has f (r_x j).
Proof.
  intros Hi Hj U f. pose proof (preprocess_class (rr rows) i j Hi Hj U) as C. apply eq_true_iff_eq. rewrite !has_present, C by (apply (items_fv (rr rows)); [apply rr_ok|assumption]). reflexivity.
Qed.
Lemma merged_alike rows xs : cc_merge (reg_preprocess (rr rows)) = Some xs -> alike xs rows.
Proof.
  intro HM. split.
  - intros i Hi. destruct (merged_pre rows xs HM i Hi) as (j & Hj & E & _). destruct (pre_in rows j Hj) as (r & Hr & L & _). exists r. split; [exact Hr|]. intro f. rewrite E. apply like_has. exact L.
  - intros r Hr. destruct (pre_back rows r Hr) as (j & Hj & L).
    assert (G : exists i, In i xs /\ r_uid i = r_uid j).
    { unfold cc_merge in HM. pose proof (id_sort_perm (reg_preprocess (rr rows))) as HP. destruct (id_sort (reg_preprocess (rr rows))) as [|c rest]; [discriminate|]. injection HM as <-. apply group_uid. apply (Permutation_in j (Permutation_sym HP)). exact Hj. }
    destruct G as (i & Hi & U). exists i. split; [exact Hi|]. intro f. rewrite <- (like_has _ _ f L). destruct (merged_pre rows xs HM i Hi) as (k & Hk & E1 & E2). rewrite E1. apply (same_has rows k j Hk Hj). congruence.
Qed.
Definition xsat (b : branch) (x : inst) : bool := forallb (fun c => Bool.eqb (has (c / 2) x) (Nat.odd c)) b.
Lemma merged_stands p rows xs : cc_merge (reg_preprocess (rr rows)) = Some xs -> stands (filter (isat (code p)) xs) (rows_at p rows).
Proof.
  intro HM. split; [apply forall_filter, (merged_ok rows xs HM)|]. split; [apply alike_filter, (merged_alike rows xs HM)|].
  intro t. rewrite tree_cost_sum by (apply forall_filter, (merged_ok rows xs HM)). rewrite sum_if. set (s := xsat (code p)).
  change (sumQ (fun i => if isat (code p) i then item_cost (rpredict t (r_x i)) i else 0) xs)%Q with (sumQ (fun i => if s (r_x i) then item_cost (rpredict t (r_x i)) i else 0) xs)%Q.
  transitivity (sumQ (fun i => if s (r_x i) then item_cost (rpredict t (r_x i)) i else 0)%Q (reg_preprocess (rr rows))).
  - pose proof HM as HM'. unfold cc_merge in HM'. pose proof (id_sort_perm (reg_preprocess (rr rows))) as HP. destruct (id_sort (reg_preprocess (rr rows))) as [|c rest]; [discriminate|]. injection HM' as <-. rewrite <- (sumQ_perm _ _ _ HP).
    assert (IN : forall i, In i (c :: rest) -> In i (reg_preprocess (rr rows))) by (intros i Hi; apply (Permutation_in i HP Hi)).
    assert (OK : Forall item_ok (c :: rest)) by (apply Forall_forall; intros i Hi; apply (proj1 (Forall_forall _ _) (pre_ok rows)), IN, Hi).
    inversion OK as [|? ? [W _] OK']; subst. rewrite group_mask; [cbn [sumQ]; reflexivity|exact W|exact OK'| |intros _; repeat split; reflexivity].
    intros i j Hi Hj U. pose proof (same_has rows i j (IN i Hi) (IN j Hj) U) as E. split.
    + unfold s, xsat. clear -E. induction (code p) as [|c' b IHb]; [reflexivity|]. cbn [forallb]. rewrite E, IHb. reflexivity.
    + induction t as [q|f l IHl r IHr]; cbn [rpredict]; [reflexivity|]. rewrite E, IHl, IHr. reflexivity.
  - unfold row_sse, rows_at. rewrite sum_if. set (F := fun (x : inst) (y : Q) => (if s x then (y - rpredict t x) * (y - rpredict t x) else 0)%Q).
    transitivity (sumQ (fun q => F (fst q) (snd q)) (rr rows)).
    + rewrite <- (sumQ_perm _ _ _ (reg_sort_perm (rr rows))). unfold reg_preprocess. pose proof (number_rows (reg_sort (rr rows)) 0 0 None) as G.
      induction G as [|q j qs js (E & Y & Q & W) G IH]; cbn [sumQ]; [reflexivity|]. rewrite IH. unfold F.
      assert (Es : s (r_x j) = s (fst q)) by (unfold s, xsat, has; rewrite E; reflexivity). rewrite Es, (rpredict_fv t _ _ E). destruct (s (fst q)); [|reflexivity]. unfold item_cost, phi. rewrite Y, Q, W. change (qn 1) with 1%Q. ring.
    + clear HM. induction (rr_like rows) as [|q r ps rs [H E] _ IH]; cbn [sumQ]; [reflexivity|]. rewrite IH. unfold F. pose proof (code_sat p (RI (fst q) 0 0 0 1) r (fun f => like_has _ _ f H)) as C. unfold isat in C. cbn [r_x] in C. unfold s, xsat. rewrite C.
      destruct (on_path p r); [|reflexivity]. rewrite (like_value t _ _ H), E. reflexivity.
Qed.

(** * C103 *)
(** The solver after some uses, each on the rows at a path: calls with a node limit, and constructions
    of trees. *)
Definition regression_uses (cc : bool) (bc : Q) (nf : nat) (rows : list rrow) (uses : list (path * quse)) : qterm :=
  q_uses cc (rt_item (rt_items cc rows)) nf bc (rt_view (rt_items cc rows)) (map (fun c => (code (fst c), snd c)) uses).
(** The tree that is constructed for a solution on the rows at a path. *)
Definition regression_build (cc : bool) (bc : Q) (nf : nat) (rows : list rrow) (p : path) (x : qnode) : option rtree :=
  q_construct cc (rt_item (rt_items cc rows)) bc nf 1 x (restrict (code p) (rt_view (rt_items cc rows))).
Definition best_answer (price : Q) (nf n : nat) (rows : list rrow) (o : option qnode) : Prop :=
  exists x, o = Some x /\ best_of price nf n rows (n_feat x) (n_val x) (n_l x) (n_r x).

Lemma answer_rows bc nf xs rows p m o : (0 <= bc)%Q -> Forall item_ok xs -> stands (filter (isat (code p)) xs) (rows_at p rows) ->
  good bc nf (NN (rt_item xs)) (LL (rt_item xs)) (restrict (code p) (rt_view xs)) m o -> best_answer bc nf m (rows_at p rows) o.
Proof.
  intros Hbc Hok (Yok & Al & Co) (x & Ex & (t & (W1 & W2 & W3) & Hd & Hm) & B). exists x. split; [exact Ex|]. destruct (items_at xs (code p)) as [EI IS]. set (u := restrict (code p) (rt_view xs)) in *. set (ys := filter (isat (code p)) xs) in *.
  split.
  - exists (fill ys t). apply (tok_items xs nf Hok t u IS) in W1. destruct W1 as [F1 F2]. rewrite EI in F2. split; [|split].
    + split; [|split; [|rewrite fill_depth, fill_nodes; auto]].
      * assert (G : forall t l l', rfits nf (fill l t) -> rfits nf (fill l' t)). { clear. induction t as [|f l IHl r IHr]; intros a a'; cbn [fill rfits]; [tauto|]. intros (A & B & C). split; [exact A|]. split; [eapply IHl; exact B|eapply IHr; exact C]. }
        eapply G. exact F1.
      * apply (alike_leaves (fill ys t) ys (rows_at p rows) Al), ileaves_fill. exact F2.
    + rewrite W2, (tv_items xs bc t u IS), EI. unfold priced. rewrite fill_nodes, <- (Co (fill ys t)), (terr_fill t ys Yok). reflexivity.
    + unfold describes. destruct t as [l|f l r]; cbn [fill]; [exact W3|]. rewrite !fill_nodes. exact W3.
  - intros t' (A1 & A2 & A3 & A4). assert (T : tok nf (NN (rt_item xs)) u (shape t')).
    { apply (tok_items xs nf Hok (shape t') u IS). rewrite EI. split; [apply fill_fits, shape_fits; exact A1|]. apply (alike_leaves t' ys (rows_at p rows) Al). exact A2. }
    specialize (B (shape t') T). rewrite shape_depth, shape_nodes in B. specialize (B A3 A4). rewrite (tv_items xs bc _ u IS), EI, shape_nodes in B. unfold priced. rewrite <- (Co t'). pose proof (terr_best t' ys Yok). lra.
Qed.

Lemma items_facts cc nf rows p : Forall (fun r => length (fst r) = nf) rows -> rows_at p rows <> [] -> let xs := rt_items cc rows in
  Forall item_ok xs /\ Forall (fun i => exists bits, length bits = nf /\ ifv (r_x i) = fv_make bits) xs /\ stands (filter (isat (code p)) xs) (rows_at p rows) /\ (cc = false -> forall x, plain_fine (rt_item xs x)).
Proof.
  intros Hnf Hne xs. unfold xs, rt_items. destruct cc.
    - unfold ccr_items. destruct (cc_merge (reg_preprocess (rr rows))) as [ys|] eqn:HM.
      + split; [apply (merged_ok rows ys HM)|]. split; [apply (merged_fits nf rows ys HM Hnf)|]. split; [apply (merged_stands p rows ys HM)|discriminate].
      + exfalso. unfold cc_merge in HM. destruct (id_sort (reg_preprocess (rr rows))) eqn:E; [|discriminate]. pose proof (Permutation_length (id_sort_perm (reg_preprocess (rr rows)))) as L. rewrite E, pre_length in L. destruct rows; [apply Hne; reflexivity|discriminate].
    - split; [apply plain_ok|]. split; [apply plain_fits; exact Hnf|]. split; [apply plain_stands|]. intros _ x. unfold rt_item. destruct (nth_in_or_default (iid x) (plain_items rows) no_item) as [H|H].
      + apply in_map_iff in H. destruct H as (q & E & H). destruct (rr_in rows q H) as (r & _ & _ & Y). rewrite <- E. unfold plain_fine. cbn [r_w r_q r_y]. split; [reflexivity|]. split; [reflexivity|]. rewrite Y.
        destruct (Z.eq_dec (snd r) 0) as [Z|Z]; [left; rewrite Z; reflexivity|]. right. right. rewrite <- inject_Z_mult. apply Qlt_le_trans with (inject_Z 1); [reflexivity|]. rewrite <- Zle_Qle. nia.
      + rewrite H. unfold plain_fine, no_item. cbn [r_w r_q r_y]. split; [reflexivity|]. split; [reflexivity|]. left. reflexivity.
Qed.
(** Whatever calls and constructions were made before, a call on the rows at a path finds the best tree with at most
    one branching node, and, if its node limit is above one, the best tree of depth two and, when
    nodes have a price, the best tree with at most two nodes.  This holds for both tasks with
    constant leaves, for a minimum leaf size of 1 and whole targets. *)
Theorem C103_best_partial : forall cc bc nf rows uses p n,
  (0 <= bc)%Q -> Forall (fun r => length (fst r) = nf) rows -> Forall (fun c => use_ok (snd c)) uses -> 1 <= n -> rows_at p rows <> [] ->
  let r := qt_res (regression_uses cc bc nf rows (uses ++ [(p, Solve n)])) in
  best_answer bc nf 1 (rows_at p rows) (q_r1 r)
  /\ (1 < n -> best_answer bc nf 3 (rows_at p rows) (q_r3 r) /\ ((0 < bc)%Q -> best_answer bc nf 2 (rows_at p rows) (q_r2 r))).
Proof.
  intros cc bc nf rows uses p n Hbc Hnf Hcalls Hn Hne. cbn zeta. unfold regression_uses. set (xs := rt_items cc rows).
  pose proof (items_facts cc nf rows p Hnf Hne) as Hxs. fold xs in Hxs. cbn zeta in Hxs.
  destruct Hxs as (Hok & Hfv & Hst & Hpl). rewrite map_app. cbn [map fst snd].
  pose proof (uses_good cc (rt_item xs) nf (it_ok xs Hok) Hpl bc (rt_view xs) Hbc (root_sorted xs) (root_wf xs nf Hfv) (map (fun c => (code (fst c), snd c)) uses) (code p) n) as G.
  destruct G as [G1 G2].
  - apply Forall_map. exact Hcalls.
  - exact Hn.
  - apply (NN_pos (rt_item xs) (it_ok xs Hok)). destruct (items_at xs (code p)) as [EI _]. unfold vsize. rewrite <- (map_length (rt_item xs)), EI. destruct Hst as (_ & [_ Al] & _). destruct (rows_at p rows) as [|r l]; [congruence|]. destruct (Al r (or_introl eq_refl)) as (i & Hi & _). destruct (filter (isat (code p)) xs); [destruct Hi|cbn; lia].
  - split; [apply (answer_rows bc nf xs rows p 1 _ Hbc Hok Hst G1)|]. intro Hn1. destruct G2 as [G3 G4]; [apply Nat.eqb_neq; lia|].
    split; [apply (answer_rows bc nf xs rows p 3 _ Hbc Hok Hst G3)|]. intro Hp. apply (answer_rows bc nf xs rows p 2 _ Hbc Hok Hst (G4 Hp)).
Qed.
Print Assumptions C103_best_partial.


(** Constructed trees. *)
Lemma filled_shape xs nf t : forall u r, inside xs u -> filled (rt_item xs) u t r -> tok nf (NN (rt_item xs)) u t ->
  rfits nf r /\ rdepth r = depth t /\ rnodes r = nodes t /\ (Forall item_ok (map (rt_item xs) (concat u)) -> cc_tree_cost (map (rt_item xs) (concat u)) r == terr (map (rt_item xs) (concat u)) t)%Q
  /\ forall m ys, ileaves m ys t <-> ileaves m ys (shape r).
Proof.
  induction t as [a|f l IHl r' IHr]; intros u [q|f' l2 r2] Hin; cbn [filled tok]; try tauto.
  - intros Hq _. split; [exact I|]. split; [reflexivity|]. split; [reflexivity|]. split; [|intros; cbn [shape ileaves]; reflexivity]. intro Hok. cbn [cc_tree_cost terr]. rewrite <- (err_mean _ Hok). unfold cc_leaf_costs. destruct (cc_sums _) as [[y s2] w]. rewrite Hq. reflexivity.
  - intros (<- & F1 & F2) (Hf & T1 & T2). destruct (IHl _ _ (inside_sd xs false f u Hin) F1 T1) as (A1 & A2 & A3 & A4 & A5). destruct (IHr _ _ (inside_sd xs true f u Hin) F2 T2) as (B1 & B2 & B3 & B4 & B5). cbn [sd] in *.
    cbn [rfits rdepth depth rnodes nodes cc_tree_cost terr shape ileaves]. rewrite A2, A3, B2, B3. split; [auto|]. split; [reflexivity|]. split; [reflexivity|]. split.
    + intro Hok. rewrite (items_left xs f u Hin) in A4. rewrite (items_right xs f u Hin) in B4. rewrite A4, B4 by (apply forall_filter; exact Hok). reflexivity.
    + intros m ys. rewrite A5, B5. reflexivity.
Qed.
(** The tree that is constructed for the solution of a call has the value of the solution, is within
    the limits, and its size and root are those of the solution.  The solutions for three nodes,
    and for two nodes when nodes have a price. *)
Theorem C103_built_partial : forall cc bc nf rows uses p n,
  (0 <= bc)%Q -> Forall (fun r => length (fst r) = nf) rows -> Forall (fun c => use_ok (snd c)) uses -> 1 < n -> rows_at p rows <> [] ->
  let r := qt_res (regression_uses cc bc nf rows (uses ++ [(p, Solve n)])) in
  forall m x f, (m = 3 /\ q_r3 r = Some x \/ m = 2 /\ (0 < bc)%Q /\ q_r2 r = Some x) -> n_feat x = Some f ->
  exists t, regression_build cc bc nf rows p x = Some t /\ reg_allowed nf 1 2 m (rows_at p rows) t
    /\ (priced bc (rows_at p rows) t == n_val x)%Q /\ rnodes t = n_l x + n_r x + 1 /\ (exists l r, t = RSplit f l r).
Proof.
  intros cc bc nf rows uses p n Hbc Hnf Hcalls Hn Hne. cbn zeta. intros m x f Hm Hfx. unfold regression_uses in Hm. set (xs := rt_items cc rows) in *.
  pose proof (items_facts cc nf rows p Hnf Hne) as Hxs. fold xs in Hxs. cbn zeta in Hxs. destruct Hxs as (Hok & Hfv & Hst & Hpl). rewrite map_app in Hm. cbn [map fst snd] in Hm.
  pose proof (uses_good cc (rt_item xs) nf (it_ok xs Hok) Hpl bc (rt_view xs) Hbc (root_sorted xs) (root_wf xs nf Hfv) (map (fun c => (code (fst c), snd c)) uses) (code p) n) as G.
  destruct (items_at xs (code p)) as [EI IS].
  destruct G as [_ G2].
  - apply Forall_map. exact Hcalls.
  - lia.
  - apply (NN_pos (rt_item xs) (it_ok xs Hok)). unfold vsize. rewrite <- (map_length (rt_item xs)), EI. destruct Hst as (_ & [_ Al] & _). destruct (rows_at p rows) as [|r l]; [congruence|]. destruct (Al r (or_introl eq_refl)) as (i & Hi & _). destruct (filter (isat (code p)) xs); [destruct Hi|cbn; lia].
  - destruct G2 as [G3 G4]; [apply Nat.eqb_neq; lia|].
    assert (G : good bc nf (NN (rt_item xs)) (LL (rt_item xs)) (restrict (code p) (rt_view xs)) m (Some x)).
    { destruct Hm as [[-> E]|[-> [P E]]]; rewrite <- E; [exact G3|apply G4; exact P]. }
    destruct (build_good cc (rt_item xs) nf (it_ok xs Hok) Hpl bc Hbc _ m x f (wf_restrict nf _ _ (root_wf xs nf Hfv)) G Hfx) as (r & t & B1 & B2 & B3 & B4 & B5 & B6 & B7).
    destruct (filled_shape xs nf t _ r IS B7 B2) as (C1 & C2 & C3 & C4 & C5). destruct Hst as (Yok & Al & Co). rewrite EI in C4. specialize (C4 Yok).
    exists r. split; [exact B1|]. split; [|split; [|split]].
    + split; [exact C1|]. split; [|rewrite C2, C3; auto]. apply (alike_leaves r _ (rows_at p rows) Al). apply C5. apply (tok_items xs nf Hok t _ IS) in B2. rewrite EI in B2. apply B2.
    + unfold priced. rewrite <- (Co r), C4, C3, B6, (tv_items xs bc t _ IS), EI. reflexivity.
    + rewrite C3, B5. unfold n_nodes. rewrite Hfx. reflexivity.
    + destruct t as [a|f0 l0 r0]; [unfold n_nodes in B5; rewrite Hfx in B5; cbn [nodes] in B5; lia|]. destruct r as [q|f1 l1 r1]; [destruct B7|]. unfold q_construct in B1. rewrite Hfx in B1.
      destruct (q_best_child _ _ _ _ _ _ _ false _) as [[? ?]|]; [|discriminate]. destruct (q_best_child _ _ _ _ _ _ _ true _) as [[? ?]|]; [|discriminate]. injection B1 as <- <- <-. eexists. eexists. reflexivity.
Qed.
Print Assumptions C103_built_partial.

(** Non-vacuity: seven rows, three features, a price of 1/2: two calls, the second one on the rows
    with the first feature.  Both tasks return the same solutions. *)
Definition shown (o : option qnode) : option (option nat * Q * nat * nat) := match o with Some x => Some (n_feat x, Qred (n_val x), n_l x, n_r x) | None => None end.
Definition shown3 (r : qres) := (shown (q_r1 r), shown (q_r2 r), shown (q_r3 r)).
Definition seven : list rrow := [([0;0;1],1%Z);([0;1;0],5%Z);([1;0;0],5%Z);([1;1;1],1%Z);([1;1;0],2%Z);([1;1;0],2%Z);([0;0;1],3%Z)].
Example C103_case : Forall (fun r => length (fst r) = 3) seven /\ rows_at [(0, true)] seven <> []
  /\ shown3 (qt_res (regression_uses true (1 # 2) 3 seven [([], Solve 3)]))
     = (Some (Some 2, (73 # 6)%Q, 0, 0), Some (Some 0, (29 # 3)%Q, 0, 1), Some (Some 0, (25 # 6)%Q, 1, 1))
  /\ (forall cc, shown3 (qt_res (regression_uses cc (1 # 2) 3 seven [([], Solve 3); ([], Build (QN (Some 0) (25 # 6) 1 1)); ([(0, true)], Solve 2)]))
     = (Some (Some 1, (7 # 6)%Q, 0, 0), Some (Some 1, 1%Q, 0, 1), Some (Some 1, 1%Q, 0, 1))).
Proof.
  split; [repeat constructor|]. split; [vm_compute; discriminate|]. split; [vm_compute; reflexivity|]. intros []; vm_compute; reflexivity.
Qed.

(** Without a price the solution for two nodes need not be the best one: the search stops as soon as
    the solution for three nodes is perfect. *)
Definition early_rows : list rrow := [([0;0;0],0%Z);([0;0;1],1%Z);([1;1;0],1%Z);([1;0;0],0%Z)].
Theorem C103_two_nodes_refuted : exists cc nf rows n, Forall (fun r => length (fst r) = nf) rows /\ 1 < n /\ rows <> []
  /\ ~ best_answer 0 nf 2 rows (q_r2 (qt_res (regression_uses cc 0 nf rows [([], Solve n)]))).
Proof.
  exists false, 3, early_rows, 2. split; [repeat constructor|]. split; [lia|]. split; [discriminate|].
  intros (x & E & _ & B). assert (A : reg_allowed 3 1 2 2 early_rows (RSplit 1 (RSplit 2 (RLeaf 0) (RLeaf 1)) (RLeaf 1))).
  { split; [cbn; repeat split; lia|]. split; [vm_compute; repeat split; lia|]. split; cbn; lia. }
  specialize (B _ A). assert (V : option_map (fun s => snd (fst (fst s))) (shown (q_r2 (qt_res (regression_uses false 0 3 early_rows [([], Solve 2)])))) = Some (1 # 2)%Q) by (vm_compute; reflexivity).
  rewrite E in V. cbn [shown option_map fst snd] in V. injection V as V.
  pose proof (Qred_correct (n_val x)) as C. rewrite V in C. rewrite <- C in B. vm_compute in B. apply B. reflexivity.
Qed.
Print Assumptions C103_two_nodes_refuted.

(** With a minimum leaf size of two the best solution can be missed: a feature with less than four
    rows on both sides is not tried below another one. *)
Definition six_rows : list rrow := [([0;0],0%Z);([0;1],0%Z);([1;0],1%Z);([1;0],1%Z);([1;1],9%Z);([1;1],9%Z)].
Definition call_once (mls : nat) (cc : bool) (bc : Q) (nf : nat) (rows : list rrow) (n : nat) : qres :=
  let xs := rt_items cc rows in qt_res (q_call cc (rt_item xs) bc nf mls qterm0 (rt_view xs) [] n).
Theorem C103_leaf_size_refuted : exists cc nf rows t x, Forall (fun r => length (fst r) = nf) rows
  /\ q_r3 (call_once 2 cc 0 nf rows 3) = Some x /\ reg_allowed nf 2 2 3 rows t /\ (row_sse rows t < n_val x)%Q.
Proof.
  exists false, 2, six_rows, (RSplit 0 (RLeaf 0) (RSplit 1 (RLeaf 1) (RLeaf 9))). destruct (q_r3 (call_once 2 false 0 2 six_rows 3)) as [x|] eqn:E; [|vm_compute in E; discriminate].
  exists x. split; [repeat constructor|]. split; [reflexivity|]. split.
  - split; [cbn; repeat split; lia|]. split; [vm_compute; repeat split; lia|]. split; cbn; lia.
  - assert (V : option_map (fun s => snd (fst (fst s))) (shown (q_r3 (call_once 2 false 0 2 six_rows 3))) = Some (164 # 3)%Q) by (vm_compute; reflexivity).
    rewrite E in V. cbn [shown option_map fst snd] in V. injection V as V. rewrite <- (Qred_correct (n_val x)), V. reflexivity.
Qed.
Print Assumptions C103_leaf_size_refuted.

(** Targets near zero count as zero in regression: here every target is at most a millionth, the
    solver reports a perfect leaf, and a split has a smaller error than that leaf. *)
Definition tiny_items : list ritem :=
  map (fun p => RI (Inst 0 (fv_make (map (fun v => negb (v =? 0)) (fst p)))) 0 (snd p) (snd p * snd p) 1) [([0], (1 # 1000000)%Q); ([1], (- (1 # 1000000))%Q)].
Theorem C103_tiny_targets_refuted : exists nf xs t x, q_r3 (qt_res (q_call false (rt_item xs) 0 nf 1 qterm0 (rt_view xs) [] 3)) = Some x
  /\ n_feat x = None /\ (n_val x == 0)%Q /\ (forall a, ~ cc_tree_cost xs (RLeaf a) == 0)%Q /\ rfits nf t /\ rnodes t = 1 /\ (cc_tree_cost xs t == 0)%Q.
Proof.
  exists 1, tiny_items, (RSplit 0 (RLeaf (1 # 1000000)) (RLeaf (- (1 # 1000000)))). eexists. split; [vm_compute; reflexivity|]. split; [reflexivity|]. split; [reflexivity|]. split.
  - intros a H. rewrite tree_cost_sum in H by (repeat constructor; vm_compute; discriminate). unfold tiny_items in H. cbn [map sumQ rpredict] in H. unfold item_cost, phi in H. cbn [r_x r_y r_q r_w snd] in H. change (qn 1) with 1%Q in H.
    assert (0 <= a * a)%Q by (destruct (Qlt_le_dec a 0); nra). nra.
  - split; [cbn; repeat split; lia|]. split; [reflexivity|]. vm_compute. reflexivity.
Qed.
Print Assumptions C103_tiny_targets_refuted.

(** The tree of the solution with three nodes of the example, and its value. *)
Fixpoint reduced (t : rtree) : rtree := match t with RLeaf q => RLeaf (Qred q) | RSplit f l r => RSplit f (reduced l) (reduced r) end.
Example C103_built_case : forall cc,
  option_map reduced (regression_build cc (1 # 2) 3 seven [] (QN (Some 0) (25 # 6) 1 1))
    = Some (RSplit 0 (RSplit 1 (RLeaf 2) (RLeaf 5)) (RSplit 1 (RLeaf 5) (RLeaf (5 # 3))))
  /\ (priced (1 # 2) seven (RSplit 0 (RSplit 1 (RLeaf 2) (RLeaf 5)) (RSplit 1 (RLeaf 5) (RLeaf (5 # 3)))) == 25 # 6)%Q.
Proof. intros []; split; vm_compute; reflexivity. Qed.
