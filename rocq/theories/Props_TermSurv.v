(** C104: the depth-two solver for survival trees. *)
From Coq Require Import List Arith Bool Lia ZArith QArith Qminmax Lqa Permutation Sorted.
From Verif Require Import Base_Q Model_FeatureVector Model_Data Model_Node Model_Terminal Model_Regression Model_SimpleLinear Model_RegFit Model_TermReg Model_TermSurv
  Spec_Tree Spec_TermSurv Proofs_View Proofs_Diff Proofs_Feature Proofs_Calc Proofs_TermState Proofs_TermReg Proofs_TermSound Proofs_TermFull Proofs_TermBuildSurv Proofs_TermGap Proofs_TermSurv.
Import ListNotations.
Local Open Scope nat_scope.

(** * From views to rows *)
Definition hcode (p : path) : branch := map (fun c => br_code (fst c) (snd c)) p.
Definition hon (f : nat) (r : hrow) : bool := negb (nth f (fst r) 0 =? 0).
Fixpoint hfill (rows : list hrow) (t : tree) : rtree :=
  match t with Leaf _ => RLeaf (risk rows) | Split f l r => RSplit f (hfill (hleft f rows) l) (hfill (hright f rows) r) end.
Fixpoint hshape (t : rtree) : tree := match t with RLeaf _ => Leaf 0 | RSplit f l r => Split f (hshape l) (hshape r) end.

Section Rows.
  Context (lg : Q -> Q) (rows : list hrow) (nf : nat).
  Hypothesis Hlg : forall a b, (a == b -> lg a == lg b)%Q.
  Hypothesis Hnf : Forall (fun r => length (fst r) = nf) rows.
  Notation root := (su_view rows).
  Definition rowof (x : inst) : hrow := nth (iid x) rows ([], (0%Q, false)).
  Definition mkinst (p : nat * hrow) : inst := Inst (fst p) (fv_compute_pairs (fv_make (map (fun k => negb (k =? 0)) (fst (snd p))))).

  Lemma root_concat : concat root = map mkinst (combine (seq 0 (length rows)) rows).
  Proof. unfold su_view. cbn [concat]. apply app_nil_r. Qed.
  Lemma hpairs k r : In (k, r) (combine (seq 0 (length rows)) rows) -> k < length rows /\ nth k rows ([], (0%Q, false)) = r.
  Proof.
    assert (G : forall (l : list hrow) s, In (k, r) (combine (seq s (length l)) l) -> s <= k < s + length l /\ nth (k - s) l ([], (0%Q, false)) = r).
    { induction l as [|x l IH]; intros s; cbn [length seq combine]; [intros []|]. intros [[= <- <-]|Hin].
      - split; [lia|]. rewrite Nat.sub_diag. reflexivity.
      - destruct (IH (S s) Hin) as [A B]. split; [lia|]. replace (k - s) with (S (k - S s)) by lia. exact B. }
    intro H. destruct (G rows 0 H) as [A B]. rewrite Nat.sub_0_r in B. split; [lia|exact B].
  Qed.
  Lemma root_in x : In x (concat root) -> In (rowof x) rows /\ x = mkinst (iid x, rowof x).
  Proof.
    rewrite root_concat. intro H. apply in_map_iff in H. destruct H as ([k r] & <- & H). destruct (hpairs k r H) as [A B]. unfold rowof. cbn [mkinst iid fst]. rewrite B. split; [|reflexivity]. rewrite <- B. apply nth_In. exact A.
  Qed.
  Lemma root_rows : map rowof (concat root) = rows.
  Proof.
    rewrite root_concat, map_map. rewrite (map_ext_in _ (@snd nat hrow)).
    - assert (G : forall (l : list hrow) s, map snd (combine (seq s (length l)) l) = l) by (induction l as [|x l IH]; intro s; cbn; [reflexivity|rewrite IH; reflexivity]). apply G.
    - intros [k r] H. unfold rowof. cbn [iid mkinst fst snd]. apply (hpairs k r H).
  Qed.
  Lemma root_sorted : view_sorted root.
  Proof.
    unfold su_view. constructor; [|constructor]. fold mkinst.
    assert (G : forall (l : list hrow) s, id_sorted (map mkinst (combine (seq s (length l)) l))); [|apply G].
    induction l as [|r l IH]; intro s; cbn [length seq combine map]; constructor; [apply IH|]. apply Forall_forall. intros y Hy. apply in_map_iff in Hy. destruct Hy as ([k j] & <- & Hin).
    apply in_combine_l in Hin. apply in_seq in Hin. unfold id_lt. cbn [iid mkinst fst]. lia.
  Qed.
  Lemma root_wf : wf_view nf root.
  Proof.
    intros x Hx. destruct (root_in x Hx) as [A B]. pose proof (proj1 (Forall_forall _ _) Hnf _ A) as C. rewrite B. unfold mkinst. cbn [fst snd]. set (bits := map _ _).
    assert (Lb : length bits = nf) by (unfold bits; rewrite map_length; exact C). pose proof (fv_make_ok bits) as F. split; [exact Lb|]. split; [exact F|].
    cbn [fv_compute_pairs fv_pairs fv_present ifv]. change (fv_num (fv_make bits)) with (length bits). rewrite Lb. reflexivity.
  Qed.
  Lemma root_has x f : In x (concat root) -> has f x = hon f (rowof x).
  Proof.
    intro H. destruct (root_in x H) as [_ A]. rewrite A at 1. unfold has, mkinst, hon. cbn [ifv fst snd]. unfold fv_has, fv_compute_pairs, fv_make. cbn [fv_bits]. change false with ((fun k => negb (k =? 0)) 0). rewrite map_nth. reflexivity.
  Qed.
  Definition inside (u : view) : Prop := incl (concat u) (concat root).
  Lemma inside_sd s f u : inside u -> inside (sd s f u).
  Proof. intros H x Hx. rewrite sd_filter in Hx. apply filter_In in Hx. apply H. tauto. Qed.
  Definition part (u : view) : list hrow := map rowof (concat u).
  Lemma part_left f u : inside u -> part (split_left f u) = hleft f (part u).
  Proof.
    unfold inside, part, hleft. rewrite concat_split_left. induction (concat u) as [|x l IH]; intro H; [reflexivity|]. cbn [map filter]. rewrite (root_has x f (H x (or_introl eq_refl))). unfold hon.
    destruct (_ =? 0); cbn [negb map]; rewrite IH by (intros y Hy; apply H; right; exact Hy); reflexivity.
  Qed.
  Lemma part_right f u : inside u -> part (split_right f u) = hright f (part u).
  Proof.
    unfold inside, part, hright. rewrite concat_split_right. induction (concat u) as [|x l IH]; intro H; [reflexivity|]. cbn [map filter]. rewrite (root_has x f (H x (or_introl eq_refl))). unfold hon.
    destruct (_ =? 0); cbn [negb map]; rewrite IH by (intros y Hy; apply H; right; exact Hy); reflexivity.
  Qed.
  Lemma part_at p : part (restrict (hcode p) root) = hrows_at p rows /\ inside (restrict (hcode p) root).
  Proof.
    unfold inside, part, restrict. rewrite concat_map_filter. split; [|intros x Hx; apply filter_In in Hx; tauto].
    unfold hrows_at. set (on := fun r : hrow => forallb _ p). rewrite <- root_rows at 2.
    assert (G : forall l, incl l (concat root) -> map rowof (filter (sat (hcode p)) l) = filter on (map rowof l)); [|apply G; intro; auto].
    induction l as [|x l IH]; intro H; [reflexivity|].
    assert (E : sat (hcode p) x = on (rowof x)).
    { unfold sat, on, hcode. clear IH. induction p as [|[f d] q IHq]; [reflexivity|]. cbn [map forallb fst snd]. rewrite sat_code_br, (root_has x f (H x (or_introl eq_refl))), IHq. reflexivity. }
    cbn [map filter]. rewrite E. destruct (on (rowof x)); cbn [map]; rewrite IH by (intros y Hy; apply H; right; exact Hy); reflexivity.
  Qed.

  Notation hz := (su_hz rows).
  Notation ev := (su_ev rows).
  Lemma sum_part (F : hrow -> Q) l : (sumQ F (map rowof l) == sumQ (fun x => F (rowof x)) l)%Q.
  Proof. induction l as [|x l IH]; cbn [map sumQ]; [reflexivity|]. rewrite IH. reflexivity. Qed.
  Lemma events_part l : (qn (events (map rowof l)) == sumQ (ew ev) l)%Q.
  Proof.
    induction l as [|x l IH]; cbn [map sumQ]; [reflexivity|]. unfold events in *. cbn [filter]. unfold ew at 1. change (su_ev rows x) with (snd (snd (rowof x))). destruct (snd (snd (rowof x))); cbn [length]; [rewrite qn_S|]; rewrite IH; ring.
  Qed.
  Lemma risk_part l : (risk (map rowof l) == Qmax (1 # 2) (sumQ (ew ev) l) / sumQ hz l)%Q.
  Proof. unfold risk, hazard_of. rewrite events_part, sum_part. reflexivity. Qed.
  Lemma loss_part u : (LL lg hz ev u == leaf_loss lg (part u))%Q.
  Proof. unfold LL, LLf, leaf_loss, part. rewrite (Hlg _ _ (risk_part (concat u))), events_part, sum_part. reflexivity. Qed.
  Lemma tv_rows t : forall u, inside u -> (tv 0 (LL lg hz ev) u t == shape_loss lg (part u) (hfill (part u) t))%Q.
  Proof.
    induction t as [l|f l IHl r IHr]; intros u H; cbn [tv hfill shape_loss]; [apply loss_part|].
    rewrite (IHl _ (inside_sd false f u H)), (IHr _ (inside_sd true f u H)). cbn [sd]. rewrite (part_left f u H), (part_right f u H). ring.
  Qed.
  Lemma tok_rows t : forall u, inside u -> (tok nf NN u t <-> hok nf 1 (part u) (hfill (part u) t)).
  Proof.
    induction t as [l|f l IHl r IHr]; intros u H; cbn [tok hfill hok].
    - unfold NN, part. rewrite map_length. lia.
    - rewrite (IHl _ (inside_sd false f u H)), (IHr _ (inside_sd true f u H)). cbn [sd]. rewrite (part_left f u H), (part_right f u H). tauto.
  Qed.
  Lemma fill_size t : forall l, hdepth (hfill l t) = depth t /\ hnodes (hfill l t) = nodes t.
  Proof.
    induction t as [a|f l IHl r IHr]; intro ys; cbn [hfill hdepth hnodes depth nodes]; [auto|]. destruct (IHl (hleft f ys)) as [A B]. destruct (IHr (hright f ys)) as [C D]. rewrite A, B, C, D. split; [reflexivity|lia].
  Qed.
  Lemma shape_size t : depth (hshape t) = hdepth t /\ nodes (hshape t) = hnodes t.
  Proof. induction t as [a|f l [A B] r [C D]]; cbn [hshape hdepth hnodes depth nodes]; [auto|]. rewrite A, B, C, D. split; [reflexivity|lia]. Qed.
  (** The numbers at the leaves do not matter. *)
  Lemma fill_shape t : forall l, (shape_loss lg l (hfill l (hshape t)) = shape_loss lg l t)%Q /\ (hok nf 1 l (hfill l (hshape t)) <-> hok nf 1 l t).
  Proof.
    induction t as [a|f l IHl r IHr]; intro ys; cbn [hshape hfill shape_loss hok]; [split; [reflexivity|tauto]|]. destruct (IHl (hleft f ys)) as [A B]. destruct (IHr (hright f ys)) as [C D]. rewrite A, C, B, D. split; [reflexivity|tauto].
  Qed.
  Lemma answer_rows p m o : good 0 nf NN (LL lg hz ev) (restrict (hcode p) root) m o ->
    exists x, o = Some x /\ best_surv lg nf m (hrows_at p rows) (n_feat x) (n_val x) (n_l x) (n_r x).
  Proof.
    intros (x & Ex & (t & (W1 & W2 & W3) & Hd & Hm) & B). exists x. split; [exact Ex|]. destruct (part_at p) as [EP IS]. set (u := restrict (hcode p) root) in *. split.
    - exists (hfill (part u) t). rewrite <- EP. destruct (fill_size t (part u)) as [S1 S2]. split; [|split].
      + split; [apply (tok_rows t u IS); exact W1|]. rewrite S1, S2. auto.
      + rewrite W2. apply tv_rows. exact IS.
      + destruct t as [a|f l r]; cbn [hfill hdescribes]; [exact W3|]. rewrite (proj2 (fill_size l _)), (proj2 (fill_size r _)). exact W3.
    - intros t' (A1 & A2 & A3). rewrite <- EP in *. destruct (shape_size t') as [S1 S2]. destruct (fill_shape t' (part u)) as [F1 F2]. rewrite <- F1, <- (tv_rows (hshape t') u IS). apply B; [apply (tok_rows _ u IS), F2; exact A1|rewrite S1; exact A2|rewrite S2; exact A3].
  Qed.
  Lemma filled_rows t : forall u r, inside u -> filled hz ev u t r -> risks (part u) r /\ hdepth r = depth t /\ hnodes r = nodes t /\ hshape r = hshape (hfill (part u) t).
  Proof.
    induction t as [a|f l IHl r' IHr]; intros u [q|f' l2 r2] Hin; cbn [filled]; try tauto.
    - intro Hq. cbn [risks hdepth depth hnodes nodes hshape hfill]. split; [|auto]. unfold part. rewrite risk_part. exact Hq.
    - intros (<- & F1 & F2). destruct (IHl _ _ (inside_sd false f u Hin) F1) as (A1 & A2 & A3 & A4). destruct (IHr _ _ (inside_sd true f u Hin) F2) as (B1 & B2 & B3 & B4). cbn [sd] in *. rewrite (part_left f u Hin) in *. rewrite (part_right f u Hin) in *.
      cbn [risks hdepth depth hnodes nodes hshape hfill]. rewrite A2, A3, B2, B3, A4, B4. repeat split; try assumption; lia.
  Qed.
End Rows.

(** * C104 *)
(** The solver after some uses, each on the rows at a path: calls with a node limit, and constructions
    of trees. *)
Definition survival_uses (lg : Q -> Q) (nf : nat) (rows : list hrow) (uses : list (path * quse)) : qterm :=
  su_uses lg (su_hz rows) (su_ev rows) nf (su_view rows) (map (fun c => (hcode (fst c), snd c)) uses).
Definition survival_build (lg : Q -> Q) (nf : nat) (rows : list hrow) (p : path) (x : qnode) : option rtree :=
  su_construct lg (su_hz rows) (su_ev rows) nf 1 x (restrict (hcode p) (su_view rows)).
Definition best_survival (lg : Q -> Q) (nf n : nat) (rows : list hrow) (o : option qnode) : Prop :=
  exists x, o = Some x /\ best_surv lg nf n rows (n_feat x) (n_val x) (n_l x) (n_r x).

Lemma survival_good lg nf rows uses p n : (forall a b, (a == b -> lg a == lg b)%Q) -> Forall (fun r => length (fst r) = nf) rows -> Forall (fun c => use_ok (snd c)) uses -> 1 <= n -> hrows_at p rows <> [] ->
  let u := restrict (hcode p) (su_view rows) in let r := qt_res (survival_uses lg nf rows (uses ++ [(p, Solve n)])) in let L := LL lg (su_hz rows) (su_ev rows) in
  good 0 nf NN L u 1 (q_r1 r) /\ (1 < n -> good 0 nf NN L u 3 (q_r3 r)).
Proof.
  intros Hlg Hnf Huses Hn Hne. cbn zeta. unfold survival_uses. rewrite map_app. cbn [map fst snd].
  destruct (uses_good lg (su_hz rows) (su_ev rows) nf Hlg (su_view rows) (root_sorted rows) (root_wf rows nf Hnf) (map (fun c => (hcode (fst c), snd c)) uses) (hcode p) n) as [G1 G2].
  - apply Forall_map. exact Huses.
  - exact Hn.
  - destruct (part_at rows p) as [EP _]. unfold part in EP. unfold NN. rewrite <- (map_length (rowof rows)), EP. destruct (hrows_at p rows); [congruence|]. cbn [length]. lia.
  - split; [exact G1|]. intro Hn1. apply G2. apply Nat.eqb_neq. lia.
Qed.
(** Whatever calls and constructions were made before, and whatever the computed logarithm, a call on
    the rows at a path finds the best survival tree with at most one branching node and, if its node
    limit is above one, the best survival tree of depth two.  For a minimum leaf size of 1. *)
Theorem C104_best_partial : forall lg nf rows uses p n, (forall a b, (a == b -> lg a == lg b)%Q) ->
  Forall (fun r => length (fst r) = nf) rows -> Forall (fun c => use_ok (snd c)) uses -> 1 <= n -> hrows_at p rows <> [] ->
  let r := qt_res (survival_uses lg nf rows (uses ++ [(p, Solve n)])) in
  best_survival lg nf 1 (hrows_at p rows) (q_r1 r) /\ (1 < n -> best_survival lg nf 3 (hrows_at p rows) (q_r3 r)).
Proof.
  intros lg nf rows uses p n Hlg Hnf Huses Hn Hne. destruct (survival_good lg nf rows uses p n Hlg Hnf Huses Hn Hne) as [G1 G2]. cbn zeta. split; [|intro Hn1; specialize (G2 Hn1)]; apply answer_rows; assumption.
Qed.
Print Assumptions C104_best_partial.

(** The tree that is constructed for the solution of a call has the value of the solution, is within
    the limits, has the size and the root of the solution, and every leaf predicts the risk factor
    of its rows. *)
Theorem C104_built_partial : forall lg nf rows uses p n, (forall a b, (a == b -> lg a == lg b)%Q) ->
  Forall (fun r => length (fst r) = nf) rows -> Forall (fun c => use_ok (snd c)) uses -> 1 < n -> hrows_at p rows <> [] ->
  let r := qt_res (survival_uses lg nf rows (uses ++ [(p, Solve n)])) in
  forall x f, q_r3 r = Some x -> n_feat x = Some f ->
  exists t, survival_build lg nf rows p x = Some t /\ surv_allowed nf 1 3 (hrows_at p rows) t /\ (shape_loss lg (hrows_at p rows) t == n_val x)%Q
    /\ risks (hrows_at p rows) t /\ hnodes t = n_l x + n_r x + 1 /\ (exists l r, t = RSplit f l r).
Proof.
  intros lg nf rows uses p n Hlg Hnf Huses Hn Hne. cbn zeta. intros x f Ex Hfx. destruct (survival_good lg nf rows uses p n Hlg Hnf Huses ltac:(lia) Hne) as [_ G]. specialize (G Hn). rewrite Ex in G.
  destruct (part_at rows p) as [EP IS].
  destruct (build_good lg (su_hz rows) (su_ev rows) nf Hlg _ 3 x f (wf_restrict nf _ _ (root_wf rows nf Hnf)) G Hfx) as (r & t & B1 & B2 & B3 & B4 & B5 & B6 & B7).
  destruct (filled_rows rows t _ r IS B7) as (C1 & C2 & C3 & C4). rewrite EP in *. exists r. split; [exact B1|].
  destruct (fill_shape lg nf r (hrows_at p rows)) as [F1 F2]. destruct (fill_shape lg nf (hfill (hrows_at p rows) t) (hrows_at p rows)) as [F3 F4]. rewrite C4 in F1, F2.
  pose proof (tok_rows rows nf t _ IS) as T. rewrite EP in T. pose proof (tv_rows lg rows Hlg t _ IS) as V. rewrite EP in V.
  split; [split; [apply F2, F4, T, B2|rewrite C2, C3; auto]|]. split; [rewrite B6, V, <- F1, F3; reflexivity|]. split; [exact C1|]. split; [rewrite C3, B5; unfold n_nodes; rewrite Hfx; reflexivity|].
  unfold su_construct in B1. rewrite Hfx in B1.
  destruct (su_best_child _ _ _ _ _ _ false _) as [[? ?]|]; [|discriminate]. destruct (su_best_child _ _ _ _ _ _ true _) as [[? ?]|]; [|discriminate]. injection B1 as <-. eexists. eexists. reflexivity.
Qed.
Print Assumptions C104_built_partial.

(** Non-vacuity: seven rows, three features; the logarithm is replaced by its approximation
    2 (q - 1) / (q + 1).  Two calls, the second one on the rows with the first feature, and the
    construction of the tree of the first call in between. *)
Definition lg1 (q : Q) : Q := (2 * (q - 1) / (q + 1))%Q.
Lemma lg1_ok a b : (a == b -> lg1 a == lg1 b)%Q.
Proof. intro H. unfold lg1. rewrite H. reflexivity. Qed.
Definition hshown (o : option qnode) : option (option nat * Q * nat * nat) := match o with Some x => Some (n_feat x, Qred (n_val x), n_l x, n_r x) | None => None end.
Definition hshown3 (r : qres) := (hshown (q_r1 r), hshown (q_r2 r), hshown (q_r3 r)).
Fixpoint hreduced (t : rtree) : rtree := match t with RLeaf q => RLeaf (Qred q) | RSplit f l r => RSplit f (hreduced l) (hreduced r) end.
Definition hseven : list hrow :=
  [([0;0;1],((1 # 4)%Q,true));([0;1;0],((1 # 2)%Q,true));([1;0;0],((3 # 4)%Q,true));([1;1;1],(1%Q,false));([1;1;0],((5 # 4)%Q,true));([1;1;0],((3 # 2)%Q,true));([0;0;1],(2%Q,false))].
Example C104_case : Forall (fun r => length (fst r) = 3) hseven /\ hrows_at [(0, true)] hseven <> []
  /\ hshown3 (qt_res (survival_uses lg1 3 hseven [([], Solve 3)]))
     = (Some (Some 2, (13864 # 5355)%Q, 0, 0), Some (Some 2, (9416 # 4095)%Q, 0, 1), Some (Some 0, (8576 # 4095)%Q, 1, 1))
  /\ hshown3 (qt_res (survival_uses lg1 3 hseven [([], Solve 3); ([], Build (QN (Some 0) (8576 # 4095) 1 1)); ([(0, true)], Solve 2)]))
     = (Some (Some 2, (512 # 4095)%Q, 0, 0), Some (Some 1, (8 # 855)%Q, 0, 1), Some (Some 1, (8 # 855)%Q, 0, 1))
  /\ option_map hreduced (survival_build lg1 3 hseven [] (QN (Some 0) (8576 # 4095) 1 1))
     = Some (RSplit 0 (RSplit 1 (RLeaf (4 # 9)) (RLeaf 2)) (RSplit 2 (RLeaf (6 # 7)) (RLeaf (1 # 2)))).
Proof.
  split; [repeat constructor|]. split; [vm_compute; discriminate|]. split; [vm_compute; reflexivity|]. split; vm_compute; reflexivity.
Qed.

(** The solution for two nodes need not be the best one: the search stops as soon as the solution
    for three nodes is perfect. *)
Definition hearly : list hrow := [([0;0;0],(1%Q,false));([0;0;1],(1%Q,true));([1;1;0],(1%Q,true));([1;0;0],(1%Q,false))].
Theorem C104_two_nodes_refuted : exists lg nf rows n, (forall a b, (a == b -> lg a == lg b)%Q) /\ Forall (fun r => length (fst r) = nf) rows /\ 1 < n /\ rows <> []
  /\ ~ best_survival lg nf 2 rows (q_r2 (qt_res (survival_uses lg nf rows [([], Solve n)]))).
Proof.
  exists lg1, 3, hearly, 2. split; [exact lg1_ok|]. split; [repeat constructor|]. split; [lia|]. split; [discriminate|].
  intros (x & E & _ & B). assert (A : surv_allowed 3 1 2 hearly (RSplit 1 (RSplit 2 (RLeaf 0) (RLeaf 1)) (RLeaf 1))).
  { split; [vm_compute; repeat split; lia|]. split; cbn; lia. }
  specialize (B _ A). assert (V : option_map (fun s => snd (fst (fst s))) (hshown (q_r2 (qt_res (survival_uses lg1 3 hearly [([], Solve 2)])))) = Some (2 # 3)%Q) by (vm_compute; reflexivity).
  rewrite E in V. cbn [hshown option_map fst snd] in V. injection V as V.
  pose proof (Qred_correct (n_val x)) as C. rewrite V in C. rewrite <- C in B. vm_compute in B. apply B. reflexivity.
Qed.
Print Assumptions C104_two_nodes_refuted.

(** With a minimum leaf size of two the best solution can be missed: a feature with less than four
    rows on both sides is not tried below another one. *)
Definition hsix : list hrow := [([0;0],(1%Q,true));([0;1],(1%Q,true));([1;0],((1 # 4)%Q,true));([1;0],((1 # 4)%Q,true));([1;1],(4%Q,true));([1;1],(4%Q,true))].
Definition hcall (mls : nat) (lg : Q -> Q) (nf : nat) (rows : list hrow) (n : nat) : qres :=
  qt_res (su_call lg (su_hz rows) (su_ev rows) nf mls qterm0 (su_view rows) [] n).
Theorem C104_leaf_size_refuted : exists lg nf rows t x, (forall a b, (a == b -> lg a == lg b)%Q) /\ Forall (fun r => length (fst r) = nf) rows
  /\ q_r3 (hcall 2 lg nf rows 3) = Some x /\ surv_allowed nf 2 3 rows t /\ (shape_loss lg rows t < n_val x)%Q.
Proof.
  exists lg1, 2, hsix, (RSplit 0 (RLeaf 1) (RSplit 1 (RLeaf 4) (RLeaf (1 # 4)))). destruct (q_r3 (hcall 2 lg1 2 hsix 3)) as [x|] eqn:E; [|vm_compute in E; discriminate].
  exists x. split; [exact lg1_ok|]. split; [repeat constructor|]. split; [reflexivity|]. split.
  - split; [vm_compute; repeat split; lia|]. split; cbn; lia.
  - assert (V : option_map (fun s => snd (fst (fst s))) (hshown (q_r3 (hcall 2 lg1 2 hsix 3))) = Some 1%Q) by (vm_compute; reflexivity).
    rewrite E in V. cbn [hshown option_map fst snd] in V. injection V as V. rewrite <- (Qred_correct (n_val x)), V. reflexivity.
Qed.
Print Assumptions C104_leaf_size_refuted.

(** * Any minimum leaf size *)
Section Sizes.
  Context (lg : Q -> Q) (rows : list hrow) (nf mls : nat).
  Hypothesis Hlg : forall a b, (a == b -> lg a == lg b)%Q.
  Hypothesis Hnf : Forall (fun r => length (fst r) = nf) rows.
  Hypothesis Hm : 1 <= mls.
  Notation root := (su_view rows).
  Notation hz := (su_hz rows).
  Notation ev := (su_ev rows).
  Notation L := (LL lg hz ev).
  Definition sstate_m (st : qterm) : Prop :=
    match qt_data st with
    | None => True
    | Some u => exists b, u = restrict b root /\ 1 <= qt_nodes st /\ qcells lg hz ev nf (qt_nodes st =? 1) u (qt_calc st) /\ sound_ok 0 nf mls NN L u (qt_nodes st =? 1) (qt_res st)
    end.
  Lemma scall_sound st b n : 1 <= n -> sstate_m st -> let st' := su_call lg hz ev nf mls st (restrict b root) b n in
    sstate_m st' /\ sound_ok 0 nf mls NN L (restrict b root) (n =? 1) (qt_res st').
  Proof.
    intros Hn H. cbn zeta. unfold su_call.
    assert (F : forall k, qcells lg hz ev nf (n =? 1) (restrict b root) k -> let st' := QTerm (Some (restrict b root)) n k (q_results 0 nf mls (su_reads lg nf k) b n) in sstate_m st' /\ sound_ok 0 nf mls NN L (restrict b root) (n =? 1) (qt_res st')).
    { intros k Hk. cbn zeta. unfold sstate_m. cbn [qt_data qt_nodes qt_calc qt_res].
      assert (G : sound_ok 0 nf mls NN L (restrict b root) (n =? 1) (q_results 0 nf mls (su_reads lg nf k) b n)).
      { apply results_sound; [exact Hm|exact Hn|]. apply reads_exact; try assumption. apply wf_restrict, root_wf. exact Hnf. }
      split; [exists b|]; auto. }
    destruct (qt_data st) as [u|] eqn:Ed; [|apply F, fresh_cells].
    destruct (Bool.eqb (n =? 1) (qt_nodes st =? 1)) eqn:Eo; [|apply F, fresh_cells]. apply Bool.eqb_prop in Eo.
    unfold sstate_m in H. rewrite Ed in H. destruct H as (b0 & -> & Hn0 & Hc0 & Hr0).
    destruct ((vsize (diff_add (restrict b0 root) (restrict b root)) =? 0) && (vsize (diff_remove (restrict b0 root) (restrict b root)) =? 0)) eqn:E0.
    - apply andb_true_iff in E0. destruct E0 as [E1 E2]. apply Nat.eqb_eq in E1, E2. pose proof (diff_none b0 b root (root_sorted rows) E1 E2) as Eq. rewrite Eo, <- Eq.
      split; [|exact Hr0]. unfold sstate_m. rewrite Ed. exists b0. auto.
    - destruct (_ <? _); [|apply F, fresh_cells]. apply F. rewrite Eo. apply more_cells; [apply root_sorted|exact Hc0].
  Qed.
  Definition survival_uses_m (uses : list (path * quse)) : qterm :=
    fold_left (fun st c => su_use lg hz ev nf mls st (restrict (hcode (fst c)) root) (hcode (fst c)) (snd c)) uses qterm0.
  Lemma suses_sound uses p n : Forall (fun c => use_ok (snd c)) uses -> 1 <= n -> sound_ok 0 nf mls NN L (restrict (hcode p) root) (n =? 1) (qt_res (survival_uses_m (uses ++ [(p, Solve n)]))).
  Proof.
    intros Hf Hn. unfold survival_uses_m. rewrite fold_left_app. cbn [fold_left fst snd su_use]. apply scall_sound; [exact Hn|].
    assert (G : forall st, sstate_m st -> sstate_m (fold_left (fun st c => su_use lg hz ev nf mls st (restrict (hcode (fst c)) root) (hcode (fst c)) (snd c)) uses st)).
    { induction Hf as [|c uses Hc _ IH]; intros st H; cbn [fold_left]; [exact H|]. apply IH. destruct (snd c) as [k|x]; [apply scall_sound; assumption|exact I]. }
    apply G. exact I.
  Qed.
  Lemma tokm_rows t : forall u, inside rows u -> (tokm nf mls NN u t <-> hok nf mls (part rows u) (hfill (part rows u) t)).
  Proof.
    clear Hm. induction t as [l|f l IHl r IHr]; intros u H; cbn [tokm hfill hok].
    - unfold NN, part. rewrite map_length. lia.
    - rewrite (IHl _ (inside_sd rows false f u H)), (IHr _ (inside_sd rows true f u H)). cbn [sd]. rewrite (part_left rows f u H), (part_right rows f u H). tauto.
  Qed.
  Lemma hok_shape t : forall l, hok nf mls l (hfill l (hshape t)) <-> hok nf mls l t.
  Proof. induction t as [a|f l IHl r IHr]; intro ys; cbn [hshape hfill hok]; [tauto|]. rewrite IHl, IHr. tauto. Qed.
  Lemma made_srows p k o x : madem 0 nf mls NN L (restrict (hcode p) root) 2 k o -> o = Some x -> of_surv_tree lg nf mls k (hrows_at p rows) (n_feat x) (n_val x) (n_l x) (n_r x).
  Proof.
    intros H Eo. destruct (H x Eo) as (t & (W1 & W2 & W3) & Hd & Hk). destruct (part_at rows p) as [EP IS]. set (u := restrict (hcode p) root) in *. exists (hfill (part rows u) t). rewrite <- EP. destruct (fill_size t (part rows u)) as [S1 S2].
    split; [split; [apply (tokm_rows t u IS); exact W1|rewrite S1, S2; auto]|]. split; [rewrite W2; apply (tv_rows lg rows Hlg); exact IS|].
    destruct t as [a|f l r]; cbn [hfill hdescribes]; [exact W3|]. rewrite (proj2 (fill_size l _)), (proj2 (fill_size r _)). exact W3.
  Qed.
  Definition sstate_f (st : qterm) : Prop :=
    match qt_data st with
    | None => True
    | Some u => exists b, u = restrict b root /\ 1 <= qt_nodes st /\ qcells lg hz ev nf (qt_nodes st =? 1) u (qt_calc st) /\ full_ok 0 nf mls NN L u (qt_nodes st =? 1) (qt_res st)
    end.
  Lemma scall_full st b n : 1 <= n -> sstate_f st -> let st' := su_call lg hz ev nf mls st (restrict b root) b n in
    sstate_f st' /\ full_ok 0 nf mls NN L (restrict b root) (n =? 1) (qt_res st').
  Proof.
    intros Hn H. cbn zeta. unfold su_call.
    assert (F : forall k, qcells lg hz ev nf (n =? 1) (restrict b root) k -> let st' := QTerm (Some (restrict b root)) n k (q_results 0 nf mls (su_reads lg nf k) b n) in sstate_f st' /\ full_ok 0 nf mls NN L (restrict b root) (n =? 1) (qt_res st')).
    { intros k Hk. cbn zeta. unfold sstate_f. cbn [qt_data qt_nodes qt_calc qt_res].
      assert (G : full_ok 0 nf mls NN L (restrict b root) (n =? 1) (q_results 0 nf mls (su_reads lg nf k) b n)).
      { apply results_full; [apply Qle_refl|exact Hm|apply NN_split|apply NN_nonneg|apply NN_pos|apply LL_nonneg|apply blind_restrict|exact Hn|]. apply reads_exact; try assumption. apply wf_restrict, root_wf. exact Hnf. }
      split; [exists b|]; auto. }
    destruct (qt_data st) as [u|] eqn:Ed; [|apply F, fresh_cells].
    destruct (Bool.eqb (n =? 1) (qt_nodes st =? 1)) eqn:Eo; [|apply F, fresh_cells]. apply Bool.eqb_prop in Eo.
    unfold sstate_f in H. rewrite Ed in H. destruct H as (b0 & -> & Hn0 & Hc0 & Hr0).
    destruct ((vsize (diff_add (restrict b0 root) (restrict b root)) =? 0) && (vsize (diff_remove (restrict b0 root) (restrict b root)) =? 0)) eqn:E0.
    - apply andb_true_iff in E0. destruct E0 as [E1 E2]. apply Nat.eqb_eq in E1, E2. pose proof (diff_none b0 b root (root_sorted rows) E1 E2) as Eq. rewrite Eo, <- Eq.
      split; [|exact Hr0]. unfold sstate_f. rewrite Ed. exists b0. auto.
    - destruct (_ <? _); [|apply F, fresh_cells]. apply F. rewrite Eo. apply more_cells; [apply root_sorted|exact Hc0].
  Qed.
  Lemma suses_full uses p n : Forall (fun c => use_ok (snd c)) uses -> 1 <= n -> full_ok 0 nf mls NN L (restrict (hcode p) root) (n =? 1) (qt_res (survival_uses_m (uses ++ [(p, Solve n)]))).
  Proof.
    intros Hf Hn. unfold survival_uses_m. rewrite fold_left_app. cbn [fold_left fst snd su_use]. apply scall_full; [exact Hn|].
    assert (G : forall st, sstate_f st -> sstate_f (fold_left (fun st c => su_use lg hz ev nf mls st (restrict (hcode (fst c)) root) (hcode (fst c)) (snd c)) uses st)).
    { induction Hf as [|c uses Hc _ IH]; intros st H; cbn [fold_left]; [exact H|]. apply IH. destruct (snd c) as [k|x]; [apply scall_full; assumption|exact I]. }
    apply G. exact I.
  Qed.
End Sizes.
(** With any minimum leaf size and any history, a call on enough rows answers with the best tree of at
    most one branching node; the other answers belong to trees of depth two with at most two and
    three nodes whose leaves are large enough, and more nodes are never worse. *)
Theorem C104_sizes_partial : forall lg nf mls rows uses p n, (forall a b, (a == b -> lg a == lg b)%Q) ->
  1 <= mls -> Forall (fun r => length (fst r) = nf) rows -> Forall (fun c => use_ok (snd c)) uses -> 1 <= n -> mls <= length (hrows_at p rows) ->
  let r := qt_res (survival_uses_m lg rows nf mls (uses ++ [(p, Solve n)])) in
  exists x, q_r1 r = Some x /\ of_surv_tree lg nf mls 1 (hrows_at p rows) (n_feat x) (n_val x) (n_l x) (n_r x)
    /\ (forall t, surv_allowed nf mls 1 (hrows_at p rows) t -> (n_val x <= shape_loss lg (hrows_at p rows) t)%Q)
    /\ (1 < n -> exists y z, q_r2 r = Some y /\ of_surv_tree lg nf mls 2 (hrows_at p rows) (n_feat y) (n_val y) (n_l y) (n_r y)
        /\ q_r3 r = Some z /\ of_surv_tree lg nf mls 3 (hrows_at p rows) (n_feat z) (n_val z) (n_l z) (n_r z) /\ (n_val z <= n_val y <= n_val x)%Q).
Proof.
  intros lg nf mls rows uses p n Hlg Hm Hnf Huses Hn Hsz. cbn zeta. destruct (part_at rows p) as [EP IS].
  assert (Hv : (Z.of_nat mls <= NN (restrict (hcode p) (su_view rows)))%Z) by (unfold NN; rewrite <- (map_length (rowof rows)); fold (part rows (restrict (hcode p) (su_view rows))); rewrite EP; lia).
  destruct (suses_sound lg rows nf mls Hlg Hnf Hm uses p n Huses Hn Hv) as (G1 & G2 & G3). set (r := qt_res _) in *. clearbody r.
  destruct (G2 (Leaf 0) Hv ltac:(cbn; lia)) as (x & Ex & _). exists x. split; [exact Ex|]. split; [|split].
  - apply (made_srows lg rows nf mls Hlg p 1 (q_r1 r)); [|exact Ex]. apply (made_more 0 nf mls NN (LL lg (su_hz rows) (su_ev rows)) _ 1 2 1 1); [lia|lia|exact G1].
  - intros t (A1 & A2 & A3). destruct (shape_size t) as [S1 S2]. destruct (fill_shape lg nf t (hrows_at p rows)) as [F1 _]. destruct (G2 (hshape t)) as (x' & Ex' & A).
    + apply (tokm_rows rows nf mls _ _ IS). rewrite EP. apply hok_shape. exact A1.
    + rewrite S2. exact A3.
    + rewrite Ex in Ex'. injection Ex' as <-. rewrite (tv_rows lg rows Hlg _ _ IS), EP, F1 in A. exact A.
  - intro Hn1. destruct G3 as (H2 & H3 & B2 & B3); [apply Nat.eqb_neq; lia|]. destruct (B2 (n_val x)) as (y & Ey & Ly); [exists x; split; [exact Ex|lra]|]. destruct (B3 (n_val y)) as (z & Ez & Lz); [exists y; split; [exact Ey|lra]|].
    exists y, z. split; [exact Ey|]. split; [apply (made_srows lg rows nf mls Hlg p 2 (q_r2 r) y H2 Ey)|]. split; [exact Ez|]. split; [apply (made_srows lg rows nf mls Hlg p 3 (q_r3 r) z H3 Ez)|]. split; assumption.
Qed.
Print Assumptions C104_sizes_partial.
(** With any minimum leaf size the answer for three nodes is even the best one, unless the rows are at
    least three and less than 4 - 1/[mls] times as many as a leaf needs. *)
Theorem C104_any_size_partial : forall lg nf mls rows uses p n, (forall a b, (a == b -> lg a == lg b)%Q) ->
  1 <= mls -> Forall (fun r => length (fst r) = nf) rows -> Forall (fun c => use_ok (snd c)) uses -> 1 < n -> mls <= length (hrows_at p rows) ->
  length (hrows_at p rows) < 3 * mls \/ 4 * mls - 1 <= length (hrows_at p rows) ->
  exists z, q_r3 (qt_res (survival_uses_m lg rows nf mls (uses ++ [(p, Solve n)]))) = Some z
    /\ of_surv_tree lg nf mls 3 (hrows_at p rows) (n_feat z) (n_val z) (n_l z) (n_r z)
    /\ forall t, surv_allowed nf mls 3 (hrows_at p rows) t -> (n_val z <= shape_loss lg (hrows_at p rows) t)%Q.
Proof.
  intros lg nf mls rows uses p n Hlg Hm Hnf Huses Hn Hsz Hroom. destruct (part_at rows p) as [EP IS].
  destruct (C104_sizes_partial lg nf mls rows uses p n Hlg Hm Hnf Huses ltac:(lia) Hsz) as (x & _ & _ & _ & S). destruct (S Hn) as (y & z & _ & _ & Ez & Wz & _). clear S. exists z. split; [exact Ez|]. split; [exact Wz|].
  assert (HW : NN (restrict (hcode p) (su_view rows)) = Z.of_nat (length (hrows_at p rows))) by (unfold NN; rewrite <- EP; unfold part; rewrite map_length; reflexivity).
  destruct (suses_full lg rows nf mls Hlg Hnf Hm uses p n Huses ltac:(lia)) as (_ & G). destruct G as [G _]; [rewrite HW; lia|apply Nat.eqb_neq; lia|unfold roomy; rewrite HW; lia|].
  intros t (A1 & A2 & A3). destruct (shape_size t) as [S1 S2]. destruct (fill_shape lg nf t (hrows_at p rows)) as [F1 _]. destruct (G (hshape t)) as (z' & Ez' & A).
  - apply (tokm_rows rows nf mls _ _ IS). rewrite EP. apply hok_shape. exact A1.
  - rewrite S1. exact A2.
  - rewrite S2. exact A3.
  - rewrite Ez in Ez'. injection Ez' as <-. rewrite (tv_rows lg rows Hlg _ _ IS), EP, F1 in A. exact A.
Qed.
Print Assumptions C104_any_size_partial.
(** The tree constructed from an answer exists, its leaves are large enough and predict the risk factors
    of their rows, it has the root and the sizes of the answer and is never worse than it; where the
    answer is the best one it has its value. *)
Definition survival_build_m (mls : nat) (lg : Q -> Q) (nf : nat) (rows : list hrow) (p : path) (x : qnode) : option rtree :=
  su_construct lg (su_hz rows) (su_ev rows) nf mls x (restrict (hcode p) (su_view rows)).
Theorem C104_built_sizes_partial : forall lg nf mls rows uses p n, (forall a b, (a == b -> lg a == lg b)%Q) ->
  1 <= mls -> Forall (fun r => length (fst r) = nf) rows -> Forall (fun c => use_ok (snd c)) uses -> 1 < n -> mls <= length (hrows_at p rows) ->
  let r := qt_res (survival_uses_m lg rows nf mls (uses ++ [(p, Solve n)])) in
  forall m x f, (m = 1 /\ q_r1 r = Some x \/ m = 2 /\ q_r2 r = Some x \/ m = 3 /\ q_r3 r = Some x) -> n_feat x = Some f ->
  exists t, survival_build_m mls lg nf rows p x = Some t /\ surv_allowed nf mls m (hrows_at p rows) t /\ (shape_loss lg (hrows_at p rows) t <= n_val x)%Q
    /\ risks (hrows_at p rows) t /\ hnodes t = n_l x + n_r x + 1 /\ (exists l r, t = RSplit f l r)
    /\ (m = 1 \/ m = 3 /\ (length (hrows_at p rows) < 3 * mls \/ 4 * mls - 1 <= length (hrows_at p rows)) -> (shape_loss lg (hrows_at p rows) t == n_val x)%Q).
Proof.
  intros lg nf mls rows uses p n Hlg Hm Hnf Huses Hn Hsz. cbn zeta. intros m x f Hmx Hfx. destruct (part_at rows p) as [EP IS].
  assert (Hv : (Z.of_nat mls <= NN (restrict (hcode p) (su_view rows)))%Z) by (unfold NN; rewrite <- (map_length (rowof rows)); fold (part rows (restrict (hcode p) (su_view rows))); rewrite EP; lia).
  assert (M : madem 0 nf mls NN (LL lg (su_hz rows) (su_ev rows)) (restrict (hcode p) (su_view rows)) 2 m (Some x)).
  { destruct (suses_sound lg rows nf mls Hlg Hnf Hm uses p n Huses ltac:(lia) Hv) as (G1 & _ & G3). destruct G3 as (H2 & H3 & _); [apply Nat.eqb_neq; lia|]. destruct Hmx as [[-> E]|[[-> E]|[-> E]]]; rewrite <- E; [|assumption|assumption].
    apply (made_more 0 nf mls NN (LL lg (su_hz rows) (su_ev rows)) _ 1 2 1 1); [lia|lia|exact G1]. }
  destruct (build_sound lg (su_hz rows) (su_ev rows) nf mls Hlg Hm _ m x f (wf_restrict nf _ _ (root_wf rows nf Hnf)) M Hfx) as (r & t & B1 & B2 & B3 & B4 & B5 & B6 & B7).
  destruct (filled_rows rows t _ r IS B7) as (C1 & C2 & C3 & C4). rewrite EP in *.
  destruct (fill_shape lg nf r (hrows_at p rows)) as [F1 _]. destruct (fill_shape lg nf (hfill (hrows_at p rows) t) (hrows_at p rows)) as [F3 _]. rewrite C4 in F1.
  pose proof (tokm_rows rows nf mls t _ IS) as T. rewrite EP in T. pose proof (tv_rows lg rows Hlg t _ IS) as V. rewrite EP in V.
  assert (AL : surv_allowed nf mls m (hrows_at p rows) r).
  { split; [|rewrite C2, C3; auto]. apply (hok_shape nf mls r (hrows_at p rows)). rewrite C4. apply (hok_shape nf mls (hfill (hrows_at p rows) t) (hrows_at p rows)). apply T, B2. }
  assert (PR : (shape_loss lg (hrows_at p rows) r == tv 0 (LL lg (su_hz rows) (su_ev rows)) (restrict (hcode p) (su_view rows)) t)%Q) by (rewrite V, <- F1, F3; reflexivity).
  exists r. split; [exact B1|]. split; [exact AL|]. split; [rewrite PR; exact B6|]. split; [exact C1|]. split; [rewrite C3, B5; unfold n_nodes; rewrite Hfx; reflexivity|]. split.
  - unfold su_construct in B1. rewrite Hfx in B1.
    destruct (su_best_child _ _ _ _ _ _ false _) as [[? ?]|]; [|discriminate]. destruct (su_best_child _ _ _ _ _ _ true _) as [[? ?]|]; [|discriminate]. injection B1 as <-. eexists. eexists. reflexivity.
  - intro Hcase. assert (LO : (n_val x <= shape_loss lg (hrows_at p rows) r)%Q).
    { destruct Hmx as [[-> E]|[[-> E]|[-> E]]].
      - destruct (C104_sizes_partial lg nf mls rows uses p n Hlg Hm Hnf Huses ltac:(lia) Hsz) as (y & Ey & _ & A & _). cbn zeta in Ey. rewrite E in Ey. injection Ey as <-. apply A. exact AL.
      - destruct Hcase as [Hc|[Hc _]]; discriminate.
      - destruct Hcase as [Hc|[_ Hroom]]; [discriminate|]. destruct (C104_any_size_partial lg nf mls rows uses p n Hlg Hm Hnf Huses Hn Hsz Hroom) as (y & Ey & _ & A). rewrite E in Ey. injection Ey as <-. apply A. exact AL. }
    rewrite PR in *. lra.
Qed.
Print Assumptions C104_built_sizes_partial.
(** The excepted numbers of rows are exact: for every minimum leaf size of at least two and every
    number of rows between 3 * [mls] and 4 * [mls] - 2 there are rows on which the answer misses a
    perfect tree of two nodes. *)
Definition hgap (m n : nat) : list hrow := ([0;0],(1%Q,true)) :: repeat ([0;1],(1%Q,true)) (m - 1) ++ repeat ([1;0],(1%Q,true)) (n - 2 * m) ++ repeat ([1;1],(3%Q,true)) m.
Definition two_kinds (a d : nat) (l : list hrow) : Prop :=
  events l = a + d /\ (hazard_of l == qn a + 3 * qn d)%Q /\ (sumQ (fun r : hrow => if snd (snd r) then - lg1 (fst (snd r)) else 0) l == - qn d)%Q.
Lemma kinds_nil : two_kinds 0 0 [].
Proof. repeat split; reflexivity. Qed.
Lemma kinds_app a d l a' d' l' : two_kinds a d l -> two_kinds a' d' l' -> two_kinds (a + a') (d + d') (l ++ l').
Proof.
  intros (A & B & C) (A' & B' & C'). unfold two_kinds, events, hazard_of in *. rewrite filter_app, app_length, A, A', !sumQ_app, B, B', C, C', !qn_add. split; [lia|]. split; ring.
Qed.
Lemma kinds_one x k : two_kinds k 0 (repeat (x, (1%Q, true)) k).
Proof.
  induction k as [|k IH]; [apply kinds_nil|]. change (repeat (x, (1%Q, true)) (S k)) with ([(x, (1%Q, true))] ++ repeat (x, (1%Q, true)) k). apply (kinds_app 1 0 [(x, (1%Q, true))] k 0); [repeat split; reflexivity|exact IH].
Qed.
Lemma kinds_three x k : two_kinds 0 k (repeat (x, (3%Q, true)) k).
Proof.
  induction k as [|k IH]; [apply kinds_nil|]. change (repeat (x, (3%Q, true)) (S k)) with ([(x, (3%Q, true))] ++ repeat (x, (3%Q, true)) k). apply (kinds_app 0 1 [(x, (3%Q, true))] 0 k); [repeat split; reflexivity|exact IH].
Qed.
Lemma qn_pos k : 1 <= k -> (1 <= qn k)%Q.
Proof. intro H. unfold qn. change 1%Q with (inject_Z 1). rewrite <- Zle_Qle. lia. Qed.
Lemma kinds_risk a d l : two_kinds a d l -> 1 <= a + d -> (risk l == (qn a + qn d) / (qn a + 3 * qn d))%Q.
Proof.
  intros (A & B & _) H. unfold risk. rewrite B, A, Q.max_r; [rewrite qn_add; reflexivity|]. pose proof (qn_pos (a + d) H). lra.
Qed.
Lemma kinds_loss a d l : two_kinds a d l -> 1 <= a + d -> (leaf_loss lg1 l == qn a * qn d / (qn a + 2 * qn d))%Q.
Proof.
  intros K H. pose proof (kinds_risk a d l K H) as R. destruct K as (A & B & C). unfold leaf_loss. rewrite A, C, (lg1_ok _ _ R).
  assert (P0 : (0 <= qn a)%Q) by (unfold qn; change 0%Q with (inject_Z 0); rewrite <- Zle_Qle; lia). assert (P1 : (0 <= qn d)%Q) by (unfold qn; change 0%Q with (inject_Z 0); rewrite <- Zle_Qle; lia).
  pose proof (qn_pos _ H) as P2. rewrite qn_add in P2. rewrite qn_add.
  assert (E : (- qn d - (qn a + qn d) * lg1 ((qn a + qn d) / (qn a + 3 * qn d)) == qn a * qn d / (qn a + 2 * qn d))%Q).
  { unfold lg1. field. repeat split; lra. }
  rewrite E. apply Q.max_r. apply Qle_shift_div_l; [lra|]. nra.
Qed.
Lemma loss_nonneg lg t : forall l, (0 <= shape_loss lg l t)%Q.
Proof. induction t as [a|f l IHl r IHr]; intro rows; cbn [shape_loss]; [apply Q.le_max_l|]. pose proof (IHl (hleft f rows)). pose proof (IHr (hright f rows)). lra. Qed.
Theorem C104_range_refuted : forall mls n, 2 <= mls -> 3 * mls <= n -> n <= 4 * mls - 2 ->
  exists lg rows t x, (forall a b, (a == b -> lg a == lg b)%Q) /\ length rows = n /\ Forall (fun r => length (fst r) = 2) rows
    /\ q_r3 (qt_res (survival_uses_m lg rows 2 mls [([], Solve 3)])) = Some x /\ surv_allowed 2 mls 2 rows t /\ (shape_loss lg rows t < n_val x)%Q.
Proof.
  intros mls n Hm Hlo Hhi. set (rows := hgap mls n).
  assert (Hlen : length rows = n) by (unfold rows, hgap; cbn [length]; rewrite !app_length, !repeat_length; lia).
  assert (Hall : Forall (fun r => length (fst r) = 2) rows). { unfold rows, hgap. constructor; [reflexivity|]. rewrite !Forall_app. repeat split; apply Forall_forall; intros r Hr; apply repeat_spec in Hr; subst r; reflexivity. }
  assert (Hat : hrows_at [] rows = rows) by (unfold hrows_at; clearbody rows; clear; induction rows as [|r l IH]; cbn [filter forallb]; [reflexivity|f_equal; exact IH]).
  assert (L0 : hleft 0 rows = repeat ([0;0],(1%Q,true)) 1 ++ repeat ([0;1],(1%Q,true)) (mls - 1)) by (unfold hleft, rows, hgap; cbn [filter fst nth Nat.eqb]; rewrite !filter_app, !filter_repeat; cbn [fst nth Nat.eqb]; rewrite !app_nil_r; reflexivity).
  assert (R0 : hright 0 rows = repeat ([1;0],(1%Q,true)) (n - 2 * mls) ++ repeat ([1;1],(3%Q,true)) mls) by (unfold hright, rows, hgap; cbn [filter fst nth Nat.eqb negb]; rewrite !filter_app, !filter_repeat; cbn [fst nth Nat.eqb negb app]; reflexivity).
  assert (L1 : hleft 1 rows = repeat ([0;0],(1%Q,true)) 1 ++ repeat ([1;0],(1%Q,true)) (n - 2 * mls)) by (unfold hleft, rows, hgap; cbn [filter fst nth Nat.eqb]; rewrite !filter_app, !filter_repeat; cbn [fst nth Nat.eqb app]; rewrite !app_nil_r; reflexivity).
  assert (R1 : hright 1 rows = repeat ([0;1],(1%Q,true)) (mls - 1) ++ repeat ([1;1],(3%Q,true)) mls) by (unfold hright, rows, hgap; cbn [filter fst nth Nat.eqb negb]; rewrite !filter_app, !filter_repeat; cbn [fst nth Nat.eqb negb app]; reflexivity).
  assert (RL : hleft 1 (hright 0 rows) = repeat ([1;0],(1%Q,true)) (n - 2 * mls)) by (rewrite R0; unfold hleft; rewrite !filter_app, !filter_repeat; cbn [fst nth Nat.eqb]; apply app_nil_r).
  assert (RR : hright 1 (hright 0 rows) = repeat ([1;1],(3%Q,true)) mls) by (rewrite R0; unfold hright; rewrite !filter_app, !filter_repeat; cbn [fst nth Nat.eqb negb]; reflexivity).
  destruct (C104_sizes_partial lg1 2 mls rows [] [] 3 lg1_ok) as (x & Ex & (t' & A' & V' & _) & _ & _); [lia|exact Hall|constructor|lia|rewrite Hat; lia|]. rewrite Hat in *. cbn [app] in Ex.
  exists lg1, rows, (RSplit 0 (RLeaf 0) (RSplit 1 (RLeaf 0) (RLeaf 1))), x. split; [exact lg1_ok|]. split; [exact Hlen|]. split; [exact Hall|]. split; [|split].
  - rewrite <- Ex. unfold survival_uses_m. cbn [fold_left fst snd su_use]. unfold su_call, qterm0. cbn [qt_data qt_res hcode map].
    destruct (part_at rows []) as [EP IS]. cbn [hcode map] in EP, IS. rewrite Hat in EP.
    assert (RE : rexact 2 NN (LL lg1 (su_hz rows) (su_ev rows)) (restrict [] (su_view rows)) (su_reads lg1 2 (su_calc lg1 (su_hz rows) (su_ev rows) 2 (3 =? 1) (restrict [] (su_view rows)))) (3 =? 1)).
    { apply reads_exact; [exact lg1_ok|apply wf_restrict, root_wf; exact Hall|]. apply fresh_cells. }
    apply lonely; [lia|]. unfold q_features. cbn [seq filter].
    assert (NP : forall u, NN u = Z.of_nat (length (part rows u))) by (intro u; unfold NN, part; rewrite map_length; reflexivity).
    rewrite !(re_n1 _ _ _ _ _ _ RE _ 1 ltac:(lia)). cbn [sd]. rewrite !NP, (part_left rows 1 _ IS), (part_right rows 1 _ IS), EP, L1, R1, !app_length, !repeat_length.
    replace (Z.of_nat (1 + (n - 2 * mls)) <? 2 * Z.of_nat mls)%Z with true by (symmetry; apply Z.ltb_lt; lia). replace (Z.of_nat (mls - 1 + mls) <? 2 * Z.of_nat mls)%Z with true by (symmetry; apply Z.ltb_lt; lia).
    cbn [andb negb]. rewrite andb_false_r. match goal with |- context [if ?c then _ else _] => destruct c end; cbn [length]; lia.
  - split; [|cbn; lia]. cbn [hok]. rewrite L0, RL, RR, app_length, !repeat_length. lia.
  - assert (Z : (shape_loss lg1 rows (RSplit 0 (RLeaf 0) (RSplit 1 (RLeaf 0) (RLeaf 1))) == 0)%Q).
    { cbn [shape_loss]. rewrite RL, RR, L0. rewrite (kinds_loss _ _ _ (kinds_app _ _ _ _ _ _ (kinds_one [0;0] 1) (kinds_one [0;1] (mls - 1)))) by lia. rewrite (kinds_loss _ _ _ (kinds_one [1;0] (n - 2 * mls))) by lia. rewrite (kinds_loss _ _ _ (kinds_three [1;1] mls)) by lia.
      change (qn 0) with 0%Q. cbn [Nat.add]. unfold Qdiv. change (qn 0) with 0%Q. ring. }
    rewrite Z. rewrite V'. destruct A' as (B1 & _ & B4).
    assert (P : forall a d l, two_kinds a d l -> 1 <= a -> 1 <= d -> (0 < leaf_loss lg1 l)%Q).
    { intros a d l K Ha Hd. rewrite (kinds_loss a d l K) by lia. pose proof (qn_pos a Ha). pose proof (qn_pos d Hd). apply Qlt_shift_div_l; [lra|]. nra. }
    destruct t' as [q|f [a|] [c|]]; cbn [hnodes] in B4; try lia; cbn [shape_loss].
    + pose proof (kinds_app _ _ _ _ _ _ (kinds_one [0;0] 1) (kinds_app _ _ _ _ _ _ (kinds_one [0;1] (mls - 1)) (kinds_app _ _ _ _ _ _ (kinds_one [1;0] (n - 2 * mls)) (kinds_three [1;1] mls)))) as K. apply (P _ _ _ K); lia.
    + cbn [hok] in B1. destruct f as [|[|f]]; [| |lia].
      * pose proof (loss_nonneg lg1 (RLeaf a) (hleft 0 rows)) as G. cbn [shape_loss] in G. assert (0 < leaf_loss lg1 (hright 0 rows))%Q; [|lra]. rewrite R0. apply (P (n - 2 * mls + 0) (0 + mls)); [|lia|lia]. apply kinds_app; [apply kinds_one|apply kinds_three].
      * pose proof (loss_nonneg lg1 (RLeaf a) (hleft 1 rows)) as G. cbn [shape_loss] in G. assert (0 < leaf_loss lg1 (hright 1 rows))%Q; [|lra]. rewrite R1. apply (P (mls - 1 + 0) (0 + mls)); [|lia|lia]. apply kinds_app; [apply kinds_one|apply kinds_three].
Qed.
Print Assumptions C104_range_refuted.
Example C104_range_case : 2 <= 3 /\ 3 * 3 <= 10 /\ 10 <= 4 * 3 - 2
  /\ option_map (fun x => (n_feat x, Qred (n_val x))) (q_r3 (qt_res (survival_uses_m lg1 (hgap 3 10) 2 3 [([], Solve 3)]))) = Some (Some 1, (3 # 4)%Q).
Proof. split; [lia|]. split; [lia|]. split; [lia|]. vm_compute. reflexivity. Qed.
(** Leaves of at least two rows, after a call on another part. *)
Definition eight_rows : list hrow :=
  [([0;0],((1 # 4)%Q,true));([0;0],((1 # 4)%Q,true));([0;1],(1%Q,true));([0;1],(1%Q,false));([1;0],(2%Q,true));([1;0],(2%Q,true));([1;1],((1 # 2)%Q,true));([1;1],(1%Q,true))].
Example C104_sizes_case : 2 <= length (hrows_at [] eight_rows) /\ 4 * 2 - 1 <= length (hrows_at [] eight_rows)
  /\ hshown3 (qt_res (survival_uses_m lg1 eight_rows 2 2 [([(0, true)], Solve 3); ([], Solve 3)]))
     = (Some (Some 0, (7684 # 3135)%Q, 0, 0), Some (Some 1, (44 # 39)%Q, 1, 0), Some (Some 0, (16 # 21)%Q, 1, 1))
  /\ option_map hreduced (survival_build_m 2 lg1 2 eight_rows [] (QN (Some 0) (16 # 21) 1 1))
     = Some (RSplit 0 (RSplit 1 (RLeaf 4) (RLeaf (1 # 2))) (RSplit 1 (RLeaf (1 # 2)) (RLeaf (4 # 3)))).
Proof. split; [cbn; lia|]. split; [cbn; lia|]. split; vm_compute; reflexivity. Qed.
