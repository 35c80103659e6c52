(** C19: the containers of solutions of partially ordered tasks. *)
From Coq Require Import List Arith Bool ZArith QArith Lia.
From Verif Require Import Model_Container Model_Pareto Proofs_Container.
Import ListNotations.
Local Open Scope nat_scope.

(** A front: no two different positions hold solutions of which one dominates the other. *)
Definition antichain {S P} (dom : S -> S -> bool) (l : list (csol S P)) : Prop :=
  forall i j x y, i <> j -> nth_error l i = Some x -> nth_error l j = Some y -> dom (cs_val x) (cs_val y) = false.

Lemma fop_antichain {S P} (dom : S -> S -> bool) (l : list (csol S P)) : ForallOrdPairs (incomp dom) l -> antichain dom l.
Proof.
  induction 1 as [|x l Hx Hl IH]; intros i j a b Hij Ha Hb.
  - destruct i; discriminate.
  - rewrite Forall_forall in Hx. destruct i as [|i], j as [|j]; cbn in Ha, Hb.
    + lia.
    + injection Ha as <-. apply (Hx b). exact (nth_error_In _ _ Hb).
    + injection Hb as <-. apply (Hx a). exact (nth_error_In _ _ Ha).
    + apply (IH i j a b); auto.
Qed.

(** After any history of additions, copies and clearings, for any comparison that is
    reflexive and transitive and with or without the map of known values. *)
Theorem C19_front : forall (S P : Type) (seqb dom : S -> S -> bool),
  (forall a b, seqb a b = true <-> a = b) -> (forall a, dom a a = true) ->
  (forall a b c, dom a b = true -> dom b c = true -> dom a c = true) ->
  forall (check : bool) (h : list (ct_call S P)),
  let front := ct_sols (ct_run seqb dom check h) in
  antichain dom front
  /\ (forall x, In x front -> In (CAdd x) h)
  /\ (forall x, In (CAdd x) h -> exists y, In y front /\ dom (cs_val y) (cs_val x) = true).
Proof.
  intros S P seqb dom Heq Hr Ht check h front. destruct (good_run seqb dom Heq Hr Ht check h) as [G1 G2 G3 _].
  assert (A : forall x, In x (ct_added h) <-> In (CAdd x) h).
  { intro x. unfold ct_added. rewrite in_flat_map. split.
    - intros (o & Ho & Hx). destruct o as [y|]; [|destruct Hx]. destruct Hx as [->|[]]. exact Ho.
    - intro Hx. exists (CAdd x). split; [exact Hx|left; reflexivity]. }
  split; [exact (fop_antichain _ _ G1)|]. split.
  - intros x Hx. apply A. exact (G2 x Hx).
  - intros x Hx. apply A in Hx. exact (G3 x Hx).
Qed.
Print Assumptions C19_front.

Lemma f1_eqb_eq a b : f1_eqb a b = true <-> a = b.
Proof.
  unfold f1_eqb. destruct a as [a1 a2], b as [b1 b2]. cbn. rewrite andb_true_iff, !Z.eqb_eq. split; [intros [-> ->]; reflexivity|].
  intro E. injection E as -> ->. auto.
Qed.
Lemma f1_dom_le a b : f1_dom a b = true <-> (f1_fn a <= f1_fn b /\ f1_fp a <= f1_fp b)%Z.
Proof. unfold f1_dom. rewrite andb_true_iff, !Z.leb_le. tauto. Qed.
Lemma f1_dom_inv_le a b : f1_dom_inv a b = true <-> (f1_fn b <= f1_fn a /\ f1_fp b <= f1_fp a)%Z.
Proof. unfold f1_dom_inv. rewrite andb_true_iff, !Z.leb_le. tauto. Qed.
Lemma f1_d0_refl rnd pos a : f1_d0 rnd pos a a = true.
Proof. apply Qle_bool_iff. apply Qle_refl. Qed.
Lemma f1_d0_trans rnd pos a b c : f1_d0 rnd pos a b = true -> f1_d0 rnd pos b c = true -> f1_d0 rnd pos a c = true.
Proof. unfold f1_d0. rewrite !Qle_bool_iff. intros H1 H2. exact (Qle_trans _ _ _ H2 H1). Qed.

(** The comparisons of the F1-score task meet the hypotheses: smaller is better, larger is
    better (lower bounds), and the score at the root, whatever the rounding. *)
Theorem C19_front_f1 : forall (P : Type) check (h : list (ct_call f1 P)) rnd pos dom,
  dom = f1_dom \/ dom = f1_dom_inv \/ dom = f1_d0 rnd pos ->
  let front := ct_sols (ct_run f1_eqb dom check h) in
  antichain dom front
  /\ (forall x, In x front -> In (CAdd x) h)
  /\ (forall x, In (CAdd x) h -> exists y, In y front /\ dom (cs_val y) (cs_val x) = true).
Proof.
  intros P check h rnd pos dom H. apply C19_front; [exact f1_eqb_eq| |]; destruct H as [->|[->| ->]].
  - intro a. apply f1_dom_le. lia.
  - intro a. apply f1_dom_inv_le. lia.
  - intro a. apply f1_d0_refl.
  - intros a b c. rewrite !f1_dom_le. lia.
  - intros a b c. rewrite !f1_dom_inv_le. lia.
  - intros a b c. apply f1_d0_trans.
Qed.
Print Assumptions C19_front_f1.

Definition s3 (n p k : nat) : csol f1 unit := Csol (F1 (Z.of_nat n) (Z.of_nat p)) k tt.
Example C19_front_ex :
  let h := [CAdd (s3 3 3 0); CAdd (s3 5 1 1); CClear; CAdd (s3 3 2 2); CAdd (s3 4 4 1); CAdd (s3 0 9 3)] in
  ct_sols (ct_run f1_eqb f1_dom false h) = [s3 5 1 1; s3 3 2 2; s3 0 9 3]
  /\ ct_sols (ct_run f1_eqb f1_dom_inv true h) = [s3 5 1 1; s3 4 4 1; s3 0 9 3].
Proof. split; reflexivity. Qed.

(** A container of bounded size.  When merging gives a value that dominates both merged
    values, the container stays within its size and still dominates everything added, for
    every list of additions. *)
Theorem C19_bounded_front : forall (S P : Type) (seqb dom : S -> S -> bool) (diff : S -> S -> Z) (merge : S -> S -> S),
  (forall a b, seqb a b = true <-> a = b) -> (forall a, dom a a = true) ->
  (forall a b c, dom a b = true -> dom b c = true -> dom a c = true) ->
  (forall a b, dom a b = true -> dom b a = true -> a = b) ->
  (forall a b, dom (merge a b) a = true) -> (forall a b, dom (merge a b) b = true) ->
  forall k (xs : list (csol S P)), k > 0 ->
  exists c, ct_merge_all seqb dom diff merge k ct_new xs = Some c /\ length (ct_sols c) <= k
    /\ forall x, In x xs -> exists y, In y (ct_sols c) /\ dom (cs_val y) (cs_val x) = true.
Proof.
  intros S P seqb dom diff merge Heq Hr Ht Ha H1 H2 k xs Hk.
  exact (merge_all_ok seqb dom Heq Hr Ht diff merge Ha H1 H2 k xs Hk).
Qed.
Print Assumptions C19_bounded_front.

(** AddOrMerge and AddInvOrInvMerge of the F1-score task. *)
Theorem C19_bounded_front_f1 : forall (P : Type) k (xs : list (csol f1 P)) dom merge, k > 0 ->
  (dom = f1_dom /\ merge = f1_merge) \/ (dom = f1_dom_inv /\ merge = f1_merge_inv) ->
  exists c, ct_merge_all f1_eqb dom f1_diff merge k ct_new xs = Some c /\ length (ct_sols c) <= k
    /\ forall x, In x xs -> exists y, In y (ct_sols c) /\ dom (cs_val y) (cs_val x) = true.
Proof.
  intros P k xs dom merge Hk H.
  assert (AE : forall a b : f1, f1_fn a = f1_fn b -> f1_fp a = f1_fp b -> a = b) by (intros [] []; cbn; congruence).
  apply C19_bounded_front; try exact f1_eqb_eq; try exact Hk; destruct H as [[-> ->]|[-> ->]]; intros;
    repeat match goal with H : _ = true |- _ => first [rewrite f1_dom_le in H | rewrite f1_dom_inv_le in H] end;
    rewrite ?f1_dom_le, ?f1_dom_inv_le; cbn [f1_merge f1_merge_inv f1_fn f1_fp]; try lia; apply AE; lia.
Qed.
Print Assumptions C19_bounded_front_f1.

Example C19_bounded_ex : option_map ct_sols (ct_merge_all f1_eqb f1_dom f1_diff f1_merge 2 ct_new [s3 1 9 0; s3 9 1 1; s3 8 3 2])
  = Some [s3 1 9 0; Csol (F1 8 1) 1 tt].
Proof. reflexivity. Qed.

(** The mixed variants (AddOrInvMerge for upper bounds, solver.cpp:799, and AddInvOrMerge for
    lower bounds, solver.cpp:745 and 749) lose solutions: at a full container the new solution
    is merged into the most similar one, and the result is then removed because the new
    solution, which is not in the container, strictly dominates it. *)
Theorem C19_mixed_merge_refuted : exists (xs : list (csol f1 unit)),
  option_map ct_sols (ct_merge_all f1_eqb f1_dom f1_diff f1_merge_inv 1 ct_new xs) = Some []
  /\ option_map ct_sols (ct_merge_all f1_eqb f1_dom_inv f1_diff f1_merge 1 ct_new xs) = Some []
  /\ xs <> [].
Proof. exists [s3 1 5 1; s3 5 1 1]. split; [reflexivity|]. split; [reflexivity|discriminate]. Qed.
Print Assumptions C19_mixed_merge_refuted.

(** For every full container whose solutions are incomparable to the new one, the number of
    solutions goes down: neither the new nor the merged solution is left. *)
Theorem C19_mixed_merge_shrinks : forall P (x y : csol f1 P) m,
  f1_dom (cs_val x) (cs_val y) = false -> f1_dom (cs_val y) (cs_val x) = false -> u_find f1_eqb (cs_val x) m = None ->
  option_map ct_sols (ct_add_or_merge f1_eqb f1_dom f1_diff f1_merge_inv 1 (Cont [y] m) x) = Some [].
Proof.
  intros P x y m H1 H2 Hm. unfold ct_add_or_merge. cbn [ct_sols]. unfold u_test. cbn [ct_uniq]. rewrite Hm.
  cbn [existsb filter]. rewrite H1, H2. cbn.
  assert (E : f1_eqb (cs_val x) (f1_merge_inv (cs_val x) (cs_val y)) = false).
  { destruct (f1_eqb _ _) eqn:E; [|reflexivity]. apply f1_eqb_eq in E. exfalso.
    assert (H : f1_dom (cs_val y) (cs_val x) = true); [|congruence].
    apply f1_dom_le. rewrite E. cbn. lia. }
  rewrite E.
  assert (D : f1_dom (cs_val x) (f1_merge_inv (cs_val x) (cs_val y)) = true) by (apply f1_dom_le; cbn; lia).
  rewrite D. reflexivity.
Qed.
Print Assumptions C19_mixed_merge_shrinks.
Example C19_mixed_merge_shrinks_ex : f1_dom (cs_val (s3 1 5 1)) (cs_val (s3 5 1 1)) = false
  /\ f1_dom (cs_val (s3 5 1 1)) (cs_val (s3 1 5 1)) = false /\ u_find f1_eqb (cs_val (s3 1 5 1)) [] = None.
Proof. repeat split; reflexivity. Qed.

(** An equal value with fewer nodes does not replace the kept solution, although the map of
    known values lets it pass. *)
Theorem C19_fewer_nodes_refuted : exists (big small : csol f1 unit),
  cs_val big = cs_val small /\ cs_nodes small < cs_nodes big
  /\ ct_sols (ct_run f1_eqb f1_dom true [CAdd big; CAdd small]) = [big].
Proof. exists (s3 2 2 5), (s3 2 2 1). split; [reflexivity|]. split; [cbn; lia|reflexivity]. Qed.
Print Assumptions C19_fewer_nodes_refuted.
