(** The sums behind the training score and the question length. *)
From Coq Require Import List Arith Bool Lia ZArith Permutation.
From Verif Require Import Model_FeatureVector Model_Data Model_Node Model_Terminal Model_Heap Model_Solver Model_Preproc
  Spec_Tree Spec_Examples Spec_Rows Proofs_View Proofs_Diff Proofs_Feature Proofs_Calc Proofs_Base Proofs_Preproc Proofs_Rows.
Import ListNotations.
Local Open Scope nat_scope.

(** Nodes visited by all instances together, leaves included. *)
Fixpoint visits (t : tree) (xs : list inst) : nat :=
  match t with
  | Leaf _ => length xs
  | Split f l r => length xs + visits l (filter (fun x => negb (has f x)) xs) + visits r (filter (fun x => has f x) xs)
  end.

Fixpoint tests (t : tree) (x : inst) : nat :=
  match t with Leaf _ => 0 | Split f l r => S (if has f x then tests r x else tests l x) end.

Lemma list_sum_split {A} (p : A -> bool) (h : A -> nat) xs :
  list_sum (map h xs) = list_sum (map h (filter (fun x => negb (p x)) xs)) + list_sum (map h (filter p xs)).
Proof. induction xs as [|x xs IH]; [reflexivity|]. cbn [map filter list_sum fold_right] in *. unfold list_sum in *. cbn [fold_right]. rewrite IH. destruct (p x); cbn [negb map fold_right]; lia. Qed.
Lemma list_sum_ext {A} (h g : A -> nat) xs : (forall x, In x xs -> h x = g x) -> list_sum (map h xs) = list_sum (map g xs).
Proof. intro H. f_equal. apply map_ext_in. exact H. Qed.
Lemma list_sum_S {A} (h : A -> nat) xs : list_sum (map (fun x => S (h x)) xs) = length xs + list_sum (map h xs).
Proof. unfold list_sum. induction xs as [|x xs IH]; [reflexivity|]. cbn [map fold_right length]. rewrite IH. lia. Qed.

Lemma visits_tests t : forall xs, visits t xs = list_sum (map (fun x => S (tests t x)) xs).
Proof.
  induction t as [l|f l IHl r IHr]; intro xs; cbn [visits tests].
  - rewrite list_sum_S. assert (E : list_sum (map (fun _ : inst => 0) xs) = 0) by (induction xs; [reflexivity|assumption]). rewrite E. lia.
  - rewrite list_sum_S, IHl, IHr. rewrite <- Nat.add_assoc. f_equal.
    rewrite (list_sum_split (fun x => has f x) (fun x => S (if has f x then tests r x else tests l x))). f_equal.
    + apply list_sum_ext. intros x Hx. apply filter_In in Hx. destruct Hx as [_ Hx]. destruct (has f x); [discriminate|reflexivity].
    + apply list_sum_ext. intros x Hx. apply filter_In in Hx. destruct Hx as [_ Hx]. rewrite Hx. reflexivity.
Qed.

Section Train.
  Context (T : task) (HT : good_task T).
  Lemma train_score_spec t : forall v b, train_score T v b t = (tree_cost (tk_inst T) v t, visits t (concat v)).
  Proof.
    induction t as [l|f l IHl r IHr]; intros v b; cbn [train_score].
    - rewrite (gt_leaf T HT). reflexivity.
    - rewrite IHl, IHr. cbn [visits]. f_equal.
      + unfold get_bc. rewrite (gt_bc T HT). rewrite (tree_cost_split (tk_inst T) v f l r). lia.
      + rewrite concat_split_left, concat_split_right. reflexivity.
  Qed.
End Train.

Section Visits.
  Context (T : task) (mls nf : nat) (v : view) (Hmls : 1 <= mls) (Hld : loaded nf v).
  Notation pg := (pg T mls nf v). Notation pfl := (pfl T mls nf v). Notation pdead := (pdead T mls nf v).
  Lemma visits_unflip nl t : forall p, let xs := filter p (concat v) in
    fits (fun f => f < nf /\ tk_may T f = true) nl t -> leaves_ok mls (map pg xs) t ->
    visits (unflip pfl t) xs = visits t (map pg xs).
  Proof.
    induction t as [l|f l IHl r IHr]; intros p xs Hf Hl.
    - cbn. rewrite map_length. reflexivity.
    - destruct Hf as ((Hf & Hm) & Hfl & Hfr). destruct Hl as (Hll & Hlr).
      assert (Hxs : forall x, In x xs -> In x (concat v)) by (intros x Hx; apply filter_In in Hx; apply Hx).
      assert (Ep : pdead f = false).
      { destruct (pdead f) eqn:Ep; [exfalso|reflexivity]. pose proof (leaves_ok_size _ _ _ Hlr) as Hs.
        rewrite filter_all_false in Hs; [cbn in Hs; lia|]. intros y Hy. apply in_map_iff in Hy. destruct Hy as (x & <- & Hx).
        apply (pview_red T mls nf v Hmls Hld); [exact Ep|]. apply pview_in. exists x. auto. }
      assert (F3 : forall x, In x xs -> has f (pg x) = xorb (pfl f) (has f x)).
      { intros x Hx. destruct (pg_spec T mls nf v Hld x (Hxs x Hx)) as (_ & _ & Hg). rewrite Hg by exact Hf. rewrite Ep. reflexivity. }
      rewrite filter_map_comm in Hll, Hlr.
      set (xl := filter (fun x => p x && negb (has f (pg x))) (concat v)). set (xr := filter (fun x => p x && has f (pg x)) (concat v)).
      assert (El : filter (fun x => negb (has f (pg x))) xs = xl) by (unfold xs, xl; apply filter_filter).
      assert (Er : filter (fun x => has f (pg x)) xs = xr) by (unfold xs, xr; apply filter_filter).
      rewrite El in Hll. rewrite Er in Hlr. specialize (IHl _ Hfl Hll). specialize (IHr _ Hfr Hlr). fold xl in IHl. fold xr in IHr.
      cbn [unflip visits]. rewrite !filter_map_comm, El, Er, map_length.
      destruct (pfl f) eqn:Efl; cbn [visits].
      + rewrite (filter_ext_list _ (fun x => has f (pg x)) xs) by (intros x Hx; rewrite (F3 x Hx); destruct (has f x); reflexivity).
        rewrite (filter_ext_list (fun x => has f x) (fun x => negb (has f (pg x))) xs) by (intros x Hx; rewrite (F3 x Hx); destruct (has f x); reflexivity).
        rewrite El, Er, IHl, IHr. lia.
      + rewrite (filter_ext_list _ (fun x => negb (has f (pg x))) xs) by (intros x Hx; rewrite (F3 x Hx); destruct (has f x); reflexivity).
        rewrite (filter_ext_list (fun x => has f x) (fun x => has f (pg x)) xs) by (intros x Hx; rewrite (F3 x Hx); destruct (has f x); reflexivity).
        rewrite El, Er, IHl, IHr. lia.
  Qed.

  Lemma visits_pview d n t : allowed (fun f => f < nf /\ tk_may T f = true) mls d n (pview T mls nf v) t ->
    visits t (concat (pview T mls nf v)) = visits (unflip pfl t) (concat v).
  Proof.
    intros (H1 & H2 & _). unfold pview in *. rewrite concat_map_map in *.
    pose proof (visits_unflip _ t (fun _ => true) H1) as H. rewrite filter_true in H. symmetry. apply H. exact H2.
  Qed.
End Visits.

Lemma tests_rows t rows nf nl : good_rows nf nl rows ->
  visits t (concat (mk_view nl rows)) = list_sum (map (fun r => S (row_tests t (fst r))) rows).
Proof.
  intro Hg. rewrite visits_tests.
  assert (P : forall (h : inst -> nat) xs ys, Permutation xs ys -> list_sum (map h xs) = list_sum (map h ys)).
  { intros h xs ys H. unfold list_sum. induction H; cbn [map fold_right]; lia. }
  rewrite (P _ _ _ (view_perm nf nl rows Hg)), map_map. rewrite <- (numbered_snd rows) at 2. rewrite map_map. f_equal. apply map_ext.
  intro p. f_equal. induction t as [l|f l IHl r IHr]; [reflexivity|]. cbn [tests row_tests]. rewrite row_has, IHl, IHr. destruct (_ =? _); reflexivity.
Qed.
