(** C22: the preprocessing of the training data cannot be seen from outside. *)
From Coq Require Import List Arith Bool Lia ZArith.
From Verif Require Import Model_FeatureVector Model_Data Model_Node Model_Terminal Model_Heap Model_Solver Model_Preproc
  Spec_Tree Spec_Examples Spec_Rows Proofs_Preproc Proofs_Rows.
Import ListNotations.
Local Open Scope nat_scope.

(** [T] is any task with additive costs that depend on the instance only through its number
    and that may branch on every feature; [v] the data as loaded. *)
Definition plain_task (T : task) : Prop :=
  (forall f, tk_may T f = true) /\ (forall x y k l, iid x = iid y -> tk_inst T x k l = tk_inst T y k l).

(** A tree within the limits on the preprocessed data gives to every preprocessed instance
    the label that the un-flipped tree gives to the original instance of the same number,
    and the un-flipped tree is within the same limits on the original data. *)
Theorem C22_unflipped_tree : forall T mls nf v fl red v', plain_task T -> 1 <= mls -> loaded nf v ->
  preprocess T mls nf v = (fl, red, v') ->
  forall d n t, allowed (fun f => f < nf) mls d n v' t ->
    allowed (fun f => f < nf) mls d n v (unflip fl t)
    /\ forall x, In x (concat v) -> exists x', In x' (concat v') /\ iid x' = iid x /\ predict (unflip fl t) x = predict t x'.
Proof.
  intros T mls nf v fl red v' (Hmay & Hc) Hm Hld Hp d n t Ht.
  rewrite preprocess_eq in Hp. injection Hp as <- <- <-.
  assert (Ht' : allowed (fun f => f < nf /\ tk_may T f = true) mls d n (pview T mls nf v) t).
  { destruct Ht as (A1 & A2 & A3 & A4). split; [|auto]. clear -A1 Hmay. induction t as [l|f l IHl r IHr]; cbn [fits] in *; intuition. }
  destruct (allowed_from T mls nf v Hm Hld Hc d n t Ht') as (B1 & _ & _). split; [exact B1|].
  intros x Hx. exists (pg T mls nf v x). split; [apply pview_in; exists x; auto|]. split; [apply (pg_spec T mls nf v Hld x Hx)|].
  destruct Ht' as (H1 & H2 & _). change (length (pview T mls nf v)) with (num_labels (pview T mls nf v)) in H1. rewrite pview_labels in H1.
  unfold pview in H2. rewrite concat_map_map in H2.
  destruct (unflip_tree T mls nf v Hm Hld (num_labels v) t (fun _ => true)) as (_ & _ & _ & _ & A5); rewrite ?filter_true in *; try assumption.
  apply A5. exact Hx.
Qed.
Print Assumptions C22_unflipped_tree.

(** Flipping, and dropping rare and duplicate features, does not change the optimum. *)
Theorem C22_same_optimum : forall T mls nf v fl red v', plain_task T -> 1 <= mls -> loaded nf v ->
  preprocess T mls nf v = (fl, red, v') ->
  forall d n z, optimum (tk_inst T) (fun f => f < nf) mls d n v z <-> optimum (tk_inst T) (fun f => f < nf) mls d n v' z.
Proof.
  intros T mls nf v fl red v' (Hmay & Hc) Hm Hld Hp d n z.
  rewrite preprocess_eq in Hp. injection Hp as <- <- <-.
  assert (F : forall nl t, fits (fun f => f < nf) nl t <-> fits (fun f => f < nf /\ tk_may T f = true) nl t).
  { intros nl t. induction t as [l|f l IHl r IHr]; cbn [fits]; [tauto|]. rewrite IHl, IHr. specialize (Hmay f). tauto. }
  assert (A : forall t, allowed (fun f => f < nf) mls d n (pview T mls nf v) t <-> allowed (fun f => f < nf /\ tk_may T f = true) mls d n (pview T mls nf v) t).
  { intro t. unfold allowed. rewrite F. reflexivity. }
  pose proof (allowed_to T mls nf v Hm (fun f _ => Hmay f) Hld Hc d n) as To.
  pose proof (allowed_from T mls nf v Hm Hld Hc d n) as From.
  split; intros ((t & H1 & H2) & H3).
  - split.
    + destruct (To t H1) as (t' & B1 & B2). exists t'. rewrite A, B2. auto.
    + intros t' Ht'. apply A in Ht'. destruct (From t' Ht') as (B1 & B2 & _). rewrite B2. auto.
  - split.
    + apply A in H1. destruct (From t H1) as (B1 & B2 & _). exists (unflip (pfl T mls nf v) t). split; [exact B1|congruence].
    + intros t' Ht'. destruct (To t' Ht') as (t'' & B1 & B2). rewrite <- B2. apply H3. apply A. exact B1.
Qed.
Print Assumptions C22_same_optimum.

(** A case with a flipped, a rare and a duplicate feature. *)
Definition c22_rows : list (list nat * nat) := [([1;0;0;1],1); ([1;0;0;0],0); ([1;0;0;1],1); ([0;0;1;1],0); ([1;0;0;1],1)].
Example c22_ex_loaded : loaded 4 (mk_view 2 c22_rows).
Proof. apply (rows_loaded 4 2). repeat constructor. Qed.
Example c22_ex : let '(fl, red, v') := preprocess acc 1 4 (mk_view 2 c22_rows) in
  fl 0 = true /\ red 1 = true /\ red 2 = true /\ red 0 = false
  /\ allowed (fun f => f < 4) 1 2 3 v' (Split 0 (Split 3 (Leaf 1) (Leaf 0)) (Leaf 0)).
Proof.
  vm_compute. repeat split; try (repeat constructor); try reflexivity.
  all: intros; auto.
Qed.
