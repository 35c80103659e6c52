(** From a user's rows to the solver's data and back. *)
From Coq Require Import List Arith Bool Lia ZArith Sorted Permutation.
From Verif Require Import Model_FeatureVector Model_Data Model_Node Model_Terminal Model_Solver Spec_Tree Spec_Examples Spec_Rows Proofs_View Proofs_Feature.
Import ListNotations.
Local Open Scope nat_scope.

Section Group.
  Context {A B : Type} (key : A -> nat) (g : A -> B).
  Definition pick (k : nat) (p : A) : list B := if key p =? k then [g p] else [].

  Lemma pick_none p ks : ~ In (key p) ks -> concat (map (fun k => pick k p) ks) = [].
  Proof.
    induction ks as [|k ks IH]; [reflexivity|]. cbn [map concat In]. intro H. unfold pick at 1.
    destruct (Nat.eqb_spec (key p) k) as [E|E]; [destruct H; auto|]. apply IH. tauto.
  Qed.
  Lemma pick_one p ks : NoDup ks -> In (key p) ks -> concat (map (fun k => pick k p) ks) = [g p].
  Proof.
    induction 1 as [|k ks Hni Hnd IH]; [intros []|]. cbn [map concat]. unfold pick at 1. intros [->|Hin].
    - rewrite Nat.eqb_refl, pick_none by exact Hni. reflexivity.
    - destruct (Nat.eqb_spec (key p) k) as [E|E]; [congruence|]. apply IH. exact Hin.
  Qed.
  Lemma concat_app_perm {C} (F H : nat -> list C) ks :
    Permutation (concat (map (fun k => F k ++ H k) ks)) (concat (map F ks) ++ concat (map H ks)).
  Proof.
    induction ks as [|k ks IH]; [constructor|]. cbn [map concat]. rewrite IH, <- !app_assoc. apply Permutation_app_head.
    rewrite !app_assoc. apply Permutation_app_tail. apply Permutation_app_comm.
  Qed.
  Lemma group_perm nl L : (forall p, In p L -> key p < nl) ->
    Permutation (concat (map (fun k => flat_map (pick k) L) (seq 0 nl))) (map g L).
  Proof.
    induction L as [|p L IH]; intro H.
    - cbn [flat_map map]. assert (E : forall ks, concat (map (fun _ : nat => @nil B) ks) = []) by (induction ks; auto). rewrite E. constructor.
    - cbn [flat_map map]. rewrite concat_app_perm, pick_one; [|apply seq_NoDup|apply in_seq; specialize (H p (or_introl eq_refl)); lia].
      cbn [app]. constructor. apply IH. intros q Hq. apply H. right. exact Hq.
  Qed.
End Group.

Definition numbered (rows : list (list nat * nat)) : list (nat * (list nat * nat)) := combine (seq 0 (length rows)) rows.
Definition row_inst (p : nat * (list nat * nat)) : inst := mk_inst (fst p) (fst (snd p)).
Definition row_label (p : nat * (list nat * nat)) : nat := snd (snd p).

Lemma mk_view_eq nl rows : mk_view nl rows = map (fun k => flat_map (pick row_label row_inst k) (numbered rows)) (seq 0 nl).
Proof. reflexivity. Qed.

Lemma combine_snd {A B} (l1 : list A) (l2 : list B) : length l1 = length l2 -> map snd (combine l1 l2) = l2.
Proof. revert l2. induction l1; intros [|y l2] H; cbn in *; try lia; [reflexivity|]. f_equal. apply IHl1. lia. Qed.
Lemma combine_fst {A B} (l1 : list A) (l2 : list B) : length l1 = length l2 -> map fst (combine l1 l2) = l1.
Proof. revert l2. induction l1; intros [|y l2] H; cbn in *; try lia; [reflexivity|]. f_equal. apply IHl1. lia. Qed.

Lemma numbered_snd rows : map snd (numbered rows) = rows.
Proof. apply combine_snd. apply seq_length. Qed.
Lemma numbered_fst rows : map fst (numbered rows) = seq 0 (length rows).
Proof. apply combine_fst. apply seq_length. Qed.

Section Rows.
  Context (nf nl : nat) (rows : list (list nat * nat)).
  Hypothesis Hg : good_rows nf nl rows.
  Notation v := (mk_view nl rows).

  Lemma numbered_in p : In p (numbered rows) -> In (snd p) rows.
  Proof. intro H. rewrite <- (numbered_snd rows). apply in_map. exact H. Qed.
  Lemma numbered_label p : In p (numbered rows) -> row_label p < nl.
  Proof. intro H. apply numbered_in in H. apply (proj1 (Forall_forall _ _) Hg) in H. apply H. Qed.

  Lemma view_perm : Permutation (concat v) (map row_inst (numbered rows)).
  Proof. rewrite mk_view_eq. apply group_perm. exact numbered_label. Qed.

  Lemma rows_size : vsize v = length rows.
  Proof.
    unfold vsize. rewrite (Permutation_length view_perm), map_length. unfold numbered.
    rewrite combine_length, seq_length. lia.
  Qed.
  Lemma rows_labels : num_labels v = nl.
  Proof. unfold num_labels, mk_view. rewrite map_length, seq_length. reflexivity. Qed.

  Lemma rows_iids : Permutation (map iid (concat v)) (seq 0 (length rows)).
  Proof.
    rewrite view_perm, map_map. rewrite <- numbered_fst. apply Permutation_refl'. apply map_ext. reflexivity.
  Qed.

  Lemma sorted_pick L k : StronglySorted lt (map fst L) -> StronglySorted (fun x y => iid x < iid y) (flat_map (pick row_label row_inst k) L).
  Proof.
    induction L as [|p L IH]; intro H; [constructor|]. cbn [map] in H. apply StronglySorted_inv in H. destruct H as [H1 H2].
    cbn [flat_map]. unfold pick at 1. destruct (_ =? _); [|apply IH; exact H1]. cbn [app]. constructor; [apply IH; exact H1|].
    apply Forall_forall. intros x Hx. apply in_flat_map in Hx. destruct Hx as (q & Hq & Hx). unfold pick in Hx.
    destruct (_ =? _); [|destruct Hx]. destruct Hx as [<-|[]]. cbn. apply (proj1 (Forall_forall _ _) H2). apply in_map. exact Hq.
  Qed.
  Lemma sorted_seq n a : StronglySorted lt (seq a n).
  Proof. revert a. induction n as [|n IH]; intro a; constructor; [apply IH|]. apply Forall_forall. intros x Hx. apply in_seq in Hx. lia. Qed.

  Lemma rows_loaded : loaded nf v.
  Proof.
    constructor.
    - intros x Hx. rewrite view_perm in Hx. apply in_map_iff in Hx. destruct Hx as (p & <- & Hp).
      exists (bits_of (fst (snd p))). split; [|reflexivity]. unfold bits_of. rewrite map_length.
      apply numbered_in in Hp. apply (proj1 (Forall_forall _ _) Hg) in Hp. apply Hp.
    - rewrite rows_iids. apply seq_NoDup.
    - intros x Hx. apply (in_map iid) in Hx. rewrite rows_iids in Hx. apply in_seq in Hx. rewrite rows_size. lia.
    - rewrite mk_view_eq. apply Forall_forall. intros xs Hx. apply in_map_iff in Hx. destruct Hx as (k & <- & _).
      apply sorted_pick. rewrite numbered_fst. apply sorted_seq.
  Qed.

  Lemma row_has f p : has f (row_inst p) = negb (nth f (fst (snd p)) 0 =? 0).
  Proof.
    unfold has, row_inst, mk_inst, fv_has, fv_make, bits_of. cbn [ifv fv_bits].
    change false with ((fun k => negb (k =? 0)) 0). rewrite map_nth. reflexivity.
  Qed.
  Lemma row_predict_inst t p : predict t (row_inst p) = row_predict t (fst (snd p)).
  Proof. induction t as [l|f l IHl r IHr]; [reflexivity|]. cbn [predict row_predict]. rewrite row_has, IHl, IHr. destruct (_ =? _); reflexivity. Qed.

  Lemma perm_filter {A} (p : A -> bool) xs ys : Permutation xs ys -> Permutation (filter p xs) (filter p ys).
  Proof.
    induction 1 as [|x xs ys H IH|x y xs|xs ys zs H1 IH1 H2 IH2]; cbn [filter].
    - constructor.
    - destruct (p x); [constructor|]; assumption.
    - destruct (p x), (p y); try reflexivity. constructor.
    - etransitivity; eassumption.
  Qed.
  Lemma leaves_perm m t : forall xs ys, Permutation xs ys -> leaves_ok m xs t -> leaves_ok m ys t.
  Proof.
    induction t as [l|f l IHl r IHr]; intros xs ys H; cbn [leaves_ok].
    - rewrite (Permutation_length H). auto.
    - intros [H1 H2]. split; [eapply IHl|eapply IHr]; try eassumption; apply perm_filter; exact H.
  Qed.
  Lemma leaves_map m t : forall L, leaves_ok m (map row_inst L) t <-> row_leaves m (map snd L) t.
  Proof.
    assert (HF : forall (q : inst -> bool) (q' : list nat * nat -> bool) L, (forall p, q (row_inst p) = q' (snd p)) ->
      filter q (map row_inst L) = map row_inst (filter (fun p => q' (snd p)) L) /\ map snd (filter (fun p => q' (snd p)) L) = filter q' (map snd L)).
    { intros q q' L H. induction L as [|p L IH]; [split; reflexivity|]. cbn [map filter]. rewrite H. destruct IH as [I1 I2].
      destruct (q' (snd p)); cbn [map]; split; congruence. }
    induction t as [l|f l IHl r IHr]; intro L; cbn [leaves_ok row_leaves]; [rewrite !map_length; tauto|].
    destruct (HF (fun x => negb (has f x)) (fun p => nth f (fst p) 0 =? 0) L) as [A1 A2].
    { intro p. rewrite row_has, negb_involutive. reflexivity. }
    destruct (HF (fun x => has f x) (fun p => negb (nth f (fst p) 0 =? 0)) L) as [B1 B2].
    { intro p. apply row_has. }
    rewrite A1, B1, IHl, IHr, A2, B2. tauto.
  Qed.

  Lemma rows_allowed m d n t : row_allowed nf nl m d n rows t <-> allowed (fun f => f < nf) m d n v t.
  Proof.
    unfold row_allowed, allowed. change (length v) with (num_labels v). rewrite rows_labels.
    assert (E : row_leaves m rows t <-> leaves_ok m (concat v) t).
    { rewrite <- (numbered_snd rows) at 1. rewrite <- leaves_map. split; apply leaves_perm; [symmetry|]; apply view_perm. }
    rewrite E. tauto.
  Qed.

  Lemma cost_from_app c (F H : nat -> list inst) t n k :
    cost_from c k (map (fun j => F j ++ H j) (seq k n)) t = (cost_from c k (map F (seq k n)) t + cost_from c k (map H (seq k n)) t)%Z.
  Proof.
    revert k. induction n as [|n IH]; intro k; [reflexivity|]. cbn [seq map cost_from]. rewrite IH.
    assert (E : forall xs ys (h : inst -> Z), fold_right (fun x a => h x + a)%Z 0%Z (xs ++ ys) = (fold_right (fun x a => h x + a)%Z 0%Z xs + fold_right (fun x a => h x + a)%Z 0%Z ys)%Z).
    { intros xs ys h. induction xs as [|x xs IHx]; [reflexivity|]. cbn [app fold_right]. rewrite IHx. lia. }
    rewrite (E _ _ (fun x => c x k (predict t x))). lia.
  Qed.
  Lemma cost_from_pick c t p n k : cost_from c k (map (fun j => pick row_label row_inst j p) (seq k n)) t
    = if (k <=? row_label p) && (row_label p <? k + n) then c (row_inst p) (row_label p) (predict t (row_inst p)) else 0%Z.
  Proof.
    revert k. induction n as [|n IH]; intro k.
    - cbn [seq map cost_from]. rewrite (proj2 (andb_false_iff _ _)); [reflexivity|]. rewrite Nat.leb_gt, Nat.ltb_ge. lia.
    - cbn [seq map cost_from]. rewrite IH. unfold pick. destruct (Nat.eqb_spec (row_label p) k) as [->|Hne].
      + cbn [fold_right]. rewrite Nat.leb_refl, (proj2 (Nat.ltb_lt k (k + S n))), (proj2 (Nat.leb_gt (S k) k)) by lia. cbn [andb]. lia.
      + cbn [fold_right]. assert (E : (S k <=? row_label p) && (row_label p <? S k + n) = ((k <=? row_label p) && (row_label p <? k + S n))).
        { apply eq_true_iff_eq. rewrite !andb_true_iff, !Nat.leb_le, !Nat.ltb_lt. lia. }
        rewrite E. lia.
  Qed.
  Lemma rows_cost c t : tree_cost c v t = fold_right (fun p a => c (row_inst p) (row_label p) (predict t (row_inst p)) + a)%Z 0%Z (numbered rows).
  Proof.
    unfold tree_cost. rewrite mk_view_eq. pose proof numbered_label as HL. revert HL. generalize (numbered rows) as L.
    induction L as [|p L IH]; intro HL.
    - cbn [flat_map fold_right]. assert (E : forall n k, cost_from c k (map (fun _ : nat => []) (seq k n)) t = 0%Z).
      { induction n as [|n IHn]; intro k; [reflexivity|]. cbn [seq map cost_from fold_right]. rewrite IHn. reflexivity. }
      apply E.
    - cbn [flat_map fold_right]. rewrite cost_from_app, IH by (intros q Hq; apply HL; right; exact Hq). f_equal.
      rewrite cost_from_pick. specialize (HL p (or_introl eq_refl)). cbn [Nat.leb andb plus]. rewrite (proj2 (Nat.ltb_lt _ _) HL). reflexivity.
  Qed.

  Lemma rows_errors t : tree_cost (tk_inst acc) v t = Z.of_nat (row_errors rows t).
  Proof.
    rewrite rows_cost. unfold row_errors. rewrite <- (numbered_snd rows) at 2. generalize (numbered rows) as L.
    induction L as [|p L IH]; [reflexivity|]. cbn [map filter fold_right]. rewrite IH, row_predict_inst. unfold row_label.
    cbn [acc tk_inst]. rewrite (Nat.eqb_sym (snd (snd p))). destruct (_ =? _); cbn [negb length]; lia.
  Qed.
End Rows.
