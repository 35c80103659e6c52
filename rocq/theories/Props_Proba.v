(** C43: predicted probabilities. *)
From Coq Require Import List ZArith QArith Bool Arith Lia Lqa.
From Verif Require Import Model_Terminal Model_Proba.
Import ListNotations.
Local Open Scope nat_scope.

(** Specification: the answers a row gives on its way down, and its label. *)
Fixpoint answers (t : tree) (r : int_row) : list bool :=
  match t with
  | Leaf _ => []
  | Split f a b => if (cell f r =? 0)%Z then false :: answers a r else true :: answers b r
  end.
Fixpoint label_of (t : tree) (r : int_row) : nat :=
  match t with Leaf l => l | Split f a b => if (cell f r =? 0)%Z then label_of a r else label_of b r end.
Definition same_leaf (t : tree) (r r' : int_row) : bool := if list_eq_dec bool_dec (answers t r) (answers t r') then true else false.
(** The labels of the training rows in the leaf of [r]. *)
Definition leaf_labels (t : tree) (train : list (int_row * nat)) (r : int_row) : list nat := map snd (filter (fun p => same_leaf t r (fst p)) train).
(** The share of label [j] in a list of labels. *)
Definition share (ys : list nat) (j : nat) : Q := (inject_Z (Z.of_nat (count_occ Nat.eq_dec ys j)) / inject_Z (Z.of_nat (length ys)))%Q.

Lemma filter_and {A} (f g : A -> bool) l : filter f (filter g l) = filter (fun x => g x && f x) l.
Proof. induction l as [|a l IH]; cbn; [reflexivity|]. destruct (g a); cbn; [destruct (f a)|]; now rewrite IH. Qed.
Lemma same_leaf_iff t r r' : same_leaf t r r' = true <-> answers t r = answers t r'.
Proof. unfold same_leaf. destruct (list_eq_dec _ _ _); split; congruence. Qed.
Lemma same_leaf_split f a b r r' : same_leaf (Split f a b) r r' =
  if (cell f r =? 0)%Z then (cell f r' =? 0)%Z && same_leaf a r r' else negb (cell f r' =? 0)%Z && same_leaf b r r'.
Proof.
  apply eq_true_iff_eq. rewrite same_leaf_iff. cbn [answers]. destruct (cell f r =? 0)%Z, (cell f r' =? 0)%Z; cbn [andb negb];
    rewrite ?same_leaf_iff; split; congruence.
Qed.
Lemma leaf_labels_split f a b train r : leaf_labels (Split f a b) train r =
  if (cell f r =? 0)%Z then leaf_labels a (filter (fun p => (cell f (fst p) =? 0)%Z) train) r
  else leaf_labels b (filter (fun p => negb (cell f (fst p) =? 0)%Z) train) r.
Proof.
  unfold leaf_labels. destruct (cell f r =? 0)%Z eqn:E; f_equal; rewrite filter_and; apply filter_ext; intros p; rewrite same_leaf_split, E; reflexivity.
Qed.
Lemma assign_length P ix p : length (assign P ix p) = length P.
Proof. unfold assign. now rewrite map_length, seq_length. Qed.
Lemma assign_nth P ix p i : i < length P -> nth i (assign P ix p) [] = if existsb (Nat.eqb i) ix then p else nth i P [].
Proof.
  intros L. unfold assign. set (g := fun i => if existsb (Nat.eqb i) ix then p else nth i P []).
  rewrite (nth_indep _ [] (g 0)) by (rewrite map_length, seq_length; exact L). rewrite map_nth, seq_nth by exact L. reflexivity.
Qed.
Lemma existsb_in i ix : existsb (Nat.eqb i) ix = true <-> In i ix.
Proof.
  rewrite existsb_exists. split; [intros (x & I & E); apply Nat.eqb_eq in E; now subst|]. intros I. exists i. split; [exact I|apply Nat.eqb_refl].
Qed.
Lemma filter_flip f (train : list (int_row * nat)) : filter (fun p => negb (negb (cell f (fst p) =? 0)%Z)) train = filter (fun p => (cell f (fst p) =? 0)%Z) train.
Proof. apply filter_ext. intros. apply negb_involutive. Qed.

Lemma rec_spec k X t : forall P ix train P', rec_proba k X t P ix train = Some P' ->
  length P' = length P /\ forall i, i < length P ->
    (~ In i ix -> nth i P' [] = nth i P []) /\
    (In i ix -> leaf_probs k (leaf_labels t train (nth i X [])) = Some (nth i P' []) /\ leaf_labels t train (nth i X []) <> []
       /\ label_of t (nth i X []) < k /\ (qmax (nth i P' []) - (1 # 100000) <= nth (label_of t (nth i X [])) (nth i P' []) 0)%Q).
Proof.
  induction t as [l|f a IHa b IHb]; intros P ix train P'; cbn [rec_proba label_of].
  - destruct (length train =? 0) eqn:L0; [discriminate|]. destruct (leaf_probs k (map snd train)) as [p|] eqn:LP; [|discriminate].
    destruct (l <? k) eqn:LK; cbn [negb]; [|discriminate]. destruct (Qle_bool _ _) eqn:MX; [|discriminate]. intros [= <-].
    rewrite assign_length. split; [reflexivity|]. intros i Li. rewrite assign_nth by exact Li.
    assert (LL : leaf_labels (Leaf l) train (nth i X []) = map snd train).
    { unfold leaf_labels. f_equal. clear. induction train as [|x tr IH]; cbn [filter]; [reflexivity|]. replace (same_leaf (Leaf l) (nth i X []) (fst x)) with true by (symmetry; apply same_leaf_iff; reflexivity). now rewrite IH. }
    rewrite LL. split; intros I.
    + destruct (existsb (Nat.eqb i) ix) eqn:E; [apply existsb_in in E; contradiction|reflexivity].
    + apply existsb_in in I. rewrite I. split; [exact LP|]. split; [|split; [now apply Nat.ltb_lt|now apply Qle_bool_iff]].
      destruct train; [discriminate|discriminate].
  - destruct (rec_proba k X a P _ _) as [P1|] eqn:R1; [|discriminate]. intros R2. rewrite filter_flip in R1.
    apply IHa in R1. apply IHb in R2. destruct R1 as [L1 H1], R2 as [L2 H2]. split; [congruence|]. intros i Li.
    destruct (H1 i Li) as [N1 Y1]. destruct (H2 i ltac:(lia)) as [N2 Y2]. rewrite filter_In in N1, Y1, N2, Y2. rewrite leaf_labels_split. split; intros I.
    + rewrite N2 by tauto. apply N1. tauto.
    + destruct (cell f (nth i X []) =? 0)%Z eqn:C.
      * rewrite N2 by (intros [_ F]; discriminate F). apply Y1. split; [exact I|]. apply Z.eqb_eq in C. rewrite C. reflexivity.
      * apply Y2. auto.
Qed.

Lemma leaf_probs_spec k ys p : leaf_probs k ys = Some p -> length p = k /\ (forall j, j < k -> nth j p 0%Q = share ys j) /\ Forall (fun y => y < k) ys.
Proof.
  unfold leaf_probs. destruct (forallb _ ys) eqn:F; [|discriminate]. intros [= <-]. rewrite map_length, seq_length. split; [reflexivity|]. split.
  - intros j L. rewrite (nth_indep _ 0%Q (share ys 0)) by (rewrite map_length, seq_length; exact L). change (fun j0 => (inject_Z (Z.of_nat (count_occ Nat.eq_dec ys j0)) / inject_Z (Z.of_nat (length ys)))%Q) with (share ys).
    rewrite map_nth, seq_nth by exact L. reflexivity.
  - apply Forall_forall. intros y I. rewrite forallb_forall in F. apply Nat.ltb_lt. auto.
Qed.
Lemma qmax_ge l x : In x l -> (x <= qmax l)%Q.
Proof.
  induction l as [|a l IH]; intros I; [destruct I|]. cbn. fold (qmax l). destruct (Qle_bool a (qmax l)) eqn:E.
  - apply Qle_bool_iff in E. destruct I as [<-|I]; auto.
  - assert (qmax l < a)%Q by (destruct (Qlt_le_dec (qmax l) a) as [X|X]; [exact X|apply Qle_bool_iff in X; congruence]). destruct I as [<-|I]; [lra|]. specialize (IH I). lra.
Qed.

(** Every row gets the label shares of the training rows in its leaf. *)
Theorem C43_shares k t train X P : predict_proba k t train X = Some P ->
  length P = length X /\ forall i, i < length X -> length (nth i P []) = k /\ leaf_labels t train (nth i X []) <> [] /\
    forall j, j < k -> nth j (nth i P []) 0%Q = share (leaf_labels t train (nth i X [])) j.
Proof.
  unfold predict_proba. destruct (rec_proba _ _ _ _ _ _) as [P1|] eqn:R; [|discriminate]. destruct (forallb _ P1); [|discriminate]. intros [= <-].
  apply rec_spec in R. rewrite map_length in R. destruct R as [L H]. split; [exact L|]. intros i Li. destruct (H i Li) as [_ H1].
  destruct H1 as (LP & NE & _); [apply in_seq; lia|]. apply leaf_probs_spec in LP. tauto.
Qed.

Lemma count_sum k ys : Forall (fun y => y < k) ys -> fold_right Nat.add 0 (map (count_occ Nat.eq_dec ys) (seq 0 k)) = length ys.
Proof.
  assert (Z : forall n s, fold_right Nat.add 0 (map (fun _ => 0) (seq s n)) = 0) by (induction n; intros s; cbn; auto).
  assert (ONE : forall y n s, fold_right Nat.add 0 (map (fun j => if Nat.eq_dec y j then 1 else 0) (seq s n)) = if (s <=? y) && (y <? s + n) then 1 else 0).
  { intros y. induction n as [|n IH]; intros s; cbn [seq map fold_right].
    - destruct (s <=? y) eqn:A, (y <? s + 0) eqn:B; cbn; try reflexivity. apply Nat.leb_le in A. apply Nat.ltb_lt in B. lia.
    - rewrite IH. destruct (Nat.eq_dec y s) as [->|N].
      + replace (S s <=? s) with false by (symmetry; apply Nat.leb_gt; lia). replace (s <=? s) with true by (symmetry; apply Nat.leb_le; lia). replace (s <? s + S n) with true by (symmetry; apply Nat.ltb_lt; lia). reflexivity.
      + replace (S s <=? y) with (s <=? y) by (destruct (s <=? y) eqn:A; symmetry; [apply Nat.leb_le in A; apply Nat.leb_le; lia|apply Nat.leb_gt in A; apply Nat.leb_gt; lia]). replace (S s + n) with (s + S n) by lia. reflexivity. }
  induction 1 as [|y ys L F IH]; cbn [length].
  - exact (Z k 0).
  - rewrite <- IH. clear IH F. assert (G : forall n s, fold_right Nat.add 0 (map (count_occ Nat.eq_dec (y :: ys)) (seq s n)) = fold_right Nat.add 0 (map (fun j => if Nat.eq_dec y j then 1 else 0) (seq s n)) + fold_right Nat.add 0 (map (count_occ Nat.eq_dec ys) (seq s n))).
    { induction n as [|n IH]; intros s; cbn [seq map fold_right]; [reflexivity|]. rewrite IH. cbn [count_occ]. destruct (Nat.eq_dec y s); lia. }
    rewrite G, ONE. replace (y <? 0 + k) with true by (symmetry; apply Nat.ltb_lt; lia). cbn. reflexivity.
Qed.
Lemma share_sum ys : ys <> [] -> forall l, (fold_right Qplus 0 (map (share ys) l) == inject_Z (Z.of_nat (fold_right Nat.add 0%nat (map (count_occ Nat.eq_dec ys) l))) / inject_Z (Z.of_nat (length ys)))%Q.
Proof.
  intros NE. assert (N : ~ (inject_Z (Z.of_nat (length ys)) == 0)%Q) by (destruct ys; [contradiction|]; unfold Qeq; cbn; lia).
  induction l as [|j l IH]; cbn [map fold_right]; [change (inject_Z (Z.of_nat 0)) with 0%Q; unfold Qdiv; rewrite Qmult_0_l; reflexivity|]. rewrite IH, Nat2Z.inj_add, inject_Z_plus. unfold share. field. exact N.
Qed.
Lemma nth_map_seq (p : list Q) k g : length p = k -> (forall j, j < k -> nth j p 0%Q = g j) -> p = map g (seq 0 k).
Proof.
  intros L H. apply (nth_ext _ _ 0%Q 0%Q).
  - rewrite map_length, seq_length. exact L.
  - intros n Hn. rewrite L in Hn. rewrite H by exact Hn. rewrite (nth_indep (map g (seq 0 k)) 0%Q (g 0)) by (rewrite map_length, seq_length; exact Hn). rewrite map_nth, seq_nth by exact Hn. reflexivity.
Qed.
(** They are a distribution, and the predicted label has the largest one (up to the tolerance). *)
Theorem C43_distribution k t train X P : predict_proba k t train X = Some P -> forall i, i < length X ->
  (forall j, (0 <= nth j (nth i P []) 0)%Q) /\ (fold_right Qplus 0 (nth i P []) == 1)%Q /\
  label_of t (nth i X []) < k /\ forall j, (nth j (nth i P []) 0 <= nth (label_of t (nth i X [])) (nth i P []) 0 + (1 # 100000))%Q.
Proof.
  intros H i Li. destruct (C43_shares _ _ _ _ _ H) as [L S]. destruct (S i Li) as (Lk & NE & Sh).
  unfold predict_proba in H. destruct (rec_proba _ _ _ _ _ _) as [P1|] eqn:R; [|discriminate]. destruct (forallb _ P1); [|discriminate]. injection H as ->.
  apply rec_spec in R. rewrite map_length in R. destruct R as [_ R]. destruct (R i Li) as [_ R1]. destruct R1 as (LP & _ & LB & MX); [apply in_seq; lia|].
  apply leaf_probs_spec in LP. destruct LP as (_ & _ & F).
  assert (NN : forall j, (0 <= nth j (nth i P []) 0)%Q).
  { intros j. destruct (Nat.lt_ge_cases j k) as [J|J]; [|rewrite nth_overflow by lia; lra]. rewrite Sh by exact J. unfold share. apply Qle_shift_div_l.
    - destruct (leaf_labels t train (nth i X [])); [contradiction|]. unfold Qlt; cbn; lia.
    - unfold Qle; cbn; lia. }
  split; [exact NN|]. split.
  - rewrite (nth_map_seq _ k _ Lk Sh), (share_sum _ NE), (count_sum k _ F). apply Qmult_inv_r. destruct (leaf_labels t train (nth i X [])); [contradiction|]. unfold Qeq; cbn; lia.
  - split; [exact LB|]. intros j. destruct (Nat.lt_ge_cases j k) as [J|J].
    + assert (nth j (nth i P []) 0 <= qmax (nth i P []))%Q by (apply qmax_ge, nth_In; lia). lra.
    + rewrite (nth_overflow (nth i P [])) by lia. pose proof (NN (label_of t (nth i X []))). lra.
Qed.

(** When it works: labels below the number of classes, and in every leaf of the tree there are
    training rows, the label of the leaf being a most frequent one. *)
Fixpoint majority_leaves (k : nat) (t : tree) (train : list (int_row * nat)) : Prop :=
  match t with
  | Leaf l => train <> [] /\ l < k /\ forall j, count_occ Nat.eq_dec (map snd train) j <= count_occ Nat.eq_dec (map snd train) l
  | Split f a b => majority_leaves k a (filter (fun p => (cell f (fst p) =? 0)%Z) train) /\ majority_leaves k b (filter (fun p => negb (cell f (fst p) =? 0)%Z) train)
  end.
Lemma qmax_le l q : (0 <= q)%Q -> Forall (fun x => (x <= q)%Q) l -> (qmax l <= q)%Q.
Proof. intros Z. induction 1 as [|a l H F IH]; cbn; [exact Z|]. fold (qmax l). destruct (Qle_bool a (qmax l)); assumption. Qed.
Lemma rec_some k X t : forall P ix train, Forall (fun p => snd p < k) train -> majority_leaves k t train -> exists P', rec_proba k X t P ix train = Some P'.
Proof.
  induction t as [l|f a IHa b IHb]; intros P ix train F M; cbn [rec_proba].
  - destruct M as (NE & LK & MJ). destruct train as [|p0 tr] eqn:T; [contradiction|]. rewrite <- T in *. replace (length train =? 0) with false by (subst; reflexivity).
    destruct (leaf_probs k (map snd train)) as [p|] eqn:LP.
    + apply leaf_probs_spec in LP. destruct LP as (Lp & Sp & _). replace (l <? k) with true by (symmetry; now apply Nat.ltb_lt). cbn [negb].
      assert (POS : (0 < inject_Z (Z.of_nat (length (map snd train))))%Q) by (subst; unfold Qlt; cbn; lia).
      assert (Q : (qmax p <= nth l p 0)%Q).
      { apply qmax_le.
        - rewrite Sp by exact LK. unfold share. apply Qle_shift_div_l; [exact POS|]. unfold Qle; cbn; lia.
        - apply Forall_forall. intros x I. apply (In_nth _ _ 0%Q) in I. destruct I as (j & J & <-). rewrite !Sp by lia. unfold share. apply Qmult_le_compat_r.
          + rewrite <- Zle_Qle. specialize (MJ j). lia.
          + apply Qinv_le_0_compat. lra. }
      replace (Qle_bool (qmax p - (1 # 100000)) (nth l p 0%Q)) with true by (symmetry; apply Qle_bool_iff; lra). eauto.
    + unfold leaf_probs in LP. replace (forallb (fun y => y <? k) (map snd train)) with true in LP; [discriminate|]. symmetry. apply forallb_forall. intros y I. apply in_map_iff in I. destruct I as (x & <- & I).
      rewrite Forall_forall in F. apply Nat.ltb_lt. auto.
  - destruct M as [Ma Mb]. rewrite filter_flip.
    assert (FF : forall g : int_row * nat -> bool, Forall (fun p => snd p < k) (filter g train)) by (intros g; rewrite Forall_forall in *; intros x I; apply filter_In in I; apply F; tauto).
    match goal with |- context [rec_proba k X a P ?i ?tr] => destruct (IHa P i tr (FF _) Ma) as (P1 & ->) end. apply IHb; auto.
Qed.
Theorem C43_works k t train X : Forall (fun p => snd p < k) train -> majority_leaves k t train -> exists P, predict_proba k t train X = Some P.
Proof.
  intros F M. unfold predict_proba. set (P0 := map _ X). destruct (rec_some k X t P0 (seq 0 (length X)) train F M) as (P & R). rewrite R.
  replace (forallb _ P) with true; [eauto|]. symmetry. apply forallb_forall. intros p I. apply (In_nth _ _ []) in I. destruct I as (i & Li & <-).
  apply rec_spec in R. unfold P0 in R. rewrite map_length in R. destruct R as [L R]. rewrite L in Li. destruct (R i Li) as [_ R1]. destruct R1 as (LP & NE & _); [apply in_seq; lia|].
  apply leaf_probs_spec in LP. destruct LP as (Lp & Sp & Fy). apply Qle_bool_iff. rewrite (nth_map_seq _ k _ Lp Sp), (share_sum _ NE), (count_sum k _ Fy).
  assert (E : forall q, ~ (q == 0)%Q -> (q / q == 1)%Q) by (intros q Nq; apply Qmult_inv_r, Nq).
  rewrite E; [unfold Qle; cbn; lia|]. destruct (leaf_labels t train (nth i X [])); [contradiction|]. unfold Qeq; cbn; lia.
Qed.
Definition ex_train : list (int_row * nat) := map (fun p => (map Z.of_nat (fst p), snd p)) [([0; 0], 0); ([0; 1], 1); ([0; 1], 0); ([1; 0], 2); ([1; 1], 1); ([1; 1], 1)].
Example C43_ex : Forall (fun p => snd p < 3) ex_train /\ majority_leaves 3 (Split 0 (Leaf 0) (Leaf 1)) ex_train /\ n_classes ex_train = 3 /\
  predict_proba 3 (Split 0 (Leaf 0) (Leaf 1)) ex_train [[1; 0]; [0; 1]]%Z = Some [[0 / 3; 2 / 3; 1 / 3]; [2 / 3; 1 / 3; 0 / 3]]%Q.
Proof.
  split; [repeat constructor|]. split; [|split; reflexivity]. cbn. repeat split; try discriminate; try lia; intros [|[|[|j]]]; cbn; lia.
Qed.
(** When the training labels are the numbers 0 .. m-1, each of them present, and every leaf
    predicts a most frequent label of its training rows, there is one column per label. *)
Theorem C43_columns m t train X : (forall j, In j (map snd train) <-> j < m) -> majority_leaves m t train ->
  exists P, predict_proba (n_classes train) t train X = Some P /\ length P = length X /\ Forall (fun p => length p = m) P.
Proof.
  intros H M. assert (E : n_classes train = m).
  { unfold n_classes. rewrite <- (seq_length m 0). apply Nat.le_antisymm; apply NoDup_incl_length; try apply NoDup_nodup; try apply seq_NoDup.
    - intros j I. apply nodup_In, H in I. apply in_seq. lia.
    - intros j I. apply in_seq in I. apply nodup_In, H. lia. }
  rewrite E. destruct (C43_works m t train X) as (P & Q).
  - apply Forall_forall. intros p I. apply H. apply in_map. exact I.
  - exact M.
  - exists P. split; [exact Q|]. destruct (C43_shares _ _ _ _ _ Q) as [L S]. split; [exact L|].
    apply Forall_forall. intros p I. apply (In_nth _ _ []) in I. destruct I as (i & Li & <-). rewrite L in Li. apply S. exact Li.
Qed.
Example C43_columns_ex : (forall j, In j (map snd ex_train) <-> j < 3) /\ majority_leaves 3 (Split 0 (Leaf 0) (Leaf 1)) ex_train.
Proof.
  split; [|exact (proj1 (proj2 C43_ex))]. intros j. cbn. lia.
Qed.
(** Refuted in general: a tree whose leaf label is not the most frequent one (as the F1 task may
    return) fails, and so do labels that are not numbered from 0 without gaps. *)
Theorem C43_minority_refuted : exists t train X, Forall (fun p => snd p < n_classes train) train /\ leaf_labels t train (nth 0 X []) <> [] /\ predict_proba (n_classes train) t train X = None.
Proof. exists (Leaf 1), [([0%Z], 0); ([0%Z], 0); ([1%Z], 1)], [[0]]%Z. split; [repeat constructor|]. split; [discriminate|reflexivity]. Qed.
Theorem C43_gap_refuted : exists t train X, majority_leaves 3 t train /\ predict_proba (n_classes train) t train X = None.
Proof.
  exists (Split 0 (Leaf 0) (Leaf 2)), [([0%Z], 0); ([1%Z], 2)], [[0]]%Z. split; [|reflexivity]. cbn. repeat split; try discriminate; try lia; intros [|[|[|j]]]; cbn; lia.
Qed.

Print Assumptions C43_shares.
Print Assumptions C43_distribution.
Print Assumptions C43_works.
Print Assumptions C43_minority_refuted.
Print Assumptions C43_gap_refuted.
Print Assumptions C43_columns.
