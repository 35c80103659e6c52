(** Loading, the memo of splits, classification and scores on new data. *)
From Coq Require Import List Arith Bool Lia ZArith Sorted Permutation.
From Verif Require Import Model_FeatureVector Model_Data Model_Node Model_Terminal Model_Heap Model_Solver Model_Preproc Model_Predict
  Spec_Tree Spec_Examples Spec_Rows Proofs_View Proofs_Diff Proofs_Feature Proofs_Calc Proofs_Base Proofs_Preproc Proofs_Rows Proofs_Score.
Import ListNotations.
Local Open Scope nat_scope.

(** ** Loading *)
Lemma push_nth k x v j : nth j (push k x v) [] = if j =? k then nth j v [] ++ [x] else nth j v [].
Proof.
  revert v j. induction k as [|k IH]; intros [|g v] [|j]; cbn [push nth]; try reflexivity.
  - destruct j; reflexivity.
  - rewrite IH. destruct j; reflexivity.
  - rewrite IH. reflexivity.
Qed.
Lemma push_len k x v : length (push k x v) = Nat.max (length v) (S k).
Proof. revert v. induction k as [|k IH]; intros [|g v]; cbn [push length]; try lia; rewrite IH; cbn [length]; lia. Qed.

Definition load_step (v : view) (p : nat * (list nat * nat)) : view := push (row_label p) (row_inst p) v.
Lemma load_eq rows : load rows = fold_left load_step (numbered rows) [].
Proof. reflexivity. Qed.
Lemma load_steps L v : (forall j, nth j (fold_left load_step L v) [] = nth j v [] ++ flat_map (pick row_label row_inst j) L)
  /\ length v <= length (fold_left load_step L v) /\ forall p, In p L -> row_label p < length (fold_left load_step L v).
Proof.
  revert v. induction L as [|p L IH]; intro v; cbn [fold_left flat_map].
  - split; [intro j; rewrite app_nil_r; reflexivity|]. split; [lia|]. intros p [].
  - destruct (IH (load_step v p)) as (I1 & I2 & I3). unfold load_step in *. rewrite push_len in I2. split; [|split].
    + intro j. rewrite I1, push_nth. unfold pick at 2. rewrite (Nat.eqb_sym (row_label p) j). destruct (j =? row_label p); [rewrite <- app_assoc|]; reflexivity.
    + lia.
    + intros q [<-|Hq]; [lia|]. apply I3. exact Hq.
Qed.
Definition labels_of (rows : list (list nat * nat)) : nat := length (load rows).
Lemma load_mk_view rows : load rows = mk_view (labels_of rows) rows.
Proof.
  rewrite mk_view_eq. destruct (load_steps (numbered rows) []) as (I1 & _ & _). rewrite <- load_eq in *.
  apply (nth_ext _ _ [] []); [rewrite map_length, seq_length; reflexivity|]. intros j Hj.
  rewrite I1. cbn [app]. replace (nth j [] []) with (@nil inst) by (destruct j; reflexivity). cbn [app].
  rewrite (nth_indep _ [] (flat_map (pick row_label row_inst 0) (numbered rows))) by (rewrite map_length, seq_length; exact Hj).
  rewrite (map_nth (fun k => flat_map (pick row_label row_inst k) (numbered rows))), seq_nth by exact Hj. reflexivity.
Qed.
Definition rows_of_len (nf : nat) (rows : list (list nat * nat)) : Prop := Forall (fun p => length (fst p) = nf) rows.
Lemma load_good nf rows : rows_of_len nf rows -> good_rows nf (labels_of rows) rows.
Proof.
  intro H. apply Forall_forall. intros p Hp. split; [apply (proj1 (Forall_forall _ _) H); exact Hp|].
  destruct (load_steps (numbered rows) []) as (_ & _ & I3). rewrite <- (numbered_snd rows) in Hp. apply in_map_iff in Hp.
  destruct Hp as (q & <- & Hq). exact (I3 q Hq).
Qed.

(** ** The memo *)
Definition memo_right (root : view) (m : memo) : Prop :=
  forall b f w, In ((b, f), w) m -> w = (restrict (br_left b f) root, restrict (br_right b f) root).
Lemma memo_find_in b f m w : memo_find b f m = Some w -> In ((b, f), w) m.
Proof.
  induction m as [|[[b' f'] w'] m IH]; cbn [memo_find]; [discriminate|]. destruct (br_eqb b b' && (f =? f')) eqn:E.
  - intro H. injection H as ->. apply andb_true_iff in E. destruct E as [E1 E2]. apply br_eqb_eq in E1. apply Nat.eqb_eq in E2. subst. left. reflexivity.
  - intro H. right. apply IH. exact H.
Qed.
Lemma split_memo_right root on m b f : memo_right root m -> length b < max_branch ->
  exists m', split_memo on m (restrict b root) b f = Some ((restrict (br_left b f) root, restrict (br_right b f) root), m') /\ memo_right root m'.
Proof.
  intros Hm Hb. unfold split_memo. rewrite restrict_left, restrict_right. destruct on; [|eauto].
  unfold br_depth. rewrite (proj2 (Nat.leb_gt _ _) Hb). destruct (memo_find b f m) as [w|] eqn:E.
  - apply memo_find_in in E. apply Hm in E. subst w. eauto.
  - eexists. split; [reflexivity|]. intros b' f' w [H|H]; [injection H as <- <- <-; reflexivity|apply Hm; exact H].
Qed.

(** ** Writing labels *)
Lemma write_spec k l ls : k < length ls -> exists ls', write k l ls = Some ls' /\ length ls' = length ls
  /\ forall i, nth i ls' 0 = if i =? k then l else nth i ls 0.
Proof.
  revert k. induction ls as [|y ls IH]; intros k Hk; cbn [length] in Hk; [lia|]. destruct k as [|k]; cbn [write].
  - eexists. split; [reflexivity|]. split; [reflexivity|]. intros [|i]; reflexivity.
  - destruct (IH k ltac:(lia)) as (ls' & E & L & N). rewrite E. eexists. split; [reflexivity|]. split; [cbn [length]; lia|].
    intros [|i]; [reflexivity|]. cbn [nth]. rewrite N. reflexivity.
Qed.
Lemma write_all_spec xs l ls : (forall x, In x xs -> iid x < length ls) -> exists ls', write_all xs l ls = Some ls' /\ length ls' = length ls
  /\ forall i, (In i (map iid xs) -> nth i ls' 0 = l) /\ (~ In i (map iid xs) -> nth i ls' 0 = nth i ls 0).
Proof.
  revert ls. induction xs as [|x xs IH]; intros ls H; cbn [write_all].
  - eexists. split; [reflexivity|]. split; [reflexivity|]. intro i. split; [intros []|reflexivity].
  - destruct (write_spec (iid x) l ls (H x (or_introl eq_refl))) as (ls1 & E1 & L1 & N1). rewrite E1.
    destruct (IH ls1) as (ls2 & E2 & L2 & N2); [intros y Hy; rewrite L1; apply H; right; exact Hy|]. rewrite E2.
    eexists. split; [reflexivity|]. split; [congruence|]. intro i. destruct (N2 i) as [A B]. cbn [map]. split.
    + intros [Hi|Hi]; [|apply A; exact Hi]. destruct (in_dec Nat.eq_dec i (map iid xs)) as [Hj|Hj]; [apply A; exact Hj|].
      rewrite (B Hj), N1, Hi, Nat.eqb_refl. reflexivity.
    + intro Hn. rewrite B by (intro Q; apply Hn; right; exact Q). rewrite N1. destruct (i =? iid x) eqn:E; [|reflexivity].
      apply Nat.eqb_eq in E. exfalso. apply Hn. left. congruence.
Qed.

(** ** Classification *)
Lemma sort_nat_len l : length (sort_nat l) = length l.
Proof.
  induction l as [|x l IH]; [reflexivity|]. cbn [sort_nat length]. rewrite <- IH. generalize (sort_nat l). clear. intro l.
  induction l as [|y l IH]; [reflexivity|]. cbn [insert_sorted]. destruct (x <=? y); cbn [length]; [|rewrite IH]; reflexivity.
Qed.
Lemma br_add_len b f a : length (br_add b f a) = S (length b).
Proof. unfold br_add. rewrite sort_nat_len, app_length. cbn [length]. lia. Qed.

Section Classify.
  Context (root : view) (on : bool) (fl : nat -> bool) (n : nat).
  Hypothesis Hnd : NoDup (map iid (concat root)).
  Hypothesis Hlt : forall x, In x (concat root) -> iid x < n.

  Lemma same_id x y : In x (concat root) -> In y (concat root) -> iid x = iid y -> x = y.
  Proof.
    clear Hlt. revert Hnd. induction (concat root) as [|z l IH]; intros H Hx Hy E; [destruct Hx|]. cbn [map] in H. apply NoDup_cons_iff in H. destruct H as [Hni Hnd'].
    destruct Hx as [->|Hx], Hy as [->|Hy]; [reflexivity| | |exact (IH Hnd' Hx Hy E)].
    - exfalso. apply Hni. rewrite E. apply in_map. exact Hy.
    - exfalso. apply Hni. rewrite <- E. apply in_map. exact Hx.
  Qed.

  Lemma classify_spec t : forall b m ls, memo_right root m -> length b + depth t <= max_branch -> length ls = n ->
    exists ls' m', classify on fl t (restrict b root) b m ls = Some (ls', m') /\ memo_right root m' /\ length ls' = n
      /\ (forall x, In x (concat (restrict b root)) -> nth (iid x) ls' 0 = predict (unflip fl t) x)
      /\ (forall i, ~ In i (map iid (concat (restrict b root))) -> nth i ls' 0 = nth i ls 0).
  Proof.
    induction t as [l|f l IHl r IHr]; intros b m ls Hm Hb Hls; cbn [classify].
    - destruct (write_all_spec (concat (restrict b root)) l ls) as (ls' & E & L & N).
      { intros x Hx. apply in_restrict in Hx. rewrite Hls. apply Hlt. apply Hx. }
      rewrite E. exists ls', m. split; [reflexivity|]. split; [exact Hm|]. split; [congruence|]. split.
      + intros x Hx. apply N. apply in_map. exact Hx.
      + intros i Hi. apply N. exact Hi.
    - cbn [depth] in Hb. destruct (split_memo_right root on m b f Hm ltac:(lia)) as (m1 & E1 & Hm1). rewrite E1.
      set (tl := if fl f then r else l). set (tr := if fl f then l else r).
      assert (Il : forall b m ls, memo_right root m -> length b + depth tl <= max_branch -> length ls = n ->
        exists ls' m', classify on fl tl (restrict b root) b m ls = Some (ls', m') /\ memo_right root m' /\ length ls' = n
        /\ (forall x, In x (concat (restrict b root)) -> nth (iid x) ls' 0 = predict (unflip fl tl) x)
        /\ (forall i, ~ In i (map iid (concat (restrict b root))) -> nth i ls' 0 = nth i ls 0)) by (unfold tl; destruct (fl f); assumption).
      assert (Ir : forall b m ls, memo_right root m -> length b + depth tr <= max_branch -> length ls = n ->
        exists ls' m', classify on fl tr (restrict b root) b m ls = Some (ls', m') /\ memo_right root m' /\ length ls' = n
        /\ (forall x, In x (concat (restrict b root)) -> nth (iid x) ls' 0 = predict (unflip fl tr) x)
        /\ (forall i, ~ In i (map iid (concat (restrict b root))) -> nth i ls' 0 = nth i ls 0)) by (unfold tr; destruct (fl f); assumption).
      assert (Dl : depth tl <= Nat.max (depth l) (depth r)) by (unfold tl; destruct (fl f); lia).
      assert (Dr : depth tr <= Nat.max (depth l) (depth r)) by (unfold tr; destruct (fl f); lia).
      destruct (Il (br_left b f) m1 ls Hm1) as (ls1 & m2 & E2 & Hm2 & L2 & P2 & Q2); [unfold br_left; rewrite br_add_len; lia|exact Hls|]. rewrite E2.
      destruct (Ir (br_right b f) m2 ls1 Hm2) as (ls2 & m3 & E3 & Hm3 & L3 & P3 & Q3); [unfold br_right; rewrite br_add_len; lia|exact L2|]. rewrite E3.
      exists ls2, m3. split; [reflexivity|]. split; [exact Hm3|]. split; [exact L3|].
      assert (Up : predict (unflip fl (Split f l r)) = fun x => if has f x then predict (unflip fl tr) x else predict (unflip fl tl) x).
      { unfold tl, tr. cbn [unflip]. destruct (fl f); reflexivity. }
      assert (Hl : forall x, In x (concat (restrict (br_left b f) root)) <-> In x (concat (restrict b root)) /\ has f x = false).
      { intro x. rewrite <- restrict_left, concat_split_left, filter_In. destruct (has f x); cbn [negb]; intuition discriminate. }
      assert (Hr : forall x, In x (concat (restrict (br_right b f) root)) <-> In x (concat (restrict b root)) /\ has f x = true).
      { intro x. rewrite <- restrict_right, concat_split_right, filter_In. tauto. }
      split.
      + intros x Hx. rewrite Up. destruct (has f x) eqn:Ef.
        * apply P3. apply Hr. auto.
        * rewrite Q3.
          -- apply P2. apply Hl. auto.
          -- intro Hi. apply in_map_iff in Hi. destruct Hi as (y & Ey & Hy). apply Hr in Hy. destruct Hy as [Hy Hf].
             apply in_restrict in Hx, Hy. assert (y = x) by (apply same_id; tauto). congruence.
      + intros i Hi. rewrite Q3, Q2; [reflexivity| |].
        * intro Q. apply Hi. apply in_map_iff in Q. destruct Q as (y & Ey & Hy). apply Hl in Hy. rewrite <- Ey. apply in_map. apply Hy.
        * intro Q. apply Hi. apply in_map_iff in Q. destruct Q as (y & Ey & Hy). apply Hr in Hy. rewrite <- Ey. apply in_map. apply Hy.
  Qed.

  Lemma test_score_spec T t : forall b m, memo_right root m -> length b + depth t <= max_branch ->
    exists m', test_score_memo T on fl t (restrict b root) b m = Some (train_score T (restrict b root) b (unflip fl t), m') /\ memo_right root m'.
  Proof.
    induction t as [l|f l IHl r IHr]; intros b m Hm Hb; cbn [test_score_memo].
    - exists m. split; [reflexivity|exact Hm].
    - cbn [depth] in Hb. destruct (split_memo_right root on m b f Hm ltac:(lia)) as (m1 & E1 & Hm1). rewrite E1.
      assert (Lb : length (br_left b f) = S (length b)) by apply br_add_len. assert (Lr : length (br_right b f) = S (length b)) by apply br_add_len.
      cbn [unflip]. destruct (fl f).
      + destruct (IHr (br_left b f) m1 Hm1 ltac:(lia)) as (m2 & E2 & Hm2). rewrite E2.
        destruct (IHl (br_right b f) m2 Hm2 ltac:(lia)) as (m3 & E3 & Hm3).
        cbn [train_score]. rewrite restrict_left, restrict_right. destruct (train_score T (restrict (br_left b f) root) (br_left b f) (unflip fl r)) as [zl pl]. rewrite E3.
        destruct (train_score T (restrict (br_right b f) root) (br_right b f) (unflip fl l)) as [zr pr]. eauto.
      + destruct (IHl (br_left b f) m1 Hm1 ltac:(lia)) as (m2 & E2 & Hm2). rewrite E2.
        destruct (IHr (br_right b f) m2 Hm2 ltac:(lia)) as (m3 & E3 & Hm3).
        cbn [train_score]. rewrite restrict_left, restrict_right. destruct (train_score T (restrict (br_left b f) root) (br_left b f) (unflip fl l)) as [zl pl]. rewrite E3.
        destruct (train_score T (restrict (br_right b f) root) (br_right b f) (unflip fl r)) as [zr pr]. eauto.
  Qed.
End Classify.

(** ** The flips of the test data *)
Lemma unflip_flip fl nf nl t : fits (fun f => f < nf) nl t -> forall x, inst_ok nf x ->
  predict (unflip fl t) (flip_all fl nf x) = predict t x /\ tests (unflip fl t) (flip_all fl nf x) = tests t x.
Proof.
  intros Hf x Hx. destruct (flip_all_spec fl nf x Hx) as (_ & _ & H). induction t as [l|f l IHl r IHr]; [split; reflexivity|].
  destruct Hf as (Hf & Hl & Hr). destruct (IHl Hl) as [A1 A2], (IHr Hr) as [B1 B2]. specialize (H f Hf). cbn [unflip predict tests].
  destruct (fl f) eqn:E; cbn [predict tests]; rewrite H; destruct (has f x); cbn [xorb]; split; congruence.
Qed.

Section Table.
  Context (nf : nat) (rows : list (list nat * nat)) (fl : nat -> bool).
  Hypothesis Hlen : rows_of_len nf rows.
  Notation v := (preprocess_test fl nf (load rows)).
  Let Hg := load_good nf rows Hlen.

  Lemma table_concat : concat v = map (flip_all fl nf) (concat (load rows)).
  Proof. unfold preprocess_test. apply concat_map_map. Qed.
  Lemma table_inst x : In x (concat (load rows)) -> inst_ok nf x.
  Proof.
    intro Hx. rewrite load_mk_view in Hx. destruct (ld_bits _ _ (rows_loaded _ _ _ Hg) x Hx) as (bits & Hb & E). split; rewrite E; [exact Hb|apply fv_make_ok].
  Qed.
  Lemma table_ids : map iid (concat v) = map iid (concat (load rows)).
  Proof. rewrite table_concat, map_map. apply map_ext_in. intros x Hx. apply flip_all_spec, table_inst, Hx. Qed.
  Lemma table_perm : Permutation (map iid (concat v)) (seq 0 (length rows)).
  Proof. rewrite table_ids, load_mk_view. exact (rows_iids _ _ _ Hg). Qed.
  Lemma table_size : vsize v = length rows.
  Proof. unfold vsize. rewrite <- (map_length iid), (Permutation_length table_perm), seq_length. reflexivity. Qed.
  Lemma table_nodup : NoDup (map iid (concat v)).
  Proof. rewrite table_perm. apply seq_NoDup. Qed.
  Lemma table_lt x : In x (concat v) -> iid x < length rows.
  Proof. intro H. apply (in_map iid) in H. rewrite table_perm in H. apply in_seq in H. lia. Qed.

  Context (nl : nat) (t : tree).
  Hypothesis Ht : fits (fun f => f < nf) nl t.
  Hypothesis Hd : depth t <= max_branch.

  Lemma table_classify on m : memo_right v m -> exists m',
    classify on fl t v [] m (repeat 0 (vsize v)) = Some (map (fun r => row_predict t (fst r)) rows, m') /\ memo_right v m'.
  Proof.
    intro Hm. destruct (classify_spec v on fl (length rows) table_nodup table_lt t [] m (repeat 0 (vsize v)) Hm ltac:(cbn [length]; lia) ltac:(rewrite repeat_length; apply table_size)) as (ls & m' & E & Hm' & L & P & _).
    rewrite restrict_nil in *. exists m'. rewrite E. split; [|exact Hm']. do 2 f_equal.
    apply (nth_ext _ _ 0 (row_predict t [])); [rewrite map_length; exact L|]. intros i Hi. rewrite L in Hi.
    rewrite (map_nth (fun r => row_predict t (fst r)) rows ([], 0)).
    set (p := (i, nth i rows ([], 0))).
    assert (Hp : In p (numbered rows)).
    { unfold p, numbered. replace i with (nth i (seq 0 (length rows)) 0) at 1 by (rewrite seq_nth by exact Hi; reflexivity).
      rewrite <- combine_nth by apply seq_length. apply nth_In. rewrite combine_length, seq_length. lia. }
    assert (Hx : In (row_inst p) (concat (load rows))).
    { rewrite load_mk_view. apply (Permutation_in _ (Permutation_sym (view_perm _ _ _ Hg))). apply in_map. exact Hp. }
    assert (Hy : In (flip_all fl nf (row_inst p)) (concat v)) by (rewrite table_concat; apply in_map; exact Hx).
    specialize (P _ Hy). destruct (flip_all_spec fl nf _ (table_inst _ Hx)) as (_ & Ei & _). rewrite Ei in P. cbn [row_inst p mk_inst iid fst] in P. rewrite P.
    rewrite (proj1 (unflip_flip fl nf nl t Ht _ (table_inst _ Hx))). exact (row_predict_inst t p).
  Qed.

  Lemma table_score on m : memo_right v m -> exists m',
    test_score_memo acc on fl t v [] m = Some ((Z.of_nat (row_errors rows t), list_sum (map (fun r => S (row_tests t (fst r))) rows)), m') /\ memo_right v m'.
  Proof.
    intro Hm. destruct (test_score_spec v on fl acc t [] m Hm ltac:(cbn [length]; lia)) as (m' & E & Hm').
    rewrite restrict_nil in *. exists m'. rewrite E. split; [|exact Hm']. do 2 f_equal. rewrite (train_score_spec acc acc_good).
    assert (Hx : forall x, In x (concat (load rows)) -> predict t x = predict (unflip fl t) (flip_all fl nf x)).
    { intros x Hx. symmetry. apply (unflip_flip fl nf nl t Ht _ (table_inst _ Hx)). }
    f_equal.
    - rewrite <- (rows_errors _ _ _ Hg t), <- load_mk_view. unfold tree_cost, preprocess_test. apply cost_from_map; [reflexivity|exact Hx].
    - rewrite <- (tests_rows t rows _ _ Hg), <- load_mk_view, table_concat, !visits_tests, map_map. apply list_sum_ext. intros x Hin.
      f_equal. apply (unflip_flip fl nf nl t Ht _ (table_inst _ Hin)).
  Qed.
End Table.
