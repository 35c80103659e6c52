(** C24 and C25: train/test and k-fold splits.  [shuf s] is the [s]-th call of the random
    shuffle and [by_label] the sort on regression labels: arbitrary permutations. *)
From Coq Require Import List Arith Bool Lia Permutation Sorted.
From Verif Require Import Model_Data Model_Splits Spec_Splits Proofs_View Proofs_Path Proofs_Splits.
Import ListNotations.

Definition shuffles (shuf : nat -> list nat -> list nat) : Prop := forall s xs, Permutation (shuf s xs) xs.

(** C24: a train/test split puts every instance in exactly one part; the groups keep their
    labels and are sorted; the test part has the requested size, per label when
    stratified.  It can fail only for stratified regression with one to nine instances. *)
Theorem C24_train_test : forall lab shuf by_label reg strat a b v,
  shuffles shuf -> (forall xs, Permutation (by_label xs) xs) -> 0 < b -> input_ok reg lab v ->
  match train_test lab shuf by_label reg strat a b v with
  | None => reg = true /\ strat = true /\ 1 <= length (concat v) < 10
  | Some (tr, te) =>
      length tr = length v /\ length te = length v
      /\ Permutation (concat tr ++ concat te) (concat v)
      /\ (reg = false -> labelled lab tr /\ labelled lab te)
      /\ Forall (StronglySorted le) tr /\ Forall (StronglySorted le) te
      /\ (a <= b -> strat = false -> nearest a b (length (concat v)) (length (concat te)))
      /\ (a <= b -> strat = true -> reg = false -> forall k, k < length v -> nearest a b (length (nth k v [])) (length (nth k te [])))
  end.
Proof.
  intros lab shuf by_label reg strat a b v Hs Hb Hpos Hok.
  assert (Srt : forall g, Forall (StronglySorted le) (map sort_nat g)) by (intro g; apply Forall_map, Forall_forall; intros; apply sort_nat_sorted).
  assert (Near : forall n, a <= b -> nearest a b n (round_frac a b n)) by (intros n _; exact (round_frac_spec a b n Hpos)).
  assert (One : reg = true -> concat v = nth 0 v []).
  { intros ->. cbn in Hok. destruct v as [|x [|y v]]; cbn in *; try discriminate. apply app_nil_r. }
  unfold train_test. destruct strat.
  - destruct reg.
    + destruct (bins_spec (by_label (nth 0 v []))) as [[-> H]|(parts & -> & Hl & Hp & _)].
      * rewrite (One eq_refl). rewrite (Permutation_length (Hb _)) in H. auto.
      * pose proof (cut_parts_perm shuf Hs a b (fun _ => 0) parts (length v)) as C.
        destruct (cut_parts shuf a b (fun _ => 0) parts (length v)) as [tr te]. cbn [fst snd] in C. destruct C as (C1 & C2 & C3).
        { cbn in Hok. intros; lia. }
        rewrite !map_length. split; [exact C1|]. split; [exact C2|]. split.
        { rewrite !map_sort_perm, C3, Hp, Hb, (One eq_refl). reflexivity. }
        split; [discriminate|]. split; [apply Srt|]. split; [apply Srt|]. split; intros; discriminate.
    + cbn in Hok. pose proof (cut_parts_perm shuf Hs a b (fun y => y) (by_labels lab (length v) (concat v)) (length v)) as C.
      pose proof (cut_parts_eq shuf a b (fun y => y) (by_labels lab (length v) (concat v)) (length v)) as E.
      destruct (cut_parts shuf a b (fun y => y) (by_labels lab (length v) (concat v)) (length v)) as [tr te]. cbn [fst snd] in C.
      rewrite by_labels_length in C, E. destruct C as (C1 & C2 & C3); [auto|].
      rewrite !map_length. split; [exact C1|]. split; [exact C2|]. split.
      { rewrite !map_sort_perm, C3. apply by_labels_perm. intros i Hi. apply labelled_lt with (1 := Hok); exact Hi. }
      set (tagged := combine (seq 0 (length v)) (by_labels lab (length v) (concat v))) in *.
      assert (N : forall (part : nat * list nat -> list nat) k, k < length v ->
        nth k (fold_left (fun g p => push_to (fst p) (part p) g) tagged (empties (length v))) [] = part (k, filter (fun i => lab i =? k) (concat v))).
      { intros part k Hk. destruct (push_all_gen (fun p : nat * list nat => fst p) part (length v) tagged (empties (length v)) (empties_length _)) as (_ & Y & _).
        rewrite Y, empties_nth by exact Hk. cbn [app]. unfold tagged. rewrite <- (by_labels_length lab (length v) (concat v)) at 1.
        rewrite tagged_pick by (rewrite ?by_labels_length; lia). rewrite Nat.sub_0_r, by_labels_nth by exact Hk. reflexivity. }
      injection E as -> ->.
      assert (L : forall part, (forall p i, In i (part p) -> In i (shuf (fst p) (snd p))) ->
        labelled lab (map sort_nat (fold_left (fun g p => push_to (fst p) (part p) g) tagged (empties (length v))))).
      { intros part Hpart. apply labelled_sort. intros k i Hi.
        destruct (le_lt_dec (length v) k) as [Lk|Lk].
        - rewrite nth_overflow in Hi; [destruct Hi|].
          destruct (push_all_gen (fun p : nat * list nat => fst p) part (length v) tagged (empties (length v)) (empties_length _)) as (X & _). rewrite X. exact Lk.
        - rewrite N in Hi by exact Lk. apply Hpart in Hi. cbn [fst snd] in Hi. apply (Permutation_in _ (Hs _ _)) in Hi.
          apply filter_In in Hi. apply Nat.eqb_eq, Hi. }
      split; [intros _; split; apply L; intros p i Hi|].
      { rewrite <- (firstn_skipn (round_frac a b (length (shuf (fst p) (snd p)))) (shuf (fst p) (snd p))). apply in_or_app. right. exact Hi. }
      { rewrite <- (firstn_skipn (round_frac a b (length (shuf (fst p) (snd p)))) (shuf (fst p) (snd p))). apply in_or_app. left. exact Hi. }
      split; [apply Srt|]. split; [apply Srt|]. split; [intros; discriminate|]. intros Ha _ _ k Hk.
      rewrite nth_map_sort, (Permutation_length (sort_nat_perm _)), N by exact Hk. cbn [fst snd].
      rewrite (Permutation_length (Hs _ _)), (Permutation_length (labelled_filter lab v k Hok Hk)).
      rewrite firstn_length, (Permutation_length (Hs _ _)), (Permutation_length (labelled_filter lab v k Hok Hk)).
      rewrite Nat.min_l by (apply round_frac_le; assumption). apply Near. exact Ha.
  - set (xs := shuf 0 (concat v)). assert (Px : Permutation xs (concat v)) by apply Hs.
    set (c := round_frac a b (length xs)).
    assert (Len : a <= b -> length (firstn c xs) = round_frac a b (length (concat v))).
    { intro Ha. rewrite firstn_length_le; [unfold c; rewrite (Permutation_length Px); reflexivity|]. apply round_frac_le; assumption. }
    destruct reg.
    + cbn in Hok. rewrite !map_length, !push_to_length, !empties_length. split; [reflexivity|]. split; [reflexivity|].
      assert (P1 : forall ys, Permutation (concat (map sort_nat (push_to 0 ys (empties (length v))))) ys).
      { intro ys. rewrite map_sort_perm, push_to_concat by (rewrite empties_length; lia). rewrite empties_concat. reflexivity. }
      split; [rewrite !P1, Permutation_app_comm, firstn_skipn; exact Px|]. split; [discriminate|]. split; [apply Srt|]. split; [apply Srt|].
      split; [|intros; discriminate]. intros Ha _. rewrite (Permutation_length (P1 _)), Len by exact Ha. apply Near. exact Ha.
    + cbn in Hok. rewrite !map_length, !by_labels_length. split; [reflexivity|]. split; [reflexivity|].
      assert (Lt : forall i, In i xs -> lab i < length v).
      { intros i Hi. apply labelled_lt with (1 := Hok). eapply Permutation_in; [exact Px|exact Hi]. }
      assert (P1 : forall ys, (forall i, In i ys -> In i xs) -> Permutation (concat (map sort_nat (by_labels lab (length v) ys))) ys).
      { intros ys Hy. rewrite map_sort_perm. apply by_labels_perm. intros i Hi. apply Lt, Hy, Hi. }
      assert (I1 : forall i, In i (skipn c xs) -> In i xs) by (intros i Hi; rewrite <- (firstn_skipn c xs); apply in_or_app; right; exact Hi).
      assert (I2 : forall i, In i (firstn c xs) -> In i xs) by (intros i Hi; rewrite <- (firstn_skipn c xs); apply in_or_app; left; exact Hi).
      split; [rewrite (P1 _ I1), (P1 _ I2), Permutation_app_comm, firstn_skipn; exact Px|].
      split; [intros _; split; apply labelled_sort, labelled_by_labels|]. split; [apply Srt|]. split; [apply Srt|].
      split; [|intros; discriminate]. intros Ha _. rewrite (Permutation_length (P1 _ I2)), Len by exact Ha. apply Near. exact Ha.
Qed.
Print Assumptions C24_train_test.

(** C24: in a [k]-fold split every instance is in exactly one test fold, and train and test
    fold together are the data. *)
Theorem C24_kfold : forall lab shuf by_label reg strat k v,
  shuffles shuf -> (forall xs, Permutation (by_label xs) xs) -> 0 < k -> 0 < length v -> input_ok reg lab v ->
  match kfold lab shuf by_label reg strat k v with
  | None => reg = true /\ strat = true /\ 1 <= length (concat v) < 10
  | Some folds =>
      length folds = k
      /\ Permutation (concat (map (fun f => concat (snd f)) folds)) (concat v)
      /\ (forall f, In f folds -> Permutation (concat (fst f) ++ concat (snd f)) (concat v))
      /\ (reg = false -> strat = false -> forall f, In f folds -> labelled lab (fst f) /\ labelled lab (snd f))
  end.
Proof.
  intros lab shuf by_label reg strat k v Hs Hb Hk Hv Hok.
  assert (One : reg = true -> concat v = nth 0 v []).
  { intros ->. cbn in Hok. destruct v as [|x [|y v]]; cbn in *; try discriminate. apply app_nil_r. }
  assert (G : forall fgs, length fgs = k -> (forall g, In g fgs -> length g = length v) ->
    Permutation (concat (map (fun g => concat g) fgs)) (concat v) -> (reg = false -> strat = false -> forall g, In g fgs -> labelled lab g) ->
    forall folds, folds = map (fun f => (map (fun j => sort_nat (others fgs f j)) (seq 0 (length v)), map (fun j => sort_nat (nth j (nth f fgs []) [])) (seq 0 (length v)))) (seq 0 k) ->
      length folds = k
      /\ Permutation (concat (map (fun f => concat (snd f)) folds)) (concat v)
      /\ (forall f, In f folds -> Permutation (concat (fst f) ++ concat (snd f)) (concat v))
      /\ (reg = false -> strat = false -> forall f, In f folds -> labelled lab (fst f) /\ labelled lab (snd f))).
  { intros fgs Hl Hg Hp Hlab folds ->. split; [rewrite map_length, seq_length; reflexivity|].
    assert (T : forall f, f < k -> Permutation (concat (map (fun j => sort_nat (nth j (nth f fgs []) [])) (seq 0 (length v)))) (concat (nth f fgs []))).
    { intros f Hf. rewrite <- (map_map (fun j => nth j (nth f fgs []) []) sort_nat), map_sort_perm.
      rewrite <- (Hg (nth f fgs [])) by (apply nth_In; lia). rewrite map_nth_seq. reflexivity. }
    split; [|split].
    - rewrite map_map. cbn [snd]. rewrite (concat_map_perm _ (fun f => concat (nth f fgs []))) by (intros f Hf; apply in_seq in Hf; apply T; lia).
      rewrite <- Hp, <- (map_map (fun f => nth f fgs []) (@concat nat)), <- Hl, map_nth_seq. reflexivity.
    - intros f Hf. apply in_map_iff in Hf. destruct Hf as (i & <- & Hi). apply in_seq in Hi. cbn [fst snd]. rewrite T by lia.
      rewrite <- (map_map (fun j => others fgs i j) sort_nat), map_sort_perm. rewrite <- Hp.
      set (tagged := combine (seq 0 (length fgs)) fgs).
      assert (O : Permutation (concat (map (fun j => others fgs i j) (seq 0 (length v)))) (concat (map (fun p => if fst p =? i then [] else concat (snd p)) tagged))).
      { unfold others. fold tagged. rewrite concat_swap. apply concat_map_perm. intros p Hpin. destruct (fst p =? i).
        - rewrite concat_map_nil by reflexivity. reflexivity.
        - rewrite <- (Hg (snd p)), map_nth_seq; [reflexivity|]. unfold tagged in Hpin. destruct p as [p1 p2]. apply in_combine_r in Hpin. exact Hpin. }
      rewrite O.
      assert (Q : Permutation (concat (map (fun p : nat * groups => (if fst p =? i then [] else concat (snd p)) ++ (if fst p =? i then concat (snd p) else [])) tagged)) (concat (map (fun g => concat g) fgs))).
      { replace (map (fun g => concat g) fgs) with (map (fun p : nat * groups => concat (snd p)) tagged)
          by (unfold tagged; rewrite <- (map_map snd (@concat nat)), map_snd_combine_seq; reflexivity).
        apply concat_map_perm. intros p _. destruct (fst p =? i); [|rewrite app_nil_r]; reflexivity. }
      rewrite <- Q, concat_map_app. apply Permutation_app_head.
      assert (W : forall gs s, s <= i -> i < s + length gs ->
        concat (map (fun p : nat * groups => if fst p =? i then concat (snd p) else []) (combine (seq s (length gs)) gs)) = concat (nth (i - s) gs [])).
      { induction gs as [|x gs IH]; intros s H1 H2; cbn [length] in H2; [lia|]. cbn [length seq combine map concat fst snd].
        destruct (s =? i) eqn:E.
        - apply Nat.eqb_eq in E. subst s. rewrite Nat.sub_diag. cbn [nth]. rewrite concat_map_nil; [apply app_nil_r|].
          intros p Hpp. apply combine_seq_in in Hpp. replace (fst p =? i) with false by (symmetry; apply Nat.eqb_neq; lia). reflexivity.
        - apply Nat.eqb_neq in E. cbn [app]. rewrite IH by lia. replace (i - s) with (S (i - S s)) by lia. reflexivity. }
      unfold tagged. rewrite W; [rewrite Nat.sub_0_r|lia|unfold groups in *; lia].
      reflexivity.
    - intros R0 S0 f Hf. specialize (Hlab R0 S0). apply in_map_iff in Hf. destruct Hf as (i & <- & Hi). apply in_seq in Hi. cbn [fst snd].
      assert (Nth : forall (h : nat -> list nat) kk x, In x (nth kk (map h (seq 0 (length v))) []) -> In x (h kk)).
      { intros h kk x Hx. destruct (le_lt_dec (length v) kk) as [L|L]; [rewrite nth_overflow in Hx by (rewrite map_length, seq_length; exact L); destruct Hx|].
        rewrite (nth_indep _ [] (h 0)) in Hx by (rewrite map_length, seq_length; exact L). rewrite map_nth, seq_nth in Hx by exact L. exact Hx. }
      split; intros kk x Hx; apply Nth in Hx; apply (Permutation_in _ (sort_nat_perm _)) in Hx.
      + unfold others in Hx. apply in_concat in Hx. destruct Hx as (ys & Hy & Hx). apply in_map_iff in Hy. destruct Hy as ([p1 p2] & <- & Hy). cbn [fst snd] in Hx.
        destruct (p1 =? i); [destruct Hx|]. apply in_combine_r in Hy. apply (Hlab p2 Hy kk x Hx).
      + apply (Hlab (nth i fgs [])) with (k := kk); [apply nth_In; lia|exact Hx]. }
  assert (CA : forall parts, Permutation (concat parts) (concat v) ->
    forall fgs, fgs = map (fun f => fold_left (fun g p => push_to 0 (fold_of k (shuf (fst p) (snd p)) f) g) (combine (seq 0 (length parts)) parts) (empties (length v))) (seq 0 k) ->
    length fgs = k /\ (forall g, In g fgs -> length g = length v) /\ Permutation (concat (map (fun g => concat g) fgs)) (concat v)).
  { intros parts Hparts fgs ->. set (tagged := combine (seq 0 (length parts)) parts).
    assert (PA : forall f, length (fold_left (fun g p => push_to 0 (fold_of k (shuf (fst p) (snd p)) f) g) tagged (empties (length v))) = length v
      /\ Permutation (concat (fold_left (fun g p => push_to 0 (fold_of k (shuf (fst p) (snd p)) f) g) tagged (empties (length v)))) (concat (map (fun p => fold_of k (shuf (fst p) (snd p)) f) tagged))).
    { intro f. destruct (push_all_gen (fun _ : nat * list nat => 0) (fun p => fold_of k (shuf (fst p) (snd p)) f) (length v) tagged (empties (length v)) (empties_length _)) as (X & _ & Z).
      split; [exact X|]. rewrite Z by (intros; exact Hv). rewrite empties_concat. reflexivity. }
    split; [rewrite map_length, seq_length; reflexivity|]. split.
    - intros g Hg. apply in_map_iff in Hg. destruct Hg as (f & <- & _). apply PA.
    - rewrite map_map. rewrite (concat_map_perm _ (fun f => concat (map (fun p => fold_of k (shuf (fst p) (snd p)) f) tagged))) by (intros; apply PA).
      rewrite concat_swap. rewrite (concat_map_perm _ (fun p : nat * list nat => snd p)).
      + unfold tagged. rewrite map_snd_combine_seq. exact Hparts.
      + intros p _. change (fun x => fold_of k (shuf (fst p) (snd p)) x) with (fold_of k (shuf (fst p) (snd p))). rewrite folds_cover by exact Hk. apply Hs. }
  unfold kfold, fold_groups. destruct strat.
  - destruct reg.
    + destruct (bins_spec (by_label (nth 0 v []))) as [[-> H]|(parts & -> & Hl & Hp & _)].
      * rewrite (One eq_refl). rewrite (Permutation_length (Hb _)) in H. auto.
      * assert (Hp' : Permutation (concat parts) (concat v)) by (rewrite Hp, Hb, (One eq_refl); reflexivity).
        destruct (CA parts Hp' _ eq_refl) as (X1 & X2 & X3).
        refine (G _ X1 X2 X3 _ _ eq_refl). intros; discriminate.
    + cbn in Hok. assert (Hp' : Permutation (concat (by_labels lab (length v) (concat v))) (concat v)).
      { apply by_labels_perm. intros i Hi. apply labelled_lt with (1 := Hok); exact Hi. }
      destruct (CA _ Hp' _ eq_refl) as (X1 & X2 & X3).
      refine (G _ X1 X2 X3 _ _ eq_refl). intros; discriminate.
  - assert (Px : Permutation (shuf 0 (concat v)) (concat v)) by apply Hs.
    destruct reg.
    + refine (G _ _ _ _ _ _ eq_refl); [rewrite map_length, seq_length; reflexivity| | |intros; discriminate].
      * intros g Hg. apply in_map_iff in Hg. destruct Hg as (f & <- & _). rewrite push_to_length, empties_length. reflexivity.
      * rewrite map_map. rewrite (concat_map_perm _ (fun f => fold_of k (shuf 0 (concat v)) f)).
        { change (fun f => fold_of k (shuf 0 (concat v)) f) with (fold_of k (shuf 0 (concat v))). rewrite folds_cover by exact Hk. exact Px. }
        intros f _. rewrite push_to_concat by (rewrite empties_length; exact Hv). rewrite empties_concat. reflexivity.
    + cbn in Hok. refine (G _ _ _ _ _ _ eq_refl); [rewrite map_length, seq_length; reflexivity| | |].
      * intros g Hg. apply in_map_iff in Hg. destruct Hg as (f & <- & _). apply by_labels_length.
      * rewrite map_map. rewrite (concat_map_perm _ (fun f => fold_of k (shuf 0 (concat v)) f)).
        { change (fun f => fold_of k (shuf 0 (concat v)) f) with (fold_of k (shuf 0 (concat v))). rewrite folds_cover by exact Hk. exact Px. }
        intros f Hf. apply by_labels_perm. intros i Hi. apply labelled_lt with (1 := Hok). apply (Permutation_in _ Px).
        rewrite <- (folds_cover k (shuf 0 (concat v)) Hk). apply in_concat. exists (fold_of k (shuf 0 (concat v)) f). split; [apply in_map; exact Hf|exact Hi].
      * intros _ _ g Hg. apply in_map_iff in Hg. destruct Hg as (f & <- & _). apply labelled_by_labels.
Qed.
Print Assumptions C24_kfold.

(** C25: stratified k-fold classification puts instances of label 1 into the group of label
    0 (data.cpp:241). *)
Theorem C25_stratified_kfold_refuted : exists (lab : nat -> nat) (v : groups) folds,
  labelled lab v /\ kfold lab (fun _ xs => xs) (fun xs => xs) false true 2 v = Some folds
  /\ exists f, In f folds /\ ~ labelled lab (snd f).
Proof.
  exists (fun i => if i <? 2 then 0 else 1), [[0; 1]; [2; 3]]. eexists. split; [|split; [vm_compute; reflexivity|]].
  - intros [|[|k]] i H; cbn in H; intuition; subst; reflexivity || (destruct k; destruct H).
  - eexists. split; [left; reflexivity|]. intro H. specialize (H 0 2). cbn in H. assert (1 = 0) by tauto. discriminate.
Qed.
Print Assumptions C25_stratified_kfold_refuted.

(** C25: stratified regression splitting fails for every data set with one to nine
    instances: the bin size is 0 (data.cpp:82, 201). *)
Theorem C25_small_regression_refuted : forall lab shuf by_label a b k v,
  (forall xs, Permutation (by_label xs) xs) -> length v = 1 -> 1 <= length (concat v) < 10 ->
  train_test lab shuf by_label true true a b v = None /\ kfold lab shuf by_label true true k v = None.
Proof.
  intros lab shuf by_label a b k v Hb Hv Hn.
  assert (One : concat v = nth 0 v []) by (destruct v as [|x [|y v]]; cbn in *; try discriminate; apply app_nil_r).
  unfold train_test, kfold, fold_groups. destruct (bins_spec (by_label (nth 0 v []))) as [[-> _]|(parts & _ & _ & _ & H)]; [auto|].
  exfalso. apply H. rewrite (Permutation_length (Hb _)), <- One. exact Hn.
Qed.
Print Assumptions C25_small_regression_refuted.

(** C25, the part that holds: stratified train/test splitting of classification data always
    succeeds and keeps every instance in the group of its label; stratified k-fold splitting
    always succeeds, and every test fold holds its share of every label, up to one instance
    (only the groups are wrong); with ten or more instances, regression data can be split as
    well. *)
Theorem C25_train_test_partial : forall lab shuf by_label a b v,
  shuffles shuf -> (forall xs, Permutation (by_label xs) xs) -> 0 < b -> labelled lab v ->
  exists tr te, train_test lab shuf by_label false true a b v = Some (tr, te)
    /\ labelled lab tr /\ labelled lab te /\ Permutation (concat tr ++ concat te) (concat v).
Proof.
  intros lab shuf by_label a b v Hs Hb Hpos Hok. pose proof (C24_train_test lab shuf by_label false true a b v Hs Hb Hpos Hok) as H.
  destruct (train_test lab shuf by_label false true a b v) as [[tr te]|]; [|destruct H as [H _]; discriminate].
  destruct H as (_ & _ & H1 & H2 & _). destruct (H2 eq_refl). eauto 8.
Qed.
Print Assumptions C25_train_test_partial.

Theorem C25_enough_rows_partial : forall lab shuf by_label strat a b k v,
  shuffles shuf -> (forall xs, Permutation (by_label xs) xs) -> 0 < b -> 0 < k -> length v = 1 -> 10 <= length (concat v) ->
  train_test lab shuf by_label true strat a b v <> None /\ kfold lab shuf by_label true strat k v <> None.
Proof.
  intros lab shuf by_label strat a b k v Hs Hb Hpos Hk Hv Hn.
  pose proof (C24_train_test lab shuf by_label true strat a b v Hs Hb Hpos Hv) as H1.
  pose proof (C24_kfold lab shuf by_label true strat k v Hs Hb Hk ltac:(lia) Hv) as H2.
  split; intro E; [rewrite E in H1; lia|rewrite E in H2; lia].
Qed.
Print Assumptions C25_enough_rows_partial.

Lemma perm_filter_length {A} (p : A -> bool) xs ys : Permutation xs ys -> length (filter p xs) = length (filter p ys).
Proof. induction 1; cbn [filter]; try (destruct (p x)); try (destruct (p y)); cbn [length]; congruence. Qed.
Lemma filter_concat {A} (p : A -> bool) xss : filter p (concat xss) = concat (map (filter p) xss).
Proof. induction xss as [|x xss IH]; [reflexivity|]. cbn [concat map]. rewrite filter_app, IH. reflexivity. Qed.
Lemma filter_keep {A} (p : A -> bool) xs : (forall x, In x xs -> p x = true) -> filter p xs = xs.
Proof. induction xs as [|x xs IH]; intro H; [reflexivity|]. cbn [filter]. rewrite (H x) by (left; reflexivity). f_equal. apply IH. intros; apply H; right; assumption. Qed.
Lemma filter_drop {A} (p : A -> bool) xs : (forall x, In x xs -> p x = false) -> filter p xs = [].
Proof. induction xs as [|x xs IH]; intro H; [reflexivity|]. cbn [filter]. rewrite (H x) by (left; reflexivity). apply IH. intros; apply H; right; assumption. Qed.
Lemma fold_of_incl k xs f i : In i (fold_of k xs f) -> In i xs.
Proof.
  unfold fold_of. cbn zeta. set (b := if f =? 0 then _ else _). set (e := _ - b). intro H.
  rewrite <- (firstn_skipn b xs). apply in_or_app. right. rewrite <- (firstn_skipn e (skipn b xs)). apply in_or_app. left. exact H.
Qed.
Lemma fold_of_size k xs f : f < k -> k * length (fold_of k xs f) < length xs + k /\ length xs < k * length (fold_of k xs f) + k.
Proof.
  intro Hf. unfold fold_of. cbn zeta. set (n := length xs).
  set (b := if f =? 0 then 0 else round_frac f k n). set (e := if f =? k - 1 then n else round_frac (S f) k n).
  assert (Hb : 2 * f * n < 2 * k * b + k /\ 2 * k * b <= 2 * f * n + k).
  { unfold b. destruct (f =? 0) eqn:E; [apply Nat.eqb_eq in E; subst f; lia|]. apply round_frac_spec. lia. }
  assert (He : 2 * S f * n < 2 * k * e + k /\ 2 * k * e <= 2 * S f * n + k).
  { unfold e. destruct (f =? k - 1) eqn:E; [apply Nat.eqb_eq in E; replace (S f) with k by lia; lia|]. apply round_frac_spec. lia. }
  assert (Hen : e <= n) by (unfold e; destruct (f =? k - 1); [lia|]; apply round_frac_le; lia).
  rewrite firstn_length, skipn_length. fold n. rewrite Nat.min_l by lia.
  destruct (le_lt_dec e b) as [L|L].
  - replace (e - b) with 0 by lia. assert (2 * k * e <= 2 * k * b) by (apply Nat.mul_le_mono_l; exact L). nia.
  - assert (E : k * (e - b) + k * b = k * e) by (rewrite <- Nat.mul_add_distr_l; f_equal; lia). nia.
Qed.

Theorem C25_folds_balanced_partial : forall lab shuf by_label k v,
  shuffles shuf -> 0 < k -> 0 < length v -> labelled lab v ->
  exists folds, kfold lab shuf by_label false true k v = Some folds /\ length folds = k
    /\ forall f y, In f folds -> y < length v ->
       let have := length (filter (fun i => lab i =? y) (concat (snd f))) in let all := length (nth y v []) in
       k * have < all + k /\ all < k * have + k.
Proof.
  intros lab shuf by_label k v Hs Hk Hv Hok. unfold kfold, fold_groups. eexists. split; [reflexivity|].
  split; [rewrite map_length, seq_length; reflexivity|]. intros f y Hf Hy. cbn zeta. apply in_map_iff in Hf. destruct Hf as (i & <- & Hi). apply in_seq in Hi. cbn [snd].
  set (parts := by_labels lab (length v) (concat v)). set (tagged := combine (seq 0 (length parts)) parts).
  set (fgs := map _ (seq 0 k)).
  assert (Ei : nth i fgs [] = fold_left (fun g p => push_to 0 (fold_of k (shuf (fst p) (snd p)) i) g) tagged (empties (length v))).
  { unfold fgs. set (F := fun f => fold_left _ _ _). rewrite (nth_indep _ [] (F 0)) by (rewrite map_length, seq_length; lia). rewrite map_nth, seq_nth by lia. reflexivity. }
  destruct (push_all_gen (fun _ : nat * list nat => 0) (fun p => fold_of k (shuf (fst p) (snd p)) i) (length v) tagged (empties (length v)) (empties_length _)) as (X & _ & Z).
  rewrite <- Ei in X, Z. specialize (Z ltac:(intros; exact Hv)). rewrite empties_concat in Z. cbn [app] in Z.
  assert (Pe : Permutation (concat (map (fun j => sort_nat (nth j (nth i fgs []) [])) (seq 0 (length v)))) (concat (map (fun p => fold_of k (shuf (fst p) (snd p)) i) tagged))).
  { rewrite <- Z, <- (map_map (fun j => nth j (nth i fgs []) []) sort_nat), map_sort_perm. rewrite <- X, map_nth_seq. reflexivity. }
  rewrite (perm_filter_length _ _ _ Pe), filter_concat, map_map.
  assert (Pl : length parts = length v) by apply by_labels_length.
  assert (Em : map (fun p => filter (fun i0 => lab i0 =? y) (fold_of k (shuf (fst p) (snd p)) i)) tagged
    = map (fun p => if fst p =? y then fold_of k (shuf (fst p) (snd p)) i else []) tagged).
  { apply map_ext_in. intros [a xs] Hp. cbn [fst snd].
    assert (La : forall x, In x (fold_of k (shuf a xs) i) -> lab x = a).
    { intros x Hx. apply fold_of_incl in Hx. apply (Permutation_in _ (Hs _ _)) in Hx. apply (labelled_by_labels lab (length v) (concat v) a x).
      fold parts. pose proof (combine_seq_in parts 0 _ Hp) as Ha. cbn [fst] in Ha.
      destruct (In_nth _ _ (0, []) Hp) as (j & Hj & E). unfold tagged in E, Hj. rewrite combine_length, seq_length, Nat.min_id in Hj.
      rewrite combine_nth in E by apply seq_length. rewrite seq_nth in E by lia. injection E as E1 E2. cbn in E1. subst a. rewrite E2. exact Hx. }
    destruct (a =? y) eqn:Ea.
    - apply filter_keep. intros x Hx. rewrite (La x Hx). exact Ea.
    - apply filter_drop. intros x Hx. rewrite (La x Hx). exact Ea. }
  rewrite Em. unfold tagged. rewrite (tagged_pick (fun p => fold_of k (shuf (fst p) (snd p)) i)) by lia. cbn [fst snd]. rewrite Nat.sub_0_r.
  pose proof (fold_of_size k (shuf y (nth y parts [])) i ltac:(lia)) as F.
  rewrite (Permutation_length (Hs y (nth y parts []))) in F. unfold parts in *. rewrite by_labels_nth in * by exact Hy.
  rewrite (Permutation_length (labelled_filter lab v y Hok Hy)) in F. exact F.
Qed.
Print Assumptions C25_folds_balanced_partial.

(** Concrete cases: ten instances with three labels, 30 percent test, reversed as shuffle. *)
Definition sp_lab (i : nat) : nat := i mod 3.
Definition sp_view : groups := [[0;3;6;9]; [1;4;7]; [2;5;8]].
Example sp_ok : input_ok false sp_lab sp_view.
Proof. intros [|[|[|k]]] i H; cbn in H; intuition; subst; reflexivity || (destruct k; destruct H). Qed.
Example sp_shuf : shuffles (fun _ xs => rev xs).
Proof. intros s xs. symmetry. apply Permutation_rev. Qed.
Example sp_train_test : train_test sp_lab (fun _ xs => rev xs) (fun xs => xs) false true 3 10 sp_view
  = Some ([[0;3;6]; [1;4]; [2;5]], [[9]; [7]; [8]]).
Proof. vm_compute. reflexivity. Qed.
Example sp_kfold : option_map (map snd) (kfold sp_lab (fun _ xs => rev xs) (fun xs => xs) false false 3 sp_view)
  = Some [[[]; []; [2;5;8]]; [[9]; [1;4;7]; []]; [[0;3;6]; []; []]].
Proof. vm_compute. reflexivity. Qed.
Example sp_folds : option_map (map snd) (kfold sp_lab (fun _ xs => rev xs) (fun xs => xs) false true 2 sp_view)
  = Some [[[4;5;6;7;8;9]; []; []]; [[0;1;2;3]; []; []]].
Proof. vm_compute. reflexivity. Qed.
