(** C65-C68: the data of a call as it reaches the search. *)
From Coq Require Import List Arith Bool ZArith QArith Lia Sorted.
From Verif Require Import Model_PyData Model_Binarizer.
Import ListNotations.
Local Open Scope nat_scope.

(** * C65.  The sensitive column comes first, the others follow in their order, in every call. *)
(** Specification: the columns with the one at place [i] first. *)
Definition first_col {A} (i : nat) (X : list A) : list A := firstn 1 (skipn i X) ++ firstn i X ++ skipn (S i) X.

Lemma sequence_some {A B} (f : A -> option B) (g : A -> B) l : (forall x, In x l -> f x = Some (g x)) -> sequence (map f l) = Some (map g l).
Proof. induction l as [|x l IH]; intro H; [reflexivity|]. cbn [map sequence]. rewrite H by (left; reflexivity). rewrite IH by (intros; apply H; right; assumption). reflexivity. Qed.
Lemma sequence_app {A} (l l' : list (option A)) r r' : sequence l = Some r -> sequence l' = Some r' -> sequence (l ++ l') = Some (r ++ r').
Proof.
  revert r. induction l as [|[x|] l IH]; cbn [sequence app]; intros r H H'; [injection H as <-; exact H'| |discriminate].
  destruct (sequence l) as [s|] eqn:E; [|discriminate]. injection H as <-. rewrite (IH s eq_refl H'). reflexivity.
Qed.

Lemma py_in n (k : nat) : k < n -> py_index n (Z.of_nat k) = Some k.
Proof. intro H. unfold py_index. replace ((0 <=? Z.of_nat k) && (Z.of_nat k <? Z.of_nat n))%Z with true by (symmetry; apply andb_true_iff; split; [apply Z.leb_le|apply Z.ltb_lt]; lia). rewrite Nat2Z.id. reflexivity. Qed.
Lemma py_neg n (k : nat) : 1 <= k <= n -> py_index n (- Z.of_nat k) = Some (n - k).
Proof.
  intro H. unfold py_index. replace (0 <=? - Z.of_nat k)%Z with false by (symmetry; apply Z.leb_gt; lia). cbn [andb].
  replace ((- Z.of_nat n <=? - Z.of_nat k) && (- Z.of_nat k <? 0))%Z with true by (symmetry; apply andb_true_iff; split; [apply Z.leb_le|apply Z.ltb_lt]; lia). f_equal. lia.
Qed.

Lemma pick_range {A} (X : list A) a b : a <= b <= length X ->
  sequence (map (fun k => match py_index (length X) k with Some j => nth_error X j | None => None end) (py_range (Z.of_nat a) (Z.of_nat b))) = Some (firstn (b - a) (skipn a X)).
Proof.
  intro H. unfold py_range. replace (Z.to_nat (Z.of_nat b - Z.of_nat a)) with (b - a) by lia. rewrite map_map.
  assert (E : forall k, In k (seq 0 (b - a)) -> match py_index (length X) (Z.of_nat a + Z.of_nat k) with Some j => nth_error X j | None => None end = nth_error (skipn a X) k).
  { intros k Hk. apply in_seq in Hk. rewrite <- Nat2Z.inj_add, py_in by lia. rewrite <- (firstn_skipn a X) at 1. rewrite nth_error_app2 by (rewrite firstn_length; lia).
    f_equal. rewrite firstn_length. lia. }
  rewrite (map_ext_in _ _ _ E). clear E. assert (L : b - a <= length (skipn a X)) by (rewrite skipn_length; lia).
  revert L. generalize (skipn a X) as Y, (b - a) as m. clear. intros Y m. revert Y. induction m as [|m IH]; intros Y L; [reflexivity|].
  destruct Y as [|y Y]; [cbn in L; lia|]. cbn [seq map sequence nth_error firstn]. rewrite <- seq_shift, map_map. cbn [nth_error]. rewrite IH by (cbn in L; lia). reflexivity.
Qed.

(** For an array and an index from the front; the array is not changed, so every call sees this. *)
Theorem C65_array_partial : forall {C} (i : nat) (X : list C), i < length X -> move_array (Z.of_nat i) X = Some (first_col i X).
Proof.
  intros C i X H. unfold move_array. destruct (Z.of_nat i =? 0)%Z eqn:E.
  - apply Z.eqb_eq in E. assert (i = 0) by lia. subst. destruct X; [cbn in H; lia|reflexivity].
  - change (Z.of_nat i :: py_range 0 (Z.of_nat i) ++ py_range (Z.of_nat i + 1) (Z.of_nat (length X)))
      with ([Z.of_nat i] ++ py_range (Z.of_nat 0) (Z.of_nat i) ++ py_range (Z.of_nat i + 1) (Z.of_nat (length X))).
    replace (Z.of_nat i + 1)%Z with (Z.of_nat (S i)) by lia. rewrite !map_app. unfold first_col.
    apply sequence_app; [|apply sequence_app].
    + cbn [map sequence]. rewrite py_in by exact H. revert i H E. induction X as [|x X IH]; intros i H E; [cbn in H; lia|]. destruct i as [|i]; [reflexivity|].
      cbn [nth_error skipn]. destruct i as [|i]; [destruct X; [cbn in H; lia|reflexivity]|]. apply IH; [cbn in H; lia|reflexivity].
    + rewrite pick_range by lia. rewrite Nat.sub_0_r. reflexivity.
    + rewrite pick_range by lia. rewrite firstn_all2 by (rewrite skipn_length; lia). reflexivity.
Qed.
Print Assumptions C65_array_partial.

Lemma py_range_cons a b : (a < b)%Z -> py_range a b = a :: py_range (a + 1) b.
Proof.
  intro H. unfold py_range. replace (Z.to_nat (b - a)) with (S (Z.to_nat (b - (a + 1)))) by lia. cbn [seq map]. f_equal; [lia|].
  rewrite <- seq_shift, map_map. apply map_ext. intro k. lia.
Qed.
Lemma skipn_nth {A} (X : list A) j : j < length X -> exists x, nth_error X j = Some x /\ skipn j X = x :: skipn (S j) X.
Proof.
  revert j. induction X as [|x X IH]; intros j H; [cbn in H; lia|]. destruct j as [|j]; [exists x; split; reflexivity|]. cbn [nth_error]. cbn [length] in H.
  destruct (IH j ltac:(lia)) as (y & E1 & E2). exists y. split; [exact E1|exact E2].
Qed.
Lemma pick_neg {A} (X : list A) k : k <= length X ->
  sequence (map (fun k => match py_index (length X) k with Some j => nth_error X j | None => None end) (py_range (- Z.of_nat k) (Z.of_nat (length X))))
  = Some (skipn (length X - k) X ++ X).
Proof.
  induction k as [|k IH]; intro H.
  - change (- Z.of_nat 0)%Z with (Z.of_nat 0). rewrite pick_range by lia. rewrite !Nat.sub_0_r, skipn_all. cbn [skipn app]. rewrite firstn_all. reflexivity.
  - rewrite py_range_cons by lia. cbn [map sequence]. rewrite py_neg by lia. replace (- Z.of_nat (S k) + 1)%Z with (- Z.of_nat k)%Z by lia. rewrite IH by lia.
    destruct (skipn_nth X (length X - S k) ltac:(lia)) as (x & E1 & E2). rewrite E1, E2. replace (S (length X - S k)) with (length X - k) by lia. reflexivity.
Qed.

(** Refuted for an index from the back: the sensitive column is moved to the front and the
    whole array follows, so the search gets a second copy of it (and copies of the columns
    after it). *)
Theorem C65_negative_refuted : forall {C} (k : nat) (X : list C), 1 <= k <= length X ->
  move_array (- Z.of_nat k) X = Some (skipn (length X - k) X ++ X).
Proof.
  intros C k X H. unfold move_array. replace (- Z.of_nat k =? 0)%Z with false by (symmetry; apply Z.eqb_neq; lia).
  assert (R0 : py_range 0 (- Z.of_nat k) = []) by (unfold py_range; replace (Z.to_nat (- Z.of_nat k - 0)) with 0 by lia; reflexivity).
  rewrite R0. cbn [app]. rewrite <- py_range_cons by lia. apply pick_neg. apply H.
Qed.
Print Assumptions C65_negative_refuted.

(** For a data frame and a column name. *)
Lemma find_col_in {C} (X : @frame C) p : NoDup (map fst X) -> In p X -> find_col (fst p) X = Some (snd p).
Proof.
  induction X as [|q X IH]; intros N H; [destruct H|]. cbn [map] in N. apply NoDup_cons_iff in N. destruct N as [N1 N2]. unfold find_col. cbn [find].
  destruct H as [->|H]; [rewrite Nat.eqb_refl; reflexivity|]. destruct (fst q =? fst p) eqn:E; [|apply IH; assumption].
  apply Nat.eqb_eq in E. exfalso. apply N1. rewrite E. apply in_map. exact H.
Qed.
Lemma others {C} (X : @frame C) i p : NoDup (map fst X) -> nth_error X i = Some p ->
  (fst p, snd p) :: filter (fun q => negb (fst q =? fst p)) X = first_col i X.
Proof.
  revert i. induction X as [|q X IH]; intros i N H; [destruct i; discriminate|]. cbn [map] in N. apply NoDup_cons_iff in N. destruct N as [N1 N2].
  destruct i as [|i].
  - cbn [nth_error] in H. injection H as ->. unfold first_col. cbn [skipn firstn app filter]. rewrite Nat.eqb_refl. cbn [negb]. rewrite <- surjective_pairing. f_equal.
    clear IH N2. induction X as [|r X IH]; [reflexivity|]. cbn [filter]. destruct (fst r =? fst p) eqn:E; [exfalso; apply N1; apply Nat.eqb_eq in E; rewrite <- E; left; reflexivity|].
    cbn [negb]. f_equal. apply IH. intro K. apply N1. right. exact K.
  - cbn [nth_error] in H. specialize (IH i N2 H). cbn [filter].
    assert (Hp : In p X) by (eapply nth_error_In; exact H).
    destruct (fst q =? fst p) eqn:E; [exfalso; apply N1; apply Nat.eqb_eq in E; rewrite E; apply in_map; exact Hp|]. cbn [negb].
    assert (Q : first_col (S i) (q :: X) = firstn 1 (skipn i X) ++ q :: firstn i X ++ skipn (S i) X) by reflexivity.
    rewrite Q. clear Q. unfold first_col in IH. rewrite <- surjective_pairing in *. destruct (firstn 1 (skipn i X)) as [|a l] eqn:Ef.
    + exfalso. assert (K : i < length X) by (apply nth_error_Some; congruence). apply (f_equal (@length _)) in Ef. rewrite firstn_length, skipn_length in Ef. cbn [length] in Ef. lia.
    + assert (l = []) as -> by (destruct (skipn i X); cbn in Ef; [discriminate|]; injection Ef as _ <-; reflexivity).
      cbn [app] in *. injection IH as IHa IHb. rewrite IHb, IHa. reflexivity.
Qed.

Lemma first_col_perm {A} i (X : list A) : i < length X -> forall x, In x (first_col i X) <-> In x X.
Proof.
  intros H x. unfold first_col. rewrite <- (firstn_skipn i X) at 4. rewrite !in_app_iff. destruct (skipn_nth X i H) as (y & _ & E). rewrite E. cbn [firstn In]. tauto.
Qed.
Lemma first_col_nodup {C} i (X : @frame C) : i < length X -> NoDup (map fst X) -> NoDup (map fst (first_col i X)).
Proof.
  intros H N. unfold first_col. destruct (skipn_nth X i H) as (y & _ & E). rewrite E. cbn [firstn].
  rewrite <- (firstn_skipn i X), E, map_app in N. cbn [map] in N. rewrite !map_app. cbn [map app]. apply NoDup_remove in N. destruct N as [N1 N2]. constructor; assumption.
Qed.
Lemma first_col_len {A} i (X : list A) : i < length X -> length (first_col i X) = length X.
Proof.
  intro H. unfold first_col. destruct (skipn_nth X i H) as (y & _ & E). rewrite E. cbn [firstn app length]. rewrite app_length.
  rewrite <- (firstn_skipn i X) at 3. rewrite app_length, E. cbn [length]. lia.
Qed.
Lemma move_name_spec {C} (X : @frame C) i p : NoDup (map fst X) -> nth_error X i = Some p -> move_name (fst p) X = Some (first_col i X).
Proof.
  intros N H. unfold move_name. rewrite (find_col_in X p N (nth_error_In _ _ H)). f_equal. apply others; assumption.
Qed.
Lemma first_hd {A} i (X : list A) x : nth_error X i = Some x -> nth_error (first_col i X) 0 = Some x.
Proof.
  intro H. assert (K : i < length X) by (apply nth_error_Some; congruence). unfold first_col. destruct (skipn_nth X i K) as (y & E1 & E2). rewrite E2. cbn. congruence.
Qed.
Lemma first_zero {A} (X : list A) : first_col 0 X = X.
Proof. destruct X; reflexivity. Qed.
Lemma select_all {C} (X : @frame C) (Y : @frame C) : NoDup (map fst X) -> (forall p, In p Y -> In p X) -> select (map fst Y) X = Some (map snd Y).
Proof.
  intros N H. unfold select. rewrite map_map. apply sequence_some. intros p Hp. apply find_col_in; [exact N|apply H; exact Hp].
Qed.

(** Every call of a history on the same frame sees the sensitive column first and the others in
    the order of the first call. *)
Theorem C65_name_partial : forall {C} (X : @frame C) i p (names : list nat) (calls : list df_call), NoDup (map fst X) -> nth_error X i = Some p ->
  df_run (move_name (fst p)) (X, names) (DFit :: calls) = Some (repeat (map snd (first_col i X)) (S (length calls))).
Proof.
  intros C X i p names calls N H. assert (K : i < length X) by (apply nth_error_Some; congruence).
  cbn [df_run]. unfold df_step at 1. cbn [fst]. rewrite (move_name_spec X i p N H). cbv beta iota.
  pose proof (first_col_nodup i X K N) as N'. pose proof (first_hd i X p H) as H'. set (Y := first_col i X : @frame C) in *.
  assert (S0 : move_name (fst p) Y = Some Y) by (rewrite (move_name_spec Y 0 p N' H'), first_zero; reflexivity).
  enough (E : df_run (move_name (fst p)) (Y, map fst Y) calls = Some (repeat (map snd Y) (length calls))) by (rewrite E; reflexivity).
  induction calls as [|c cs IH]; [reflexivity|]. cbn [df_run length repeat]. unfold df_step. cbn [fst snd]. rewrite S0.
  destruct c; [rewrite IH; reflexivity|]. rewrite select_all by auto. cbn [option_map]. rewrite IH. reflexivity.
Qed.
Print Assumptions C65_name_partial.

(** For a data frame and an index: predictions after a fit see the columns of that fit. *)
Lemma move_frame_perm {C} (X : @frame C) i : i < length X -> NoDup (map fst X) -> move_frame (Z.of_nat i) X = Some (first_col i X).
Proof.
  intros K N. unfold move_frame. destruct (Z.of_nat i =? 0)%Z eqn:E.
  - apply Z.eqb_eq in E. assert (i = 0) by lia. subst. rewrite first_zero. reflexivity.
  - rewrite py_in by exact K. destruct (skipn_nth X i K) as (y & E1 & _). rewrite E1. apply move_name_spec; assumption.
Qed.
Theorem C65_index_predict_partial : forall {C} (X : @frame C) i (names : list nat) n, NoDup (map fst X) -> i < length X ->
  df_run (move_frame (Z.of_nat i)) (X, names) (DFit :: repeat DPredict n) = Some (repeat (map snd (first_col i X)) (S n)).
Proof.
  intros C X i names n N K. cbn [df_run]. unfold df_step at 1. cbn [fst]. rewrite (move_frame_perm X i K N). cbv beta iota.
  set (Y := first_col i X : @frame C). assert (NY : NoDup (map fst Y)) by (apply first_col_nodup; assumption). assert (LY : i < length Y) by (unfold Y; rewrite first_col_len; assumption).
  enough (E : forall Z0 : @frame C, NoDup (map fst Z0) -> i < length Z0 -> (forall p, In p Y -> In p Z0) ->
    df_run (move_frame (Z.of_nat i)) (Z0, map fst Y) (repeat DPredict n) = Some (repeat (map snd Y) n)) by (rewrite E; auto).
  clear LY NY. induction n as [|n IH]; intros Z0 N0 L0 HZ; [reflexivity|]. cbn [df_run repeat]. unfold df_step. cbn [fst snd]. rewrite (move_frame_perm Z0 i L0 N0).
  assert (H1 : forall p, In p Y -> In p (first_col i Z0)) by (intros p Hp; apply first_col_perm; auto).
  rewrite select_all by (auto using first_col_nodup). cbn [option_map]. rewrite IH; [reflexivity|apply first_col_nodup; assumption|rewrite first_col_len; assumption|exact H1].
Qed.
Print Assumptions C65_index_predict_partial.

(** Refuted for a second fit on the same frame: the column before the sensitive one is taken
    for the sensitive one. *)
Theorem C65_index_refit_refuted : forall {C} (X : @frame C) i p q (names : list nat), NoDup (map fst X) -> 0 < i ->
  nth_error X i = Some p -> nth_error X (i - 1) = Some q ->
  exists cols cols', df_run (move_frame (Z.of_nat i)) (X, names) [DFit; DFit] = Some [snd p :: cols; snd q :: cols'].
Proof.
  intros C X i p q names N Hi Hp Hq. assert (K : i < length X) by (apply nth_error_Some; congruence).
  cbn [df_run]. unfold df_step. cbn [fst]. rewrite (move_frame_perm X i K N). cbv beta iota. cbn [fst].
  rewrite (move_frame_perm (first_col i X) i) by (rewrite ?first_col_len; auto using first_col_nodup). cbn [option_map].
  assert (Q : nth_error (first_col i X) i = Some q).
  { unfold first_col. destruct (skipn_nth X i K) as (y & E1 & E2). rewrite E2. cbn [firstn app]. destruct i as [|i]; [lia|]. cbn [nth_error].
    rewrite Nat.sub_succ, Nat.sub_0_r in Hq. rewrite nth_error_app1 by (rewrite firstn_length; lia). rewrite <- (firstn_skipn (S i) X) in Hq. rewrite nth_error_app1 in Hq by (rewrite firstn_length; lia). exact Hq. }
  pose proof (first_hd i X p Hp) as A. pose proof (first_hd i (first_col i X) q Q) as B.
  destruct (first_col i (first_col i X)) as [|b Y']; [discriminate|]. destruct (first_col i X) as [|a Y]; [discriminate|].
  cbn [nth_error] in A, B. injection A as ->. injection B as ->. cbn [map]. eauto.
Qed.
Print Assumptions C65_index_refit_refuted.

Example C65_ex : move_array 2 [10;11;12;13] = Some [12;10;11;13] /\ move_array (-2) [10;11;12;13] = Some [12;13;10;11;12;13]
  /\ df_run (move_name 7) ([(5,10);(6,11);(7,12);(8,13)], []) [DFit; DPredict; DFit; DPredict] = Some [[12;10;11;13];[12;10;11;13];[12;10;11;13];[12;10;11;13]]
  /\ df_run (move_frame 2) ([(5,10);(6,11);(7,12);(8,13)], []) [DFit; DPredict; DFit] = Some [[12;10;11;13];[12;10;11;13];[10;11;12;13]].
Proof. vm_compute. auto. Qed.

(** * C66.  The groups of the fairness constraint, which are those of the first column after
    binarization, are the groups of the sensitive column.  True for a sensitive column with
    the values 0 and 1. *)
Lemma filter_seq_first (p : nat -> bool) n j : j < n -> p j = true -> (forall k, k < j -> p k = false) -> exists l, filter p (seq 0 n) = j :: l.
Proof.
  intros Hj Hp Hn. replace n with (j + S (n - S j)) by lia. rewrite seq_app, filter_app. cbn [Nat.add seq filter]. rewrite Hp.
  assert (E : filter p (seq 0 j) = []).
  { assert (A : forall k, In k (seq 0 j) -> p k = false) by (intros k Hk; apply in_seq in Hk; apply Hn; lia). revert A. generalize (seq 0 j) as l.
    induction l as [|a l IH]; intro A; [reflexivity|]. cbn [filter]. rewrite A by (left; reflexivity). apply IH. intros k Hk. apply A. right. exact Hk. }
  rewrite E. cbn [app]. eauto.
Qed.
Lemma binarized_first st nt nc width cats rows j r : j < width -> binary_column rows j = true -> (forall k, k < j -> binary_column rows k = false) ->
  nth 0 (transform (fit_binarizer st nt nc width cats rows) r) 0%Q = nth j r 0%Q.
Proof.
  intros Hj Hb Hn. destruct (filter_seq_first (binary_column rows) width j Hj Hb Hn) as (l & E). unfold transform, fit_binarizer. cbn [b_bin]. rewrite E. reflexivity.
Qed.
Theorem C66_binary_partial : forall st nt nc width cats rows r, 0 < width -> binary_column rows 0 = true ->
  nth 0 (transform (fit_binarizer st nt nc width cats rows) r) 0%Q = nth 0 r 0%Q.
Proof. intros. apply binarized_first; [assumption|assumption|]. intros. lia. Qed.
Print Assumptions C66_binary_partial.

(** Refuted for any other sensitive column as soon as some column is binary: the first of
    those takes its place. *)
Theorem C66_refuted : forall st nt nc width cats rows, binary_column rows 0 = false -> (exists j, j < width /\ binary_column rows j = true) ->
  exists j, 0 < j < width /\ binary_column rows j = true
    /\ forall r, nth 0 (transform (fit_binarizer st nt nc width cats rows) r) 0%Q = nth j r 0%Q.
Proof.
  intros st nt nc width cats rows H0 (j & Hj & Hb).
  assert (L : exists j, j < width /\ binary_column rows j = true /\ forall k, k < j -> binary_column rows k = false).
  { clear H0. revert Hj Hb. induction j as [j IH] using (well_founded_induction lt_wf). intros Hj Hb.
    destruct (existsb (binary_column rows) (seq 0 j)) eqn:E.
    - apply existsb_exists in E. destruct E as (k & Hk & Ek). apply in_seq in Hk. apply (IH k); [lia|lia|exact Ek].
    - exists j. split; [exact Hj|]. split; [exact Hb|]. intros k Hk. destruct (binary_column rows k) eqn:B; [|reflexivity].
      exfalso. apply Bool.not_true_iff_false in E. apply E. apply existsb_exists. exists k. split; [apply in_seq; lia|exact B]. }
  clear j Hj Hb. destruct L as (j & Hj & Hb & Hm). exists j. split; [|split; [exact Hb|intro r; apply binarized_first; assumption]].
  split; [|exact Hj]. destruct j; [congruence|lia].
Qed.
Print Assumptions C66_refuted.

(** Without binary and categorical columns the groups are those of the first threshold. *)
Theorem C66_threshold_partial : forall st nt nc width rows r c cuts, 0 < width -> (forall j, j < width -> binary_column rows j = false) ->
  thresholds st nt (column 0 rows) = c :: cuts ->
  nth 0 (transform (fit_binarizer st nt nc width [] rows) r) 0%Q = bit (Qle_bool (nth 0 r 0%Q) c).
Proof.
  intros st nt nc width rows r c cuts Hw Hb Ht. unfold transform, fit_binarizer. cbn [b_bin b_cat b_cont map flat_map].
  assert (E : filter (binary_column rows) (seq 0 width) = []).
  { assert (A : forall k, In k (seq 0 width) -> binary_column rows k = false) by (intros k Hk; apply in_seq in Hk; apply Hb; lia). revert A. generalize (seq 0 width) as l.
    induction l as [|a l IH]; intro A; [reflexivity|]. cbn [filter]. rewrite A by (left; reflexivity). apply IH. intros k Hk. apply A. right. exact Hk. }
  rewrite E. destruct width as [|w]; [lia|]. cbn [seq filter existsb negb andb]. rewrite (Hb 0) by lia. cbn [negb map app flat_map fst snd]. rewrite Ht. reflexivity.
Qed.
Print Assumptions C66_threshold_partial.

(** Sex coded as 1 and 2, and a column with 0 and 1. *)
Example C66_ex : let rows := [[1;0];[2;1];[1;1];[2;0]]%Q in
  binary_column rows 0 = false /\ binary_column rows 1 = true
  /\ map (fun r => nth 0 (transform (fit_binarizer Quantile 5 5 2 [] rows) r) 0%Q) rows = [0;1;1;0]%Q
  /\ binary_column [[0;5];[1;7]]%Q 0 = true.
Proof. vm_compute. auto. Qed.

(** * C67.  The columns a user lists as categorical are binarized as categories. *)
Theorem C67_routed_partial : forall {K} (e : estimator) (k : K), In e [EClassifier; ERegressor; ELinear; EPolicy; ESurvival] ->
  est_fit e (Some k) = Binarized (Some k).
Proof. intros K e k H. repeat destruct H as [<-|H]; try reflexivity. destruct H. Qed.
Print Assumptions C67_routed_partial.
(** Refuted for the fair and the cost-sensitive classifier, which raise an error whatever the
    list is, and for the instance-cost-sensitive classifier, which ignores it. *)
Theorem C67_refuted : forall {K} (k : K), est_fit EFair (Some k) = Raises /\ est_fit ECost (Some k) = Raises /\ est_fit EInstance (Some k) = Binarized None.
Proof. intros. repeat split; reflexivity. Qed.
Print Assumptions C67_refuted.
Example C67_ex : forall e, est_fit e (@None nat) <> Raises.
Proof. intros []; discriminate. Qed.

(** * C68.  The piecewise linear regressor works on the columns chosen for the last fit. *)
Section C68.
  Context {X M : Type} (detect : X -> list nat).
  Definition plain (c : @cc_call X M) : bool := match c with CPredict _ CNone => true | _ => false end.
  Lemma run_plain stored cs : forallb plain cs = true -> cc_run detect (Some stored) cs = repeat (Some (Columns stored)) (length cs).
  Proof.
    induction cs as [|c cs IH]; [reflexivity|]. cbn [forallb]. intro H. apply andb_true_iff in H. destruct H as [H1 H2]. destruct c as [x a|x a]; [discriminate|].
    destruct a; try discriminate. cbn [cc_run]. unfold cc_step. cbn [call_arg length repeat]. rewrite IH by exact H2. reflexivity.
  Qed.
  (** After the first fit, on any data, any number of predictions work on the columns that
      were detected or listed. *)
  Theorem C68_first_fit_partial : forall x0 a cs calls, forallb plain calls = true ->
    (a = CNone /\ detect x0 = cs \/ a = CList cs) -> cs <> [] ->
    cc_run detect None (CFit x0 a :: calls) = repeat (Some (Columns cs)) (S (length calls)).
  Proof.
    intros x0 a cs calls H Ha N. cbn [cc_run]. unfold cc_step. cbn [call_arg call_data repeat].
    destruct Ha as [[-> E]| ->]; [rewrite E; destruct cs as [|c cs]; [congruence|]|]; rewrite run_plain by exact H; reflexivity.
  Qed.
  (** Refuted for a second fit: it works on the columns detected for the first one. *)
  Theorem C68_refit_refuted : forall x1 x2, detect x1 <> [] ->
    cc_run (M:=M) detect None [CFit x1 CNone; CFit x2 CNone] = [Some (Columns (detect x1)); Some (Columns (detect x1))].
  Proof. intros x1 x2 H. cbn [cc_run]. unfold cc_step at 1. cbn [call_arg call_data]. destruct (detect x1); [congruence|reflexivity]. Qed.
  (** Refuted for a fit on a matrix: a prediction detects the columns in its own data. *)
  Theorem C68_matrix_refuted : forall x1 (m : M) x2, detect x2 <> [] ->
    cc_run detect None [CFit x1 (CMatrix m); CPredict x2 CNone] = [Some (Matrix m); Some (Columns (detect x2))].
  Proof. intros x1 m x2 H. cbn [cc_run]. unfold cc_step. cbn [call_arg call_data]. destruct (detect x2); [congruence|reflexivity]. Qed.
End C68.
(** The continuous columns of an array: in increasing order, the columns that are not
    categorical and have a value other than 0 and 1. *)
Theorem C68_continuous : forall cats rows j,
  (In j (detect_array cats rows) <-> j < length (hd [] rows) /\ ~ In j cats /\ exists r, In r rows /\ ~ (nth j r 0 == 0)%Q /\ ~ (nth j r 0 == 1)%Q)
  /\ StronglySorted lt (detect_array cats rows).
Proof.
  intros cats rows j. unfold detect_array. split.
  - rewrite filter_In, in_seq, andb_true_iff, !negb_true_iff. unfold binary_column. split.
    + intros (H1 & H2 & H3). split; [lia|]. split.
      * intro I. assert (E : existsb (Nat.eqb j) cats = true) by (apply existsb_exists; exists j; split; [exact I|apply Nat.eqb_refl]). congruence.
      * assert (E : exists x, In x (column j rows) /\ (Qeq_bool x 0 || Qeq_bool x 1) = false).
        { revert H3. generalize (column j rows) as l. induction l as [|x l IH]; cbn [forallb]; [discriminate|]. intro H. apply andb_false_iff in H.
          destruct H as [H|H]; [exists x; split; [left; reflexivity|exact H]|]. destruct (IH H) as (y & I & E). exists y. split; [right; exact I|exact E]. }
        destruct E as (x & I & E). unfold column in I. apply in_map_iff in I. destruct I as (r & <- & I). exists r. split; [exact I|].
        apply orb_false_iff in E. destruct E as [E1 E2]. split; intro X; apply Qeq_bool_iff in X; congruence.
    + intros (H1 & H2 & r & I & E1 & E2). split; [lia|]. split.
      * destruct (existsb (Nat.eqb j) cats) eqn:E; [|reflexivity]. apply existsb_exists in E. destruct E as (k & Hk & E). apply Nat.eqb_eq in E. subst k. contradiction.
      * destruct (forallb _ _) eqn:E; [|reflexivity]. rewrite forallb_forall in E. specialize (E (nth j r 0%Q) (in_map (fun r => nth j r 0%Q) _ _ I)).
        apply orb_prop in E. destruct E as [E|E]; apply Qeq_bool_iff in E; contradiction.
  - generalize (length (hd [] rows)) as n. generalize 0 as k. intros k n. revert k. induction n as [|n IH]; intro k; cbn [seq filter]; [constructor|].
    destruct (_ && _); [|apply IH]. constructor; [apply IH|]. apply Forall_forall. intros x Hx. apply filter_In in Hx. destruct Hx as [Hx _]. apply in_seq in Hx. lia.
Qed.
Print Assumptions C68_first_fit_partial.
Print Assumptions C68_continuous.
Print Assumptions C68_refit_refuted.
Print Assumptions C68_matrix_refuted.

Example C68_ex : let x1 := [[0;5];[1;7]]%Q in let x2 := [[3;1];[2;0]]%Q in
  detect_array [] x1 = [1] /\ detect_array [] x2 = [0]
  /\ cc_run (M:=nat) (detect_array []) None [CFit x1 CNone; CPredict x2 CNone; CFit x2 CNone] = [Some (Columns [1]); Some (Columns [1]); Some (Columns [1])].
Proof. vm_compute. auto. Qed.
