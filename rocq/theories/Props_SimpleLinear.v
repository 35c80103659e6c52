(** C69, C70: leaves of simple piecewise linear regression trees. *)
From Coq Require Import List Arith Bool Lia ZArith QArith Qabs Qminmax Lqa Permutation.
From Verif Require Import Model_FeatureVector Model_Data Proofs_Feature Base_Q Model_Similarity Model_SimpleLinear.
From Verif Require Props_Similarity.
Import ListNotations.
Local Open Scope nat_scope.

(** * Specification *)
Definition target (r : lrow) : Q := fst (snd r).
Definition cont (r : lrow) (f : nat) : Q := nth f (snd (snd r)) 0%Q.
(** The sum of squared errors of predicting a * x_f + b, and the same with the ridge penalty. *)
Definition line_err (rows : list lrow) (f : nat) (a b : Q) : Q :=
  sumQ (fun r => (target r - (a * cont r f + b)) * (target r - (a * cont r f + b)))%Q rows.
Definition pen_err (ridge : Q) (var : nat -> Q) (rows : list lrow) (f : nat) (a b : Q) : Q :=
  (line_err rows f a b + ridge * var f * a * a)%Q.
(** How far the values of a continuous feature are apart (n times the sum of squared deviations
    from the mean, plus the penalty). *)
Definition spread (ridge : Q) (var : nat -> Q) (rows : list lrow) (f : nat) : Q :=
  (qn (length rows) * sumQ (fun r => cont r f * cont r f) rows - sumQ (fun r => cont r f) rows * sumQ (fun r => cont r f) rows
   + qn (length rows) * var f * ridge)%Q.
(** The prediction of a tree and its error on rows: squares plus the penalties of the leaves. *)
Fixpoint lt_predict (t : ltree) (r : lrow) : Q :=
  match t with LLeaf m => lm_predict m (snd (snd r)) | LSplit f l r' => if has f (fst r) then lt_predict r' r else lt_predict l r end.
Fixpoint lt_penalty (nf : nat) (ridge : Q) (var : nat -> Q) (t : ltree) : Q :=
  match t with
  | LLeaf m => sumQ (fun f => ridge * var f * nth f (lm_b m) 0 * nth f (lm_b m) 0)%Q (seq 0 nf)
  | LSplit _ l r => (lt_penalty nf ridge var l + lt_penalty nf ridge var r)%Q
  end.
Definition lt_err (nf : nat) (ridge : Q) (var : nat -> Q) (rows : list lrow) (t : ltree) : Q :=
  (sumQ (fun r => (target r - lt_predict t r) * (target r - lt_predict t r)) rows + lt_penalty nf ridge var t)%Q.
(** Trees whose leaves use one continuous feature each. *)
Fixpoint one_feature (nf : nat) (t : ltree) : Prop :=
  match t with LLeaf m => exists f a b, f < nf /\ m = lm_one nf f a b | LSplit _ l r => one_feature nf l /\ one_feature nf r end.
(** Rows as the interface makes them: well-formed feature vectors, [nf] continuous values. *)
Definition lrows_ok (nf : nat) (rows : list lrow) : Prop := Forall (fun r => fv_ok (ifv (fst r)) /\ length (snd (snd r)) = nf) rows.
(** A part of the data chosen by the binary features. *)
Definition by_features (g : inst -> bool) : Prop := forall x y, fv_ok (ifv x) -> fv_ok (ifv y) -> fv_present (ifv x) = fv_present (ifv y) -> g x = g y.

(** * Arithmetic *)
Lemma sq_nn (x : Q) : (0 <= x * x)%Q.
Proof. destruct (Qlt_le_dec x 0); nra. Qed.
Lemma qlt_iff a b : qlt a b = true <-> (a < b)%Q.
Proof. unfold qlt. rewrite negb_true_iff. split; intros H. - apply Qnot_le_lt. intros L. apply Qle_bool_iff in L. congruence. - apply not_true_is_false. intros L. apply Qle_bool_iff in L. lra. Qed.
Lemma qlt_false a b : qlt a b = false <-> (b <= a)%Q.
Proof. unfold qlt. rewrite negb_false_iff. apply Qle_bool_iff. Qed.
Lemma mget_addv a : forall b f, let s := mget (addv a b) f in
  (m_x s == m_x (mget a f) + m_x (mget b f) /\ m_xx s == m_xx (mget a f) + m_xx (mget b f) /\ m_yx s == m_yx (mget a f) + m_yx (mget b f))%Q.
Proof.
  unfold mget. induction a as [|x a IH]; intros b; induction b as [|y b IHb]; intros f.
  - destruct f; cbn; repeat split; lra.
  - destruct f; [cbn; repeat split; lra|]. cbn [addv nth] in *. specialize (IHb f). replace (nth f [] (Mom 0 0 0)) with (nth (S f) [] (Mom 0 0 0)) by (destruct f; reflexivity).
    destruct f; cbn in *; exact IHb.
  - destruct f; cbn; [repeat split; lra|]. destruct f; cbn; repeat split; lra.
  - destruct f; [cbn; repeat split; lra|]. cbn [addv nth]. apply IH.
Qed.
Lemma mget_zero n f : mget (repeat (Mom 0 0 0) n) f = Mom 0 0 0.
Proof. unfold mget. apply (nth_repeat (Mom 0 0 0) n f). Qed.
Lemma mget_zeros (l : list mom) f : mget (map (fun _ => Mom 0 0 0) l) f = Mom 0 0 0.
Proof. unfold mget. revert f. induction l as [|x l IH]; intros [|f]; cbn; auto. Qed.

(** A linear function of the sums of an instance: which feature, and the six factors. *)
Record lin := Lin { c_f : nat; c_q : Q; c_y : Q; c_w : Q; c_x : Q; c_xx : Q; c_yx : Q }.
Definition ival (c : lin) (y q w : Q) (m : list mom) : Q :=
  (c_q c * q + c_y c * y + c_w c * w + c_x c * m_x (mget m (c_f c)) + c_xx c * m_xx (mget m (c_f c)) + c_yx c * m_yx (mget m (c_f c)))%Q.
Definition item_val (c : lin) (i : litem) : Q := ival c (li_y i) (li_q i) (qn (li_w i)) (li_m i).
Lemma ival_add c y q w m y' q' w' m' : (ival c (y + y') (q + q') (w + w') (addv m m') == ival c y q w m + ival c y' q' w' m')%Q.
Proof. unfold ival. destruct (mget_addv m m' (c_f c)) as (A & B & C). rewrite A, B, C. ring. Qed.
Lemma ival_ext c y q w m y' q' w' m' : (y == y')%Q -> (q == q')%Q -> (w == w')%Q -> m = m' -> (ival c y q w m == ival c y' q' w' m')%Q.
Proof. intros A B C ->. unfold ival. rewrite A, B, C. reflexivity. Qed.

(** * Putting equal rows together *)
Section MERGE.
  Variable V : inst -> lin.
  Definition respects (xs : list inst) : Prop := forall x y, In x xs -> In y xs -> fv_present (ifv x) = fv_present (ifv y) -> V x = V y.
  Lemma list_eqb_eq a : forall b, list_nat_eqb a b = true -> a = b.
  Proof. induction a as [|x a IH]; intros [|y b]; cbn; try discriminate; [auto|]. rewrite andb_true_iff, Nat.eqb_eq. intros [-> H]. f_equal. auto. Qed.
  Lemma sl_group_val rest : forall cur prev y q n w m, 0 < n -> Forall (fun i => 0 < li_w i) rest -> V (li_x cur) = V prev -> respects (prev :: map li_x rest) ->
    ((w <? n) = false -> (y == li_y cur /\ q == li_q cur)%Q /\ n = li_w cur /\ forall c, (ival c 0 0 0 m == ival c 0 0 0 (li_m cur))%Q) ->
    (sumQ (fun i => item_val (V (li_x i)) i) (sl_group cur prev y q n w m rest) == ival (V prev) y q (qn n) m + sumQ (fun i => item_val (V (li_x i)) i) rest)%Q.
  Proof.
    induction rest as [|c rest IH]; intros cur prev y q n w m N0 OK EV R SM; cbn [sl_group sumQ].
    - unfold item_val. cbn [li_x li_y li_q li_w li_m]. rewrite EV. reflexivity.
    - inversion OK as [|? ? W OK']; subst. destruct (fv_equal (ifv prev) (ifv (li_x c))) eqn:E.
      + apply list_eqb_eq in E. assert (EC : V prev = V (li_x c)) by (apply R; [now left|right; now left|exact E]).
        rewrite IH; [|lia|exact OK'|congruence| |].
        * rewrite EC. set (T := sumQ _ rest). unfold item_val, ival. destruct (mget_addv m (li_m c) (c_f (V (li_x c)))) as (A & B & C). rewrite A, B, C, qn_add. ring.
        * intros x z X Z. apply R; cbn in *; intuition.
        * intros L. apply Nat.ltb_ge in L. lia.
      + cbn [sumQ]. rewrite IH; [|exact W|exact OK'|reflexivity| |].
        * assert (HC : (item_val (V (li_x (sl_close cur y q n w m))) (sl_close cur y q n w m) == ival (V prev) y q (qn n) m)%Q).
          { unfold sl_close. destruct (w <? n) eqn:L; unfold item_val; cbn [li_x li_y li_q li_w li_m]; rewrite EV; [reflexivity|].
            destruct (SM eq_refl) as ((Y & Q) & N & M). subst n. specialize (M (V prev)). unfold ival in *. rewrite Y, Q. lra. }
          rewrite HC. set (T := sumQ _ rest). unfold item_val, ival. destruct (mget_addv (map (fun _ : mom => Mom 0 0 0) m) (li_m c) (c_f (V (li_x c)))) as (A & B & C). rewrite A, B, C, mget_zeros. cbn [m_x m_xx m_yx]. ring.
        * intros x z X Z. apply R; cbn in *; intuition.
        * intros _. split; [split; lra|]. split; [reflexivity|]. intros k. unfold ival. destruct (mget_addv (map (fun _ : mom => Mom 0 0 0) m) (li_m c) (c_f k)) as (A & B & C). rewrite A, B, C, mget_zeros. cbn [m_x m_xx m_yx]. ring.
  Qed.
End MERGE.
Lemma row_insert_perm x l : Permutation (row_insert x l) (x :: l).
Proof. induction l as [|y l IH]; cbn; [reflexivity|]. destruct (fv_gt _ _); [reflexivity|]. rewrite IH. apply perm_swap. Qed.
Lemma row_sort_perm l : Permutation (row_sort l) l.
Proof. induction l as [|x l IH]; cbn; [reflexivity|]. rewrite row_insert_perm, IH. reflexivity. Qed.
Lemma lid_insert_perm x l : Permutation (lid_insert x l) (x :: l).
Proof. induction l as [|y l IH]; cbn [lid_insert]; [reflexivity|]. destruct (_ <? _); [reflexivity|]. rewrite IH. apply perm_swap. Qed.
Lemma lid_sort_perm l : Permutation (lid_sort l) l.
Proof. induction l as [|x l IH]; cbn; [reflexivity|]. rewrite lid_insert_perm, IH. reflexivity. Qed.
Lemma row_items_rows rows : forall id, Forall2 (fun r i => exists k, i = row_item k r) rows (row_items id rows).
Proof. induction rows as [|r rows IH]; intros id; cbn; constructor; [eauto|apply IH]. Qed.
Definition row_val (c : lin) (r : lrow) : Q :=
  (c_q c * (target r * target r) + c_y c * target r + c_w c + c_x c * cont r (c_f c) + c_xx c * (cont r (c_f c) * cont r (c_f c)) + c_yx c * (target r * cont r (c_f c)))%Q.
Lemma mget_row r f : let v := mget (map (fun v => Mom v (v * v) (target r * v)) (snd (snd r))) f in
  (m_x v == cont r f /\ m_xx v == cont r f * cont r f /\ m_yx v == target r * cont r f)%Q.
Proof.
  unfold mget, cont. generalize (snd (snd r)) as l. induction f as [|f IH]; intros [|x l]; cbn in *; try (repeat split; lra). apply IH.
Qed.
Lemma row_item_val c k r : (item_val c (row_item k r) == row_val c r)%Q.
Proof.
  unfold item_val, row_item, ival, row_val. cbn [li_y li_q li_w li_m]. fold (target r). destruct (mget_row r (c_f c)) as (A & B & C). cbn zeta in *. rewrite A, B, C. change (qn 1) with 1%Q. ring.
Qed.
Lemma items_val V nf rows : lrows_ok nf rows -> (forall x y, fv_ok (ifv x) -> fv_ok (ifv y) -> fv_present (ifv x) = fv_present (ifv y) -> V x = V y) ->
  (sumQ (fun i => item_val (V (li_x i)) i) (sl_preprocess rows) == sumQ (fun r => row_val (V (fst r)) r) rows)%Q.
Proof.
  intros OK HV. rewrite <- (sumQ_perm _ _ _ (row_sort_perm rows)). unfold sl_preprocess. pose proof (row_items_rows (row_sort rows) 0) as F.
  assert (OK' : lrows_ok nf (row_sort rows)) by (unfold lrows_ok in *; rewrite Forall_forall in *; intros r R; apply OK, (Permutation_in r (row_sort_perm rows)), R).
  revert OK'. induction F as [|r i rs is (k & ->) F IH]; cbn [sumQ]; intros OK'; [reflexivity|]. inversion OK' as [|? ? [X _] OK2]; subst. rewrite (IH OK2), row_item_val. rewrite (HV (li_x (row_item k r)) (fst r) X X eq_refl). reflexivity.
Qed.
Lemma pre_in rows i : In i (sl_preprocess rows) -> exists k r, In r rows /\ i = row_item k r.
Proof.
  unfold sl_preprocess. pose proof (row_items_rows (row_sort rows) 0) as F. intros I.
  assert (H : exists k r, In r (row_sort rows) /\ i = row_item k r).
  { revert I. induction F as [|r j rs js (k & ->) F IH]; [intros []|]. intros [<-|I]; [exists k, r; split; [now left|reflexivity]|]. destruct (IH I) as (k' & r' & A & B). exists k', r'. split; [now right|exact B]. }
  destruct H as (k & r & A & B). exists k, r. split; [|exact B]. apply (Permutation_in r (row_sort_perm rows)), A.
Qed.
(** The sums of the merged data are the sums over the rows, for every linear function whose
    factors depend on the binary features only. *)
Lemma merge_val V nf rows xs : lrows_ok nf rows -> (forall x y, fv_ok (ifv x) -> fv_ok (ifv y) -> fv_present (ifv x) = fv_present (ifv y) -> V x = V y) ->
  sl_merge (sl_preprocess rows) = Some xs -> (sumQ (fun i => item_val (V (li_x i)) i) xs == sumQ (fun r => row_val (V (fst r)) r) rows)%Q.
Proof.
  intros OK R. unfold sl_merge. pose proof (lid_sort_perm (sl_preprocess rows)) as P. destruct (lid_sort (sl_preprocess rows)) as [|c rest] eqn:S; [discriminate|]. intros [= <-].
  assert (IO : forall i, In i (c :: rest) -> fv_ok (ifv (li_x i)) /\ 0 < li_w i).
  { intros i I. destruct (pre_in rows i (Permutation_in i P I)) as (k & r & A & ->). cbn. split; [|lia]. unfold lrows_ok in OK. rewrite Forall_forall in OK. apply OK, A. }
  rewrite sl_group_val.
  - rewrite <- (items_val V nf) by assumption. rewrite <- (sumQ_perm _ _ _ P). cbn [sumQ]. reflexivity.
  - apply IO. now left.
  - apply Forall_forall. intros i I. apply IO. now right.
  - reflexivity.
  - intros x y X Y. change (li_x c :: map li_x rest) with (map li_x (c :: rest)) in X, Y. apply in_map_iff in X, Y. destruct X as (i & <- & I), Y as (j & <- & J). apply R; apply IO; assumption.
  - intros _. split; [split; reflexivity|]. split; [reflexivity|]. reflexivity.
Qed.
(** Every item of the merged data has the features of a row and a positive weight. *)
Lemma sl_group_in rest : forall cur prev y q n w m i, In i (sl_group cur prev y q n w m rest) -> 0 < n -> (forall j, In j (cur :: rest) -> 0 < li_w j) ->
  0 < li_w i /\ exists j, In j (cur :: rest) /\ li_x i = li_x j.
Proof.
  induction rest as [|c rest IH]; intros cur prev y q n w m i; cbn [sl_group].
  - intros [<-|[]] N W. cbn. split; [exact N|]. exists cur. auto.
  - destruct (fv_equal _ _).
    + intros I N W. destruct (IH _ _ _ _ _ _ _ _ I) as (A & j & J & E); [lia|intros j [<-|J]; apply W; cbn; auto|]. split; [exact A|]. exists j. cbn in *. intuition.
    + intros [<-|I] N W.
      * unfold sl_close. destruct (w <? n); cbn; (split; [auto|exists cur; auto]). apply W. now left.
      * destruct (IH _ _ _ _ _ _ _ _ I) as (A & j & J & E); [apply W; cbn; auto|intros j J; apply W; now right|]. split; [exact A|]. exists j. cbn in *. intuition.
Qed.
Lemma merged_in nf rows xs i : lrows_ok nf rows -> sl_merge (sl_preprocess rows) = Some xs -> In i xs -> fv_ok (ifv (li_x i)) /\ 0 < li_w i.
Proof.
  intros OK M I. unfold sl_merge in M. pose proof (lid_sort_perm (sl_preprocess rows)) as P. destruct (lid_sort (sl_preprocess rows)) as [|c rest]; [discriminate|]. injection M as <-.
  assert (IO : forall i, In i (c :: rest) -> fv_ok (ifv (li_x i)) /\ 0 < li_w i).
  { intros k K. destruct (pre_in rows k (Permutation_in k P K)) as (n & r & A & ->). cbn. split; [|lia]. unfold lrows_ok in OK. rewrite Forall_forall in OK. apply OK, A. }
  destruct (sl_group_in _ _ _ _ _ _ _ _ _ I) as (A & j & J & E); [apply IO; now left|intros j J; apply IO, J|]. split; [rewrite E; apply IO, J|exact A].
Qed.

(** * The sums of a leaf *)
Lemma leaf_sums_spec xs : forall y q w m, let '(y', q', w', m') := fold_left (fun a i => let '(y, q, w, m) := a in ((y + li_y i)%Q, (q + li_q i)%Q, w + li_w i, addv m (li_m i))) xs (y, q, w, m) in
  forall c, (ival c y' q' (qn w') m' == ival c y q (qn w) m + sumQ (item_val c) xs)%Q.
Proof.
  induction xs as [|i xs IH]; intros y q w m; cbn [fold_left sumQ]; [intros c; lra|]. specialize (IH (y + li_y i)%Q (q + li_q i)%Q (w + li_w i) (addv m (li_m i))).
  destruct (fold_left _ xs _) as [[[y' q'] w'] m']. intros c. rewrite IH. assert (E : (ival c (y + li_y i) (q + li_q i) (qn (w + li_w i)) (addv m (li_m i)) == ival c y q (qn w) m + item_val c i)%Q).
  { unfold item_val. rewrite <- ival_add. apply ival_ext; try reflexivity. apply qn_add. }
  rewrite E. lra.
Qed.

Lemma leaf_sums_eq nf xs : let '(y, q, w, m) := leaf_sums nf xs in forall c, (ival c y q (qn w) m == sumQ (item_val c) xs)%Q.
Proof.
  unfold leaf_sums. pose proof (leaf_sums_spec xs 0 0 0 (repeat (Mom 0 0 0) nf)) as H. destruct (fold_left _ xs _) as [[[y q] w] m]. intros c. rewrite H. unfold ival at 1. rewrite mget_zero. cbn [m_x m_xx m_yx]. change (qn 0) with 0%Q. ring.
Qed.
Lemma sum_filter {A} (g : A -> bool) (f : A -> Q) l : (sumQ f (filter g l) == sumQ (fun x => if g x then f x else 0) l)%Q.
Proof. induction l as [|x l IH]; cbn; [reflexivity|]. destruct (g x); cbn; rewrite IH; lra. Qed.
Definition lin0 : lin := Lin 0 0 0 0 0 0 0.
Lemma part_val nf rows xs g c : lrows_ok nf rows -> by_features g -> sl_merge (sl_preprocess rows) = Some xs ->
  (sumQ (item_val c) (filter (fun i => g (li_x i)) xs) == sumQ (row_val c) (filter (fun r : lrow => g (fst r)) rows))%Q.
Proof.
  intros OK G M. rewrite !sum_filter. rewrite (sumQ_ext (fun i => if g (li_x i) then item_val c i else 0%Q) (fun i => item_val ((fun x => if g x then c else lin0) (li_x i)) i)).
  - rewrite (merge_val (fun x => if g x then c else lin0) nf rows xs OK); [| |exact M].
    + apply sumQ_ext. intros r _. destruct (g (fst r)); [reflexivity|]. unfold row_val, lin0. cbn. ring.
    + intros x y X Y E. rewrite (G x y X Y E). reflexivity.
  - intros i _. cbn. destruct (g (li_x i)); [reflexivity|]. unfold item_val, ival, lin0. cbn. ring.
Qed.
(** The factors that pick out one sum. *)
Definition pick_y := Lin 0 0 1 0 0 0 0.
Definition pick_q := Lin 0 1 0 0 0 0 0.
Definition pick_w := Lin 0 0 0 1 0 0 0.
Definition pick_x f := Lin f 0 0 0 1 0 0.
Definition pick_xx f := Lin f 0 0 0 0 1 0.
Definition pick_yx f := Lin f 0 0 0 0 0 1.
Lemma sum_const (l : list lrow) : (sumQ (fun _ => 1) l == qn (length l))%Q.
Proof. induction l as [|x l IH]; cbn [sumQ length]; [reflexivity|]. rewrite IH, qn_S. ring. Qed.
Lemma qn_inj a b : (qn a == qn b)%Q -> a = b.
Proof. unfold qn, Qeq. cbn. lia. Qed.
Definition sums_of (rs : list lrow) (y q w : Q) (m : list mom) : Prop :=
  (y == sumQ target rs /\ q == sumQ (fun r => target r * target r) rs /\ w == qn (length rs))%Q /\
  forall f, (m_x (mget m f) == sumQ (fun r => cont r f) rs /\ m_xx (mget m f) == sumQ (fun r => cont r f * cont r f) rs /\ m_yx (mget m f) == sumQ (fun r => target r * cont r f) rs)%Q.
Lemma sums_by_val rs y q w m : (forall c, ival c y q w m == sumQ (row_val c) rs)%Q -> sums_of rs y q w m.
Proof.
  intros H. split; [split; [|split]|intros f; split; [|split]].
  - rewrite (sumQ_ext target (row_val pick_y)) by (intros r _; unfold row_val, pick_y; cbn; ring). rewrite <- H. unfold ival, pick_y. cbn. ring.
  - rewrite (sumQ_ext (fun r => target r * target r)%Q (row_val pick_q)) by (intros r _; unfold row_val, pick_q; cbn; ring). rewrite <- H. unfold ival, pick_q. cbn. ring.
  - rewrite <- sum_const. rewrite (sumQ_ext (fun _ => 1%Q) (row_val pick_w)) by (intros r _; unfold row_val, pick_w; cbn; ring). rewrite <- H. unfold ival, pick_w. cbn. ring.
  - rewrite (sumQ_ext (fun r => cont r f)%Q (row_val (pick_x f))) by (intros r _; unfold row_val, pick_x; cbn; ring). rewrite <- H. unfold ival, pick_x. cbn [c_f c_q c_y c_w c_x c_xx c_yx]. ring.
  - rewrite (sumQ_ext (fun r => cont r f * cont r f)%Q (row_val (pick_xx f))) by (intros r _; unfold row_val, pick_xx; cbn; ring). rewrite <- H. unfold ival, pick_xx. cbn [c_f c_q c_y c_w c_x c_xx c_yx]. ring.
  - rewrite (sumQ_ext (fun r => target r * cont r f)%Q (row_val (pick_yx f))) by (intros r _; unfold row_val, pick_yx; cbn; ring). rewrite <- H. unfold ival, pick_yx. cbn [c_f c_q c_y c_w c_x c_xx c_yx]. ring.
Qed.
Lemma leaf_sums_rows nf rows xs g : lrows_ok nf rows -> by_features g -> sl_merge (sl_preprocess rows) = Some xs ->
  let '(y, q, w, m) := leaf_sums nf (filter (fun i => g (li_x i)) xs) in sums_of (filter (fun r : lrow => g (fst r)) rows) y q (qn w) m.
Proof.
  intros OK G M. pose proof (leaf_sums_eq nf (filter (fun i => g (li_x i)) xs)) as H. destruct (leaf_sums nf _) as [[[y q] w] m]. apply sums_by_val. intros c. rewrite H. apply (part_val nf); assumption.
Qed.
(** The error of a line, from the sums. *)
Lemma line_expand rs f a b : (line_err rs f a b == sumQ (fun r => target r * target r) rs - 2 * a * sumQ (fun r => target r * cont r f) rs - 2 * b * sumQ target rs
  + a * a * sumQ (fun r => cont r f * cont r f) rs + 2 * a * b * sumQ (fun r => cont r f) rs + qn (length rs) * b * b)%Q.
Proof. unfold line_err. induction rs as [|r rs IH]; cbn [sumQ length]; [change (qn 0) with 0%Q; ring|]. rewrite IH, qn_S. ring. Qed.
Lemma line_nonneg rs f a b : (0 <= line_err rs f a b)%Q.
Proof. unfold line_err. apply sumQ_nonneg. intros r _. apply sq_nn. Qed.
Lemma spread_nonneg rs f : rs <> [] -> (0 <= qn (length rs) * sumQ (fun r => cont r f * cont r f) rs - sumQ (fun r => cont r f) rs * sumQ (fun r => cont r f) rs)%Q.
Proof.
  intros NE. assert (N : (0 < qn (length rs))%Q) by (apply qn_pos; destruct rs; [congruence|cbn; lia]).
  set (n := qn (length rs)) in *. set (sx := sumQ (fun r => cont r f) rs). set (mu := (sx / n)%Q).
  assert (E : (sumQ (fun r => (cont r f - mu) * (cont r f - mu)) rs == sumQ (fun r => cont r f * cont r f) rs - 2 * mu * sx + n * mu * mu)%Q).
  { unfold sx, n. clear. generalize mu. intros u. induction rs as [|r rs IH]; cbn [sumQ length]; [change (qn 0) with 0%Q; ring|]. rewrite IH, qn_S. ring. }
  assert (P : (0 <= sumQ (fun r => (cont r f - mu) * (cont r f - mu)) rs)%Q) by (apply sumQ_nonneg; intros r _; apply sq_nn).
  rewrite E in P. unfold mu in P. assert (E2 : (n * (sumQ (fun r => cont r f * cont r f) rs - 2 * (sx / n) * sx + n * (sx / n) * (sx / n)) == n * sumQ (fun r => cont r f * cont r f) rs - sx * sx)%Q) by (field; lra).
  rewrite <- E2. apply Qmult_le_0_compat; [lra|exact P].
Qed.
(** The quadratic form of the error around its minimum. *)
Definition quad (w y q x xx yx p a b : Q) : Q := (q - 2 * a * yx - 2 * b * y + a * a * xx + 2 * a * b * x + w * b * b + p * a * a)%Q.
Lemma quad_gap w y q x xx yx p a b a' b' : (0 < w)%Q -> ((w * xx - x * x + w * p) * a == w * yx - x * y)%Q -> (b * w == y - a * x)%Q ->
  (quad w y q x xx yx p a' b' == quad w y q x xx yx p a b + w * ((b' - b + (a' - a) * x / w) * (b' - b + (a' - a) * x / w)) + (w * xx - x * x + w * p) / w * ((a' - a) * (a' - a)))%Q.
Proof.
  intros W A B. assert (Y : (y == b * w + a * x)%Q) by lra. assert (YX : (yx == ((w * xx - x * x + w * p) * a + x * y) / w)%Q).
  { rewrite A. field. lra. }
  unfold quad. rewrite YX, Y. field. lra.
Qed.
Lemma quad_min w y q x xx yx p a b a' b' : (0 < w)%Q -> (0 <= w * xx - x * x + w * p)%Q -> ((w * xx - x * x + w * p) * a == w * yx - x * y)%Q -> (b * w == y - a * x)%Q ->
  (quad w y q x xx yx p a b <= quad w y q x xx yx p a' b')%Q.
Proof.
  intros W D A B. rewrite (quad_gap w y q x xx yx p a b a' b' W A B).
  assert (P1 : (0 <= w * ((b' - b + (a' - a) * x / w) * (b' - b + (a' - a) * x / w)))%Q) by (apply Qmult_le_0_compat; [lra|apply sq_nn]).
  assert (P2 : (0 <= (w * xx - x * x + w * p) / w * ((a' - a) * (a' - a)))%Q).
  { apply Qmult_le_0_compat; [|apply sq_nn]. unfold Qdiv. apply Qmult_le_0_compat; [exact D|]. apply Qlt_le_weak, Qinv_lt_0_compat, W. }
  lra.
Qed.
Lemma const_min w y q b' : (0 < w)%Q -> (q - y * y / w <= q - 2 * b' * y + w * b' * b')%Q.
Proof.
  intros W. assert (E : (q - 2 * b' * y + w * b' * b' == q - y * y / w + (w * b' - y) * (w * b' - y) / w)%Q) by (field; lra).
  rewrite E. assert (P : (0 <= (w * b' - y) * (w * b' - y) / w)%Q) by (unfold Qdiv; apply Qmult_le_0_compat; [apply sq_nn|apply Qlt_le_weak, Qinv_lt_0_compat, W]). lra.
Qed.

Section LEAF.
  Variable nf : nat.
  Variable ridge : Q.
  Variable mls : nat.
  Variable var : nat -> Q.
  Hypothesis Hr : (0 <= ridge)%Q.
  Hypothesis Hv : forall f, (0 <= var f)%Q.
  Variable rs : list lrow.
  Hypothesis NE : rs <> [].
  Lemma rs_pos : (0 < qn (length rs))%Q.
  Proof. apply qn_pos. destruct rs; [congruence|cbn; lia]. Qed.
  Lemma spread_nn f : (0 <= spread ridge var rs f)%Q.
  Proof.
    unfold spread. pose proof (spread_nonneg rs f NE) as A. assert (B : (0 <= qn (length rs) * var f * ridge)%Q).
    { apply Qmult_le_0_compat; [|exact Hr]. apply Qmult_le_0_compat; [|apply Hv]. pose proof rs_pos. lra. }
    lra.
  Qed.
  Lemma pen_quad y q w m f a b : sums_of rs y q w m -> (pen_err ridge var rs f a b == quad w y q (m_x (mget m f)) (m_xx (mget m f)) (m_yx (mget m f)) (ridge * var f) a b)%Q.
  Proof.
    intros ((Y & Q & W) & M). destruct (M f) as (X & XX & YX). unfold pen_err, quad. rewrite line_expand, Y, Q, W, X, XX, YX. ring.
  Qed.
  Lemma pen_nonneg f a b : (0 <= pen_err ridge var rs f a b)%Q.
  Proof.
    unfold pen_err. pose proof (line_nonneg rs f a b). assert (0 <= ridge * var f * a * a)%Q; [|lra]. rewrite <- Qmult_assoc. apply Qmult_le_0_compat; [|apply sq_nn]. apply Qmult_le_0_compat; [exact Hr|apply Hv].
  Qed.
  (** One continuous feature: the error is that of the line, and no allowed line is better. *)
  Definition line_best (f : nat) (a b e : Q) : Prop :=
    (e == pen_err ridge var rs f a b)%Q /\ forall a' b', (a' == 0 \/ 1 # 1000 <= spread ridge var rs f)%Q -> (e <= pen_err ridge var rs f a' b')%Q.
  Lemma model_best y q w m f D a b e : sums_of rs y q w m ->
    (D == spread ridge var rs f)%Q ->
    ((Qabs D < 1 # 1000 -> a == 0 /\ b == y / w /\ e == q - y * y / w) /\
     (1 # 1000 <= Qabs D -> D * a == w * m_yx (mget m f) - m_x (mget m f) * y /\ b * w == y - a * m_x (mget m f) /\ e == quad w y q (m_x (mget m f)) (m_xx (mget m f)) (m_yx (mget m f)) (ridge * var f) a b))%Q ->
    line_best f a b e.
  Proof.
    intros S HD [C1 C2]. pose proof rs_pos as P. pose proof S as ((Y & Q & W) & M). destruct (M f) as (X & XX & YX). pose proof (spread_nn f) as SN. assert (W0 : (0 < w)%Q) by (rewrite W; exact P).
    assert (AD : (Qabs D == spread ridge var rs f)%Q) by (rewrite HD; apply Qabs_pos, SN).
    assert (DE : (w * m_xx (mget m f) - m_x (mget m f) * m_x (mget m f) + w * (ridge * var f) == spread ridge var rs f)%Q) by (unfold spread; rewrite W, X, XX; ring).
    unfold line_best. destruct (Qlt_le_dec (Qabs D) (1 # 1000)) as [L|L].
    - destruct (C1 L) as (A & B & E). split.
      + rewrite (pen_quad y q w m f a b S). unfold quad. rewrite A, B, E. field. lra.
      + intros a' b' [Z|Z]; [|lra]. rewrite (pen_quad y q w m f a' b' S). unfold quad. rewrite Z, E. pose proof (const_min w y q b' W0). lra.
    - destruct (C2 L) as (A & B & E). split; [rewrite (pen_quad y q w m f a b S); exact E|]. intros a' b' _. rewrite (pen_quad y q w m f a' b' S), E. apply quad_min; [exact W0|rewrite DE; exact SN|rewrite DE, <- HD; exact A|exact B].
  Qed.
  Lemma leaf_model_best y q w m f : sums_of rs y q w m -> let '(a, b, e) := leaf_model ridge w y q (mget m f) (var f) in line_best f a b e.
  Proof.
    intros S. pose proof rs_pos as P. pose proof S as ((Y & Q & W) & M). destruct (M f) as (X & XX & YX).
    set (D := (w * m_xx (mget m f) - m_x (mget m f) * m_x (mget m f) + w * var f * ridge)%Q).
    assert (HD : (D == spread ridge var rs f)%Q) by (unfold D, spread; rewrite W, X, XX; ring).
    unfold leaf_model. fold D. assert (W0 : (0 < w)%Q) by (rewrite W; exact P).
    destruct (qlt (Qabs D) (1 # 1000)) eqn:L.
    - apply qlt_iff in L. apply (model_best y q w m f D); [exact S|exact HD|]. split; [|intros H; lra]. intros _. repeat split; reflexivity.
    - apply qlt_false in L. apply (model_best y q w m f D); [exact S|exact HD|]. split; [intros H; lra|]. intros _. pose proof (spread_nn f) as SN. rewrite <- HD in SN. rewrite (Qabs_pos D SN) in L.
      split; [field; lra|]. split; [field; lra|]. unfold quad. ring.
  Qed.
  Lemma d2_model_best d f : sums_of rs (d_y d) (d_q d) (inject_Z (d_w d)) (d_m d) -> let '(a, b, e) := d2_model d f (ridge * var f)%Q in line_best f a b e.
  Proof.
    intros S. pose proof rs_pos as P. pose proof S as ((Y & Q & W) & M). destruct (M f) as (X & XX & YX). set (w := inject_Z (d_w d)) in *.
    set (m := mget (d_m d) f) in *. set (D := (w * m_xx m - m_x m * m_x m + w * (ridge * var f))%Q).
    assert (HD : (D == spread ridge var rs f)%Q) by (unfold D, spread; rewrite W, X, XX; ring).
    unfold d2_model. fold w m. fold D. assert (W0 : (0 < w)%Q) by (rewrite W; exact P).
    destruct (qlt (Qabs D) (1 # 1000)) eqn:L.
    - apply qlt_iff in L. apply (model_best (d_y d) (d_q d) w (d_m d) f D); [exact S|exact HD|]. split; [|intros H; lra]. intros _. repeat split; reflexivity.
    - apply qlt_false in L. apply (model_best (d_y d) (d_q d) w (d_m d) f D); [exact S|exact HD|]. split; [intros H; lra|]. intros _. pose proof (spread_nn f) as SN. rewrite <- HD in SN. rewrite (Qabs_pos D SN) in L. fold m.
      split; [field; lra|]. split; [field; lra|]. unfold quad. ring.
  Qed.
End LEAF.

(** * The loop over the continuous features *)
Section LOOP.
  Variable nf : nat.
  Variable A B E : nat -> Q.
  Hypothesis HE : forall f, (0 <= E f)%Q.
  Definition first_min (k f : nat) : Prop := f < k /\ (forall f', f' < k -> (E f <= E f')%Q) /\ (forall f', f' < f -> (E f < E f')%Q).
  Variable step : option (linmodel * Q) -> nat -> option (linmodel * Q).
  Hypothesis Hstep : forall best f, step best f = if match best with None => true | Some (_, s) => qlt (E f) s end then Some (lm_one nf f (A f) (B f), Qmax 0 (E f)) else best.
  Lemma loop_min k : match fold_left step (seq 0 k) None with
    | None => k = 0
    | Some (m, s) => exists f, first_min k f /\ m = lm_one nf f (A f) (B f) /\ s = Qmax 0 (E f)
    end.
  Proof.
    induction k as [|k IH]; [reflexivity|]. rewrite seq_S, fold_left_app. cbn [fold_left plus]. rewrite Hstep. destruct (fold_left step (seq 0 k) None) as [[m s]|].
    - destruct IH as (f & (F1 & F2 & F3) & -> & ->). pose proof (Q.max_r 0 (E f) (HE f)) as MX. destruct (qlt (E k) (Qmax 0 (E f))) eqn:L.
      + apply qlt_iff in L. rewrite MX in L. exists k. split; [|auto]. split; [lia|]. split; intros f' H.
        * destruct (Nat.eq_dec f' k) as [->|N]; [lra|]. specialize (F2 f'). assert (f' < k) by lia. specialize (F2 H0). lra.
        * specialize (F2 f' H). lra.
      + apply qlt_false in L. rewrite MX in L. exists f. split; [|auto]. split; [lia|]. split; [|exact F3]. intros f' H. destruct (Nat.eq_dec f' k) as [->|N]; [exact L|]. apply F2. lia.
    - subst k. exists 0. split; [|auto]. split; [lia|]. split; intros f' H; [|lia]. replace f' with 0 by lia. lra.
  Qed.
End LOOP.

(** * C69: the leaf *)
Lemma part_nonempty nf rows xs g : lrows_ok nf rows -> by_features g -> sl_merge (sl_preprocess rows) = Some xs ->
  (filter (fun i => g (li_x i)) xs = [] <-> filter (fun r : lrow => g (fst r)) rows = []).
Proof.
  intros OK G M. pose proof (part_val nf rows xs g pick_w OK G M) as H. set (ys := filter (fun i => g (li_x i)) xs) in *. set (rs := filter (fun r : lrow => g (fst r)) rows) in *.
  assert (HR : (sumQ (row_val pick_w) rs == qn (length rs))%Q) by (rewrite <- sum_const; apply sumQ_ext; intros r _; unfold row_val, pick_w; cbn; ring).
  assert (HI : (sumQ (item_val pick_w) ys == sumQ (fun i => qn (li_w i)) ys)%Q) by (apply sumQ_ext; intros i _; unfold item_val, ival, pick_w; cbn; ring).
  rewrite HR, HI in H. split; intros E.
  - rewrite E in H. cbn [sumQ] in H. destruct rs as [|r rs']; [reflexivity|]. exfalso. cbn [length] in H. rewrite qn_S in H. assert (0 <= qn (length rs'))%Q by (unfold qn; change 0%Q with (inject_Z 0); rewrite <- Zle_Qle; lia). lra.
  - rewrite E in H. cbn [length] in H. change (qn 0) with 0%Q in H. destruct ys as [|i ys'] eqn:EY; [reflexivity|]. exfalso. assert (IN : forall j, In j ys -> 0 < li_w j).
    { intros j J. apply filter_In in J. apply (merged_in nf rows xs j OK M), J. }
    rewrite EY in IN. cbn [sumQ] in H. assert (0 < qn (li_w i))%Q by (apply qn_pos, IN; now left). assert (0 <= sumQ (fun i => qn (li_w i)) ys')%Q by (apply sumQ_nonneg; intros j J; apply Qlt_le_weak, qn_pos, IN; now right). lra.
Qed.
Definition mA ridge w y q m var f := fst (fst (leaf_model ridge w y q (mget m f) (var f))).
Definition mB ridge w y q m var f := snd (fst (leaf_model ridge w y q (mget m f) (var f))).
Definition mE ridge w y q m var f := snd (leaf_model ridge w y q (mget m f) (var f)).
Lemma leaf_model_parts nf ridge var rs w y q m f : (0 <= ridge)%Q -> (forall f, 0 <= var f)%Q -> rs <> [] -> sums_of rs y q w m -> f < nf ->
  line_best ridge var rs f (mA ridge w y q m var f) (mB ridge w y q m var f) (mE ridge w y q m var f).
Proof.
  intros R V NE S _. pose proof (leaf_model_best ridge var R V rs NE y q w m f S) as H. unfold mA, mB, mE. destruct (leaf_model ridge w y q (mget m f) (var f)) as [[a b] e]. exact H.
Qed.
Lemma mE_nonneg ridge var rs w y q m f : (0 <= ridge)%Q -> (forall f, 0 <= var f)%Q -> rs <> [] -> sums_of rs y q w m -> (0 <= mE ridge w y q m var f)%Q.
Proof.
  intros R V NE S. destruct (leaf_model_parts (Datatypes.S f) ridge var rs w y q m f R V NE S (Nat.lt_succ_diag_r f)) as [E _]. rewrite E. apply pen_nonneg; assumption.
Qed.
(** What the leaf of a part of the data is: the first continuous feature with the least error. *)
Lemma sl_leaf_first nf ridge mls var rows xs g : lrows_ok nf rows -> (0 <= ridge)%Q -> (forall f, 0 <= var f)%Q -> by_features g -> sl_merge (sl_preprocess rows) = Some xs -> 0 < mls -> 0 < nf ->
  let rs := filter (fun r : lrow => g (fst r)) rows in
  match sl_leaf nf ridge mls var (filter (fun i => g (li_x i)) xs) with
  | None => length rs < mls
  | Some (m, e) => mls <= length rs /\ exists y q w mm f, sums_of rs y q w mm /\ first_min (mE ridge w y q mm var) nf f /\ m = lm_one nf f (mA ridge w y q mm var f) (mB ridge w y q mm var f) /\ (e == mE ridge w y q mm var f)%Q
  end.
Proof.
  intros OK R V G M ML NF. cbn zeta. set (rs := filter (fun r : lrow => g (fst r)) rows). pose proof (part_nonempty nf rows xs g OK G M) as PN. pose proof (leaf_sums_rows nf rows xs g OK G M) as LS. fold rs in PN, LS.
  unfold sl_leaf. destruct (filter (fun i => g (li_x i)) xs) as [|i ys] eqn:EY.
  - rewrite (proj1 PN eq_refl). cbn. exact ML.
  - assert (NE : rs <> []) by (intros H; apply PN in H; discriminate). destruct (leaf_sums nf (i :: ys)) as [[[y q] w] mm]. pose proof LS as ((Y & Q & W) & MM). apply qn_inj in W. subst w.
    destruct (Nat.ltb_spec (length rs) mls) as [L|L]; [exact L|].
    pose proof (loop_min nf (mA ridge (qn (length rs)) y q mm var) (mB ridge (qn (length rs)) y q mm var) (mE ridge (qn (length rs)) y q mm var) (fun f => mE_nonneg ridge var rs _ y q mm f R V NE LS)
      (leaf_step nf ridge var (qn (length rs)) y q mm)) as LM. specialize (LM ltac:(intros best f; unfold leaf_step, mE, mA, mB; destruct (leaf_model _ _ _ _ _ _) as [[a b] e]; reflexivity) nf).
    destruct (fold_left _ _ _) as [[m s]|]; [|lia]. destruct LM as (f & F & -> & ->). split; [exact L|]. exists y, q, (qn (length rs)), mm, f. split; [exact LS|]. split; [exact F|]. split; [reflexivity|].
    apply Q.max_r. apply (mE_nonneg ridge var rs _ y q mm f R V NE LS).
Qed.
(** Whenever a part of the data has enough rows, the leaf is a line over one continuous feature;
    its cost is the penalised squared error of that line on the rows; no constant is better, and
    no line over a continuous feature whose values are not closer together than the threshold. *)
Theorem C69_leaf_partial nf ridge mls var rows xs g : lrows_ok nf rows -> (0 <= ridge)%Q -> (forall f, 0 <= var f)%Q -> by_features g -> sl_merge (sl_preprocess rows) = Some xs -> 0 < mls -> 0 < nf ->
  let rs := filter (fun r : lrow => g (fst r)) rows in
  match sl_leaf nf ridge mls var (filter (fun i => g (li_x i)) xs) with
  | None => length rs < mls
  | Some (m, e) => mls <= length rs /\ exists f a b, f < nf /\ m = lm_one nf f a b /\ (e == pen_err ridge var rs f a b)%Q /\
      forall f' a' b', f' < nf -> (a' == 0)%Q \/ (1 # 1000 <= spread ridge var rs f')%Q -> (e <= pen_err ridge var rs f' a' b')%Q
  end.
Proof.
  intros OK R V G M ML NF. cbn zeta. pose proof (sl_leaf_first nf ridge mls var rows xs g OK R V G M ML NF) as H. cbn zeta in H. set (rs := filter (fun r : lrow => g (fst r)) rows) in *.
  destruct (sl_leaf _ _ _ _ _) as [[m e]|]; [|exact H]. destruct H as (L & y & q & w & mm & f & S & (F1 & F2 & F3) & -> & E). split; [exact L|]. assert (NE : rs <> []) by (intros Z; rewrite Z in L; cbn in L; lia).
  exists f, (mA ridge w y q mm var f), (mB ridge w y q mm var f). split; [exact F1|]. split; [reflexivity|]. destruct (leaf_model_parts nf ridge var rs w y q mm f R V NE S F1) as [B1 B2].
  split; [rewrite E; exact B1|]. intros f' a' b' F' C. rewrite E. eapply Qle_trans; [apply (F2 f' F')|]. apply (leaf_model_parts nf ridge var rs w y q mm f' R V NE S F'). exact C.
Qed.
(** The factor of the penalty is the variance of the continuous feature in the training data. *)
Theorem C69_variance nf rows xs f : lrows_ok nf rows -> sl_merge (sl_preprocess rows) = Some xs ->
  (sl_variance xs f == (sumQ (fun r => cont r f * cont r f) rows - sumQ (fun r => cont r f) rows * sumQ (fun r => cont r f) rows / qn (length rows)) / qn (length rows))%Q /\ (0 <= sl_variance xs f)%Q.
Proof.
  intros OK M. assert (FT : forall A (l : list A), filter (fun _ => true) l = l) by (intros A l; induction l as [|x l IH]; cbn; congruence).
  assert (G : by_features (fun _ => true)) by (intros x y _ _ _; reflexivity).
  assert (PV : forall c, (sumQ (item_val c) xs == sumQ (row_val c) rows)%Q) by (intros c; pose proof (part_val nf rows xs _ c OK G M) as H; cbv beta in H; rewrite !FT in H; exact H).
  assert (W : (qn (total_weight xs) == qn (length rows))%Q).
  { rewrite <- sum_const. rewrite (sumQ_ext (fun _ => 1%Q) (row_val pick_w)) by (intros r _; unfold row_val, pick_w; cbn; ring). rewrite <- PV. unfold total_weight.
    assert (H : forall l a, (qn (fold_left (fun a i => a + li_w i)%nat l a) == qn a + sumQ (item_val pick_w) l)%Q).
    { induction l as [|i l IH]; intros a; cbn [fold_left sumQ]; [ring|]. rewrite IH, qn_add. set (T := sumQ _ l). unfold item_val, ival, pick_w. cbn [c_f c_q c_y c_w c_x c_xx c_yx]. ring. }
    rewrite H. change (qn 0) with 0%Q. ring. }
  assert (X : forall l a, let s := fold_left (fun a i => mom_add a (mget (li_m i) f)) l a in (m_x s == m_x a + sumQ (item_val (pick_x f)) l /\ m_xx s == m_xx a + sumQ (item_val (pick_xx f)) l)%Q).
  { induction l as [|i l IH]; intros a; cbn [fold_left sumQ]; [split; ring|]. destruct (IH (mom_add a (mget (li_m i) f))) as [H1 H2]. cbn zeta in *. split; [rewrite H1|rewrite H2]; set (T := sumQ _ l); unfold item_val, ival, pick_x, pick_xx, mom_add; cbn [m_x m_xx c_f c_q c_y c_w c_x c_xx c_yx]; ring. }
  destruct (X xs (Mom 0 0 0)) as [X1 X2]. cbn zeta in *. cbn [m_x m_xx] in X1, X2. rewrite (PV (pick_x f)) in X1. rewrite (PV (pick_xx f)) in X2.
  rewrite (sumQ_ext (row_val (pick_x f)) (fun r => cont r f)) in X1 by (intros r _; unfold row_val, pick_x; cbn; ring). rewrite (sumQ_ext (row_val (pick_xx f)) (fun r => cont r f * cont r f)%Q) in X2 by (intros r _; unfold row_val, pick_xx; cbn; ring).
  assert (E : (sl_variance xs f == (sumQ (fun r => cont r f * cont r f) rows - sumQ (fun r => cont r f) rows * sumQ (fun r => cont r f) rows / qn (length rows)) / qn (length rows))%Q).
  { unfold sl_variance. cbv zeta. rewrite W, X1, X2. apply Qdiv_comp; [|reflexivity]. rewrite !Qplus_0_l. reflexivity. }
  split; [exact E|]. rewrite E. destruct rows as [|r rows']; [discriminate M|]. set (rows := r :: rows') in *. assert (NE : rows <> []) by discriminate. pose proof (spread_nonneg rows f NE) as SN. assert (P : (0 < qn (length rows))%Q) by (apply qn_pos; cbn; lia).
  set (n := qn (length rows)) in *. assert (E2 : ((sumQ (fun r0 => cont r0 f * cont r0 f) rows - sumQ (fun r0 => cont r0 f) rows * sumQ (fun r0 => cont r0 f) rows / n) / n == (n * sumQ (fun r0 => cont r0 f * cont r0 f) rows - sumQ (fun r0 => cont r0 f) rows * sumQ (fun r0 => cont r0 f) rows) / (n * n))%Q) by (field; lra).
  rewrite E2. unfold Qdiv. apply Qmult_le_0_compat; [exact SN|]. apply Qlt_le_weak, Qinv_lt_0_compat. nra.
Qed.

(** * C70: one cost in search, counters and report *)
Lemma nth_set_eq {A} (d : A) l : forall k x, k < length l -> nth k (set_nth k x l) d = x.
Proof. induction l as [|y l IH]; intros [|k] x; cbn; try lia; [reflexivity|]. intros H. apply IH. lia. Qed.
Lemma nth_set_other {A} (d : A) l : forall k j x, j <> k -> nth j (set_nth k x l) d = nth j l d.
Proof. induction l as [|y l IH]; intros [|k] [|j] x; cbn; try congruence; auto. Qed.
Lemma coef_one nf f a b j : f < nf -> nth j (lm_b (lm_one nf f a b)) 0%Q = if j =? f then a else 0%Q.
Proof.
  intros F. unfold lm_one. cbn [lm_b]. destruct (Nat.eqb_spec j f) as [->|N]; [apply nth_set_eq; rewrite repeat_length; exact F|]. rewrite nth_set_other by exact N. apply nth_repeat.
Qed.
Lemma main_coef_one nf f a b : f < nf -> let cf := main_coef nf (lm_one nf f a b) in (nth cf (lm_b (lm_one nf f a b)) 0%Q == a)%Q /\ (cf = f \/ (a == 0)%Q) /\ cf < nf.
Proof.
  intros F. cbn zeta. unfold main_coef. set (M := lm_one nf f a b).
  assert (H : forall k, k <= nf - 1 -> let s := fold_left (fun a0 f0 => if qlt (snd a0) (Qabs (nth f0 (lm_b M) 0%Q)) then (f0, Qabs (nth f0 (lm_b M) 0%Q)) else a0) (seq 1 k) (0, 0%Q) in
    (fst s = 0 /\ (snd s == 0)%Q /\ (1 <= f -> f <= k -> (a == 0)%Q)) \/ (fst s = f /\ (snd s == Qabs a)%Q /\ 1 <= f <= k)).
  { induction k as [|k IH]; intros K; [left; cbn; repeat split; try reflexivity; lia|]. rewrite seq_S, fold_left_app. cbn zeta in *. specialize (IH ltac:(lia)). set (s := fold_left _ (seq 1 k) _) in *. cbn [fold_left].
    assert (CO : nth (1 + k) (lm_b M) 0%Q = if S k =? f then a else 0%Q) by (unfold M; rewrite coef_one by exact F; reflexivity). rewrite CO. destruct (Nat.eqb_spec (S k) f) as [E|N].
    - destruct IH as [(A & B & C)|(A & B & C)]; [|lia]. destruct (qlt (snd s) (Qabs a)) eqn:L.
      + right. cbn. repeat split; try lia; reflexivity.
      + left. apply qlt_false in L. split; [exact A|]. split; [exact B|]. intros _ _. rewrite B in L. pose proof (Qabs_nonneg a). destruct (Qlt_le_dec a 0) as [Z|Z]; [rewrite Qabs_neg in L by lra; lra|rewrite Qabs_pos in L by lra; lra].
    - assert (L : qlt (snd s) (Qabs 0) = false). { apply qlt_false. change (Qabs 0) with 0%Q. destruct IH as [(A & B & C)|(A & B & C)]; [rewrite B; lra|rewrite B; apply Qabs_nonneg]. }
      rewrite L. destruct IH as [(A & B & C)|(A & B & C)]; [left|right]; repeat split; try assumption; try lia. intros H1 H2. apply C; lia. }
  specialize (H (nf - 1) (le_n _)). cbn zeta in H. set (s := fold_left _ (seq 1 (nf - 1)) _) in *.
  destruct H as [(A & B & C)|(A & B & C)].
  - rewrite A. unfold M. rewrite coef_one by exact F. destruct (Nat.eqb_spec 0 f) as [<-|N]; [split; [reflexivity|split; [now left|lia]]|]. assert (Z : (a == 0)%Q) by (apply C; lia). split; [symmetry; exact Z|]. split; [now right|lia].
  - rewrite A. unfold M. rewrite coef_one, Nat.eqb_refl by exact F. split; [reflexivity|]. split; [now left|lia].
Qed.
Definition err_lin (f : nat) (a b : Q) : lin := Lin f 1 (- (2) * b) (b * b) (2 * a * b) (a * a) (- (2) * a).
Lemma leaf_costs_val nf ridge var xs f a b : f < nf -> (sl_leaf_costs nf ridge var xs (lm_one nf f a b) == sumQ (item_val (err_lin f a b)) xs + ridge * var f * a * a)%Q.
Proof.
  intros F. destruct (main_coef_one nf f a b F) as (A & B & C). cbn zeta in *. unfold sl_leaf_costs. cbv zeta. set (cf := main_coef nf (lm_one nf f a b)) in *. set (a' := nth cf (lm_b (lm_one nf f a b)) 0%Q) in *. cbn [lm_one lm_b0].
  rewrite (fold_sum (fun i => li_q i - 2 * a' * m_yx (mget (li_m i) cf) - 2 * b * li_y i + a' * a' * m_xx (mget (li_m i) cf) + 2 * a' * b * m_x (mget (li_m i) cf) + qn (li_w i) * b * b)%Q).
  rewrite (sumQ_ext _ (item_val (err_lin f a b))).
  - rewrite A. generalize (sumQ (item_val (err_lin f a b)) xs) as T. intros T. destruct B as [->|Z]; [ring|]. rewrite !Z. ring.
  - intros i _. unfold item_val, ival, err_lin. cbn [c_f c_q c_y c_w c_x c_xx c_yx]. rewrite A. destruct B as [->|Z]; [ring|]. rewrite !Z. ring.
Qed.
Lemma row_val_err f a b r : (row_val (err_lin f a b) r == (target r - (a * cont r f + b)) * (target r - (a * cont r f + b)))%Q.
Proof. unfold row_val, err_lin. cbn [c_f c_q c_y c_w c_x c_xx c_yx]. ring. Qed.
(** The cost that is reported for a line on a part of the data is its penalised squared error
    on the rows; for the line of the leaf it is the cost of the leaf. *)
Theorem C70_costs nf ridge var rows xs g f a b : lrows_ok nf rows -> by_features g -> sl_merge (sl_preprocess rows) = Some xs -> f < nf ->
  (sl_leaf_costs nf ridge var (filter (fun i => g (li_x i)) xs) (lm_one nf f a b) == pen_err ridge var (filter (fun r : lrow => g (fst r)) rows) f a b)%Q.
Proof.
  intros OK G M F. rewrite leaf_costs_val by exact F. rewrite (part_val nf rows xs g _ OK G M). unfold pen_err, line_err. rewrite (sumQ_ext (row_val (err_lin f a b)) _ _ (fun r _ => row_val_err f a b r)). reflexivity.
Qed.

(** ** The counters of the depth-two solver *)
Definition count_lin (xs : list litem) : d2lin := fold_left (fun d i => d2_add d (d2_inst i 1)) xs d2_zero.
Lemma count_val xs : forall d c, let r := fold_left (fun d i => d2_add d (d2_inst i 1)) xs d in
  (ival c (d_y r) (d_q r) (inject_Z (d_w r)) (d_m r) == ival c (d_y d) (d_q d) (inject_Z (d_w d)) (d_m d) + sumQ (item_val c) xs)%Q.
Proof.
  induction xs as [|i xs IH]; intros d c; cbn [fold_left sumQ]; [ring|]. cbn zeta in *. rewrite IH. unfold d2_add at 1 2 3 4, d2_inst. cbn [d_y d_q d_w d_m]. change (1 =? 1)%Z with true. cbv iota. change (inject_Z 1) with 1%Q.
  assert (E : (ival c (d_y d + 1 * li_y i) (d_q d + 1 * li_q i) (inject_Z (d_w d + 1 * Z.of_nat (li_w i))) (addv (d_m d) (li_m i)) == ival c (d_y d) (d_q d) (inject_Z (d_w d)) (d_m d) + item_val c i)%Q).
  { unfold item_val. rewrite <- ival_add. apply ival_ext; [ring|ring|rewrite inject_Z_plus; unfold qn; replace (1 * Z.of_nat (li_w i))%Z with (Z.of_nat (li_w i)) by lia; reflexivity|reflexivity]. }
  rewrite E. ring.
Qed.
Lemma count_sums nf rows xs g : lrows_ok nf rows -> by_features g -> sl_merge (sl_preprocess rows) = Some xs ->
  let d := count_lin (filter (fun i => g (li_x i)) xs) in sums_of (filter (fun r : lrow => g (fst r)) rows) (d_y d) (d_q d) (inject_Z (d_w d)) (d_m d).
Proof.
  intros OK G M. cbn zeta. apply sums_by_val. intros c. unfold count_lin. rewrite (count_val _ d2_zero c). rewrite (part_val nf rows xs g c OK G M). unfold ival at 1, d2_zero, mget. cbn [d_y d_q d_w d_m]. destruct (c_f c); cbn; ring.
Qed.
Definition lm_eq (m m' : linmodel) : Prop := Forall2 Qeq (lm_b m) (lm_b m') /\ (lm_b0 m == lm_b0 m')%Q.
Lemma set_nth_Qeq l : forall f a a', (a == a')%Q -> Forall2 Qeq (set_nth f a l) (set_nth f a' l).
Proof.
  assert (R : forall l0, Forall2 Qeq l0 l0) by (induction l0; constructor; [reflexivity|assumption]).
  induction l as [|x l IH]; intros [|f] a a' E; cbn; constructor; auto. reflexivity.
Qed.
Lemma model_agree ridge var rs y q w m d f : (0 <= ridge)%Q -> (forall f, 0 <= var f)%Q -> rs <> [] -> sums_of rs y q w m -> sums_of rs (d_y d) (d_q d) (inject_Z (d_w d)) (d_m d) ->
  let '(a, b, e) := d2_model d f (ridge * var f)%Q in (mA ridge w y q m var f == a /\ mB ridge w y q m var f == b /\ mE ridge w y q m var f == e)%Q.
Proof.
  intros R V NE ((Y & Q & W) & M) ((Y' & Q' & W') & M'). destruct (M f) as (X & XX & YX), (M' f) as (X' & XX' & YX').
  unfold mA, mB, mE, leaf_model, d2_model. set (w' := inject_Z (d_w d)) in *. set (m1 := mget m f) in *. set (m2 := mget (d_m d) f) in *.
  assert (y == d_y d)%Q by (rewrite Y, Y'; reflexivity). assert (q == d_q d)%Q by (rewrite Q, Q'; reflexivity). assert (w == w')%Q by (rewrite W, W'; reflexivity).
  assert (m_x m1 == m_x m2)%Q by (rewrite X, X'; reflexivity). assert (m_xx m1 == m_xx m2)%Q by (rewrite XX, XX'; reflexivity). assert (m_yx m1 == m_yx m2)%Q by (rewrite YX, YX'; reflexivity).
  clear - H H0 H1 H2 H3 H4. set (D := (w * m_xx m1 - m_x m1 * m_x m1 + w * var f * ridge)%Q). set (D' := (w' * m_xx m2 - m_x m2 * m_x m2 + w' * (ridge * var f))%Q).
  assert (DD : (D == D')%Q) by (unfold D, D'; rewrite H1, H2, H3; ring).
  assert (QD : qlt (Qabs D) (1 # 1000) = qlt (Qabs D') (1 # 1000)) by (apply eq_true_iff_eq; rewrite !qlt_iff, DD; reflexivity).
  rewrite QD. destruct (qlt (Qabs D') (1 # 1000)); cbn [fst snd].
  - rewrite H, H0, H1. repeat split; reflexivity.
  - assert (EA : ((w * m_yx m1 - m_x m1 * y) / D == (w' * m_yx m2 - m_x m2 * d_y d) / D')%Q) by (rewrite H, H1, H2, H4, DD; reflexivity).
    assert (EB : ((y - (w * m_yx m1 - m_x m1 * y) / D * m_x m1) / w == (d_y d - (w' * m_yx m2 - m_x m2 * d_y d) / D' * m_x m2) / w')%Q) by (rewrite EA, H, H1, H2; reflexivity).
    split; [exact EA|]. split; [exact EB|]. rewrite EB, EA. rewrite H, H0, H1, H2, H3, H4. ring.
Qed.
Lemma first_min_unique E E' k f f' : (forall g, E g == E' g)%Q -> first_min E k f -> first_min E' k f' -> f = f'.
Proof.
  intros HE (A1 & A2 & A3) (B1 & B2 & B3). destruct (Nat.lt_trichotomy f f') as [L|[L|L]]; [|exact L|].
  - specialize (B3 f L). specialize (A2 f' B1). rewrite !HE in A2. lra.
  - specialize (A3 f' L). specialize (B2 f A1). rewrite <- !HE in B2. lra.
Qed.
(** The depth-two solver's counters give the cost and the line of the leaf. *)
Theorem C70_counters nf ridge mls var rows xs g : lrows_ok nf rows -> (0 <= ridge)%Q -> (forall f, 0 <= var f)%Q -> by_features g -> sl_merge (sl_preprocess rows) = Some xs -> 0 < mls -> 0 < nf ->
  let d := count_lin (filter (fun i => g (li_x i)) xs) in
  match sl_leaf nf ridge mls var (filter (fun i => g (li_x i)) xs) with
  | None => d2_costs nf ridge mls var d = None /\ d2_label nf ridge mls var d = None
  | Some (m, e) => (exists c, d2_costs nf ridge mls var d = Some c /\ (c == e)%Q) /\ exists m', d2_label nf ridge mls var d = Some m' /\ lm_eq m' m
  end.
Proof.
  intros OK R V G M ML NF. cbn zeta. pose proof (sl_leaf_first nf ridge mls var rows xs g OK R V G M ML NF) as H. cbn zeta in H. set (rs := filter (fun r : lrow => g (fst r)) rows) in *.
  pose proof (count_sums nf rows xs g OK G M) as CS. cbn zeta in CS. fold rs in CS. set (d := count_lin _) in *. pose proof CS as ((Y & Q & W) & MM). assert (DW : d_w d = Z.of_nat (length rs)) by (unfold qn, Qeq in W; cbn in W; lia).
  unfold d2_costs, d2_label. rewrite DW. destruct (sl_leaf _ _ _ _ _) as [[m e]|].
  2:{ assert (L : (Z.of_nat (length rs) <? Z.of_nat mls)%Z = true) by (apply Z.ltb_lt; lia). rewrite L. auto. }
  destruct H as (L & y & q & w & mm & f & S & F & -> & E). assert (L' : (Z.of_nat (length rs) <? Z.of_nat mls)%Z = false) by (apply Z.ltb_ge; lia). rewrite L'. assert (NE : rs <> []) by (intros Z; rewrite Z in L; cbn in L; lia).
  assert (AG : forall f, let '(a, b, e) := d2_model d f (ridge * var f)%Q in (mA ridge w y q mm var f == a /\ mB ridge w y q mm var f == b /\ mE ridge w y q mm var f == e)%Q) by (intros f0; apply (model_agree ridge var rs); assumption).
  pose proof F as (F1 & F2 & F3). split.
  - assert (H : forall l, match fold_left (d2_step ridge var d) l None with None => l = [] | Some c => exists k, In k l /\ (c == mE ridge w y q mm var k)%Q /\ forall k', In k' l -> (c <= mE ridge w y q mm var k')%Q end).
    { intros l. induction l as [|k l IH] using rev_ind; [reflexivity|]. rewrite fold_left_app. cbn [fold_left]. unfold d2_step at 1. specialize (AG k). destruct (d2_model d k (ridge * var k)%Q) as [[a b] ek]. destruct AG as (_ & _ & EK).
      pose proof (mE_nonneg ridge var rs w y q mm k R V NE S) as NN. rewrite EK in NN. pose proof (Q.max_r _ _ NN) as MX. destruct (fold_left _ l None) as [c|].
      - destruct IH as (k0 & I0 & E0 & MIN). destruct (qlt ek c) eqn:LT.
        + apply qlt_iff in LT. exists k. split; [apply in_or_app; right; now left|]. split; [rewrite EK; exact MX|]. intros k' I. rewrite MX. apply in_app_or in I. destruct I as [I|[<-|[]]]; [specialize (MIN k' I); lra|rewrite EK; lra].
        + apply qlt_false in LT. exists k0. split; [apply in_or_app; now left|]. split; [exact E0|]. intros k' I. apply in_app_or in I. destruct I as [I|[<-|[]]]; [apply MIN, I|rewrite EK; exact LT].
      - exists k. split; [apply in_or_app; right; now left|]. split; [rewrite EK; exact MX|]. subst l. intros k' [<-|[]]. rewrite MX, EK. lra. }
    specialize (H (rev (seq 0 nf))). destruct (fold_left _ (rev (seq 0 nf)) None) as [c|].
    + destruct H as (k & K & EK & MIN). exists c. split; [reflexivity|]. rewrite E. apply Qle_antisym.
      * apply MIN. apply -> in_rev. apply in_seq. lia.
      * rewrite EK. apply F2. apply in_rev in K. apply in_seq in K. lia.
    + exfalso. destruct nf; [lia|]. rewrite seq_S, rev_app_distr in H. discriminate.
  - set (E' := fun f => snd (d2_model d f (ridge * var f)%Q)). set (A' := fun f => fst (fst (d2_model d f (ridge * var f)%Q))). set (B' := fun f => snd (fst (d2_model d f (ridge * var f)%Q))).
    assert (HE : forall f, (mE ridge w y q mm var f == E' f)%Q) by (intros k; specialize (AG k); unfold E'; destruct (d2_model d k _) as [[? ?] ?]; apply AG).
    assert (H : forall k, match fold_left (d2_lstep ridge var d) (seq 0 k) None with None => k = 0 | Some (f, a, b, e) => first_min E' k f /\ a = A' f /\ b = B' f /\ e = E' f end).
    { induction k as [|k IH]; [reflexivity|]. rewrite seq_S, fold_left_app. cbn [fold_left plus]. unfold d2_lstep at 1. assert (ST : d2_model d k (ridge * var k)%Q = (A' k, B' k, E' k)) by (unfold A', B', E'; destruct (d2_model d k _) as [[? ?] ?]; reflexivity). rewrite ST.
      destruct (fold_left _ (seq 0 k) None) as [[[[f0 a0] b0] e0]|].
      - destruct IH as ((I1 & I2 & I3) & -> & -> & ->). destruct (qlt (E' k) (E' f0)) eqn:LT.
        + apply qlt_iff in LT. repeat split; try lia; intros f' H; [destruct (Nat.eq_dec f' k) as [->|N]; [lra|]; assert (f' < k) by lia; specialize (I2 f' H0); lra|specialize (I2 f' H); lra].
        + apply qlt_false in LT. repeat split; try lia; [|exact I3]. intros f' H. destruct (Nat.eq_dec f' k) as [->|N]; [exact LT|]. apply I2. lia.
      - subst k. repeat split; try lia; intros f' H; replace f' with 0 by lia; lra. }
    specialize (H nf). destruct (fold_left _ (seq 0 nf) None) as [[[[f0 a0] b0] e0]|]; [|lia]. destruct H as (FM & -> & -> & ->). eexists. split; [reflexivity|]. rewrite (first_min_unique _ _ nf f f0 HE F FM) in *. clear f F F1 F2 F3 E.
    specialize (AG f0). unfold A', B'. destruct (d2_model d f0 _) as [[a1 b1] e1]. cbn [fst snd]. destruct AG as (GA & GB & _). split; cbn [lm_one lm_b lm_b0]; [apply set_nth_Qeq; rewrite GA; reflexivity|rewrite GB; reflexivity].
Qed.
(** An instance counted with +1 and -1 leaves no trace, and subtraction undoes addition. *)
Theorem C70_undo d e i f :
  let r := d2_add (d2_add d (d2_inst i 1)) (d2_inst i (-1)) in
  let s := d2_sub (d2_add d e) e in
  (d_y r == d_y d /\ d_q r == d_q d /\ m_x (mget (d_m r) f) == m_x (mget (d_m d) f) /\ m_xx (mget (d_m r) f) == m_xx (mget (d_m d) f) /\ m_yx (mget (d_m r) f) == m_yx (mget (d_m d) f))%Q /\ d_w r = d_w d /\
  (d_y s == d_y d /\ d_q s == d_q d /\ m_x (mget (d_m s) f) == m_x (mget (d_m d) f) /\ m_xx (mget (d_m s) f) == m_xx (mget (d_m d) f) /\ m_yx (mget (d_m s) f) == m_yx (mget (d_m d) f))%Q /\ d_w s = d_w d.
Proof.
  assert (SV : forall a b f, let s := mget (subv a b) f in (m_x s == m_x (mget a f) - m_x (mget b f) /\ m_xx s == m_xx (mget a f) - m_xx (mget b f) /\ m_yx s == m_yx (mget a f) - m_yx (mget b f))%Q).
  { unfold mget. induction a as [|x a IH]; intros b; induction b as [|y b IHb]; intros k.
    - destruct k; cbn; repeat split; lra.
    - destruct k; [cbn; repeat split; lra|]. cbn [subv nth] in *. specialize (IHb k). destruct k; cbn in *; exact IHb.
    - destruct k; cbn; [repeat split; lra|]. destruct k; cbn; repeat split; lra.
    - destruct k; [cbn; repeat split; lra|]. cbn [subv nth]. apply IH. }
  cbn zeta. unfold d2_add, d2_sub, d2_inst. cbn [d_y d_q d_w d_m]. change (1 =? 1)%Z with true. change (-1 =? 1)%Z with false. cbv iota. change (inject_Z 1) with 1%Q. change (inject_Z (-1)) with (-1)%Q.
  destruct (mget_addv (addv (d_m d) (li_m i)) (map (fun v => Mom (m_x v * -1) (m_xx v * -1) (m_yx v * -1)) (li_m i)) f) as (A1 & A2 & A3). destruct (mget_addv (d_m d) (li_m i) f) as (B1 & B2 & B3).
  assert (N : (m_x (mget (map (fun v => Mom (m_x v * -1) (m_xx v * -1) (m_yx v * -1)) (li_m i)) f) == - m_x (mget (li_m i) f) /\ m_xx (mget (map (fun v => Mom (m_x v * -1) (m_xx v * -1) (m_yx v * -1)) (li_m i)) f) == - m_xx (mget (li_m i) f) /\ m_yx (mget (map (fun v => Mom (m_x v * -1) (m_xx v * -1) (m_yx v * -1)) (li_m i)) f) == - m_yx (mget (li_m i) f))%Q).
  { unfold mget. generalize (li_m i) as l. clear. induction f as [|f IH]; intros [|x l]; cbn; try (repeat split; ring). apply IH. }
  destruct N as (N1 & N2 & N3). destruct (SV (addv (d_m d) (d_m e)) (d_m e) f) as (S1 & S2 & S3). destruct (mget_addv (d_m d) (d_m e) f) as (T1 & T2 & T3). cbn zeta in *.
  split; [repeat split; [ring|ring|rewrite A1, B1, N1; ring|rewrite A2, B2, N2; ring|rewrite A3, B3, N3; ring]|]. split; [lia|].
  split; [repeat split; [ring|ring|rewrite S1, T1; ring|rewrite S2, T2; ring|rewrite S3, T3; ring]|]. lia.
Qed.

(** ** The cost of a tree *)
Lemma has_features f : by_features (has f).
Proof.
  assert (H : forall x, fv_ok (ifv x) -> (has f x = true <-> In f (fv_present (ifv x)))).
  { intros x [_ H]. rewrite H. unfold has, fv_has, fv_num. split; [|tauto]. intros E. split; [|exact E]. destruct (Nat.lt_ge_cases f (length (fv_bits (ifv x)))) as [L|L]; [exact L|]. rewrite nth_overflow in E by exact L. discriminate. }
  intros x y X Y E. apply eq_true_iff_eq. rewrite !H, E by assumption. reflexivity.
Qed.
Lemma filter_two {A} (g h : A -> bool) l : filter h (filter g l) = filter (fun x => g x && h x) l.
Proof. induction l as [|x l IH]; [reflexivity|]. cbn. destruct (g x); cbn; [destruct (h x)|]; congruence. Qed.
Lemma sum_parts {A} (g : A -> bool) (F : A -> Q) l : (sumQ F l == sumQ F (filter (fun x => negb (g x)) l) + sumQ F (filter g l))%Q.
Proof. induction l as [|x l IH]; cbn; [reflexivity|]. destruct (g x); cbn; rewrite IH; ring. Qed.
Lemma dot_zeros n l : (dot (repeat 0%Q n) l == 0)%Q.
Proof. revert l. induction n as [|n IH]; intros [|x l]; cbn [repeat dot]; try reflexivity. rewrite IH. ring. Qed.
Lemma dot_one n : forall f a l, f < n -> length l = n -> (dot (set_nth f a (repeat 0%Q n)) l == a * nth f l 0)%Q.
Proof.
  induction n as [|n IH]; intros [|f] a [|x l]; cbn [length]; try lia; intros F L; cbn [repeat set_nth dot nth].
  - rewrite dot_zeros. ring.
  - rewrite IH by lia. ring.
Qed.
Lemma sum_single (F : nat -> Q) f n : f < n -> (forall j, j <> f -> F j == 0)%Q -> (sumQ F (seq 0 n) == F f)%Q.
Proof.
  intros L Z. induction n as [|n IH]; [lia|]. rewrite seq_S, sumQ_app. cbn [sumQ plus]. destruct (Nat.eq_dec f n) as [->|N].
  - rewrite (sumQ_ext F (fun _ => 0%Q)). + assert (H : forall l : list nat, (sumQ (fun _ => 0%Q) l == 0)%Q) by (induction l as [|x l I]; cbn; [reflexivity|rewrite I; ring]). rewrite H. ring.
    + intros j J. apply in_seq in J. apply Z. lia.
  - rewrite IH by lia. rewrite (Z n) by congruence. ring.
Qed.
Theorem C70_merge nf ridge var rows xs t : lrows_ok nf rows -> sl_merge (sl_preprocess rows) = Some xs -> one_feature nf t ->
  (sl_tree_cost nf ridge var xs t == lt_err nf ridge var rows t)%Q.
Proof.
  intros OK M O.
  assert (H : forall t g, by_features g -> one_feature nf t -> (sl_tree_cost nf ridge var (filter (fun i => g (li_x i)) xs) t == lt_err nf ridge var (filter (fun r : lrow => g (fst r)) rows) t)%Q).
  { clear t O. induction t as [m|f l IHl r IHr]; intros g G O.
    - destruct O as (f & a & b & F & ->). cbn [sl_tree_cost]. rewrite (C70_costs nf ridge var rows xs g f a b OK G M F). unfold pen_err, lt_err, line_err. apply Qplus_comp.
      + apply sumQ_ext. intros x X. apply filter_In in X. cbn [lt_predict]. unfold lm_predict, lm_one. cbn [lm_b lm_b0]. unfold lrows_ok in OK. rewrite Forall_forall in OK. rewrite dot_one; [|exact F|apply OK, X]. unfold cont. ring.
      + cbn [lt_penalty]. rewrite (sum_single _ f nf F); [rewrite coef_one, Nat.eqb_refl by exact F; reflexivity|]. intros j J. rewrite coef_one by exact F. destruct (Nat.eqb_spec j f); [congruence|]. ring.
    - destruct O as [OL OR]. cbn [sl_tree_cost]. rewrite !filter_two.
      assert (GL : by_features (fun x => g x && negb (has f x))) by (intros x y X Y E; rewrite (G x y X Y E), (has_features f x y X Y E); reflexivity).
      assert (GR : by_features (fun x => g x && has f x)) by (intros x y X Y E; rewrite (G x y X Y E), (has_features f x y X Y E); reflexivity).
      rewrite (IHl _ GL OL), (IHr _ GR OR). unfold lt_err. cbn [lt_penalty]. rewrite (sum_parts (fun x : lrow => has f (fst x)) _ (filter (fun r0 : lrow => g (fst r0)) rows)). rewrite !filter_two.
      rewrite (sumQ_ext (fun x => (target x - lt_predict (LSplit f l r) x) * (target x - lt_predict (LSplit f l r) x))%Q (fun x => (target x - lt_predict l x) * (target x - lt_predict l x))%Q (filter (fun x : lrow => g (fst x) && negb (has f (fst x))) rows)).
      2:{ intros x X. apply filter_In in X. destruct X as [_ X]. apply andb_prop in X. cbn [lt_predict]. destruct X as [_ X]. apply negb_true_iff in X. rewrite X. reflexivity. }
      rewrite (sumQ_ext (fun x => (target x - lt_predict (LSplit f l r) x) * (target x - lt_predict (LSplit f l r) x))%Q (fun x => (target x - lt_predict r x) * (target x - lt_predict r x))%Q (filter (fun x : lrow => g (fst x) && has f (fst x)) rows)).
      2:{ intros x X. apply filter_In in X. destruct X as [_ X]. apply andb_prop in X. cbn [lt_predict]. destruct X as [_ X]. rewrite X. reflexivity. }
      ring. }
  assert (FT : forall A (l : list A), filter (fun _ => true) l = l) by (intros A l; induction l as [|x l IH]; cbn; congruence).
  specialize (H t (fun _ => true) (fun _ _ _ _ _ => eq_refl) O). cbv beta in H. rewrite !FT in H. exact H.
Qed.

(** * Cases *)
Definition lrw (bits : list bool) (x y : Q) : lrow := (Inst 0 (fv_make bits), (y, [x])).
Lemma lrw_ok l : Forall (fun r : lrow => exists b x y, r = lrw b x y) l -> lrows_ok 1 l.
Proof. intros H. unfold lrows_ok. eapply Forall_impl; [|exact H]. intros r (b & x & y & ->). split; [apply fv_make_ok|reflexivity]. Qed.
(** A line through (0,1) (1,3) (2,5) on one side of a feature, and three other rows. *)
Definition lin_rows : list lrow := [lrw [true] 0 1; lrw [false] 0 4; lrw [true] 1 3; lrw [false] 1 4; lrw [true] 2 5; lrw [false] 2 7].
Definition lin_items : list litem := match sl_merge (sl_preprocess lin_rows) with Some xs => xs | None => [] end.
Example C69_ex : lrows_ok 1 lin_rows /\ sl_merge (sl_preprocess lin_rows) = Some lin_items /\ length lin_items = 2 /\
  match sl_leaf 1 0 3 (sl_variance lin_items) (filter (fun i => has 0 (li_x i)) lin_items) with Some (m, e) => (nth 0 (lm_b m) 0 == 2 /\ lm_b0 m == 1 /\ e == 0)%Q | None => False end /\
  (sl_variance lin_items 0 == 2 # 3)%Q /\ (~ spread 0 (sl_variance lin_items) lin_rows 0 == 0)%Q.
Proof.
  split; [apply lrw_ok; repeat (apply Forall_cons; [repeat eexists|]); apply Forall_nil|]. split; [vm_compute; reflexivity|]. split; [reflexivity|]. split; [vm_compute; repeat split; reflexivity|]. split; [vm_compute; reflexivity|]. vm_compute. discriminate.
Qed.
Example C70_ex : one_feature 1 (LSplit 0 (LLeaf (lm_one 1 0 (3 # 2) (7 # 2))) (LLeaf (lm_one 1 0 2 1))) /\
  (sl_tree_cost 1 (1 # 2) (sl_variance lin_items) lin_items (LSplit 0 (LLeaf (lm_one 1 0 (3 # 2) (7 # 2))) (LLeaf (lm_one 1 0 2 1))) == 43 # 12)%Q /\
  match d2_costs 1 (1 # 2) 3 (sl_variance lin_items) (count_lin lin_items), sl_leaf 1 (1 # 2) 3 (sl_variance lin_items) lin_items with Some c, Some (_, e) => (c == e /\ 0 < c)%Q | _, _ => False end.
Proof. split; [split; do 3 eexists; (split; [|reflexivity]); lia|]. split; vm_compute; [reflexivity|split; reflexivity]. Qed.
(** When the values of the continuous feature are close together the leaf is constant although
    a line fits exactly. *)
Definition close_rows : list lrow := map (fun k => lrw [] (if Nat.even k then 0 else 1 # 1000) (if Nat.even k then 0 else 1)%Q) (seq 0 10).
Theorem C69_refuted : exists rows xs m e a b, lrows_ok 1 rows /\ sl_merge (sl_preprocess rows) = Some xs /\ sl_leaf 1 0 5 (sl_variance xs) xs = Some (m, e) /\ (pen_err 0 (sl_variance xs) rows 0 a b == 0)%Q /\ (e == 5 # 2)%Q.
Proof.
  exists close_rows. eexists. eexists. eexists. exists 1000%Q, 0%Q. split; [apply lrw_ok; repeat (apply Forall_cons; [repeat eexists|]); apply Forall_nil|].
  split; [vm_compute; reflexivity|]. split; [vm_compute; reflexivity|]. split; vm_compute; reflexivity.
Qed.
(** The training puts the last group together in the data set itself: a second training on the
    same data set counts rows twice. *)
Theorem C70_second_training_refuted : exists rows xs ys, lrows_ok 1 rows /\ sl_merge (sl_preprocess rows) = Some xs /\ sl_merge (sl_store_after 1 (sl_preprocess rows)) = Some ys /\
  total_weight xs = length rows /\ length rows < total_weight ys /\
  match sl_leaf 1 0 3 (sl_variance xs) xs, sl_leaf 1 0 3 (sl_variance ys) ys with Some (m, _), Some (m', _) => ~ (nth 0 (lm_b m) 0 == nth 0 (lm_b m') 0)%Q | _, _ => False end.
Proof.
  exists lin_rows. eexists. eexists. split; [apply lrw_ok; repeat (apply Forall_cons; [repeat eexists|]); apply Forall_nil|]. split; [vm_compute; reflexivity|]. split; [vm_compute; reflexivity|]. split; [reflexivity|]. split; [vm_compute; lia|]. vm_compute. discriminate.
Qed.

(** * C71: the similarity bound *)
(** Fails: a line is not bound to the range of the targets.  Eleven rows on the line y = x, and
    in the old data one more row far to the right. *)
Definition far_rows : list lrow := lrw [false; true] 1000 0 :: map (fun k => lrw [true; true] (inject_Z (Z.of_nat k * 2 - 10)) (inject_Z (Z.of_nat k * 2 - 10))) (seq 0 11).
Definition far_items : list litem := match sl_merge (sl_preprocess far_rows) with Some xs => xs | None => [] end.
Theorem C71_simple_refuted : exists rows xs lo hi, lrows_ok 1 rows /\ sl_merge (sl_preprocess rows) = Some xs /\ sl_range (sl_preprocess rows) = Some (lo, hi) /\
  let old := filter (fun i => has 1 (li_x i)) xs in let new := filter (fun i => has 0 (li_x i)) xs in
  match sl_leaf 1 0 5 (sl_variance xs) old, sl_leaf 1 0 5 (sl_variance xs) new with
  | Some (_, eo), Some (_, en) => (en == 0 /\ 300 < eo - fst (sl_sim lo hi old new))%Q
  | _, _ => False
  end.
Proof.
  exists far_rows, far_items. eexists. eexists. split; [apply lrw_ok; repeat (apply Forall_cons; [repeat eexists|]); apply Forall_nil|].
  split; [vm_compute; reflexivity|]. split; [vm_compute; reflexivity|]. split; vm_compute; reflexivity.
Qed.
Lemma worst_dist_max lo hi y p : (lo <= y <= hi)%Q -> (lo <= p <= hi)%Q -> ((y - p) * (y - p) <= worst_dist lo hi y)%Q.
Proof.
  intros [A B] [C D]. unfold worst_dist. destruct (Qle_bool (y - lo) (hi - y)) eqn:E.
  - apply Qle_bool_iff in E. destruct (Qlt_le_dec (y - p) 0); nra.
  - assert (E' : ~ (y - lo <= hi - y)%Q) by (intros X; apply Qle_bool_iff in X; congruence). destruct (Qlt_le_dec (y - p) 0); nra.
Qed.
(** It holds for the rows themselves (no two of them put together) and predictions in the range
    of the targets. *)
Theorem C71_simple_partial lo hi old new (p : litem -> Q) : (forall i, In i (old ++ new) -> li_w i = 1) ->
  (forall i j, In i old -> In j new -> iid (li_x i) = iid (li_x j) -> i = j) ->
  (forall i, In i old -> lo <= li_y i <= hi /\ lo <= p i <= hi)%Q ->
  (sumQ (fun i => (li_y i - p i) * (li_y i - p i)) old <= sumQ (fun i => (li_y i - p i) * (li_y i - p i)) new + fst (sl_sim lo hi old new))%Q.
Proof.
  intros W S R. unfold sl_sim. apply (Props_Similarity.C18_custom (fun i => iid (li_x i)) _ li_w (fun i => (li_y i - p i) * (li_y i - p i))%Q); [exact S|intros i _; apply sq_nn|].
  intros i I. destruct (R i I) as [A B]. rewrite (W i) by (apply in_or_app; now left). change (qn 1) with 1%Q. assert (E : (li_y i / 1 == li_y i)%Q) by field.
  pose proof (worst_dist_max lo hi (li_y i / 1) (p i)) as H. assert (A' : (lo <= li_y i / 1 <= hi)%Q) by (rewrite E; exact A). specialize (H A' B). revert H. generalize (worst_dist lo hi (li_y i / 1)) as T. intros T H. rewrite E in H. lra.
Qed.
Definition near_items : list litem := sl_preprocess (firstn 4 far_rows).
Example C71_ex2 : (forall i, In i (near_items ++ tl near_items) -> li_w i = 1) /\ (forall i, In i near_items -> (-10 <= li_y i <= 10 /\ -10 <= 1 <= 10)%Q) /\ length near_items = 4 /\ (fst (sl_sim (-10) 10 near_items (tl near_items)) == 256)%Q.
Proof.
  split; [intros i I; vm_compute in I; repeat (destruct I as [<-|I]; [reflexivity|]); contradiction|]. split; [intros i I; vm_compute in I; repeat (destruct I as [<-|I]; [vm_compute; repeat split; discriminate|]); contradiction|]. split; [reflexivity|]. vm_compute. reflexivity.
Qed.

Print Assumptions C69_leaf_partial.
Print Assumptions C69_variance.
Print Assumptions C69_refuted.
Print Assumptions C70_costs.
Print Assumptions C70_counters.
Print Assumptions C70_undo.
Print Assumptions C70_merge.
Print Assumptions C70_second_training_refuted.
Print Assumptions C71_simple_refuted.
Print Assumptions C71_simple_partial.
