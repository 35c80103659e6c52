(** C39: leaves of regression trees. *)
From Coq Require Import List Arith Bool Lia QArith Qminmax Lqa Permutation.
From Verif Require Import Model_FeatureVector Model_Data Proofs_Feature Base_Q Model_Regression.
Import ListNotations.
Local Open Scope nat_scope.

(** * Specification *)
(** The sum of squared errors of predicting [c] everywhere. *)
Definition sse (ys : list Q) (c : Q) : Q := sumQ (fun v => (v - c) * (v - c))%Q ys.
Definition mean (ys : list Q) : Q := (sumQ (fun v => v) ys / qn (length ys))%Q.
Fixpoint rpredict (t : rtree) (x : inst) : Q := match t with RLeaf c => c | RSplit f l r => if has f x then rpredict r x else rpredict l x end.
(** The squared errors of a tree on the rows of a data set. *)
Definition tree_sse (rows : list (inst * Q)) (t : rtree) : Q := sumQ (fun p => (snd p - rpredict t (fst p)) * (snd p - rpredict t (fst p)))%Q rows.

(** * Arithmetic *)
Lemma sq_nonneg (x : Q) : (0 <= x * x)%Q.
Proof. destruct (Qlt_le_dec x 0); nra. Qed.
Lemma div_nonneg (a b : Q) : (0 <= a -> 0 < b -> 0 <= a / b)%Q.
Proof. intros A B. unfold Qdiv. apply Qmult_le_0_compat; [exact A|]. apply Qlt_le_weak, Qinv_lt_0_compat, B. Qed.
(** The completed square. *)
Lemma square_gap (q y n c : Q) : (0 < n -> q - 2 * c * y + n * c * c == q - y * y / n + (n * c - y) * (n * c - y) / n)%Q.
Proof. intros H. field. lra. Qed.
Lemma square_min (q y n c : Q) : (0 < n -> q - y * y / n <= q - 2 * c * y + n * c * c)%Q.
Proof. intros H. rewrite (square_gap q y n c H). pose proof (div_nonneg ((n * c - y) * (n * c - y)) n (sq_nonneg _) H). lra. Qed.
Lemma square_at (q y n : Q) : (0 < n -> q - 2 * (y / n) * y + n * (y / n) * (y / n) == q - y * y / n)%Q.
Proof. intros H. field. lra. Qed.
Lemma sse_expand ys c : (sse ys c == sumQ (fun v => v * v) ys - 2 * c * sumQ (fun v => v) ys + qn (length ys) * c * c)%Q.
Proof.
  unfold sse. induction ys as [|v ys IH]; cbn [sumQ length]; [change (qn 0) with 0%Q; lra|]. rewrite IH, qn_S. ring.
Qed.
Lemma leaf_sums ys : forall a b, let r := fold_left (fun a v => (fst a + v * v, snd a + v)%Q) ys (a, b) in (fst r == a + sumQ (fun v => v * v) ys /\ snd r == b + sumQ (fun v => v) ys)%Q.
Proof. induction ys as [|v ys IH]; intros a b; cbn; [split; lra|]. destruct (IH (a + v * v)%Q (b + v)%Q) as [A B]. cbn in A, B. rewrite A, B. split; lra. Qed.
Lemma len_pos {A} (l : list A) : l <> [] -> 0 < length l.
Proof. destruct l; cbn; [congruence|lia]. Qed.
Lemma leaf_value ys : (fst (reg_leaf ys) == mean ys /\ snd (reg_leaf ys) == sumQ (fun v => v * v) ys - sumQ (fun v => v) ys * sumQ (fun v => v) ys / qn (length ys))%Q.
Proof.
  unfold reg_leaf, mean. pose proof (leaf_sums ys 0 0) as H. cbn zeta in H. destruct (fold_left _ ys _) as [q y]. cbn [fst snd] in *. destruct H as [A B]. rewrite !Qplus_0_l in A, B. rewrite A, B. split; reflexivity.
Qed.

(** * Plain regression *)
(** The label of a leaf is the mean, its cost is the sum of squared errors of that label, and no
    constant has a smaller one. *)
Theorem C39_leaf ys : ys <> [] -> (fst (reg_leaf ys) == mean ys)%Q /\ (snd (reg_leaf ys) == sse ys (mean ys))%Q /\ forall c, (snd (reg_leaf ys) <= sse ys c)%Q.
Proof.
  intros NE. destruct (leaf_value ys) as [A B]. pose proof (qn_pos _ (len_pos _ NE)) as P. split; [exact A|]. split.
  - rewrite B, sse_expand. unfold mean. rewrite square_at by exact P. reflexivity.
  - intros c. rewrite B, sse_expand. apply square_min. exact P.
Qed.
(** Direct computation and the counters of the depth-two solver give the same label and cost. *)
Theorem C39_costs ys c : (reg_leaf_costs ys c == sse ys c)%Q.
Proof. unfold reg_leaf_costs, sse. rewrite (fold_sum (fun v => (v - c) * (v - c))%Q). lra. Qed.
Definition count_up (ys : list Q) : reg_d2 := fold_left (fun a v => reg_add a (reg_inst v 1)) ys (RD2 0 0).
Lemma count_up_sums ys : forall a, let r := fold_left (fun a v => reg_add a (reg_inst v 1)) ys a in (rd_ys r == rd_ys a + sumQ (fun v => v) ys /\ rd_yys r == rd_yys a + sumQ (fun v => v * v) ys)%Q.
Proof.
  induction ys as [|v ys IH]; intros a; cbn [fold_left sumQ]; [split; lra|]. destruct (IH (reg_add a (reg_inst v 1))) as [A B]. cbn zeta in *. rewrite A, B. unfold reg_add, reg_inst. cbn [rd_ys rd_yys]. change (inject_Z 1) with 1%Q. split; lra.
Qed.
Theorem C39_counters ys : ys <> [] -> (reg_d2_costs (count_up ys) (length ys) == snd (reg_leaf ys))%Q /\ (reg_label (count_up ys) (length ys) == fst (reg_leaf ys))%Q.
Proof.
  intros NE. destruct (C39_leaf ys NE) as (_ & SS & _). destruct (leaf_value ys) as [A B]. destruct (count_up_sums ys (RD2 0 0)) as [C D]. cbn zeta in C, D. fold (count_up ys) in C, D. cbn [rd_ys rd_yys] in C, D.
  assert (C' : (rd_ys (count_up ys) == sumQ (fun v => v) ys)%Q) by lra. assert (D' : (rd_yys (count_up ys) == sumQ (fun v => v * v) ys)%Q) by lra. clear C D.
  assert (E : (length ys =? 0) = false) by (apply Nat.eqb_neq; pose proof (len_pos _ NE); lia). unfold reg_d2_costs, reg_label. rewrite E. split; [|rewrite A; unfold mean; rewrite C'; reflexivity].
  assert (V : (rd_yys (count_up ys) - rd_ys (count_up ys) * rd_ys (count_up ys) / qn (length ys) == snd (reg_leaf ys))%Q) by (rewrite B, C', D'; reflexivity).
  destruct (Qle_bool 0 _) eqn:Z; [exact V|]. exfalso. assert (N : (0 <= snd (reg_leaf ys))%Q).
  { rewrite SS. unfold sse. apply sumQ_nonneg. intros v _. apply sq_nonneg. }
  rewrite <- V in N. apply Qle_bool_iff in N. congruence.
Qed.
(** An instance counted with +1 and -1 leaves no trace. *)
Theorem C39_undo d v : (rd_ys (reg_add (reg_add d (reg_inst v 1)) (reg_inst v (-1))) == rd_ys d /\ rd_yys (reg_add (reg_add d (reg_inst v 1)) (reg_inst v (-1))) == rd_yys d)%Q.
Proof. unfold reg_add, reg_inst. cbn [rd_ys rd_yys]. change (inject_Z 1) with 1%Q. change (inject_Z (-1)) with (-1)%Q. split; ring. Qed.
(** Splitting the targets of a leaf in two never increases the cost. *)
Theorem C39_split ys l r : Permutation ys (l ++ r) -> l <> [] -> r <> [] -> (snd (reg_leaf l) + snd (reg_leaf r) <= snd (reg_leaf ys))%Q.
Proof.
  intros P L R. assert (NE : ys <> []) by (intros ->; apply Permutation_nil in P; destruct l; [congruence|discriminate]).
  destruct (C39_leaf ys NE) as (_ & E & _). rewrite E. unfold sse. rewrite (sumQ_perm _ _ _ P), sumQ_app. pose proof (proj2 (proj2 (C39_leaf l L)) (mean ys)) as A. pose proof (proj2 (proj2 (C39_leaf r R)) (mean ys)) as B. unfold sse in A, B. lra.
Qed.

(** * Cost-complex regression *)
(** An item as it stands for a group of rows. *)
Definition item_ok (i : ritem) : Prop := 0 < r_w i /\ (r_y i * r_y i <= qn (r_w i) * r_q i)%Q.
Definition phi (c y q : Q) (w : nat) : Q := (q - 2 * c * y + qn w * c * c)%Q.
Definition item_cost (c : Q) (i : ritem) : Q := phi c (r_y i) (r_q i) (r_w i).
Lemma phi_nonneg c y q w : 0 < w -> (y * y <= qn w * q)%Q -> (0 <= phi c y q w)%Q.
Proof.
  intros W S. pose proof (qn_pos w W) as P. pose proof (square_min q y (qn w) c P) as M. assert (N : (0 <= q - y * y / qn w)%Q).
  { assert (D : (y * y / qn w <= q)%Q) by (apply Qle_shift_div_r; [exact P|lra]). lra. }
  unfold phi. lra.
Qed.
Lemma cc_sums_spec xs : forall a b n, let r := fold_left (fun a i => ((fst (fst a) + r_y i)%Q, (snd (fst a) + r_q i)%Q, (snd a + r_w i)%nat)) xs (a, b, n) in
  (fst (fst r) == a + sumQ r_y xs /\ snd (fst r) == b + sumQ r_q xs)%Q /\ snd r = n + fold_right (fun i s => r_w i + s) 0 xs.
Proof.
  induction xs as [|x xs IH]; intros a b n; cbn [fold_left sumQ fold_right fst snd]; [repeat split; try lra; lia|]. destruct (IH (a + r_y x)%Q (b + r_q x)%Q (n + r_w x)) as [[A B] C]. cbn zeta in *. rewrite A, B, C. repeat split; try lra. lia.
Qed.
Definition weight (xs : list ritem) : nat := fold_right (fun i s => r_w i + s) 0 xs.
Lemma cc_sums_eq xs : (fst (fst (cc_sums xs)) == sumQ r_y xs /\ snd (fst (cc_sums xs)) == sumQ r_q xs)%Q /\ snd (cc_sums xs) = weight xs.
Proof. unfold cc_sums. destruct (cc_sums_spec xs 0 0 0) as [[A B] C]. cbn zeta in *. rewrite A, B, C. unfold weight. repeat split; lra. Qed.
Lemma phi_sum c xs : (phi c (sumQ r_y xs) (sumQ r_q xs) (weight xs) == sumQ (item_cost c) xs)%Q.
Proof.
  unfold item_cost, phi. induction xs as [|x xs IH]; cbn [sumQ weight fold_right]; [change (qn 0) with 0%Q; lra|]. rewrite <- IH. fold (weight xs). rewrite qn_add. ring.
Qed.
Lemma leaf_costs_sum xs c : Forall item_ok xs -> (cc_leaf_costs xs c == sumQ (item_cost c) xs)%Q.
Proof.
  intros OK. unfold cc_leaf_costs. destruct (cc_sums_eq xs) as [[A B] C]. destruct (cc_sums xs) as [[y q] w]. cbn [fst snd] in *. subst w.
  assert (E : (q - 2 * c * y + qn (weight xs) * c * c == sumQ (item_cost c) xs)%Q) by (rewrite <- phi_sum; unfold phi; rewrite A, B; reflexivity).
  rewrite E. apply Q.max_r. apply sumQ_nonneg. intros x I. rewrite Forall_forall in OK. destruct (OK x I). apply phi_nonneg; assumption.
Qed.
Lemma filter_split_sum {A} (g : A -> bool) (f : A -> Q) l : (sumQ f (filter (fun i => negb (g i)) l) + sumQ f (filter g l) == sumQ f l)%Q.
Proof. induction l as [|x l IH]; cbn; [lra|]. destruct (g x); cbn; rewrite <- IH; lra. Qed.
Lemma forall_filter {A} (P : A -> Prop) g l : Forall P l -> Forall P (filter g l).
Proof. induction 1; cbn; [constructor|]. destruct (g x); auto. Qed.
(** The cost of a tree is the sum over the items. *)
Lemma tree_cost_sum t : forall xs, Forall item_ok xs -> (cc_tree_cost xs t == sumQ (fun i => item_cost (rpredict t (r_x i)) i) xs)%Q.
Proof.
  induction t as [c|f l IHl r IHr]; intros xs OK; cbn [cc_tree_cost rpredict]; [apply leaf_costs_sum; exact OK|].
  rewrite IHl, IHr by (apply forall_filter; exact OK). rewrite <- (filter_split_sum (fun i => has f (r_x i)) (fun i => item_cost (if has f (r_x i) then rpredict r (r_x i) else rpredict l (r_x i)) i)).
  rewrite (sumQ_ext (fun i => item_cost (rpredict l (r_x i)) i) (fun i => item_cost (if has f (r_x i) then rpredict r (r_x i) else rpredict l (r_x i)) i) (filter (fun i => negb (has f (r_x i))) xs)).
  2:{ intros i I. apply filter_In in I. destruct I as [_ I]. apply negb_true_iff in I. rewrite I. reflexivity. }
  rewrite (sumQ_ext (fun i => item_cost (rpredict r (r_x i)) i) (fun i => item_cost (if has f (r_x i) then rpredict r (r_x i) else rpredict l (r_x i)) i) (filter (fun i => has f (r_x i)) xs)).
  2:{ intros i I. apply filter_In in I. destruct I as [_ I]. rewrite I. reflexivity. }
  reflexivity.
Qed.

(** ** Putting equal feature vectors together *)
Section MERGE.
  Variable p : inst -> Q.
  (** items with the same number get the same prediction *)
  Definition same_p (xs : list ritem) : Prop := forall i j, In i xs -> In j xs -> r_uid i = r_uid j -> p (r_x i) = p (r_x j).
  Lemma group_cost rest : forall cur y q n w, 0 < n -> Forall item_ok rest -> same_p (cur :: rest) -> ((w <? n) = false -> (y == r_y cur /\ q == r_q cur)%Q /\ n = r_w cur) ->
    (sumQ (fun i => item_cost (p (r_x i)) i) (cc_group cur y q n w rest) == phi (p (r_x cur)) y q n + sumQ (fun i => item_cost (p (r_x i)) i) rest)%Q.
  Proof.
    induction rest as [|c rest IH]; intros cur y q n w N0 OK SP SM; cbn [cc_group sumQ]; [unfold item_cost; cbn [r_x r_y r_q r_w]; reflexivity|].
    inversion OK as [|? ? [W _] OK']; subst. destruct (r_uid cur =? r_uid c) eqn:U.
    - apply Nat.eqb_eq in U. rewrite IH; [|lia|exact OK'| |].
      + assert (E : p (r_x cur) = p (r_x c)) by (apply SP; [now left|right; now left|exact U]). unfold item_cost, phi. rewrite E, qn_add. ring.
      + intros i j I J. apply SP; cbn in *; intuition.
      + intros L. apply Nat.ltb_ge in L. lia.
    - cbn [sumQ]. rewrite IH; [|exact W|exact OK'| |].
      + unfold close_item. destruct (w <? n) eqn:L; unfold item_cost, phi; cbn [r_x r_y r_q r_w].
        * ring.
        * destruct (SM eq_refl) as [[Y Q] N]. subst n. rewrite Y, Q. ring.
      + intros i j I J. apply SP; cbn in *; intuition.
      + intros _. repeat split; reflexivity.
  Qed.
  Lemma bound_cost rest : forall cur y q n acc, 0 < n -> Forall item_ok rest -> same_p (cur :: rest) ->
    (cc_bound_loop (r_uid cur) y q n acc rest <= acc + phi (p (r_x cur)) y q n + sumQ (fun i => item_cost (p (r_x i)) i) rest)%Q.
  Proof.
    induction rest as [|c rest IH]; intros cur y q n acc N0 OK SP; cbn [cc_bound_loop sumQ].
    - unfold phi. pose proof (square_min q y (qn n) (p (r_x cur)) (qn_pos n N0)). lra.
    - inversion OK as [|? ? [W _] OK']; subst. destruct (r_uid cur =? r_uid c) eqn:U.
      + apply Nat.eqb_eq in U. eapply Qle_trans; [apply (IH cur); [lia|exact OK'|]|].
        * intros i j I J. apply SP; cbn in *; intuition.
        * assert (E : p (r_x cur) = p (r_x c)) by (apply SP; [now left|right; now left|exact U]). unfold item_cost, phi. rewrite E, qn_add. lra.
      + eapply Qle_trans; [apply (IH c); [exact W|exact OK'|]|].
        * intros i j I J. apply SP; cbn in *; intuition.
        * unfold item_cost at 2, phi at 2. pose proof (square_min q y (qn n) (p (r_x cur)) (qn_pos n N0)). unfold phi. lra.
  Qed.
End MERGE.
Lemma item_ok_add y1 q1 w1 y2 q2 w2 : 0 < w1 -> 0 < w2 -> (y1 * y1 <= qn w1 * q1)%Q -> (y2 * y2 <= qn w2 * q2)%Q -> ((y1 + y2) * (y1 + y2) <= qn (w1 + w2) * (q1 + q2))%Q.
Proof.
  intros W1 W2 A B. rewrite qn_add. pose proof (qn_pos _ W1) as P1. pose proof (qn_pos _ W2) as P2. set (a := qn w1) in *. set (b := qn w2) in *.
  assert (Q1 : (y1 * y1 / a <= q1)%Q) by (apply Qle_shift_div_r; [exact P1|lra]).
  assert (Q2 : (y2 * y2 / b <= q2)%Q) by (apply Qle_shift_div_r; [exact P2|lra]).
  assert (E : ((a + b) * (y1 * y1 / a + y2 * y2 / b) == (y1 + y2) * (y1 + y2) + (b * y1 - a * y2) * (b * y1 - a * y2) / (a * b))%Q) by (field; split; lra).
  assert (N : (0 <= (b * y1 - a * y2) * (b * y1 - a * y2) / (a * b))%Q) by (apply div_nonneg; [apply sq_nonneg|nra]).
  assert (M : ((a + b) * (y1 * y1 / a + y2 * y2 / b) <= (a + b) * (q1 + q2))%Q) by (apply Qmult_le_l; lra). lra.
Qed.
Lemma group_ok rest : forall cur y q n w, 0 < n -> (y * y <= qn n * q)%Q -> item_ok cur -> Forall item_ok rest -> Forall item_ok (cc_group cur y q n w rest).
Proof.
  induction rest as [|c rest IH]; intros cur y q n w N S C OK; cbn [cc_group]; [constructor; [split; assumption|constructor]|]. inversion OK as [|? ? [W B] OK']; subst. destruct (_ =? _).
  - apply IH; [lia|apply item_ok_add; assumption|exact C|exact OK'].
  - constructor; [unfold close_item; destruct (_ <? _); [split; assumption|exact C]|]. apply IH; [exact W|exact B|split; assumption|exact OK'].
Qed.
Lemma group_weight rest : forall cur y q n w, 0 < n -> Forall item_ok rest -> ((w <? n) = false -> n = r_w cur) -> weight (cc_group cur y q n w rest) = n + weight rest.
Proof.
  induction rest as [|c rest IH]; intros cur y q n w N OK S; cbn [cc_group weight fold_right]; [cbn; lia|]. inversion OK as [|? ? [W B] OK']; subst. fold (weight rest). destruct (_ =? _).
  - rewrite IH; [lia|lia|exact OK'|]. intros L. apply Nat.ltb_ge in L. lia.
  - cbn [fold_right]. fold (weight (cc_group c (r_y c) (r_q c) (r_w c) (r_w c) rest)). rewrite IH; [|exact W|exact OK'|reflexivity]. unfold close_item. destruct (w <? n); cbn; [lia|]. specialize (S eq_refl). lia.
Qed.
Lemma id_insert_perm x l : Permutation (id_insert x l) (x :: l).
Proof. induction l as [|y l IH]; cbn [id_insert]; [reflexivity|]. destruct (_ <? _); [reflexivity|]. rewrite IH. apply perm_swap. Qed.
Lemma id_sort_perm l : Permutation (id_sort l) l.
Proof. induction l as [|x l IH]; cbn; [reflexivity|]. rewrite id_insert_perm, IH. reflexivity. Qed.
Lemma weight_perm l l' : Permutation l l' -> weight l = weight l'.
Proof. induction 1; unfold weight in *; cbn [fold_right]; lia. Qed.

(** ** From the rows *)
Lemma reg_insert_perm x l : Permutation (reg_insert x l) (x :: l).
Proof. induction l as [|y l IH]; cbn; [reflexivity|]. destruct (fv_gt _ _); [reflexivity|]. rewrite IH. apply perm_swap. Qed.
Lemma reg_sort_perm l : Permutation (reg_sort l) l.
Proof. induction l as [|x l IH]; cbn; [reflexivity|]. rewrite reg_insert_perm, IH. reflexivity. Qed.
Lemma eqb_list a : forall b, list_nat_eqb a b = true <-> a = b.
Proof.
  induction a as [|x a IH]; intros [|y b]; cbn; try (split; [discriminate|discriminate]); [tauto|]. rewrite andb_true_iff, Nat.eqb_eq, IH. split; [intros [-> ->]; reflexivity|intros [= -> ->]; auto].
Qed.
(** every row becomes one item of weight one, in the same order *)
Lemma number_rows rows : forall id uid prev, Forall2 (fun r i => ifv (r_x i) = ifv (fst r) /\ r_y i = snd r /\ r_q i = (snd r * snd r)%Q /\ r_w i = 1) rows (reg_number id uid prev rows).
Proof.
  induction rows as [|[x v] rows IH]; intros id uid prev; cbn [reg_number]; [constructor|]. destruct prev as [p|]; [destruct (fv_equal _ _)|]; constructor; try (cbn; auto; fail); apply IH.
Qed.
Lemma number_same rows : forall id uid p i, In i (reg_number id uid (Some p) rows) -> uid <= r_uid i /\ (r_uid i = uid -> fv_present (ifv (r_x i)) = fv_present (ifv p)).
Proof.
  induction rows as [|[x v] rows IH]; intros id uid p i; cbn [reg_number]; [intros []|]. destruct (fv_equal (ifv p) (ifv x)) eqn:E; intros [<-|I].
  - cbn. apply eqb_list in E. auto.
  - apply IH in I. exact I.
  - cbn. split; [lia|lia].
  - apply IH in I. destruct I as [A B]. split; [lia|]. intros C. lia.
Qed.
Lemma number_class rows : forall id uid p i j, In i (reg_number id uid (Some p) rows) -> In j (reg_number id uid (Some p) rows) -> r_uid i = r_uid j -> fv_present (ifv (r_x i)) = fv_present (ifv (r_x j)).
Proof.
  induction rows as [|[x v] rows IH]; intros id uid p i j; cbn [reg_number]; [intros []|]. destruct (fv_equal (ifv p) (ifv x)) eqn:E.
  - apply eqb_list in E. intros [<-|I] [<-|J] U; cbn in *.
    + reflexivity.
    + apply number_same in J. rewrite (proj2 J) by auto. auto.
    + apply number_same in I. rewrite (proj2 I) by auto. auto.
    + eauto.
  - intros [<-|I] [<-|J] U; cbn in *.
    + reflexivity.
    + apply number_same in J. rewrite (proj2 J) by auto. auto.
    + apply number_same in I. rewrite (proj2 I) by auto. auto.
    + eauto.
Qed.
Lemma preprocess_class rows i j : In i (reg_preprocess rows) -> In j (reg_preprocess rows) -> r_uid i = r_uid j -> fv_present (ifv (r_x i)) = fv_present (ifv (r_x j)).
Proof.
  unfold reg_preprocess. destruct (reg_sort rows) as [|[x v] l]; cbn [reg_number]; [intros []|]. intros [<-|I] [<-|J] U; cbn in *.
  - reflexivity.
  - apply number_same in J. rewrite (proj2 J) by auto. auto.
  - apply number_same in I. rewrite (proj2 I) by auto. auto.
  - eapply number_class; eauto.
Qed.
Lemma has_present x f : fv_ok (ifv x) -> (has f x = true <-> In f (fv_present (ifv x))).
Proof.
  intros [_ H]. rewrite H. unfold has, fv_has, fv_num. split; [|tauto]. intros E. split; [|exact E].
  destruct (Nat.lt_ge_cases f (length (fv_bits (ifv x)))) as [L|L]; [exact L|]. rewrite nth_overflow in E by exact L. discriminate.
Qed.
Lemma same_rpredict t x y : fv_ok (ifv x) -> fv_ok (ifv y) -> fv_present (ifv x) = fv_present (ifv y) -> rpredict t x = rpredict t y.
Proof.
  intros X Y E. induction t as [l|f l IHl r IHr]; cbn; [reflexivity|]. assert (H : has f x = has f y) by (apply eq_true_iff_eq; rewrite !has_present, E by assumption; reflexivity).
  rewrite H. destruct (has f y); assumption.
Qed.
Lemma rpredict_fv t x y : ifv x = ifv y -> rpredict t x = rpredict t y.
Proof. intros E. induction t as [c|f l IHl r IHr]; cbn; [reflexivity|]. unfold has. rewrite E. fold (has f y). destruct (has f y); assumption. Qed.
Definition rows_ok (rows : list (inst * Q)) : Prop := Forall (fun r => fv_ok (ifv (fst r))) rows.
Lemma items_fv rows i : rows_ok rows -> In i (reg_preprocess rows) -> fv_ok (ifv (r_x i)) /\ item_ok i.
Proof.
  intros OK I. unfold reg_preprocess in I. pose proof (number_rows (reg_sort rows) 0 0 None) as F. assert (OK' : rows_ok (reg_sort rows)).
  { unfold rows_ok in *. rewrite Forall_forall in *. intros r R. apply OK. apply (Permutation_in r (reg_sort_perm rows)), R. }
  revert I OK'. induction F as [|r j rs js (E & Y & Q & W) F IH]; intros I OK'; [destruct I|]. inversion OK'; subst. destruct I as [->|I]; [|auto].
  rewrite E. split; [assumption|]. split; [lia|]. rewrite Y, Q, W. change (qn 1) with 1%Q. lra.
Qed.
Lemma items_cost rows t : (sumQ (fun i => item_cost (rpredict t (r_x i)) i) (reg_preprocess rows) == tree_sse rows t)%Q.
Proof.
  unfold tree_sse. rewrite <- (sumQ_perm _ _ _ (reg_sort_perm rows)). unfold reg_preprocess. pose proof (number_rows (reg_sort rows) 0 0 None) as F.
  induction F as [|r j rs js (E & Y & Q & W) F IH]; cbn [sumQ]; [reflexivity|]. rewrite IH. unfold item_cost, phi. rewrite Y, Q, W, (rpredict_fv t _ _ E). change (qn 1) with 1%Q. ring.
Qed.
(** Putting the rows with equal features together changes the cost of no tree: it is the sum of
    squared errors over the rows, before and after. *)
Theorem C39_merge rows xs t : rows_ok rows -> cc_merge (reg_preprocess rows) = Some xs ->
  (cc_tree_cost xs t == tree_sse rows t)%Q /\ (cc_tree_cost (reg_preprocess rows) t == tree_sse rows t)%Q /\ weight xs = length rows.
Proof.
  intros OK. unfold cc_merge. pose proof (id_sort_perm (reg_preprocess rows)) as P. destruct (id_sort (reg_preprocess rows)) as [|c rest] eqn:S; [discriminate|]. intros [= <-].
  assert (IO : forall i, In i (c :: rest) -> fv_ok (ifv (r_x i)) /\ item_ok i) by (intros i I; apply (items_fv rows); [exact OK|]; apply (Permutation_in i P), I).
  assert (SP : same_p (rpredict t) (c :: rest)).
  { intros i j I J U. apply same_rpredict; [apply IO, I|apply IO, J|]. apply (preprocess_class rows); [apply (Permutation_in i P), I|apply (Permutation_in j P), J|exact U]. }
  assert (RO : Forall item_ok rest) by (apply Forall_forall; intros i I; apply IO; now right). destruct (IO c (or_introl eq_refl)) as [_ [CW CS]].
  split; [|split].
  - rewrite tree_cost_sum by (apply group_ok; [exact CW|exact CS|split; assumption|exact RO]). rewrite group_cost; [|exact CW|exact RO|exact SP|repeat split; reflexivity].
    rewrite <- items_cost. rewrite <- (sumQ_perm _ _ _ P). cbn [sumQ]. reflexivity.
  - rewrite tree_cost_sum by (apply Forall_forall; intros i I; apply (items_fv rows); assumption). apply items_cost.
  - rewrite group_weight by (try assumption; reflexivity). pose proof (weight_perm _ _ P) as W. cbn in W. fold (weight rest) in W. rewrite W. unfold reg_preprocess. rewrite <- (Permutation_length (reg_sort_perm rows)).
    pose proof (number_rows (reg_sort rows) 0 0 None) as F. clear -F. induction F as [|r j rs js (E & Y & Q & WW) F IH]; unfold weight in *; cbn [fold_right length] in *; [reflexivity|]. rewrite IH, WW. reflexivity.
Qed.
(** The leaf of a part of the data is its mean with the least sum of squares. *)
Theorem C39_cc_leaf mls xs c e : Forall item_ok xs -> xs <> [] -> cc_leaf mls xs = Some (c, e) ->
  mls <= weight xs /\ (c == sumQ r_y xs / qn (weight xs))%Q /\ (e == cc_leaf_costs xs c)%Q /\ (e == cc_d2_costs (sumQ r_y xs) (sumQ r_q xs) (weight xs))%Q /\ forall c', (e <= cc_leaf_costs xs c')%Q.
Proof.
  intros OK NE. unfold cc_leaf. destruct (cc_sums_eq xs) as [[A B] C]. destruct (cc_sums xs) as [[y q] w]. cbn [fst snd] in *. destruct (Nat.ltb_spec w mls) as [L|L]; [discriminate|]. intros [= <- <-].
  assert (W : 0 < weight xs) by (destruct xs as [|x xs]; [congruence|]; inversion OK as [|? ? [W _] _]; subst; cbn; lia). pose proof (qn_pos _ W) as P. rewrite C in *.
  assert (CS : (0 <= q - y * y / qn (weight xs))%Q).
  { pose proof (square_at q y (qn (weight xs)) P) as E. rewrite <- E. assert (F : (q - 2 * (y / qn (weight xs)) * y + qn (weight xs) * (y / qn (weight xs)) * (y / qn (weight xs)) == sumQ (item_cost (y / qn (weight xs))) xs)%Q) by (rewrite <- phi_sum; unfold phi; rewrite A, B; reflexivity).
    rewrite F. apply sumQ_nonneg. intros x I. rewrite Forall_forall in OK. destruct (OK x I). apply phi_nonneg; assumption. }
  split; [exact L|]. split; [rewrite A; reflexivity|]. rewrite Q.max_r by exact CS. split; [|split].
  - rewrite leaf_costs_sum by exact OK. rewrite <- phi_sum. unfold phi. rewrite <- A, <- B, square_at by exact P. reflexivity.
  - unfold cc_d2_costs. rewrite <- A, <- B. destruct (Qle_bool 0 _) eqn:Z; [rewrite A, B; reflexivity|]. exfalso. apply Qle_bool_iff in CS. congruence.
  - intros c'. rewrite Q.max_r by exact CS. rewrite leaf_costs_sum by exact OK. rewrite <- phi_sum. unfold phi. rewrite <- A, <- B. apply square_min. exact P.
Qed.
(** The equivalent-points bound of a part of the data never exceeds the cost of a tree on it. *)
Theorem C39_bound rows xs b t : rows_ok rows -> (forall i, In i xs -> In i (reg_preprocess rows) \/ exists ys, cc_merge (reg_preprocess rows) = Some ys /\ In i ys) ->
  cc_bound xs = Some b -> (b <= cc_tree_cost xs t)%Q.
Proof.
  intros OK IN. destruct xs as [|c rest]; [discriminate|]. intros [= <-].
  assert (MI : forall rs cur y q n w i, 0 < n -> (y * y <= qn n * q)%Q -> item_ok cur -> Forall item_ok rs -> In i (cc_group cur y q n w rs) -> item_ok i /\ exists j, (j = cur \/ In j rs) /\ r_x i = r_x j /\ r_uid i = r_uid j).
  { intros rs cur y q n w i N S C F I. split; [pose proof (group_ok rs cur y q n w N S C F) as G; rewrite Forall_forall in G; auto|]. clear N S C F. revert cur y q n w i I. induction rs as [|d rs IH]; intros cur y q n w i I; cbn [cc_group] in I.
    - destruct I as [<-|[]]. exists cur. auto.
    - destruct (_ =? _).
      + destruct (IH _ _ _ _ _ _ I) as (j & J & E & F). exists j. cbn. intuition.
      + destruct I as [<-|I]; [exists cur; unfold close_item; destruct (_ <? _); auto|]. destruct (IH _ _ _ _ _ _ I) as (j & J & E & F). exists j. cbn. intuition. }
  assert (ALL : forall i, In i (c :: rest) -> item_ok i /\ exists j, In j (reg_preprocess rows) /\ r_x i = r_x j /\ r_uid i = r_uid j).
  { intros i I. destruct (IN i I) as [J|(ys & M & J)]; [split; [apply (items_fv rows); assumption|exists i; auto]|].
    unfold cc_merge in M. pose proof (id_sort_perm (reg_preprocess rows)) as P. destruct (id_sort (reg_preprocess rows)) as [|d ds]; [discriminate|]. injection M as <-.
    assert (IO : forall i, In i (d :: ds) -> item_ok i) by (intros k K; apply (items_fv rows); [exact OK|]; apply (Permutation_in k P), K). pose proof (IO d (or_introl eq_refl)) as [DW DS].
    apply MI in J; [|exact DW|exact DS|split; assumption|apply Forall_forall; intros k K; apply IO; now right]. destruct J as [A (j & J & E & F)]. split; [exact A|]. exists j. split; [|auto]. apply (Permutation_in j P). destruct J as [->|J]; [now left|now right]. }
  assert (SP : same_p (rpredict t) (c :: rest)).
  { intros i j I J U. destruct (ALL i I) as [_ (i' & I' & EI & UI)]. destruct (ALL j J) as [_ (j' & J' & EJ & UJ)]. rewrite EI, EJ. apply same_rpredict; [apply (items_fv rows); assumption|apply (items_fv rows); assumption|]. apply (preprocess_class rows); [exact I'|exact J'|congruence]. }
  assert (RO : Forall item_ok (c :: rest)) by (apply Forall_forall; intros i I; apply ALL, I). rewrite tree_cost_sum by exact RO. inversion RO as [|? ? [CW CS] RO']; subst.
  eapply Qle_trans; [apply (bound_cost (rpredict t)); [exact CW|exact RO'|exact SP]|]. cbn [sumQ]. unfold item_cost at 2. lra.
Qed.

(** * Cases *)
Definition rx (n : nat) : inst := Inst 0 (fv_make [Nat.odd n]).
Definition reg_rows : list (inst * Q) := [(rx 1, 3%Q); (rx 0, 1%Q); (rx 1, 5%Q); (rx 0, 2%Q); (rx 1, 4%Q)].
Example C39_ex : rows_ok reg_rows /\ exists xs, cc_merge (reg_preprocess reg_rows) = Some xs /\ length xs = 2 /\
  (cc_tree_cost xs (RSplit 0 (RLeaf (3 # 2)) (RLeaf 4)) == 5 # 2)%Q /\ match cc_bound xs with Some b => (b == 5 # 2)%Q | None => False end /\ match cc_leaf 1 xs with Some (c, e) => (c == 3 /\ e == 10)%Q | None => False end.
Proof.
  split; [repeat (apply Forall_cons; [apply fv_make_ok|]); apply Forall_nil|]. exists (match cc_merge (reg_preprocess reg_rows) with Some xs => xs | None => [] end). repeat split; vm_compute; reflexivity.
Qed.
(** The training puts the last group together in the data set itself: a second training on the
    same data set counts rows twice. *)
Theorem C39_second_training_refuted : exists rows, rows_ok rows /\ weight (reg_preprocess rows) = length rows /\ length rows < weight (cc_store_after (reg_preprocess rows)) /\
  exists xs, cc_merge (cc_store_after (reg_preprocess rows)) = Some xs /\ ~ (fst (match cc_leaf 1 xs with Some p => p | None => (0, 0)%Q end) == mean (map snd rows))%Q.
Proof.
  exists reg_rows. split; [repeat (apply Forall_cons; [apply fv_make_ok|]); apply Forall_nil|]. split; [reflexivity|]. split; [vm_compute; lia|].
  exists (match cc_merge (cc_store_after (reg_preprocess reg_rows)) with Some xs => xs | None => [] end). split; [vm_compute; reflexivity|]. vm_compute. discriminate.
Qed.

Print Assumptions C39_leaf.
Print Assumptions C39_costs.
Print Assumptions C39_counters.
Print Assumptions C39_undo.
Print Assumptions C39_split.
Print Assumptions C39_merge.
Print Assumptions C39_cc_leaf.
Print Assumptions C39_bound.
Print Assumptions C39_second_training_refuted.
