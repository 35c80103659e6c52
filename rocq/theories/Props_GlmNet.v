(** Properties of piecewise linear regression: C72 to C75, and C71 for this task. *)
From Coq Require Import List Arith Bool Lia ZArith QArith Qabs Qminmax Lqa Permutation.
From Verif Require Import Base_Q Model_FeatureVector Model_Data Model_SimpleLinear Model_Similarity Model_GlmNet.
From Verif Require Props_Similarity.
Import ListNotations.
Local Open Scope nat_scope.

(** * Specification *)
(** A row is a target with its values of the continuous columns. *)
Definition gval (r : grow) (j : nat) : Q := nth j (snd r) 0%Q.
Definition grows_ok (cf : nat) (rows : list grow) : Prop := Forall (fun r : grow => length (snd r) = cf) rows.
(** The elastic net: squared errors, plus 2 N lasso times the absolute coefficients, plus N ridge
    times the squared coefficients. *)
Definition net_err (cf : nat) (lasso ridge : Q) (rows : list grow) (m : linmodel) : Q :=
  (sumQ (fun r => (fst r - lm_predict m (snd r)) * (fst r - lm_predict m (snd r))) rows
   + 2 * qn (length rows) * lasso * sumQ (fun j => Qabs (nth j (lm_b m) 0)) (seq 0 cf)
   + qn (length rows) * ridge * sumQ (fun j => nth j (lm_b m) 0 * nth j (lm_b m) 0) (seq 0 cf))%Q.
Definition avg (f : grow -> Q) (rows : list grow) : Q := (sumQ f rows / qn (length rows))%Q.
(** N times the covariance of two columns, or of a column and the target. *)
Definition cov2 (rows : list grow) (f g : grow -> Q) : Q := sumQ (fun r => (f r - avg f rows) * (g r - avg g rows))%Q rows.
Definition colv (j : nat) (r : grow) : Q := gval r j.
(** The values of a column do not change along the rows (up to 0.0001 in total). *)
Fixpoint variation (l : list Q) : Q := match l with x :: (y :: _) as l' => (Qabs (y - x) + variation l')%Q | _ => 0%Q end.
Definition flat (rows : list grow) (j : nat) : Prop := (variation (map (colv j) rows) < 1 # 10000)%Q.
(** Covariances are zero or not tiny. *)
Definition clean (cf : nat) (rows : list grow) : Prop :=
  forall j k, j < cf -> k < cf -> j <> k -> (cov2 rows (colv j) (colv k) == 0)%Q \/ (1 # 10000 <= Qabs (cov2 rows (colv j) (colv k)))%Q.
Definition not_tiny (b : list Q) : Prop := forall v, In v b -> (v == 0)%Q \/ (1 # 10000 <= Qabs v)%Q.

(** * Sums *)
Lemma sq_nn (x : Q) : (0 <= x * x)%Q.
Proof. destruct (Qlt_le_dec x 0); nra. Qed.
Lemma qlt_iff a b : qlt a b = true <-> (a < b)%Q.
Proof. unfold qlt. rewrite negb_true_iff. split; [intros H; apply Qnot_le_lt; intros L; apply Qle_bool_iff in L; congruence|intros H; destruct (Qle_bool b a) eqn:E; [|reflexivity]; apply Qle_bool_iff in E; lra]. Qed.
Lemma qlt_false a b : qlt a b = false <-> (b <= a)%Q.
Proof. unfold qlt. rewrite negb_false_iff. apply Qle_bool_iff. Qed.
Lemma sum_plus {A} (f g : A -> Q) l : (sumQ (fun x => f x + g x) l == sumQ f l + sumQ g l)%Q.
Proof. induction l as [|x l IH]; cbn; [reflexivity|]. rewrite IH. ring. Qed.
Lemma sum_scale {A} (c : Q) (f : A -> Q) l : (sumQ (fun x => c * f x) l == c * sumQ f l)%Q.
Proof. induction l as [|x l IH]; cbn; [ring|]. rewrite IH. ring. Qed.
Lemma sum_zero {A} (l : list A) : (sumQ (fun _ => 0%Q) l == 0)%Q.
Proof. induction l as [|x l IH]; cbn; [reflexivity|]. rewrite IH. ring. Qed.
Lemma sum_const {A} c (l : list A) : (sumQ (fun _ => c) l == qn (length l) * c)%Q.
Proof. induction l as [|x l IH]; cbn [sumQ length]; [unfold qn; cbn; ring|]. rewrite IH, qn_S. ring. Qed.
Lemma sum_map {A B} (g : A -> B) (f : B -> Q) l : sumQ f (map g l) = sumQ (fun x => f (g x)) l.
Proof. induction l as [|x l IH]; cbn; [reflexivity|]. now rewrite IH. Qed.
Lemma sum_swap {A B} (f : A -> B -> Q) l l' : (sumQ (fun x => sumQ (f x) l') l == sumQ (fun y => sumQ (fun x => f x y) l) l')%Q.
Proof. induction l as [|x l IH]; cbn [sumQ]; [rewrite sum_zero; reflexivity|]. rewrite IH. rewrite <- (sum_plus (f x)). reflexivity. Qed.
Lemma gsum_map (g : grow -> Q) rows : (gsum (map g rows) == sumQ g rows)%Q.
Proof. unfold gsum. rewrite (fold_sum (fun v => v)). rewrite sum_map. rewrite (sumQ_ext _ g) by (intros; reflexivity). ring. Qed.
Lemma inner_map (f g : grow -> Q) rows : forall a, (g_inner (map f rows) (map g rows) a == a + sumQ (fun r => f r * g r) rows)%Q.
Proof. induction rows as [|r rows IH]; intros a; cbn; [ring|]. rewrite IH. ring. Qed.
Lemma mean_avg (f : grow -> Q) rows : (g_mean (map f rows) == avg f rows)%Q.
Proof. unfold g_mean, avg. rewrite gsum_map, map_length. reflexivity. Qed.
Lemma qn_ne n : 0 < n -> ~ (qn n == 0)%Q.
Proof. intros H. pose proof (qn_pos n H). lra. Qed.
Lemma sum_centred f rows : rows <> [] -> (sumQ (fun r => f r - avg f rows) rows == 0)%Q.
Proof.
  intros N. assert (L : 0 < length rows) by (destruct rows; [congruence|cbn; lia]). rewrite (sumQ_ext _ (fun r => f r + (-1) * avg f rows)%Q) by (intros; ring). rewrite sum_plus, sum_const. unfold avg. field. apply qn_ne, L.
Qed.
(** Sum over rows of a centred product. *)
Lemma cov_raw f g rows : rows <> [] -> (cov2 rows f g == sumQ (fun r => f r * g r) rows - qn (length rows) * avg f rows * avg g rows)%Q.
Proof.
  intros N. assert (L : 0 < length rows) by (destruct rows; [congruence|cbn; lia]). unfold cov2.
  rewrite (sumQ_ext _ (fun r => f r * g r + ((- avg g rows) * f r + ((- avg f rows) * g r + avg f rows * avg g rows)))%Q) by (intros; ring).
  rewrite !sum_plus, !sum_scale, sum_const. assert (A : (sumQ f rows == qn (length rows) * avg f rows)%Q) by (unfold avg; field; apply qn_ne, L). assert (B : (sumQ g rows == qn (length rows) * avg g rows)%Q) by (unfold avg; field; apply qn_ne, L). rewrite A, B. ring.
Qed.
(** The square of a linear combination. *)
Lemma square_expand (u : grow -> Q) (V : nat -> grow -> Q) (c : nat -> Q) rows l :
  (sumQ (fun r => (u r - sumQ (fun j => c j * V j r) l) * (u r - sumQ (fun j => c j * V j r) l)) rows
   == sumQ (fun r => u r * u r) rows - 2 * sumQ (fun j => c j * sumQ (fun r => V j r * u r) rows) l
      + sumQ (fun j => sumQ (fun k => c j * c k * sumQ (fun r => V j r * V k r) rows) l) l)%Q.
Proof.
  rewrite (sumQ_ext _ (fun r => u r * u r + ((-2) * (u r * sumQ (fun j => c j * V j r) l) + sumQ (fun j => c j * V j r) l * sumQ (fun j => c j * V j r) l))%Q) by (intros; ring).
  rewrite !sum_plus, sum_scale.
  assert (A : (sumQ (fun r => u r * sumQ (fun j => c j * V j r) l) rows == sumQ (fun j => c j * sumQ (fun r => V j r * u r) rows) l)%Q).
  { rewrite (sumQ_ext _ (fun r => sumQ (fun j => u r * (c j * V j r)) l)%Q) by (intros; rewrite sum_scale; reflexivity). rewrite sum_swap. apply sumQ_ext. intros j _. rewrite <- sum_scale. apply sumQ_ext. intros r _. ring. }
  assert (B : (sumQ (fun r => sumQ (fun j => c j * V j r) l * sumQ (fun j => c j * V j r) l) rows == sumQ (fun j => sumQ (fun k => c j * c k * sumQ (fun r => V j r * V k r) rows) l) l)%Q).
  { rewrite (sumQ_ext _ (fun r => sumQ (fun j => sumQ (fun k => (c j * V j r) * (c k * V k r)) l) l)%Q).
    - rewrite sum_swap. apply sumQ_ext. intros j _. rewrite sum_swap. apply sumQ_ext. intros k _. rewrite <- sum_scale. apply sumQ_ext. intros r _. ring.
    - intros r _. rewrite <- sum_scale. apply sumQ_ext. intros j _. rewrite sum_scale. ring. }
  rewrite A, B. ring.
Qed.
(** Predictions as sums over the columns. *)
Lemma dot_sum b : forall x cf, length b = cf -> length x = cf -> (dot b x == sumQ (fun j => nth j b 0 * nth j x 0) (seq 0 cf))%Q.
Proof.
  induction b as [|v b IH]; intros [|w x] cf L1 L2; cbn [length] in *; try lia; subst cf; cbn [dot seq sumQ]; [reflexivity|]. rewrite (IH x (length b)) by lia. rewrite <- seq_shift, sum_map. cbn [nth]. reflexivity.
Qed.

(** * The quantities of the solver *)
Section ROWS.
  Variables (cf : nat) (rows : list grow).
  Hypothesis NE : rows <> [].
  Definition red j := g_redundant rows j.
  Definition xr j (r : grow) : Q := if red j then 0%Q else (colv j r - avg (colv j) rows)%Q.
  Definition yr (r : grow) : Q := (fst r - avg fst rows)%Q.
  Definition C j k : Q := sumQ (fun r => xr j r * xr k r)%Q rows.
  Definition P j : Q := sumQ (fun r => xr j r * yr r)%Q rows.
  Lemma NL : 0 < length rows.
  Proof. destruct rows; [congruence|cbn; lia]. Qed.
  Lemma C_sym j k : (C j k == C k j)%Q.
  Proof. apply sumQ_ext. intros r _. ring. Qed.
  Lemma C_cov j k : red j = false -> red k = false -> (C j k == cov2 rows (colv j) (colv k))%Q.
  Proof. intros J K. unfold C, xr, cov2. rewrite J, K. reflexivity. Qed.
  Lemma P_cov j : red j = false -> (P j == cov2 rows (colv j) fst)%Q.
  Proof. intros J. unfold P, xr, yr, cov2. rewrite J. reflexivity. Qed.
  Lemma shift_ext (f : grow -> Q) a b l : (a == b)%Q -> Forall2 Qeq (map (fun r => f r - a)%Q l) (map (fun r => f r - b)%Q l).
  Proof. intros E. induction l as [|r l IH]; cbn; constructor; [rewrite E; reflexivity|exact IH]. Qed.
  Lemma gX_map j : Forall2 Qeq (g_X rows j) (map (xr j) rows).
  Proof.
    unfold g_X, xr, red. destruct (g_redundant rows j).
    - generalize rows as l. induction l; cbn; constructor; [reflexivity|assumption].
    - unfold gcol at 2. rewrite map_map. apply (shift_ext (colv j)). apply (mean_avg (colv j)).
  Qed.
  Lemma gyc_map : Forall2 Qeq (g_yc rows) (map yr rows).
  Proof. unfold g_yc, yr, g_targets. rewrite map_map. apply (shift_ext fst). apply (mean_avg fst). Qed.
  Lemma inner_ext a a' b b' : Forall2 Qeq a a' -> Forall2 Qeq b b' -> forall v v', (v == v')%Q -> (g_inner a b v == g_inner a' b' v')%Q.
  Proof. intros A. revert b b'. induction A as [|x x' a a' E A IH]; intros b b' B v v' V; cbn; [exact V|]. destruct B as [|y y' b b' E' B]; [exact V|]. apply IH; [exact B|]. rewrite E, E', V. reflexivity. Qed.
  Lemma inner_C j k a : (g_inner (g_X rows j) (g_X rows k) a == a + C j k)%Q.
  Proof. rewrite (inner_ext _ _ _ _ (gX_map j) (gX_map k) a a (Qeq_refl a)), inner_map. reflexivity. Qed.
  Lemma xy_P j : (g_xy rows j == P j)%Q.
  Proof.
    unfold g_xy. destruct (g_redundant rows j) eqn:R.
    - unfold P, xr, red. rewrite R. rewrite (sumQ_ext _ (fun _ => 0%Q)) by (intros; ring). rewrite sum_zero. reflexivity.
    - rewrite (inner_ext _ _ _ _ (gX_map j) gyc_map 0 0 (Qeq_refl 0)), inner_map. unfold P. ring.
  Qed.
  Lemma xx_C j : (g_xx rows j == C j j)%Q.
  Proof.
    unfold g_xx. destruct (g_redundant rows j) eqn:R.
    - unfold C, xr, red. rewrite R. rewrite (sumQ_ext _ (fun _ => 0%Q)) by (intros; ring). rewrite sum_zero. reflexivity.
    - rewrite inner_C. ring.
  Qed.
  Lemma sum_ext2 a a' : Forall2 Qeq a a' -> forall v, (fold_left Qplus a v == v + sumQ (fun x => x) a')%Q.
  Proof. induction 1 as [|x x' a a' E F IH]; intros v; cbn; [ring|]. rewrite IH, E. ring. Qed.
  Lemma x_zero j : (g_x rows j == 0)%Q.
  Proof.
    unfold g_x. destruct (g_redundant rows j) eqn:R; [reflexivity|]. unfold gsum. rewrite (sum_ext2 _ _ (gX_map j)), sum_map. unfold xr, red. rewrite R. rewrite sum_centred by exact NE. ring.
  Qed.
  Lemma y_sum_zero : (g_y_sum cf rows == 0)%Q.
  Proof.
    unfold g_y_sum. assert (H : forall l a, (a == 0)%Q -> (fold_left (fun a j => if g_redundant rows j then a else fold_left Qplus (g_yc rows) a) l a == 0)%Q).
    { induction l as [|j l IH]; intros a A; cbn [fold_left]; [exact A|]. apply IH. destruct (g_redundant rows j); [exact A|]. rewrite (sum_ext2 _ _ gyc_map), A, sum_map. pose proof (sum_centred fst rows NE) as H0. unfold yr. rewrite H0. ring. }
    apply H. reflexivity.
  Qed.
  Lemma delta_variation l : forall p a, (g_delta p a l == a + variation (p :: l))%Q.
  Proof. induction l as [|x l IH]; intros p a; cbn [g_delta variation]; [ring|]. rewrite IH. destruct l; cbn [variation]; ring. Qed.
  Lemma variation_nonneg l : (0 <= variation l)%Q.
  Proof. induction l as [|x l IH]; [cbn; lra|]. destruct l as [|y l]; [cbn; lra|]. change (variation (x :: y :: l)) with (Qabs (y - x) + variation (y :: l))%Q. pose proof (Qabs_nonneg (y - x)). lra. Qed.
  Lemma red_flat j : red j = true <-> flat rows j.
  Proof.
    unfold red, flat, g_redundant. change (gcol rows j) with (map (colv j) rows). destruct (map (colv j) rows) as [|f l] eqn:E; [destruct rows; [congruence|discriminate]|].
    rewrite qlt_iff. cbn [g_delta]. rewrite delta_variation. assert (Z : (Qabs (f - f) == 0)%Q) by (setoid_replace (f - f)%Q with 0%Q by ring; reflexivity). rewrite Z. rewrite Qabs_pos by (pose proof (variation_nonneg (f :: l)); lra). setoid_replace (0 + 0 + variation (f :: l))%Q with (variation (f :: l))%Q by ring. reflexivity.
  Qed.
  (** A column that is not flat has a positive sum of squares. *)
  Lemma C_pos j : red j = false -> (0 < C j j)%Q.
  Proof.
    intros R. assert (N : (0 <= C j j)%Q) by (apply sumQ_nonneg; intros; apply sq_nn). destruct (Qlt_le_dec 0 (C j j)) as [|L]; [assumption|]. exfalso.
    assert (Z : forall r, In r rows -> (xr j r == 0)%Q).
    { assert (H : (sumQ (fun r => xr j r * xr j r) rows == 0)%Q) by (unfold C in *; lra). revert H. clear. induction rows as [|r l IH]; cbn; [contradiction|]. intros H.
      assert (A : (0 <= sumQ (fun r => xr j r * xr j r) l)%Q) by (apply sumQ_nonneg; intros; apply sq_nn). pose proof (sq_nn (xr j r)) as B.
      intros r' [<-|I]; [|apply IH; [lra|exact I]]. assert (E : (xr j r * xr j r == 0)%Q) by lra. apply Qmult_integral in E. tauto. }
    assert (F : flat rows j).
    { unfold flat. assert (E : forall l, (forall r, In r l -> (colv j r == avg (colv j) rows)%Q) -> (variation (map (colv j) l) == 0)%Q).
      { induction l as [|r l IH]; intros H; [reflexivity|]. cbn [map variation]. destruct l as [|r' l]; [reflexivity|]. cbn [map] in *. rewrite IH by (intros r0 I; apply H; now right). rewrite (H r) by now left. rewrite (H r') by (right; now left). setoid_replace (avg (colv j) rows - avg (colv j) rows)%Q with 0%Q by ring. reflexivity. }
      rewrite E; [reflexivity|]. intros r I. specialize (Z r I). unfold xr in Z. rewrite R in Z. lra. }
    apply red_flat in F. congruence.
  Qed.
End ROWS.

(** * C72: when a leaf has a model *)
Lemma lambda_max_le rows l : forall a, (a <= fold_left (fun a j => if qlt a (Qabs (g_xy rows j)) then Qabs (g_xy rows j) else a) l a)%Q /\
  (forall j, In j l -> (Qabs (g_xy rows j) <= fold_left (fun a j => if qlt a (Qabs (g_xy rows j)) then Qabs (g_xy rows j) else a) l a)%Q) /\
  (forall u, (a <= u)%Q -> (forall j, In j l -> (Qabs (g_xy rows j) <= u)%Q) -> (fold_left (fun a j => if qlt a (Qabs (g_xy rows j)) then Qabs (g_xy rows j) else a) l a <= u)%Q).
Proof.
  induction l as [|j l IH]; intros a; cbn [fold_left].
  - repeat split; [lra|intros j []|auto].
  - destruct (qlt a (Qabs (g_xy rows j))) eqn:E; [apply qlt_iff in E|apply qlt_false in E].
    + destruct (IH (Qabs (g_xy rows j))) as (A & B & D). repeat split; [lra|intros k [<-|K]; [exact A|apply B, K]|]. intros u U H. apply D; [apply H; now left|intros k K; apply H; now right].
    + destruct (IH a) as (A & B & D). repeat split; [exact A|intros k [<-|K]; [lra|apply B, K]|]. intros u U H. apply D; [exact U|intros k K; apply H; now right].
Qed.
(** A leaf has no model exactly when no column covaries with the target more than N times the
    lasso penalty. *)
Theorem C72_condition n cf lasso ridge rows : rows <> [] -> (0 <= lasso)%Q ->
  (glm n cf lasso ridge rows = None <-> forall j, j < cf -> ~ flat rows j -> (Qabs (cov2 rows (colv j) fst) <= qn (length rows) * lasso)%Q).
Proof.
  intros NE L. unfold glm. pose proof (qn_pos (length rows) (NL rows NE)) as NP. assert (LN : (0 <= qn (length rows) * lasso)%Q) by nra.
  destruct (lambda_max_le rows (seq 0 cf) 0%Q) as (A & B & D). fold (g_lambda_max cf rows) in *.
  assert (E : forall j, ~ flat rows j -> (g_xy rows j == cov2 rows (colv j) fst)%Q). { intros j F. rewrite (xy_P rows j). apply P_cov. destruct (red rows j) eqn:R; [|reflexivity]. elim F. apply red_flat; assumption. }
  destruct (Qle_bool (g_lambda_max cf rows) (qn (length rows) * lasso)) eqn:G.
  - apply Qle_bool_iff in G. split; [|reflexivity]. intros _ j J F. rewrite <- (E j F). eapply Qle_trans; [apply B, in_seq; lia|exact G].
  - split; [discriminate|]. intros H. exfalso. assert (X : (g_lambda_max cf rows <= qn (length rows) * lasso)%Q); [|apply Qle_bool_iff in X; congruence].
    apply D; [exact LN|]. intros j J. apply in_seq in J. destruct (red rows j) eqn:R.
    + unfold g_xy. unfold red in R. rewrite R. exact LN.
    + assert (F : ~ flat rows j) by (intros F; apply red_flat in F; [congruence|exact NE]). rewrite (E j F). apply H; [lia|exact F].
Qed.
(** In particular a leaf in which all targets are equal has none. *)
Theorem C72_constant_target_refuted n cf lasso ridge rows y : rows <> [] -> (0 <= lasso)%Q -> (forall r, In r rows -> fst r == y)%Q -> glm n cf lasso ridge rows = None.
Proof.
  intros NE L Y. apply C72_condition; [exact NE|exact L|]. intros j J F. pose proof (qn_pos (length rows) (NL rows NE)) as NP.
  assert (A : (avg fst rows == y)%Q). { unfold avg. rewrite (sumQ_ext (A := grow) fst (fun _ => y) rows Y), (sum_const (A := grow)). field. apply qn_ne, NL, NE. }
  assert (Z : (cov2 rows (colv j) fst == 0)%Q). { unfold cov2. rewrite (sumQ_ext _ (fun _ => 0%Q)); [apply sum_zero|]. intros r R. rewrite A, (Y r R). ring. }
  rewrite Z. change (Qabs 0) with 0%Q. apply Qmult_le_0_compat; [apply Qlt_le_weak, NP|exact L].
Qed.

(** * The iteration *)
Lemma nth_set_eq {A} (d : A) l : forall k x, k < length l -> nth k (set_nth k x l) d = x.
Proof. induction l as [|y l IH]; intros [|k] x; cbn; try lia; [reflexivity|]. intros H. apply IH. lia. Qed.
Lemma nth_set_other {A} (d : A) l : forall k j x, j <> k -> nth j (set_nth k x l) d = nth j l d.
Proof. induction l as [|y l IH]; intros [|k] [|j] x; cbn; try congruence; auto. Qed.
Lemma set_nth_length {A} (l : list A) : forall k x, length (set_nth k x l) = length l.
Proof. induction l as [|y l IH]; intros [|k] x; cbn; auto. Qed.
Definition mat_ok cf (m : list (list Q)) : Prop := length m = cf /\ forall j, j < cf -> length (nth j m []) = cf.
Lemma mat_set_ok cf m j k v : mat_ok cf m -> mat_ok cf (mat_set m j k v).
Proof.
  intros [A B]. unfold mat_set. split; [rewrite set_nth_length; exact A|]. intros i I. destruct (Nat.eq_dec i j) as [->|N].
  - rewrite nth_set_eq by lia. rewrite set_nth_length. apply B, I.
  - rewrite nth_set_other by exact N. apply B, I.
Qed.
Lemma mat_get_set cf m j k v i l : mat_ok cf m -> j < cf -> k < cf -> mat_get (mat_set m j k v) i l = if (i =? j) && (l =? k) then v else mat_get m i l.
Proof.
  intros [A B] J K. unfold mat_get, mat_set. destruct (Nat.eqb_spec i j) as [->|N]; cbn [andb].
  - rewrite nth_set_eq by lia. destruct (Nat.eqb_spec l k) as [->|N]; [apply nth_set_eq; rewrite B; assumption|apply nth_set_other, N].
  - rewrite nth_set_other by exact N. reflexivity.
Qed.
Section PASS.
  Variables (cf : nat) (rows : list grow).
  Hypothesis NE : rows <> [].
  Hypothesis CL : clean cf rows.
  Definition cov_ok (m : list (list Q)) : Prop :=
    mat_ok cf m /\ (forall j, j < cf -> (mat_get m j j == C rows j j)%Q) /\
    (forall j k, j < cf -> k < cf -> j <> k -> (mat_get m j k == 0)%Q \/ (mat_get m j k == C rows j k)%Q).
  Lemma C_clean j k : j < cf -> k < cf -> j <> k -> (C rows j k == 0)%Q \/ (1 # 10000 <= Qabs (C rows j k))%Q.
  Proof.
    intros J K N. destruct (red rows j) eqn:RJ; [left; unfold C, xr; rewrite RJ; rewrite (sumQ_ext _ (fun _ => 0%Q)) by (intros; ring); apply sum_zero|].
    destruct (red rows k) eqn:RK; [left; unfold C, xr; rewrite RK; rewrite (sumQ_ext _ (fun _ => 0%Q)) by (intros; ring); apply sum_zero|].
    rewrite (C_cov rows j k RJ RK). apply CL; assumption.
  Qed.
  Lemma covariate_ok m j k : cov_ok m -> j < cf -> k < cf -> j <> k -> (fst (g_covariate rows m j k) == C rows j k)%Q /\ cov_ok (snd (g_covariate rows m j k)).
  Proof.
    intros (M & D & O) J K N. unfold g_covariate. destruct (qlt (Qabs (mat_get m j k)) (1 # 10000)) eqn:E; cbn [fst snd].
    - apply qlt_iff in E. assert (V : (g_inner (g_X rows j) (g_X rows k) (mat_get m j k) == C rows j k)%Q).
      { rewrite inner_C. destruct (O j k J K N) as [Z|Z]; [rewrite Z; ring|]. rewrite Z in E. destruct (C_clean j k J K N) as [Y|Y]; [rewrite Z, Y; ring|lra]. }
      split; [exact V|]. set (v := g_inner _ _ _) in *. assert (M1 : mat_ok cf (mat_set m j k v)) by (apply mat_set_ok, M). split; [apply mat_set_ok, M1|]. split.
      + intros i I. rewrite (mat_get_set cf) by assumption. destruct (Nat.eqb_spec i k) as [->|N1]; cbn [andb]; [destruct (Nat.eqb_spec k j); [congruence|]|].
        * rewrite (mat_get_set cf) by assumption. destruct (Nat.eqb_spec k j); [congruence|]. cbn [andb]. apply D, K.
        * rewrite (mat_get_set cf) by assumption. destruct (Nat.eqb_spec i j) as [->|N2]; cbn [andb]; [destruct (Nat.eqb_spec j k); [congruence|]|]; apply D, I.
      + intros i l I L N1. rewrite (mat_get_set cf) by assumption. destruct ((i =? k) && (l =? j)) eqn:E1.
        * apply andb_prop in E1. destruct E1 as [E1 E2]. apply Nat.eqb_eq in E1, E2. subst. right. rewrite V. apply C_sym.
        * rewrite (mat_get_set cf) by assumption. destruct ((i =? j) && (l =? k)) eqn:E2; [|apply O; assumption].
          apply andb_prop in E2. destruct E2 as [E2 E3]. apply Nat.eqb_eq in E2, E3. subst. right. exact V.
    - apply qlt_false in E. split; [|exact (conj M (conj D O))]. destruct (O j k J K N) as [Z|Z]; [|exact Z]. rewrite Z in E. change (Qabs 0) with 0%Q in E. lra.
  Qed.
  (** The state: coefficients only for columns that are not flat. *)
  Definition st_ok (st : gst) : Prop :=
    length (g_b st) = cf /\ cov_ok (g_cov st) /\ NoDup (g_nz st) /\ (forall j, In j (g_nz st) -> j < cf /\ red rows j = false) /\
    (forall j, ~ In j (g_nz st) -> nth j (g_b st) 0%Q = 0%Q).
  Definition rest (b : list Q) (j : nat) : Q := (P rows j - sumQ (fun k => if k =? j then 0 else nth k b 0 * C rows j k) (seq 0 cf))%Q.
  Lemma sum_members (F : nat -> Q) nz n : NoDup nz -> (forall j, In j nz -> j < n) -> (forall j, ~ In j nz -> F j == 0)%Q -> (sumQ F nz == sumQ F (seq 0 n))%Q.
  Proof.
    intros ND B Z. assert (PM : Permutation (seq 0 n) (nz ++ filter (fun j => negb (is_nz nz j)) (seq 0 n))).
    { apply NoDup_Permutation; [apply seq_NoDup| |].
      - revert ND. generalize nz as l. intros l ND.
        assert (H : forall (a b : list nat), NoDup a -> NoDup b -> (forall x, In x a -> ~ In x b) -> NoDup (a ++ b)).
        { induction a as [|x a IH]; cbn; intros b Na Nb D; [exact Nb|]. inversion Na; subst. constructor; [intros I; apply in_app_or in I; destruct I as [I|I]; [contradiction|exact (D x (or_introl eq_refl) I)]|]. apply IH; auto. }
        apply H; [exact ND|apply NoDup_filter, seq_NoDup|]. intros x X I. apply filter_In in I. destruct I as [_ I]. apply negb_true_iff in I. unfold is_nz in I. assert (T : existsb (Nat.eqb x) l = true) by (apply existsb_exists; exists x; split; [exact X|apply Nat.eqb_refl]). congruence.
      - intros x. rewrite in_app_iff, filter_In, in_seq. split.
        + intros X. destruct (is_nz nz x) eqn:E; [left; unfold is_nz in E; apply existsb_exists in E; destruct E as (y & Y & E); apply Nat.eqb_eq in E; now subst|right; split; [exact X|reflexivity]].
        + intros [X|[X _]]; [specialize (B x X); lia|exact X]. }
    rewrite (sumQ_perm F _ _ PM), sumQ_app. rewrite (sumQ_ext F (fun _ => 0%Q) (filter _ _)); [rewrite sum_zero; ring|]. intros x X. apply filter_In in X. destruct X as [_ X]. apply negb_true_iff in X. apply Z. intros I. unfold is_nz in X. assert (T : existsb (Nat.eqb x) nz = true) by (apply existsb_exists; exists x; split; [exact I|apply Nat.eqb_refl]). congruence.
  Qed.
  Lemma resid_val b j nz : forall acc m, j < cf -> cov_ok m -> (forall k, In k nz -> k < cf) ->
    (fst (g_resid rows b j nz acc m) == acc - sumQ (fun k => if k =? j then 0 else nth k b 0 * C rows j k) nz)%Q /\ cov_ok (snd (g_resid rows b j nz acc m)).
  Proof.
    induction nz as [|k nz IH]; intros acc m J M B; cbn [g_resid sumQ fst snd]; [split; [ring|exact M]|]. destruct (Nat.eqb_spec k j) as [->|N].
    - destruct (IH acc m J M (fun i I => B i (or_intror I))) as [A D]. split; [rewrite A; ring|exact D].
    - destruct (covariate_ok m j k M J (B k (or_introl eq_refl)) ltac:(congruence)) as [V M']. destruct (g_covariate rows m j k) as [c m']. cbn [fst snd] in *.
      destruct (IH (acc - nth k b 0 * c)%Q m' J M' (fun i I => B i (or_intror I))) as [A D]. split; [rewrite A, V; ring|exact D].
  Qed.
  Definition soft (lambda z r : Q) : Q := if qlt r 0 then ((r + lambda) / z)%Q else ((r - lambda) / z)%Q.
  (** What one step does. *)
  Lemma step_ok lambda gamma st sig j : st_ok st -> j < cf -> let st' := fst (g_step rows lambda gamma (st, sig) j) in
    st_ok st' /\ ((g_b st' = g_b st /\ (red rows j = true \/ (Qabs (rest (g_b st) j) < lambda)%Q)) \/
      (red rows j = false /\ (lambda <= Qabs (rest (g_b st) j))%Q /\ In j (g_nz st') /\ exists t, (t == soft lambda (C rows j j + gamma) (rest (g_b st) j))%Q /\ g_b st' = set_nth j t (g_b st))).
  Proof.
    intros ST J. pose proof ST as (L & M & ND & B & Z). cbn zeta. unfold g_step. change (g_redundant rows j) with (red rows j). destruct (red rows j) eqn:R; [cbn [fst]; split; [exact ST|left; split; [reflexivity|now left]]|].
    destruct (resid_val (g_b st) j (g_nz st) (g_xy rows j) (g_cov st) J M (fun k K => proj1 (B k K))) as [V M']. destruct (g_resid _ _ _ _ _ _) as [bj m]. cbn [fst snd] in V, M'.
    assert (E : (bj == rest (g_b st) j)%Q).
    { rewrite V, xy_P. unfold rest. rewrite (sum_members _ (g_nz st) cf ND (fun k K => proj1 (B k K))); [reflexivity|]. intros k K. destruct (k =? j); [reflexivity|]. rewrite (Z k K). ring. }
    assert (QA : qlt (Qabs bj) lambda = qlt (Qabs (rest (g_b st) j)) lambda) by (apply eq_true_iff_eq; rewrite !qlt_iff, E; reflexivity). rewrite QA. destruct (qlt (Qabs (rest (g_b st) j)) lambda) eqn:G; cbn [fst].
    - split; [exact (conj L (conj M' (conj ND (conj B Z))))|]. left. split; [reflexivity|]. right. apply qlt_iff, G.
    - apply qlt_false in G. set (t := if qlt bj 0 then _ else _). split.
      + split; [cbn; rewrite set_nth_length; exact L|]. split; [exact M'|]. cbn [g_nz g_b]. destruct (is_nz (g_nz st) j) eqn:I.
        * split; [exact ND|]. split; [exact B|]. intros k K. rewrite nth_set_other; [apply Z, K|]. intros ->. apply K. unfold is_nz in I. apply existsb_exists in I. destruct I as (y & Y & I). apply Nat.eqb_eq in I. now subst.
        * assert (NI : ~ In j (g_nz st)) by (intros X; unfold is_nz in I; assert (T : existsb (Nat.eqb j) (g_nz st) = true) by (apply existsb_exists; exists j; split; [exact X|apply Nat.eqb_refl]); congruence).
          split; [apply (Permutation_NoDup (l := j :: g_nz st)); [apply Permutation_cons_append|constructor; assumption]|]. split.
          -- intros k K. apply in_app_or in K. destruct K as [K|[<-|[]]]; [apply B, K|split; assumption].
          -- intros k K. rewrite nth_set_other; [apply Z; intros X; apply K, in_or_app; now left|]. intros ->. apply K, in_or_app. right. now left.
      + right. split; [reflexivity|]. split; [exact G|]. split.
        * cbn [g_nz]. destruct (is_nz (g_nz st) j) eqn:I; [unfold is_nz in I; apply existsb_exists in I; destruct I as (y & Y & I); apply Nat.eqb_eq in I; now subst|apply in_or_app; right; now left].
        * exists t. split; [|reflexivity]. unfold t, soft. assert (QB : qlt bj 0 = qlt (rest (g_b st) j) 0) by (apply eq_true_iff_eq; rewrite !qlt_iff, E; reflexivity). rewrite QB. destruct M' as (_ & D & _). destruct (qlt (rest (g_b st) j) 0); rewrite E, (D j J); reflexivity.
  Qed.
  (** The objective, with the best intercept. *)
  Definition obj (lambda gamma : Q) (b : nat -> Q) : Q :=
    (sumQ (fun r => (yr rows r - sumQ (fun j => b j * xr rows j r) (seq 0 cf)) * (yr rows r - sumQ (fun j => b j * xr rows j r) (seq 0 cf))) rows
     + 2 * lambda * sumQ (fun j => Qabs (b j)) (seq 0 cf) + gamma * sumQ (fun j => b j * b j) (seq 0 cf))%Q.
  Lemma sum_point (F G : nat -> Q) j n : j < n -> (forall k, k <> j -> F k == G k)%Q -> (sumQ F (seq 0 n) == sumQ G (seq 0 n) - G j + F j)%Q.
  Proof.
    intros J H. induction n as [|n IH]; [lia|]. rewrite seq_S, !sumQ_app. cbn [sumQ plus]. destruct (Nat.eq_dec j n) as [->|N].
    - rewrite (sumQ_ext F G) by (intros k K; apply in_seq in K; apply H; lia). ring.
    - rewrite IH by lia. rewrite (H n) by congruence. ring.
  Qed.
  Definition others (b : nat -> Q) j r : Q := sumQ (fun k => if k =? j then 0 else b k * xr rows k r)%Q (seq 0 cf).
  Lemma split_point b j r : j < cf -> (sumQ (fun k => b k * xr rows k r) (seq 0 cf) == others b j r + b j * xr rows j r)%Q.
  Proof. intros J. unfold others. rewrite (sum_point _ (fun k => if k =? j then 0 else b k * xr rows k r)%Q j cf J). - rewrite Nat.eqb_refl. ring. - intros k K. destruct (Nat.eqb_spec k j); [congruence|]. reflexivity. Qed.
  Lemma others_ext b b' j r : (forall k, k <> j -> b k == b' k)%Q -> (others b j r == others b' j r)%Q.
  Proof. intros H. apply sumQ_ext. intros k _. destruct (Nat.eqb_spec k j) as [E|E]; [reflexivity|]. rewrite (H k E). reflexivity. Qed.
  (** Changing one coefficient from u to t. *)
  Lemma obj_point lambda gamma b b' j : j < cf -> (forall k, k <> j -> b k == b' k)%Q ->
    (obj lambda gamma b' - obj lambda gamma b == (C rows j j + gamma) * (b' j * b' j - b j * b j) - 2 * (P rows j - sumQ (fun k => if k =? j then 0 else b k * C rows j k) (seq 0 cf)) * (b' j - b j) + 2 * lambda * (Qabs (b' j) - Qabs (b j)))%Q.
  Proof.
    intros J H. unfold obj. set (a := fun r => (yr rows r - others b j r)%Q).
    assert (E : forall b0, (forall k, k <> j -> b k == b0 k)%Q -> (sumQ (fun r => (yr rows r - sumQ (fun k => b0 k * xr rows k r) (seq 0 cf)) * (yr rows r - sumQ (fun k => b0 k * xr rows k r) (seq 0 cf))) rows == sumQ (fun r => a r * a r) rows - 2 * b0 j * sumQ (fun r => xr rows j r * a r) rows + b0 j * b0 j * C rows j j)%Q).
    { intros b0 H0. rewrite (sumQ_ext _ (fun r => a r * a r + ((- (2) * b0 j) * (xr rows j r * a r) + (b0 j * b0 j) * (xr rows j r * xr rows j r)))%Q).
      - rewrite !sum_plus, !sum_scale. unfold C. ring.
      - intros r _. rewrite (split_point b0 j r J). rewrite <- (others_ext b b0 j r H0). unfold a. ring. }
    rewrite (E b' H), (E b (fun k _ => Qeq_refl (b k))).
    assert (R : (sumQ (fun r => xr rows j r * a r) rows == P rows j - sumQ (fun k => if k =? j then 0 else b k * C rows j k) (seq 0 cf))%Q).
    { unfold a. rewrite (sumQ_ext _ (fun r => xr rows j r * yr rows r + (-1) * sumQ (fun k => if k =? j then 0 else b k * (xr rows j r * xr rows k r)) (seq 0 cf))%Q).
      - rewrite sum_plus, sum_scale, sum_swap. unfold P. rewrite (sumQ_ext (fun y => sumQ (fun x => if y =? j then 0 else b y * (xr rows j x * xr rows y x)) rows)%Q (fun k => if k =? j then 0 else b k * C rows j k)%Q); [ring|].
        intros k _. destruct (k =? j); [apply sum_zero|]. apply sum_scale.
      - intros r _. unfold others. rewrite (sumQ_ext (fun k => if k =? j then 0 else b k * (xr rows j r * xr rows k r))%Q (fun k => xr rows j r * (if k =? j then 0 else b k * xr rows k r))%Q) by (intros k _; destruct (k =? j); ring). rewrite sum_scale. ring. }
    rewrite R. rewrite (sum_point (fun k => Qabs (b' k)) (fun k => Qabs (b k)) j cf J) by (intros k K; rewrite (H k K); reflexivity). rewrite (sum_point (fun k => b' k * b' k)%Q (fun k => b k * b k)%Q j cf J) by (intros k K; rewrite (H k K); reflexivity). ring.
  Qed.
  (** The soft threshold minimises the function of one coefficient. *)
  Lemma soft_best lambda z r u : (0 <= lambda)%Q -> (0 < z)%Q -> (lambda <= Qabs r)%Q -> let t := soft lambda z r in
    (z * (t * t) - 2 * r * t + 2 * lambda * Qabs t <= z * (u * u) - 2 * r * u + 2 * lambda * Qabs u)%Q.
  Proof.
    intros L Z G. cbn zeta. unfold soft. destruct (qlt r 0) eqn:E; [apply qlt_iff in E|apply qlt_false in E].
    - rewrite Qabs_neg in G by lra. set (t := ((r + lambda) / z)%Q). assert (T : (z * t == r + lambda)%Q) by (unfold t; field; lra). assert (T0 : (t <= 0)%Q) by (destruct (Qlt_le_dec 0 t); [nra|assumption]). rewrite (Qabs_neg t T0).
      assert (U : (- u <= Qabs u)%Q) by (rewrite <- Qabs_opp; apply Qle_Qabs). pose proof (sq_nn (u - t)) as SQ. assert (SQZ : (0 <= z * ((u - t) * (u - t)))%Q) by nra.
      assert (X : (z * (u * u) - 2 * r * u + 2 * lambda * - u - (z * (t * t) - 2 * r * t + 2 * lambda * - t) == z * ((u - t) * (u - t)) + 2 * (z * t - (r + lambda)) * (u - t))%Q) by ring. rewrite T in X. nra.
    - rewrite Qabs_pos in G by lra. set (t := ((r - lambda) / z)%Q). assert (T : (z * t == r - lambda)%Q) by (unfold t; field; lra). assert (T0 : (0 <= t)%Q) by (destruct (Qlt_le_dec t 0); [nra|assumption]). rewrite (Qabs_pos t T0).
      assert (U : (u <= Qabs u)%Q) by apply Qle_Qabs. pose proof (sq_nn (u - t)) as SQ. assert (SQZ : (0 <= z * ((u - t) * (u - t)))%Q) by nra.
      assert (X : (z * (u * u) - 2 * r * u + 2 * lambda * u - (z * (t * t) - 2 * r * t + 2 * lambda * t) == z * ((u - t) * (u - t)) + 2 * (z * t - (r - lambda)) * (u - t))%Q) by ring. rewrite T in X. nra.
  Qed.
  Definition coef (b : list Q) (k : nat) : Q := nth k b 0%Q.
  Lemma step_less lambda gamma st sig j : (0 <= lambda)%Q -> (0 <= gamma)%Q -> st_ok st -> j < cf ->
    (obj lambda gamma (coef (g_b (fst (g_step rows lambda gamma (st, sig) j)))) <= obj lambda gamma (coef (g_b st)))%Q.
  Proof.
    intros L G ST J. destruct (step_ok lambda gamma st sig j ST J) as [_ [[E _]|(R & A & _ & t & T & E)]]; cbn zeta in *; rewrite E; [lra|].
    set (b := coef (g_b st)). set (b' := coef (set_nth j t (g_b st))). destruct ST as (LB & _).
    assert (BJ : b' j = t) by (unfold b', coef; apply nth_set_eq; lia). assert (BO : forall k, k <> j -> (b k == b' k)%Q) by (intros k K; unfold b, b', coef; rewrite nth_set_other by exact K; reflexivity).
    pose proof (obj_point lambda gamma b b' j J BO) as D. rewrite BJ in D. change (P rows j - sumQ (fun k => if k =? j then 0 else b k * C rows j k) (seq 0 cf))%Q with (rest (g_b st) j) in D.
    pose proof (C_pos rows NE j R) as CP. pose proof (soft_best lambda (C rows j j + gamma) (rest (g_b st) j) (b j) L ltac:(lra) A) as S. cbn zeta in S.
    assert (TT : (Qabs t == Qabs (soft lambda (C rows j j + gamma) (rest (g_b st) j)))%Q) by (rewrite T; reflexivity). rewrite <- TT in S. rewrite <- T in S. nra.
  Qed.
  Lemma pass_ok lambda gamma st : (0 <= lambda)%Q -> (0 <= gamma)%Q -> st_ok st -> st_ok (fst (g_pass cf rows lambda gamma st)) /\ (obj lambda gamma (coef (g_b (fst (g_pass cf rows lambda gamma st)))) <= obj lambda gamma (coef (g_b st)))%Q.
  Proof.
    intros L G ST. unfold g_pass. assert (H : forall l s, (forall j, In j l -> j < cf) -> st_ok (fst s) -> st_ok (fst (fold_left (g_step rows lambda gamma) l s)) /\ (obj lambda gamma (coef (g_b (fst (fold_left (g_step rows lambda gamma) l s)))) <= obj lambda gamma (coef (g_b (fst s))))%Q).
    { induction l as [|j l IH]; intros [s sig] B S; cbn [fold_left]; [split; [exact S|lra]|]. cbn [fst] in S. destruct (IH (g_step rows lambda gamma (s, sig) j)) as [A D]; [intros k K; apply B; now right|apply step_ok; [exact S|apply B; now left]|].
      split; [exact A|]. eapply Qle_trans; [exact D|]. apply step_less; [exact L|exact G|exact S|apply B; now left]. }
    apply (H (seq 0 cf) (st, false)); [intros j J; apply in_seq in J; lia|exact ST].
  Qed.
  Lemma cross_ok use w j ks : forall acc m, cov_ok m -> j < cf -> (forall k, In k ks -> k < cf /\ k <> j) -> (forall k c c', c == c' -> w k c == w k c')%Q ->
    cov_ok (snd (g_cross rows use w j ks acc m)) /\ (fst (g_cross rows use w j ks acc m) == acc + sumQ (fun k => if use k then w k (C rows j k) else 0) ks)%Q.
  Proof.
    induction ks as [|k ks IH]; intros acc m M J B W; cbn [g_cross sumQ fst snd]; [split; [exact M|ring]|]. destruct (B k (or_introl eq_refl)) as [K N]. destruct (use k) eqn:U.
    - destruct (covariate_ok m j k M J K (fun e => N (eq_sym e))) as [V M']. destruct (g_covariate rows m j k) as [c m']. cbn [fst snd] in *. destruct (IH (acc + w k c)%Q m' M' J (fun i I => B i (or_intror I)) W) as [A D]. split; [exact A|]. rewrite D, (W k c _ V). ring.
    - destruct (IH acc m M J (fun i I => B i (or_intror I)) W) as [A D]. split; [exact A|]. rewrite D. ring.
  Qed.
  Lemma sse_ok lambda gamma st : st_ok st -> cov_ok (snd (g_sse cf rows lambda gamma st)).
  Proof.
    intros (L & M & ND & B & Z). unfold g_sse. destruct (fold_left _ (g_nz st) _) as [[s l1] l2].
    assert (H : forall l a, (forall j, In j l -> j < cf) -> cov_ok (snd a) -> cov_ok (snd (fold_left (fun a j => if is_nz (g_nz st) j then g_cross rows (is_nz (g_nz st)) (fun k c => 2 * nth j (g_b st) 0 * nth k (g_b st) 0 * c)%Q j (seq (S j) (cf - S j)) (fst a + nth j (g_b st) 0 * nth j (g_b st) 0 * mat_get (snd a) j j)%Q (snd a) else a) l a))).
    { induction l as [|j l IH]; intros a BL A; cbn [fold_left]; [exact A|]. apply IH; [intros k K; apply BL; now right|]. destruct (is_nz (g_nz st) j); [|exact A]. apply cross_ok; [exact A|apply BL; now left| |intros k c c' E; rewrite E; reflexivity]. intros k K. apply in_seq in K. lia. }
    specialize (H (seq 0 cf) (s, g_cov st) (fun j J => proj2 (proj1 (in_seq cf 0 j) J)) M). cbv beta in *. destruct (fold_left _ (seq 0 cf) (s, g_cov st)) as [s' m']. exact H.
  Qed.
  Lemma loop_ok lambda gamma n : (0 <= lambda)%Q -> (0 <= gamma)%Q -> forall prev st, st_ok st -> st_ok (g_loop n cf rows lambda gamma prev st) /\ (obj lambda gamma (coef (g_b (g_loop n cf rows lambda gamma prev st))) <= obj lambda gamma (coef (g_b st)))%Q.
  Proof.
    intros L G. induction n as [|n IH]; intros prev st ST; cbn [g_loop]; [split; [exact ST|lra]|]. destruct (pass_ok lambda gamma st L G ST) as [A D]. destruct (g_pass cf rows lambda gamma st) as [st1 sig]. cbn [fst] in *.
    pose proof (sse_ok lambda gamma st1 A) as M. destruct (g_sse cf rows lambda gamma st1) as [sse m]. cbn [snd] in M. destruct A as (A1 & A2 & A3). assert (S2 : st_ok (GS (g_b st1) m (g_nz st1))) by exact (conj A1 (conj M A3)).
    destruct (g_stop prev sse); [split; [exact S2|exact D]|]. destruct sig; [|split; [exact S2|exact D]]. destruct (IH (Some sse) _ S2) as [E F]. split; [exact E|]. eapply Qle_trans; [exact F|exact D].
  Qed.
  Lemma init_ok : st_ok (g_init cf rows).
  Proof.
    unfold g_init. repeat split; cbn [g_b g_cov g_nz].
    - apply repeat_length.
    - rewrite map_length, seq_length. reflexivity.
    - intros j J. rewrite (nth_indep _ [] (map (fun k => if 0 =? k then g_xx rows 0 else 0%Q) (seq 0 cf))) by (rewrite map_length, seq_length; lia). rewrite (map_nth (fun j => map (fun k => if j =? k then g_xx rows j else 0%Q) (seq 0 cf))). rewrite map_length, seq_length. reflexivity.
    - intros j J. unfold mat_get. rewrite (nth_indep _ [] (map (fun k => if 0 =? k then g_xx rows 0 else 0%Q) (seq 0 cf))) by (rewrite map_length, seq_length; lia). rewrite (map_nth (fun j => map (fun k => if j =? k then g_xx rows j else 0%Q) (seq 0 cf))). rewrite seq_nth by lia. cbn [plus].
      rewrite (nth_indep _ 0%Q (if j =? 0 then g_xx rows j else 0%Q)) by (rewrite map_length, seq_length; lia). rewrite (map_nth (fun k => if j =? k then g_xx rows j else 0%Q)). rewrite seq_nth by lia. cbn [plus]. rewrite Nat.eqb_refl. apply xx_C.
    - intros j k J K N. left. unfold mat_get. rewrite (nth_indep _ [] (map (fun k => if 0 =? k then g_xx rows 0 else 0%Q) (seq 0 cf))) by (rewrite map_length, seq_length; lia). rewrite (map_nth (fun j => map (fun k => if j =? k then g_xx rows j else 0%Q) (seq 0 cf))). rewrite seq_nth by lia. cbn [plus].
      rewrite (nth_indep _ 0%Q (if j =? 0 then g_xx rows j else 0%Q)) by (rewrite map_length, seq_length; lia). rewrite (map_nth (fun k => if j =? k then g_xx rows j else 0%Q)). rewrite seq_nth by lia. cbn [plus]. destruct (Nat.eqb_spec j k); [congruence|reflexivity].
    - constructor.
    - destruct H.
    - destruct H.
    - intros j _. apply nth_repeat.
  Qed.
End PASS.

(** * C73: the cost of a leaf *)
Lemma triple_fold {A} (F G H : A -> Q) l : forall s a b, let r := fold_left (fun x k => (fst (fst x) - F k, snd (fst x) + G k, snd x + H k)%Q) l (s, a, b) in
  (fst (fst r) == s - sumQ F l /\ snd (fst r) == a + sumQ G l /\ snd r == b + sumQ H l)%Q.
Proof. induction l as [|x l IH]; intros s a b; cbn [fold_left sumQ]; cbn zeta in *; [repeat split; cbn; ring|]. cbn [fst snd]. destruct (IH (s - F x)%Q (a + G x)%Q (b + H x)%Q) as (A1 & A2 & A3). rewrite A1, A2, A3. repeat split; ring. Qed.
Lemma double_sum (s : nat -> nat -> Q) n : (forall j k, s j k == s k j)%Q ->
  (sumQ (fun j => sumQ (s j) (seq 0 n)) (seq 0 n) == sumQ (fun j => s j j + 2 * sumQ (s j) (seq (S j) (n - S j))) (seq 0 n))%Q.
Proof.
  intros Y. induction n as [|n IH]; [reflexivity|]. rewrite seq_S, !sumQ_app. cbn [sumQ plus]. rewrite !sumQ_app. cbn [sumQ].
  rewrite (sumQ_ext (fun j => sumQ (s j) (seq 0 n ++ [n])) (fun j => sumQ (s j) (seq 0 n) + s j n)%Q) by (intros j _; rewrite sumQ_app; cbn [sumQ]; ring).
  rewrite (sumQ_ext (fun j => s j j + 2 * sumQ (s j) (seq (S j) (S n - S j)))%Q (fun j => (s j j + 2 * sumQ (s j) (seq (S j) (n - S j))) + 2 * s j n)%Q (seq 0 n)).
  - rewrite (sum_plus (fun j => sumQ (s j) (seq 0 n)) (fun j => s j n)). rewrite (sum_plus (fun j => s j j + 2 * sumQ (s j) (seq (S j) (n - S j)))%Q (fun j => 2 * s j n)%Q). rewrite IH, sum_scale. replace (S n - S n) with 0 by lia. cbn [seq sumQ]. rewrite (sumQ_ext (s n) (fun j => s j n)) by (intros; apply Y). ring.
  - intros j J. apply in_seq in J. replace (S n - S j) with (S (n - S j)) by lia. rewrite seq_S, sumQ_app. replace (S j + (n - S j)) with n by lia. cbn [sumQ]. ring.
Qed.
Lemma intercept_eq cf rows b : (g_intercept cf rows b == avg fst rows - sumQ (fun j => avg (colv j) rows * nth j b 0) (seq 0 cf))%Q.
Proof.
  unfold g_intercept. assert (H : forall l a, (fold_left (fun a j => a - g_mean (gcol rows j) * nth j b 0)%Q l a == a - sumQ (fun j => avg (colv j) rows * nth j b 0) l)%Q).
  { induction l as [|j l IH]; intros a; cbn [fold_left sumQ]; [ring|]. rewrite IH. change (gcol rows j) with (map (colv j) rows). rewrite (mean_avg (colv j) rows). ring. }
  rewrite H. unfold g_targets. rewrite (mean_avg fst rows). reflexivity.
Qed.
Lemma cross_seq cf rows (CL : clean cf rows) use w base nz l : (forall j, In j l -> j < cf) -> (forall j k c c', c == c' -> w j k c == w j k c')%Q ->
  forall a, cov_ok cf rows (snd a) -> (fst (fold_left (fun a j => if is_nz nz j then g_cross rows use (w j) j (seq (S j) (cf - S j)) (fst a + base j)%Q (snd a) else a) l a) == fst a + sumQ (fun j => if is_nz nz j then base j + sumQ (fun k => if use k then w j k (C rows j k) else 0) (seq (S j) (cf - S j)) else 0) l)%Q.
Proof.
  induction l as [|j l IH]; intros B W a M; cbn [fold_left sumQ]; [ring|]. destruct (is_nz nz j).
  - assert (BK : forall k, In k (seq (S j) (cf - S j)) -> k < cf /\ k <> j) by (intros k K; apply in_seq in K; lia).
    destruct (cross_ok cf rows CL use (w j) j (seq (S j) (cf - S j)) (fst a + base j)%Q (snd a) M (B j (or_introl eq_refl)) BK (W j)) as [A D].
    rewrite IH; [rewrite D; ring|intros k K; apply B; now right|exact W|exact A].
  - rewrite IH; [ring|intros k K; apply B; now right|exact W|exact M].
Qed.
Lemma is_nz_In nz j : is_nz nz j = true <-> In j nz.
Proof. unfold is_nz. rewrite existsb_exists. split; [intros (y & Y & E); apply Nat.eqb_eq in E; now subst|intros I; exists j; split; [exact I|apply Nat.eqb_refl]]. Qed.
(** The part of g_cost after the first sums. *)
Lemma g_cost_val cf rows lasso ridge st : rows <> [] -> grows_ok cf rows -> clean cf rows -> st_ok cf rows st -> not_tiny (g_b st) ->
  (g_cost cf rows (qn (length rows) * lasso) (qn (length rows) * ridge) st == net_err cf lasso ridge rows (LM (g_b st) (g_intercept cf rows (g_b st))))%Q.
Proof.
  intros NE OK CL (LB & M & ND & B & Z) NT. unfold g_cost. cbv zeta. set (b0 := g_intercept cf rows (g_b st)). set (b := fun k => nth k (g_b st) 0%Q).
  set (n := qn (length rows)). set (mu := fun k => g_mean (gcol rows k)). set (ymu := g_mean (g_targets rows)).
  pose proof (triple_fold (fun k => 2 * b k * (g_xy rows k + g_x rows k * ymu + mu k * g_y_sum cf rows + n * mu k * ymu))%Q (fun k => Qabs (b k)) (fun k => b k * b k)%Q (g_nz st) (fold_left (fun a y => a + y * y)%Q (g_targets rows) 0 - 2 * b0 * gsum (g_targets rows) + b0 * b0 * n)%Q 0%Q 0%Q) as TF. cbn zeta in TF.
  destruct (fold_left _ (g_nz st) _) as [[sse l1] l2]. cbn [fst snd] in TF. destruct TF as (T1 & T2 & T3).
  set (base := fun j => (2 * b0 * b j * gsum (gcol rows j) + b j * b j * fold_left (fun a f => a + f * f)%Q (gcol rows j) 0)%Q).
  set (w := fun j k c => (2 * b j * b k * (c + g_x rows j * mu k + g_x rows k * mu j + n * mu j * mu k))%Q).
  set (use := fun k => negb (qlt (Qabs (b k)) (1 # 10000))).
  assert (FE : forall l a, fold_left (fun a j => if is_nz (g_nz st) j then g_cross rows use (w j) j (seq (S j) (cf - S j)) (fst a + 2 * b0 * b j * gsum (gcol rows j) + b j * b j * fold_left (fun a f => a + f * f)%Q (gcol rows j) 0)%Q (snd a) else a) l a = fold_left (fun a j => if is_nz (g_nz st) j then g_cross rows use (w j) j (seq (S j) (cf - S j)) (fst a + 2 * b0 * b j * gsum (gcol rows j) + b j * b j * fold_left (fun a f => a + f * f)%Q (gcol rows j) 0)%Q (snd a) else a) l a) by reflexivity. clear FE.
  assert (AC : forall j ks acc acc' m, (acc == acc')%Q -> (fst (g_cross rows use (w j) j ks acc m) == fst (g_cross rows use (w j) j ks acc' m))%Q /\ snd (g_cross rows use (w j) j ks acc m) = snd (g_cross rows use (w j) j ks acc' m)).
  { intros j. induction ks as [|k ks IH]; intros acc acc' m E; cbn [g_cross fst snd]; [auto|]. destruct (use k); [|apply IH, E]. destruct (g_covariate rows m j k) as [c m']. apply IH. rewrite E. reflexivity. }
  assert (CE : forall l a a', (fst a == fst a')%Q -> snd a = snd a' -> (fst (fold_left (fun a j => if is_nz (g_nz st) j then g_cross rows use (w j) j (seq (S j) (cf - S j)) (fst a + 2 * b0 * b j * gsum (gcol rows j) + b j * b j * fold_left (fun a f => a + f * f)%Q (gcol rows j) 0)%Q (snd a) else a) l a) == fst (fold_left (fun a j => if is_nz (g_nz st) j then g_cross rows use (w j) j (seq (S j) (cf - S j)) (fst a + base j)%Q (snd a) else a) l a'))%Q).
  { induction l as [|j l IH]; intros a a' E1 E2; cbn [fold_left]; [exact E1|]. apply IH.
    - destruct (is_nz (g_nz st) j); [|exact E1]. rewrite E2. apply AC. unfold base. rewrite E1. ring.
    - destruct (is_nz (g_nz st) j); [|exact E2]. rewrite E2. apply AC. unfold base. rewrite E1. ring. }
  specialize (CE (seq 0 cf) (sse, g_cov st) (sse, g_cov st) (Qeq_refl _) eq_refl).
  assert (WX : forall j k c c', (c == c')%Q -> (w j k c == w j k c')%Q) by (intros j k c c' E; unfold w; rewrite E; reflexivity).
  pose proof (cross_seq cf rows CL use w base (g_nz st) (seq 0 cf) (fun j J => proj2 (proj1 (in_seq cf 0 j) J)) WX (sse, g_cov st) M) as CS. cbn [fst snd] in CS. rewrite CS in CE. clear CS.
  fold b in CE. destruct (fold_left _ (seq 0 cf) (sse, g_cov st)) as [sse' m']. cbn [fst snd] in CE. rewrite CE. clear CE m' sse'.
  (* the raw expansion *)
  unfold net_err. cbn [lm_b lm_b0]. fold n. fold b0.
  assert (PR : forall r, In r rows -> (lm_predict (LM (g_b st) b0) (snd r) == b0 + sumQ (fun j => b j * colv j r) (seq 0 cf))%Q).
  { intros r R. unfold lm_predict. cbn [lm_b lm_b0]. unfold grows_ok in OK. rewrite Forall_forall in OK. rewrite (dot_sum (g_b st) (snd r) cf LB (OK r R)). reflexivity. }
  rewrite (sumQ_ext (fun r => (fst r - lm_predict (LM (g_b st) b0) (snd r)) * (fst r - lm_predict (LM (g_b st) b0) (snd r)))%Q (fun r : grow => ((fst r - b0) - sumQ (fun j => b j * colv j r) (seq 0 cf)) * ((fst r - b0) - sumQ (fun j => b j * colv j r) (seq 0 cf)))%Q rows) by (intros r R; rewrite (PR r R); ring).
  rewrite (square_expand (fun r : grow => fst r - b0)%Q colv b rows (seq 0 cf)).
  set (S := fun j k => sumQ (fun r => colv j r * colv k r)%Q rows). set (Sy := fun j => sumQ (fun r : grow => colv j r * fst r)%Q rows). set (Sx := fun j => sumQ (colv j) rows).
  assert (SS : forall j k, (b j * b k * S j k == b k * b j * S k j)%Q) by (intros j k; unfold S; rewrite (sumQ_ext (fun r => colv j r * colv k r)%Q (fun r => colv k r * colv j r)%Q) by (intros; ring); ring).
  assert (DS : (sumQ (fun j => sumQ (fun k => b j * b k * sumQ (fun r => colv j r * colv k r) rows) (seq 0 cf)) (seq 0 cf) == sumQ (fun j => b j * b j * S j j + 2 * sumQ (fun k => b j * b k * S j k) (seq (Datatypes.S j) (cf - Datatypes.S j))) (seq 0 cf))%Q) by (apply (double_sum (fun j k => b j * b k * S j k)%Q cf SS)).
  rewrite DS. clear DS.
  assert (XV : (sumQ (fun j => b j * sumQ (fun r : grow => colv j r * (fst r - b0)) rows) (seq 0 cf) == sumQ (fun j => b j * Sy j) (seq 0 cf) - b0 * sumQ (fun j => b j * Sx j) (seq 0 cf))%Q).
  { rewrite (sumQ_ext _ (fun j => b j * Sy j + (- b0) * (b j * Sx j))%Q).
    - rewrite sum_plus, sum_scale. ring.
    - intros j _. unfold Sy, Sx. rewrite (sumQ_ext (fun r : grow => colv j r * (fst r - b0))%Q (fun r : grow => colv j r * fst r + (- b0) * colv j r)%Q rows) by (intros; ring). rewrite sum_plus, sum_scale. ring. }
  rewrite XV. clear XV.
  assert (YV : (sumQ (fun r : grow => (fst r - b0) * (fst r - b0)) rows == sumQ (fun r : grow => fst r * fst r) rows - 2 * b0 * sumQ (A := grow) fst rows + b0 * b0 * n)%Q).
  { rewrite (sumQ_ext _ (fun r : grow => fst r * fst r + ((- (2) * b0) * fst r + b0 * b0))%Q) by (intros; ring). rewrite !(sum_plus (A := grow)), (sum_scale (A := grow)), (sum_const (A := grow)). unfold n. ring. }
  rewrite YV. clear YV.
  assert (ZZ : forall j, ~ In j (g_nz st) -> (b j == 0)%Q) by (intros j J; unfold b; rewrite (Z j J); reflexivity).
  pose proof (y_sum_zero cf rows NE) as YS. pose proof (fun k => x_zero rows NE k) as XZ. assert (MU : forall k, (mu k == avg (colv k) rows)%Q) by (intros k; unfold mu; apply (mean_avg (colv k) rows)). assert (YM : (ymu == avg fst rows)%Q) by (apply (mean_avg fst rows)).
  (* first sums *)
  assert (F1 : (sumQ (fun k => 2 * b k * (g_xy rows k + g_x rows k * ymu + mu k * g_y_sum cf rows + n * mu k * ymu)) (g_nz st) == 2 * sumQ (fun j => b j * Sy j) (seq 0 cf))%Q).
  { rewrite <- sum_scale. rewrite <- (sum_members (fun j => 2 * (b j * Sy j))%Q (g_nz st) cf ND (fun k K => proj1 (B k K))) by (intros j J; rewrite (ZZ j J); ring).
    apply sumQ_ext. intros k K. rewrite (XZ k), YS, (MU k), YM, (xy_P rows k), (P_cov rows k (proj2 (B k K))), (cov_raw (colv k) fst rows NE). unfold Sy, n. ring. }
  assert (F2 : (sumQ (fun k => Qabs (b k)) (g_nz st) == sumQ (fun j => Qabs (b j)) (seq 0 cf))%Q) by (apply sum_members; [exact ND|intros k K; apply B, K|intros j J; rewrite (ZZ j J); reflexivity]).
  assert (F3 : (sumQ (fun k => b k * b k) (g_nz st) == sumQ (fun j => b j * b j) (seq 0 cf))%Q) by (apply sum_members; [exact ND|intros k K; apply B, K|intros j J; rewrite (ZZ j J); ring]).
  assert (F4 : (sumQ (fun j => if is_nz (g_nz st) j then base j + sumQ (fun k => if use k then w j k (C rows j k) else 0) (seq (Datatypes.S j) (cf - Datatypes.S j)) else 0) (seq 0 cf) == 2 * b0 * sumQ (fun j => b j * Sx j) (seq 0 cf) + sumQ (fun j => b j * b j * S j j + 2 * sumQ (fun k => b j * b k * S j k) (seq (Datatypes.S j) (cf - Datatypes.S j))) (seq 0 cf))%Q).
  { rewrite <- sum_scale, <- sum_plus. apply sumQ_ext. intros j J. apply in_seq in J. destruct (is_nz (g_nz st) j) eqn:I.
    - apply is_nz_In in I. assert (BA : (base j == 2 * b0 * (b j * Sx j) + b j * b j * S j j)%Q).
      { unfold base. change (gcol rows j) with (map (colv j) rows). rewrite (gsum_map (colv j)). rewrite (fold_sum (fun f => f * f)%Q). rewrite sum_map. unfold Sx, S. ring. }
      rewrite BA. rewrite <- sum_scale. rewrite (sumQ_ext (fun k => if use k then w j k (C rows j k) else 0%Q) (fun k => 2 * (b j * b k * S j k))%Q); [ring|].
      intros k K. apply in_seq in K. unfold use. destruct (qlt (Qabs (b k)) (1 # 10000)) eqn:T; cbn [negb].
      + apply qlt_iff in T. assert (BK : (b k == 0)%Q). { destruct (NT (b k)) as [X|X]; [unfold b; apply nth_In; lia|exact X|lra]. } rewrite BK. ring.
      + apply qlt_false in T. assert (IK : In k (g_nz st)). { destruct (is_nz (g_nz st) k) eqn:E; [apply is_nz_In, E|]. exfalso. assert (NI : ~ In k (g_nz st)) by (intros X; apply is_nz_In in X; congruence). rewrite (ZZ k NI) in T. change (Qabs 0) with 0%Q in T. lra. }
        unfold w. rewrite (XZ j), (XZ k), (MU j), (MU k), (C_cov rows j k (proj2 (B j I)) (proj2 (B k IK))), (cov_raw (colv j) (colv k) rows NE). unfold S, n. ring.
    - assert (NI : ~ In j (g_nz st)) by (intros X; apply is_nz_In in X; congruence). rewrite (sumQ_ext (fun k => b j * b k * S j k)%Q (fun _ => 0%Q)) by (intros k _; rewrite (ZZ j NI); ring). rewrite sum_zero, (ZZ j NI). ring. }
  rewrite F4, T1, T2, T3, F1, F2, F3.
  assert (G1 : (fold_left (fun a y => a + y * y)%Q (g_targets rows) 0 == sumQ (fun r : grow => fst r * fst r) rows)%Q) by (rewrite (fold_sum (fun y => y * y)%Q); unfold g_targets; rewrite (sum_map (A := grow) fst); ring).
  assert (G2 : (gsum (g_targets rows) == sumQ (A := grow) fst rows)%Q) by (unfold g_targets; rewrite (gsum_map fst); reflexivity).
  rewrite G1, G2. unfold n, b. ring.
Qed.
(** The final state of a leaf. *)
Definition g_final n cf lasso ridge rows : gst := g_loop n cf rows (qn (length rows) * lasso)%Q (qn (length rows) * ridge)%Q None (g_init cf rows).
Lemma glm_final n cf lasso ridge rows m e : rows <> [] -> clean cf rows -> (0 <= lasso)%Q -> (0 <= ridge)%Q -> glm n cf lasso ridge rows = Some (m, e) ->
  st_ok cf rows (g_final n cf lasso ridge rows) /\ m = LM (g_b (g_final n cf lasso ridge rows)) (g_intercept cf rows (g_b (g_final n cf lasso ridge rows))) /\
  e = g_cost cf rows (qn (length rows) * lasso)%Q (qn (length rows) * ridge)%Q (g_final n cf lasso ridge rows) /\
  (obj cf rows (qn (length rows) * lasso) (qn (length rows) * ridge) (coef (g_b (g_final n cf lasso ridge rows))) <= obj cf rows (qn (length rows) * lasso) (qn (length rows) * ridge) (coef (repeat 0%Q cf)))%Q.
Proof.
  intros NE CL L R. unfold glm. destruct (Qle_bool _ _); [discriminate|]. intros [= <- <-]. pose proof (qn_pos (length rows) (NL rows NE)) as NP.
  assert (LN : (0 <= qn (length rows) * lasso)%Q) by (apply Qmult_le_0_compat; [apply Qlt_le_weak, NP|exact L]). assert (RN : (0 <= qn (length rows) * ridge)%Q) by (apply Qmult_le_0_compat; [apply Qlt_le_weak, NP|exact R]).
  destruct (loop_ok cf rows NE CL _ _ n LN RN None (g_init cf rows) (init_ok cf rows)) as [A B]. split; [exact A|]. split; [reflexivity|]. split; [reflexivity|]. exact B.
Qed.
(** The cost of a leaf is the error of its model, when no covariance and no coefficient is tiny;
    the training score counts the squared errors only. *)
Theorem C73_cost_partial n cf lasso ridge rows m e : rows <> [] -> grows_ok cf rows -> clean cf rows -> (0 <= lasso)%Q -> (0 <= ridge)%Q ->
  glm n cf lasso ridge rows = Some (m, e) -> not_tiny (lm_b m) -> (e == net_err cf lasso ridge rows m)%Q.
Proof.
  intros NE OK CL L R G NT. destruct (glm_final _ _ _ _ _ _ _ NE CL L R G) as (A & -> & -> & _). apply g_cost_val; assumption.
Qed.
Theorem C73_score rows m : (glm_leaf_costs rows m == sumQ (fun r => (fst r - lm_predict m (snd r)) * (fst r - lm_predict m (snd r))) rows)%Q.
Proof. unfold glm_leaf_costs. rewrite (fold_sum (fun r : grow => (fst r - lm_predict m (snd r)) * (fst r - lm_predict m (snd r)))%Q). apply Qplus_0_l. Qed.

(** * C74: how good the model is *)
Section BEST.
  Variables (cf : nat) (rows : list grow) (lasso ridge : Q).
  Hypothesis NE : rows <> [].
  Hypothesis OK : grows_ok cf rows.
  Notation lam := (qn (length rows) * lasso)%Q.
  Notation gam := (qn (length rows) * ridge)%Q.
  (** The centred columns as they are. *)
  Definition xc j (r : grow) : Q := (colv j r - avg (colv j) rows)%Q.
  Definition best_b0 (b : list Q) : Q := (avg fst rows - sumQ (fun j => avg (colv j) rows * nth j b 0) (seq 0 cf))%Q.
  Lemma residual b c r : length b = cf -> In r rows -> (fst r - lm_predict (LM b c) (snd r) == (yr rows r - sumQ (fun j => nth j b 0 * xc j r) (seq 0 cf)) + (best_b0 b - c))%Q.
  Proof.
    intros L R. unfold lm_predict. cbn [lm_b lm_b0]. unfold grows_ok in OK. rewrite Forall_forall in OK. rewrite (dot_sum b (snd r) cf L (OK r R)). unfold best_b0, yr.
    rewrite (sumQ_ext (fun j => nth j b 0 * xc j r)%Q (fun j => nth j b 0 * nth j (snd r) 0 + (-1) * (avg (colv j) rows * nth j b 0))%Q) by (intros; unfold xc, colv, gval; ring). rewrite sum_plus, sum_scale. ring.
  Qed.
  Lemma residual_sum b : (sumQ (fun r => yr rows r - sumQ (fun j => nth j b 0 * xc j r) (seq 0 cf)) rows == 0)%Q.
  Proof.
    rewrite (sumQ_ext _ (fun r => yr rows r + (-1) * sumQ (fun j => nth j b 0 * xc j r) (seq 0 cf))%Q) by (intros; ring). rewrite sum_plus, sum_scale, sum_swap.
    pose proof (sum_centred fst rows NE) as H. unfold yr at 1. rewrite H. rewrite (sumQ_ext _ (fun _ => 0%Q) (seq 0 cf)); [rewrite sum_zero; ring|]. intros j _. rewrite sum_scale. unfold xc. rewrite (sum_centred (colv j) rows NE). ring.
  Qed.
  Definition objc (b : list Q) : Q :=
    (sumQ (fun r => (yr rows r - sumQ (fun j => nth j b 0 * xc j r) (seq 0 cf)) * (yr rows r - sumQ (fun j => nth j b 0 * xc j r) (seq 0 cf))) rows
     + 2 * lam * sumQ (fun j => Qabs (nth j b 0)) (seq 0 cf) + gam * sumQ (fun j => nth j b 0 * nth j b 0) (seq 0 cf))%Q.
  Lemma net_shift b c : length b = cf -> (net_err cf lasso ridge rows (LM b c) == objc b + qn (length rows) * ((best_b0 b - c) * (best_b0 b - c)))%Q.
  Proof.
    intros L. unfold net_err, objc. cbn [lm_b]. set (s := fun r => (yr rows r - sumQ (fun j => nth j b 0 * xc j r) (seq 0 cf))%Q). set (d := (best_b0 b - c)%Q).
    rewrite (sumQ_ext (fun r => (fst r - lm_predict (LM b c) (snd r)) * (fst r - lm_predict (LM b c) (snd r)))%Q (fun r => s r * s r + ((2 * d) * s r + d * d))%Q rows) by (intros r R; rewrite (residual b c r L R); unfold s, d; ring).
    rewrite !sum_plus, sum_scale, sum_const. pose proof (residual_sum b) as Z. fold s in Z. rewrite Z. set (t := sumQ (A := grow) (fun r => s r * s r)%Q rows).
    change (sumQ (A := Q * list Q) (fun x => s x * s x)%Q rows) with t. change (length (A := Q * list Q) rows) with (length (A := grow) rows).
    change (sumQ (fun r => (yr rows r - sumQ (fun j => nth j b 0 * xc j r) (seq 0 cf)) * (yr rows r - sumQ (fun j => nth j b 0 * xc j r) (seq 0 cf)))%Q rows) with t. ring.
  Qed.
  Lemma net_best b : length b = cf -> (net_err cf lasso ridge rows (LM b (g_intercept cf rows b)) == objc b)%Q.
  Proof. intros L. rewrite net_shift by exact L. pose proof (intercept_eq cf rows b) as I. change (avg fst rows - sumQ (fun j => avg (colv j) rows * nth j b 0) (seq 0 cf))%Q with (best_b0 b) in I. rewrite I. ring. Qed.
  Lemma net_ge b c : length b = cf -> (objc b <= net_err cf lasso ridge rows (LM b c))%Q.
  Proof. intros L. rewrite (net_shift b c L). pose proof (qn_pos (length rows) (NL rows NE)) as NP. pose proof (sq_nn (best_b0 b - c)) as S. assert (0 <= qn (length rows) * ((best_b0 b - c) * (best_b0 b - c)))%Q by (apply Qmult_le_0_compat; [apply Qlt_le_weak, NP|exact S]). lra. Qed.
  (** With coefficients only for columns that are not flat the two objectives agree. *)
  Lemma obj_objc b : (forall j, j < cf -> red rows j = true -> (nth j b 0 == 0)%Q) \/ (forall j r, red rows j = true -> In r rows -> (colv j r == avg (colv j) rows)%Q) -> (obj cf rows lam gam (coef b) == objc b)%Q.
  Proof.
    intros H. unfold obj, objc, coef. assert (E : forall r, In r rows -> (sumQ (fun j => nth j b 0 * xr rows j r) (seq 0 cf) == sumQ (fun j => nth j b 0 * xc j r) (seq 0 cf))%Q).
    { intros r R. apply sumQ_ext. intros j J. apply in_seq in J. unfold xr, xc. destruct (red rows j) eqn:E; [|reflexivity]. destruct H as [H|H]; [rewrite (H j ltac:(lia) E); ring|rewrite (H j r E R); ring]. }
    rewrite (sumQ_ext (fun r => (yr rows r - sumQ (fun j => nth j b 0 * xr rows j r) (seq 0 cf)) * (yr rows r - sumQ (fun j => nth j b 0 * xr rows j r) (seq 0 cf)))%Q (fun r => (yr rows r - sumQ (fun j => nth j b 0 * xc j r) (seq 0 cf)) * (yr rows r - sumQ (fun j => nth j b 0 * xc j r) (seq 0 cf)))%Q rows); [reflexivity|]. intros r R. rewrite (E r R). reflexivity.
  Qed.
  Lemma st_flat st : st_ok cf rows st -> forall j, j < cf -> red rows j = true -> (nth j (g_b st) 0 == 0)%Q.
  Proof. intros (_ & _ & _ & B & Z) j J R. rewrite Z; [reflexivity|]. intros I. destruct (B j I) as [_ X]. congruence. Qed.
End BEST.
(** The model is never worse than predicting the mean. *)
Theorem C74_mean_partial n cf lasso ridge rows m e : rows <> [] -> grows_ok cf rows -> clean cf rows -> (0 <= lasso)%Q -> (0 <= ridge)%Q ->
  glm n cf lasso ridge rows = Some (m, e) -> (net_err cf lasso ridge rows m <= sumQ (fun r => (fst r - avg fst rows) * (fst r - avg fst rows)) rows)%Q.
Proof.
  intros NE OK CL L R G. destruct (glm_final _ _ _ _ _ _ _ NE CL L R G) as (A & -> & _ & B). pose proof A as (LB & _). rewrite (net_best cf rows lasso ridge NE OK _ LB). rewrite <- (obj_objc cf rows lasso ridge) by (left; apply st_flat, A).
  eapply Qle_trans; [exact B|]. unfold obj, coef. rewrite (sumQ_ext (fun j => Qabs (nth j (repeat 0%Q cf) 0%Q)) (fun _ => 0%Q)) by (intros j _; rewrite nth_repeat; reflexivity). rewrite (sumQ_ext (fun j => nth j (repeat 0%Q cf) 0 * nth j (repeat 0%Q cf) 0)%Q (fun _ => 0%Q)) by (intros j _; rewrite nth_repeat; reflexivity). rewrite !sum_zero.
  assert (E : (sumQ (fun r => (yr rows r - sumQ (fun j => nth j (repeat 0%Q cf) 0 * xr rows j r) (seq 0 cf)) * (yr rows r - sumQ (fun j => nth j (repeat 0%Q cf) 0 * xr rows j r) (seq 0 cf))) rows == sumQ (fun r : grow => (fst r - avg fst rows) * (fst r - avg fst rows)) rows)%Q).
  { apply sumQ_ext. intros r _. rewrite (sumQ_ext (fun j => nth j (repeat 0%Q cf) 0 * xr rows j r)%Q (fun _ => 0%Q)) by (intros j _; rewrite nth_repeat; ring). rewrite sum_zero. unfold yr. ring. }
  assert (E2 : forall a b x y, (a == b)%Q -> (a + 2 * x * 0 + y * 0 <= b)%Q) by (intros a b x y H; rewrite H; lra). apply E2. exact E.
Qed.
(** With one continuous column the model is the best one. *)
Lemma clean_one rows : clean 1 rows.
Proof. intros j k J K N. lia. Qed.
Lemma rest_one rows b : (rest 1 rows b 0 == P rows 0)%Q.
Proof. unfold rest. cbn. ring. Qed.
Lemma loop_one rows lambda gamma : rows <> [] -> (lambda < Qabs (P rows 0))%Q -> red rows 0 = false -> forall n prev st, st_ok 1 rows st -> (0 < n \/ (nth 0 (g_b st) 0 == soft lambda (C rows 0 0 + gamma) (P rows 0))%Q) ->
  (nth 0 (g_b (g_loop n 1 rows lambda gamma prev st)) 0 == soft lambda (C rows 0 0 + gamma) (P rows 0))%Q.
Proof.
  intros NE LP R. induction n as [|n IH]; intros prev st ST H; [destruct H as [H|H]; [lia|exact H]|]. cbn [g_loop].
  assert (PASS : st_ok 1 rows (fst (g_pass 1 rows lambda gamma st)) /\ (nth 0 (g_b (fst (g_pass 1 rows lambda gamma st))) 0 == soft lambda (C rows 0 0 + gamma) (P rows 0))%Q).
  { unfold g_pass. cbn [seq fold_left]. destruct (step_ok 1 rows (clean_one rows) lambda gamma st false 0 ST (Nat.lt_0_1)) as [A D]. cbn zeta in *. split; [exact A|]. destruct D as [(_ & [X|X])|(_ & _ & _ & t & T & E)]; [congruence|rewrite rest_one in X; lra|].
    rewrite E. destruct ST as (LB & _). rewrite nth_set_eq by lia. rewrite T. pose proof (rest_one rows (g_b st)) as RO. unfold soft. assert (QE : qlt (rest 1 rows (g_b st) 0) 0 = qlt (P rows 0) 0) by (apply eq_true_iff_eq; rewrite !qlt_iff, RO; reflexivity). rewrite QE. destruct (qlt (P rows 0) 0); rewrite RO; reflexivity. }
  destruct PASS as [S1 V1]. destruct (g_pass 1 rows lambda gamma st) as [st1 sig]. cbn [fst] in *. pose proof (sse_ok 1 rows (clean_one rows) lambda gamma st1 S1) as M. destruct (g_sse 1 rows lambda gamma st1) as [sse m]. cbn [snd] in M.
  destruct (g_stop prev sse); [exact V1|]. destruct sig; [|exact V1]. destruct S1 as (A1 & A2 & A3). apply IH; [exact (conj A1 (conj M A3))|right; exact V1].
Qed.
Theorem C74_one_column_partial n lasso ridge rows m e : rows <> [] -> grows_ok 1 rows -> (0 <= lasso)%Q -> (0 <= ridge)%Q -> 0 < n ->
  glm n 1 lasso ridge rows = Some (m, e) -> forall a c, (net_err 1 lasso ridge rows m <= net_err 1 lasso ridge rows (LM [a] c))%Q.
Proof.
  intros NE OK L R N G a c. pose proof (clean_one rows) as CL. destruct (glm_final _ _ _ _ _ _ _ NE CL L R G) as (A & -> & _ & _). pose proof A as (LB & _). rewrite (net_best 1 rows lasso ridge NE OK _ LB). eapply Qle_trans; [|apply (net_ge 1 rows lasso ridge NE OK [a] c eq_refl)].
  pose proof (qn_pos (length rows) (NL rows NE)) as NP. set (lam := (qn (length rows) * lasso)%Q) in *. set (gam := (qn (length rows) * ridge)%Q) in *.
  assert (LN : (0 <= lam)%Q) by (apply Qmult_le_0_compat; [apply Qlt_le_weak, NP|exact L]). assert (RN : (0 <= gam)%Q) by (apply Qmult_le_0_compat; [apply Qlt_le_weak, NP|exact R]).
  assert (GT : (lam < Qabs (P rows 0))%Q /\ red rows 0 = false).
  { unfold glm in G. destruct (Qle_bool (g_lambda_max 1 rows) (qn (length rows) * lasso)) eqn:Q; [discriminate|]. fold lam in Q. assert (X : ~ (g_lambda_max 1 rows <= lam)%Q) by (intros X; apply Qle_bool_iff in X; congruence). unfold g_lambda_max in X. cbn [seq fold_left] in X.
    assert (Y : (lam < Qabs (g_xy rows 0))%Q) by (destruct (qlt 0 (Qabs (g_xy rows 0))) eqn:E; [lra|exfalso; lra]). split; [rewrite xy_P in Y; exact Y|]. destruct (red rows 0) eqn:E; [|reflexivity]. unfold g_xy in Y. unfold red in E. rewrite E in Y. change (Qabs 0) with 0%Q in Y. lra. }
  destruct GT as [GT RD]. pose proof (loop_one rows lam gam NE GT RD n None (g_init 1 rows) (init_ok 1 rows) (or_introl N)) as V. change (g_loop n 1 rows lam gam None (g_init 1 rows)) with (g_final n 1 lasso ridge rows) in V. set (st := g_final n 1 lasso ridge rows) in *.
  assert (HR : forall j : nat, j < 1 -> red rows j = true -> False) by (intros j J X; replace j with 0 in X by lia; congruence).
  rewrite <- (obj_objc 1 rows lasso ridge (g_b st)) by (left; intros j J X; destruct (HR j J X)). rewrite <- (obj_objc 1 rows lasso ridge [a]) by (left; intros j J X; destruct (HR j J X)).
  pose proof (obj_point 1 rows lam gam (coef (g_b st)) (coef [a]) 0 Nat.lt_0_1) as D.
  assert (O : forall k, k <> 0 -> (coef (g_b st) k == coef [a] k)%Q). { intros k K. unfold coef. rewrite !nth_overflow; [reflexivity| |]; [cbn; lia|rewrite LB; lia]. }
  specialize (D O). cbn [seq sumQ Nat.eqb] in D. change (coef [a] 0) with a in D. set (t := coef (g_b st) 0) in *. change (coef (g_b st) 0) with t in V. change (nth 0 (g_b st) 0%Q) with t in V.
  pose proof (C_pos rows NE 0 RD) as CP. pose proof (soft_best lam (C rows 0 0 + gam) (P rows 0) a LN ltac:(lra) ltac:(lra)) as SB. cbn zeta in SB. assert (TT : (Qabs t == Qabs (soft lam (C rows 0 0 + gam) (P rows 0)))%Q) by (rewrite V; reflexivity). rewrite <- TT in SB. rewrite <- V in SB. fold lam gam. nra.
Qed.
(** Without a lasso penalty a model which one more pass leaves as it is, is the best one, when no
    column is flat but not constant. *)
Definition settled n cf lasso ridge rows : Prop :=
  forall j, j < cf -> (nth j (g_b (fst (g_pass cf rows (qn (length rows) * lasso) (qn (length rows) * ridge) (g_final n cf lasso ridge rows)))) 0 == nth j (g_b (g_final n cf lasso ridge rows)) 0)%Q.
Section SETTLED.
  Variables (cf : nat) (rows : list grow) (lambda gamma : Q).
  Hypothesis LZ : (lambda == 0)%Q.
  Hypothesis NE : rows <> [].
  Hypothesis CL : clean cf rows.
  Lemma rest_ext b b' j : (forall k, k < cf -> (nth k b 0 == nth k b' 0)%Q) -> (rest cf rows b j == rest cf rows b' j)%Q.
  Proof. intros H. unfold rest. rewrite (sumQ_ext (fun k => if k =? j then 0 else nth k b 0 * C rows j k)%Q (fun k => if k =? j then 0 else nth k b' 0 * C rows j k)%Q); [reflexivity|]. intros k K. apply in_seq in K. destruct (k =? j); [reflexivity|]. rewrite (H k) by lia. reflexivity. Qed.
  Lemma soft_zero z r : (soft lambda z r == r / z)%Q.
  Proof. unfold soft. destruct (qlt r 0); unfold Qdiv; rewrite LZ; ring. Qed.
  Lemma steps_settled js : forall st sig, NoDup js -> (forall j, In j js -> j < cf) -> st_ok cf rows st ->
    let st' := fst (fold_left (g_step rows lambda gamma) js (st, sig)) in
    (forall j, ~ In j js -> nth j (g_b st') 0%Q = nth j (g_b st) 0%Q) /\
    ((forall j, In j js -> (nth j (g_b st') 0 == nth j (g_b st) 0)%Q) -> forall j, In j js -> red rows j = false -> (nth j (g_b st) 0 == rest cf rows (g_b st) j / (C rows j j + gamma))%Q).
  Proof.
    induction js as [|j js IH]; intros st sig ND B ST; cbn zeta; cbn [fold_left]; [split; [reflexivity|intros _ j []]|]. inversion ND as [|? ? NI ND']; subst.
    destruct (step_ok cf rows CL lambda gamma st sig j ST (B j (or_introl eq_refl))) as [S1 D]. cbn zeta in S1, D. destruct (g_step rows lambda gamma (st, sig) j) as [st1 sig1]. cbn [fst] in S1, D.
    destruct (IH st1 sig1 ND' (fun k K => B k (or_intror K)) S1) as [I1 I2]. cbn zeta in I1, I2. set (st' := fst (fold_left (g_step rows lambda gamma) js (st1, sig1))) in *.
    assert (OT : forall k, k <> j -> nth k (g_b st1) 0%Q = nth k (g_b st) 0%Q). { intros k K. destruct D as [[-> _]|(_ & _ & _ & t & _ & ->)]; [reflexivity|]. apply nth_set_other. exact K. }
    split; [intros k K; rewrite I1 by (intros X; apply K; now right); apply OT; intros ->; apply K; now left|]. intros H.
    assert (SAME : forall k, k < cf -> (nth k (g_b st1) 0 == nth k (g_b st) 0)%Q). { intros k K. destruct (Nat.eq_dec k j) as [->|N]; [|rewrite OT by exact N; reflexivity]. rewrite <- (H j (or_introl eq_refl)). rewrite I1 by exact NI. reflexivity. }
    intros k [<-|K] R.
    - destruct D as [[_ [X|X]]|(_ & _ & _ & t & T & E)]; [congruence|pose proof (Qabs_nonneg (rest cf rows (g_b st) j)); lra|]. rewrite <- (SAME j (B j (or_introl eq_refl))). rewrite E. destruct ST as (LB & _). rewrite nth_set_eq by (rewrite LB; apply B; now left). rewrite T. apply soft_zero.
    - assert (KJ : k <> j) by (intros ->; contradiction). pose proof (I2 (fun i I => ltac:(rewrite (SAME i) by (apply B; now right); apply H; now right)) k K R) as X. rewrite (SAME k) in X by (apply B; now right).
      rewrite X, (rest_ext (g_b st1) (g_b st) k SAME). reflexivity.
  Qed.
  (** The gradient. *)
  Lemma sum_minus {A} (f g : A -> Q) l : (sumQ (fun x => f x - g x) l == sumQ f l - sumQ g l)%Q.
  Proof. induction l as [|x l IH]; cbn [sumQ]; [ring|]. rewrite IH. ring. Qed.
  Definition err_r (b : nat -> Q) (r : grow) : Q := (yr rows r - sumQ (fun j => b j * xr rows j r) (seq 0 cf))%Q.
  Lemma gradient b j : j < cf -> (sumQ (fun r => err_r b r * xr rows j r) rows == P rows j - sumQ (fun k => b k * C rows j k) (seq 0 cf))%Q.
  Proof.
    intros J. unfold P, C. rewrite (sumQ_ext (fun k => b k * sumQ (fun r => xr rows j r * xr rows k r) rows)%Q (fun k => sumQ (fun r => b k * (xr rows j r * xr rows k r)) rows)%Q) by (intros; rewrite sum_scale; reflexivity).
    rewrite <- (sum_swap (fun (r : grow) k => b k * (xr rows j r * xr rows k r))%Q). rewrite <- sum_minus. apply sumQ_ext. intros r _. unfold err_r. rewrite (sumQ_ext (fun k => b k * (xr rows j r * xr rows k r))%Q (fun k => xr rows j r * (b k * xr rows k r))%Q) by (intros; ring). rewrite sum_scale. ring.
  Qed.
  Lemma zero_gradient (b b' : nat -> Q) : (0 <= gamma)%Q -> (forall j, j < cf -> (sumQ (fun r => err_r b r * xr rows j r) rows == gamma * b j)%Q) -> (obj cf rows lambda gamma b <= obj cf rows lambda gamma b')%Q.
  Proof.
    intros G H. set (d := fun j => (b' j - b j)%Q). set (u := fun r => sumQ (fun j => d j * xr rows j r)%Q (seq 0 cf)).
    assert (E : forall r, (err_r b' r == err_r b r - u r)%Q). { intros r. unfold err_r, u. rewrite (sumQ_ext (fun j => b' j * xr rows j r)%Q (fun j => b j * xr rows j r + d j * xr rows j r)%Q) by (intros; unfold d; ring). rewrite sum_plus. ring. }
    assert (EU : (sumQ (fun r => err_r b r * u r) rows == gamma * sumQ (fun j => d j * b j) (seq 0 cf))%Q).
    { rewrite (sumQ_ext (fun r => err_r b r * u r)%Q (fun r => sumQ (fun j => d j * (err_r b r * xr rows j r)) (seq 0 cf))%Q) by (intros r _; unfold u; rewrite <- sum_scale; apply sumQ_ext; intros; ring).
      rewrite sum_swap. rewrite <- sum_scale. apply sumQ_ext. intros j J. apply in_seq in J. rewrite sum_scale, H by lia. ring. }
    assert (N1 : (sumQ (fun r => err_r b' r * err_r b' r) rows == sumQ (fun r => err_r b r * err_r b r) rows + (-(2)) * sumQ (fun r => err_r b r * u r) rows + sumQ (fun r => u r * u r) rows)%Q).
    { rewrite (sumQ_ext (fun r => err_r b' r * err_r b' r)%Q (fun r => err_r b r * err_r b r + (-(2)) * (err_r b r * u r) + u r * u r)%Q) by (intros r _; rewrite (E r); ring). rewrite !sum_plus, sum_scale. reflexivity. }
    assert (N2 : (sumQ (fun j => b' j * b' j) (seq 0 cf) == sumQ (fun j => b j * b j) (seq 0 cf) + 2 * sumQ (fun j => d j * b j) (seq 0 cf) + sumQ (fun j => d j * d j) (seq 0 cf))%Q).
    { rewrite (sumQ_ext (fun j => b' j * b' j)%Q (fun j => b j * b j + 2 * (d j * b j) + d j * d j)%Q) by (intros; unfold d; ring). rewrite !sum_plus, sum_scale. reflexivity. }
    assert (U : (0 <= sumQ (fun r => u r * u r) rows)%Q) by (apply sumQ_nonneg; intros; apply sq_nn). assert (D2 : (0 <= sumQ (fun j => d j * d j)%Q (seq 0 cf))%Q) by (apply sumQ_nonneg; intros; apply sq_nn).
    unfold obj. fold (err_r b) (err_r b'). change (sumQ (fun r => (yr rows r - sumQ (fun j => b j * xr rows j r) (seq 0 cf)) * (yr rows r - sumQ (fun j => b j * xr rows j r) (seq 0 cf)))%Q rows) with (sumQ (fun r => err_r b r * err_r b r)%Q rows).
    change (sumQ (fun r => (yr rows r - sumQ (fun j => b' j * xr rows j r) (seq 0 cf)) * (yr rows r - sumQ (fun j => b' j * xr rows j r) (seq 0 cf)))%Q rows) with (sumQ (fun r => err_r b' r * err_r b' r)%Q rows).
    rewrite N1, N2, EU, LZ. pose proof (Qmult_le_0_compat _ _ G D2) as GD. lra.
  Qed.
End SETTLED.
Theorem C74_settled_partial n cf ridge rows m e : rows <> [] -> grows_ok cf rows -> clean cf rows -> (0 <= ridge)%Q ->
  (forall j r, flat rows j -> In r rows -> (colv j r == avg (colv j) rows)%Q) ->
  glm n cf 0 ridge rows = Some (m, e) -> settled n cf 0 ridge rows ->
  forall b c, length b = cf -> (net_err cf 0 ridge rows m <= net_err cf 0 ridge rows (LM b c))%Q.
Proof.
  intros NE OK CL R FC G S b c LB'. destruct (glm_final _ _ _ _ _ _ _ NE CL (Qle_refl 0) R G) as (A & -> & _ & _). pose proof A as (LB & _). rewrite (net_best cf rows 0 ridge NE OK _ LB). eapply Qle_trans; [|apply (net_ge cf rows 0 ridge NE OK b c LB')].
  assert (FC' : forall j r, red rows j = true -> In r rows -> (colv j r == avg (colv j) rows)%Q) by (intros j r X I; apply FC; [apply (red_flat rows NE); exact X|exact I]).
  rewrite <- (obj_objc cf rows 0 ridge (g_b (g_final n cf 0 ridge rows))) by (right; exact FC'). rewrite <- (obj_objc cf rows 0 ridge b) by (right; exact FC').
  unfold settled in S. set (st := g_final n cf 0 ridge rows) in *. set (gam := (qn (length rows) * ridge)%Q) in *. assert (Z : (qn (length rows) * 0 == 0)%Q) by ring.
  pose proof (qn_pos (length rows) (NL rows NE)) as NP. assert (GN : (0 <= gam)%Q) by (apply Qmult_le_0_compat; [apply Qlt_le_weak, NP|exact R]).
  apply (zero_gradient cf rows _ gam Z); [exact GN|]. intros j J. rewrite (gradient cf rows (coef (g_b st)) j J).
  destruct (steps_settled cf rows _ gam Z CL (seq 0 cf) st false (seq_NoDup cf 0) ltac:(intros k K; apply in_seq in K; lia) A) as [_ ST]. cbn zeta in ST. change (fold_left (g_step rows (qn (length rows) * 0) gam) (seq 0 cf) (st, false)) with (g_pass cf rows (qn (length rows) * 0) gam st) in ST.
  specialize (ST ltac:(intros k K; apply in_seq in K; apply S; lia) j ltac:(apply in_seq; lia)).
  destruct (red rows j) eqn:E.
  - unfold coef at 2. rewrite (st_flat cf rows st A j J E). assert (ZX : forall r, xr rows j r = 0%Q) by (intros r; unfold xr; rewrite E; reflexivity).
    unfold P. rewrite (sumQ_ext (fun r => xr rows j r * yr rows r)%Q (fun _ => 0%Q)) by (intros r _; rewrite ZX; ring). rewrite sum_zero. rewrite (sumQ_ext (fun k => coef (g_b st) k * C rows j k)%Q (fun _ => 0%Q)); [rewrite sum_zero; ring|]. intros k _. unfold C. rewrite (sumQ_ext (fun r => xr rows j r * xr rows k r)%Q (fun _ => 0%Q)) by (intros r _; rewrite ZX; ring). rewrite sum_zero. ring.
  - specialize (ST eq_refl). pose proof (C_pos rows NE j E) as CP. assert (M : (coef (g_b st) j * (C rows j j + gam) == rest cf rows (g_b st) j)%Q) by (unfold coef; rewrite ST; field; lra).
    unfold rest in M. pose proof (sum_point (fun k => coef (g_b st) k * C rows j k)%Q (fun k => if k =? j then 0 else coef (g_b st) k * C rows j k)%Q j cf J) as SP. rewrite SP; [|intros k K; apply Nat.eqb_neq in K; rewrite K; reflexivity]. rewrite Nat.eqb_refl. unfold coef in *. lra.
Qed.
(** A cost far below zero for a model without error: the product of a large and a tiny
    coefficient is left out. *)
Definition gw (y : Q) (x : list Q) : grow := (y, x).
Definition signs : list (Q * Q) := [(-1, -1); (-1, 1); (1, -1); (1, 1)]%Q.
Definition tiny_rows : list grow := map (fun p => gw (1000 * fst p + 5 * snd p) [fst p + 10; 100000 * snd p + 1000000])%Q signs.
Definition run_is (o : option (linmodel * Q)) (f : linmodel -> Q -> bool) : bool := match o with Some (m, e) => f m e | None => false end.
Lemma run_some o f : run_is o f = true -> exists m e, o = Some (m, e) /\ f m e = true.
Proof. destruct o as [[m e]|]; [|discriminate]. cbn. intros H. exists m, e. split; [reflexivity|exact H]. Qed.
(** The number of passes of the code. *)
Notation passes := (100 * 100).
Theorem C73_refuted : exists rows m e, grows_ok 2 rows /\ clean 2 rows /\ glm passes 2 0 0 rows = Some (m, e) /\ (net_err 2 0 0 rows m == 0)%Q /\ (e < -1000000)%Q.
Proof.
  exists tiny_rows. destruct (run_some (glm passes 2 0 0 tiny_rows) (fun m e => Qeq_bool (net_err 2 0 0 tiny_rows m) 0 && qlt e (-1000000)%Q)) as (m & e & G & F); [vm_compute; reflexivity|].
  exists m, e. apply andb_prop in F. destruct F as [F1 F2]. split; [repeat constructor|]. split; [intros [|[|j]] [|[|k]] J K N; try lia; left; vm_compute; reflexivity|]. split; [exact G|]. split; [apply Qeq_bool_iff; exact F1|apply qlt_iff; exact F2].
Qed.
(** The search for the coefficients stops early: an error of more than 99 percent although there
    is a model without error. *)
Definition slow_rows (u d : Q) : list grow := map (fun p => gw (d * snd p) [u * fst p + d * snd p; u * fst p - d * snd p])%Q signs.
Theorem C74_refuted : exists rows m e m', grows_ok 2 rows /\ clean 2 rows /\ glm passes 2 0 0 rows = Some (m, e) /\ length (lm_b m') = 2 /\ (net_err 2 0 0 rows m' == 0)%Q /\
  ((99 # 100) * cov2 rows fst fst < net_err 2 0 0 rows m)%Q /\ (cov2 rows fst fst == 4)%Q.
Proof.
  exists (slow_rows 100 1). destruct (run_some (glm passes 2 0 0 (slow_rows 100 1)) (fun m e => qlt ((99 # 100) * cov2 (slow_rows 100 1) fst fst) (net_err 2 0 0 (slow_rows 100 1) m))) as (m & e & G & F); [vm_compute; reflexivity|].
  exists m, e, (LM [1 # 2; - (1 # 2)]%Q 0). split; [repeat constructor|]. split; [intros [|[|j]] [|[|k]] J K N; try lia; right; vm_compute; discriminate|]. split; [exact G|]. split; [reflexivity|]. split; [vm_compute; reflexivity|]. split; [apply qlt_iff; exact F|vm_compute; reflexivity].
Qed.
(** With a lasso penalty a settled model need not be the best one: a coefficient that should go
    back to zero is left as it is. *)
Definition stuck_rows : list grow := map (fun p => gw (10 * fst p - snd p) [fst p + 2 * snd p; fst p])%Q signs.
Theorem C74_lasso_refuted : exists rows lasso m e m', grows_ok 2 rows /\ clean 2 rows /\ (0 < lasso)%Q /\ glm passes 2 lasso 0 rows = Some (m, e) /\ settled passes 2 lasso 0 rows /\
  length (lm_b m') = 2 /\ (net_err 2 lasso 0 rows m' + 30 < net_err 2 lasso 0 rows m)%Q.
Proof.
  exists stuck_rows, (5 # 2). destruct (run_some (glm passes 2 (5 # 2) 0 stuck_rows) (fun m e => qlt (net_err 2 (5 # 2) 0 stuck_rows (LM [0; 15 # 2]%Q 0) + 30) (net_err 2 (5 # 2) 0 stuck_rows m))) as (m & e & G & F); [vm_compute; reflexivity|].
  exists m, e, (LM [0; 15 # 2]%Q 0). split; [repeat constructor|]. split; [intros [|[|j]] [|[|k]] J K N; try lia; right; vm_compute; discriminate|]. split; [reflexivity|]. split; [exact G|]. split; [|split; [reflexivity|apply qlt_iff; exact F]].
  intros [|[|j]] J; [vm_compute; reflexivity|vm_compute; reflexivity|lia].
Qed.

(** * C75: the tree for the data as they are given *)
Fixpoint gt_predict (t : ltree) (x : inst) (v : list Q) : Q :=
  match t with LLeaf m => lm_predict m v | LSplit f l r => if has f x then gt_predict r x v else gt_predict l x v end.
Fixpoint gt_ok (cf : nat) (t : ltree) : Prop := match t with LLeaf m => length (lm_b m) = cf | LSplit _ l r => gt_ok cf l /\ gt_ok cf r end.
Definition wide (s : Q) : Prop := (1 # 1000000 <= Qabs s)%Q.
Lemma post_dot b : forall mu sd c, length b = length sd -> length mu = length sd -> Forall wide sd ->
  exists b', g_quot b sd = Some b' /\ length b' = length sd /\ forall v, length v = length sd -> (fold_left (fun a p => a - fst p * snd p)%Q (combine mu b') c + dot b' v == c + dot b (g_normal mu sd v))%Q.
Proof.
  induction b as [|w b IH]; intros [|m mu] [|s sd] c L1 L2 W; cbn [length] in *; try lia; [exists []; split; [reflexivity|]; split; [reflexivity|]; intros v _; cbn; ring|]. inversion W as [|? ? W1 W2]; subst. unfold wide in W1.
  assert (S0 : ~ (s == 0)%Q). { intros E. rewrite E in W1. change (Qabs 0) with 0%Q in W1. lra. }
  destruct (IH mu sd (c - m * (w / s))%Q ltac:(lia) ltac:(lia) W2) as (b' & Q1 & L & H). exists (w / s :: b')%Q. split; [cbn [g_quot]; destruct (Qeq_bool s 0) eqn:E; [apply Qeq_bool_iff in E; contradiction|]; rewrite Q1; reflexivity|]. split; [cbn; lia|].
  intros [|x v] LV; cbn [length] in LV; [lia|]. cbn [combine fold_left dot fst snd]. unfold g_normal. cbn [combine map]. fold (g_normal mu sd v). cbn [dot]. destruct (qlt (Qabs s) (1 # 1000000)) eqn:E; [apply qlt_iff in E; lra|].
  specialize (H v ltac:(lia)). assert (X : (w / s * x == w * ((x - m) / s) + m * (w / s))%Q) by (field; exact S0). rewrite X. lra.
Qed.
Theorem C75_partial mu sd t : length mu = length sd -> Forall wide sd -> gt_ok (length sd) t ->
  exists t', g_post_tree mu sd t = Some t' /\ forall x v, length v = length sd -> (gt_predict t' x v == gt_predict t x (g_normal mu sd v))%Q.
Proof.
  intros L W. induction t as [m|f l IHl r IHr]; cbn [gt_ok g_post_tree].
  - intros LM. destruct (post_dot (lm_b m) mu sd (lm_b0 m) LM L W) as (b' & Q1 & _ & H). unfold g_post. rewrite Q1. eexists. split; [reflexivity|]. intros x v V. cbn [gt_predict]. unfold lm_predict. cbn [lm_b lm_b0]. apply H, V.
  - intros [OL OR]. destruct (IHl OL) as (l' & -> & HL), (IHr OR) as (r' & -> & HR). eexists. split; [reflexivity|]. intros x v V. cbn [gt_predict]. destruct (has f x); [apply HR|apply HL]; exact V.
Qed.
(** A constant column has standard deviation zero, and then no tree can be given. *)
Theorem C75_constant_column_refuted rows j mu sd t : rows <> [] -> (forall r, In r rows -> (colv j r == avg (colv j) rows)%Q) -> j < length sd ->
  (nth j sd 0 * nth j sd 0 == avg (fun r => colv j r * colv j r) rows - avg (colv j) rows * avg (colv j) rows)%Q -> gt_ok (length sd) t -> g_post_tree mu sd t = None.
Proof.
  intros NE K J SD. assert (Z : (nth j sd 0 == 0)%Q).
  { assert (S : (nth j sd 0 * nth j sd 0 == 0)%Q). { rewrite SD. unfold avg at 1. rewrite (sumQ_ext (fun r => colv j r * colv j r)%Q (fun _ => avg (colv j) rows * avg (colv j) rows)%Q) by (intros r R; rewrite (K r R); reflexivity). rewrite sum_const. field. pose proof (qn_pos (length rows) (NL rows NE)). lra. }
    destruct (Qmult_integral _ _ S); assumption. }
  assert (QN : forall b sd' i, length b = length sd' -> i < length sd' -> (nth i sd' 0 == 0)%Q -> g_quot b sd' = None).
  { induction b as [|w b IH]; intros [|s sd'] i LB I E; cbn [length] in *; try lia. cbn [g_quot]. destruct (Qeq_bool s 0) eqn:QS; [reflexivity|]. destruct i as [|i]; cbn [nth] in E; [apply Qeq_bool_iff in E; congruence|]. rewrite (IH sd' i) by (assumption || lia). reflexivity. }
  induction t as [m|f l IHl r IHr]; cbn [gt_ok g_post_tree]; [intros LM; unfold g_post; rewrite (QN (lm_b m) sd j LM J Z); reflexivity|]. intros [OL OR]. rewrite (IHl OL). reflexivity.
Qed.
(** A narrow column is not divided by its standard deviation, but its coefficient is. *)
Theorem C75_narrow_column_refuted : exists mu sd t t' v, length mu = length sd /\ Forall (fun s => 0 < s)%Q sd /\ gt_ok (length sd) t /\ length v = length sd /\ g_post_tree mu sd t = Some t' /\
  forall x, (gt_predict t x (g_normal mu sd v) == 10)%Q /\ (gt_predict t' x v == 0)%Q.
Proof.
  exists [10]%Q, [1 # 10000000]%Q, (LLeaf (LM [1]%Q 0)). eexists. exists [10]%Q. split; [reflexivity|]. split; [repeat constructor|]. split; [reflexivity|]. split; [reflexivity|]. split; [vm_compute; reflexivity|]. intros x. split; vm_compute; reflexivity.
Qed.

(** * C71 for this task: the similarity bound *)
(** Old rows are all new rows as well, nothing is subtracted, and still the cost of the old rows
    is larger. *)
Definition far_pair : list grow := [gw (-39999) [-39999; 39999]; gw 39999 [39999; -39999]; gw (-39999) [-39999; 39999]; gw 39999 [39999; -39999]]%Q.
Definition number (l : list grow) : list (nat * grow) := combine (seq 0 (length l)) l.
Theorem C71_linear_refuted : exists old new m m' e e', incl old new /\ NoDup (map fst new) /\ grows_ok 2 (map snd new) /\ (forall max_lb, fst (g_sim max_lb old new) == 0)%Q /\
  glm passes 2 0 0 (map snd old) = Some (m, e) /\ glm passes 2 0 0 (map snd new) = Some (m', e') /\ (e' == 0)%Q /\ (600000 < e)%Q.
Proof.
  set (o := slow_rows 40001 400). exists (number o), (number (o ++ far_pair)).
  destruct (run_some (glm passes 2 0 0 (map snd (number o))) (fun _ e => qlt 600000 e)) as (m & e & G & F); [vm_compute; reflexivity|]. destruct (run_some (glm passes 2 0 0 (map snd (number (o ++ far_pair)))) (fun _ e => Qeq_bool e 0)) as (m' & e' & G' & F'); [vm_compute; reflexivity|].
  exists m, m', e, e'. split; [intros x X; cbn in X |- *; tauto|]. split; [cbn; repeat constructor; cbn; lia|]. split; [repeat constructor|]. split; [intros; reflexivity|]. split; [exact G|]. split; [exact G'|]. split; [apply Qeq_bool_iff; exact F'|apply qlt_iff; exact F].
Qed.
(** When the old rows have one that the new rows have not, what is subtracted is at least the
    error of the model of the old rows. *)
Lemma max_abs ys : forall a, (a <= fold_left (fun a y => if qlt a (Qabs y) then Qabs y else a) ys a)%Q /\ forall y, In y ys -> (Qabs y <= fold_left (fun a y => if qlt a (Qabs y) then Qabs y else a) ys a)%Q.
Proof.
  induction ys as [|z ys IH]; intros a; cbn [fold_left]; [split; [lra|intros y []]|]. destruct (qlt a (Qabs z)) eqn:E; destruct (IH (if qlt a (Qabs z) then Qabs z else a)) as [A B]; rewrite E in A, B; [apply qlt_iff in E|apply qlt_false in E]; (split; [lra|intros y [<-|Y]; [lra|apply B, Y]]).
Qed.
Lemma avg_least (rows : list grow) c : rows <> [] -> (cov2 rows fst fst <= sumQ (fun r => (fst r - c) * (fst r - c)) rows)%Q.
Proof.
  intros NE. unfold cov2. rewrite (sumQ_ext (fun r : grow => (fst r - c) * (fst r - c))%Q (fun r => (fst r - avg fst rows) * (fst r - avg fst rows) + ((2 * (avg fst rows - c)) * (fst r - avg fst rows) + (avg fst rows - c) * (avg fst rows - c)))%Q rows) by (intros; ring).
  rewrite !sum_plus, sum_scale, sum_const, (sum_centred fst rows NE). assert (X : forall a b c n, (0 <= n)%Q -> (a <= a + (b * 0 + n * (c * c)))%Q) by (intros a b d n N; pose proof (sq_nn d); nra). apply X. apply Qlt_le_weak, (qn_pos (length rows) (NL rows NE)).
Qed.
Lemma sum_filter_le {A} (f : A -> Q) (p : A -> bool) l : (forall x, In x l -> 0 <= f x)%Q -> (sumQ f (filter p l) <= sumQ f l)%Q.
Proof. induction l as [|x l IH]; intros H; cbn [filter sumQ]; [lra|]. specialize (IH (fun y Y => H y (or_intror Y))). pose proof (H x (or_introl eq_refl)). destruct (p x); cbn [sumQ]; lra. Qed.
Theorem C71_linear_partial n cf lasso ridge (train : list (nat * grow)) root in_old in_new i m e :
  NoDup (map fst train) -> let old := filter in_old train in let new := filter in_new train in
  (0 <= root)%Q -> (root * root == cov2 (map snd train) fst fst)%Q -> In i old -> ~ In i new ->
  grows_ok cf (map snd old) -> clean cf (map snd old) -> (0 <= lasso)%Q -> (0 <= ridge)%Q -> glm n cf lasso ridge (map snd old) = Some (m, e) ->
  (net_err cf lasso ridge (map snd old) m <= fst (g_sim (g_max_lb (map (fun r => fst (snd r)) train) root) old new))%Q.
Proof.
  intros ND old new R0 RR IO IN OK CL L R G. assert (NE : map snd old <> []) by (destruct old; [destruct IO|discriminate]).
  assert (NT : map snd train <> []) by (destruct train; [destruct IO|discriminate]).
  eapply Qle_trans; [apply (C74_mean_partial n cf lasso ridge _ m e NE OK CL L R G)|].
  set (sst := cov2 (map snd train) fst fst) in *. apply Qle_trans with sst.
  { apply Qle_trans with (sumQ (fun r : grow => (fst r - avg fst (map snd train)) * (fst r - avg fst (map snd train)))%Q (map snd old)); [apply (avg_least (map snd old) _ NE)|].
    unfold sst, cov2. rewrite !sum_map. apply sum_filter_le. intros; apply sq_nn. }
  set (ML := g_max_lb (map (fun r => fst (snd r)) train) root).
  assert (W : forall x, In x old -> (sst <= g_worst ML (fst (snd x)))%Q).
  { intros x X. apply filter_In in X. destruct X as [X _]. assert (M : (Qabs (fst (snd x)) + root <= ML)%Q).
    { unfold ML, g_max_lb. pose proof (proj2 (max_abs (map (fun r => fst (snd r)) train) (match map (fun r => fst (snd r)) train with [] => 0%Q | y :: _ => Qabs y end)) (fst (snd x)) (in_map (fun r => fst (snd r)) train x X)) as H. lra. }
    unfold g_worst. rewrite <- RR. nra. }
  unfold g_sim. pose proof (Props_Similarity.C18_custom fst (fun r => g_worst ML (fst (snd r))) (fun _ => 1) (fun x => if fst x =? fst i then sst else 0%Q) new old) as CU.
  assert (S0 : (0 <= sst)%Q) by (rewrite <- RR; apply sq_nn).
  assert (SAME : forall x y, In x train -> In y train -> fst x = fst y -> x = y).
  { clear - ND. induction train as [|z t IH]; intros x y X Y E; [destruct X|]. cbn [map] in ND. inversion ND as [|? ? N1 N2]; subst. destruct X as [<-|X], Y as [<-|Y]; [reflexivity| | |apply IH; assumption]; [elim N1; rewrite E; apply in_map, Y|elim N1; rewrite <- E; apply in_map, X]. }
  assert (C1 : (sumQ (fun x => if fst x =? fst i then sst else 0%Q) new == 0)%Q).
  { rewrite (sumQ_ext _ (fun _ => 0%Q)); [apply sum_zero|]. intros x X. destruct (fst x =? fst i) eqn:E; [|reflexivity]. apply Nat.eqb_eq in E. elim IN. replace i with x; [exact X|]. apply filter_In in X, IO. apply SAME; [apply X|apply IO|exact E]. }
  assert (C2 : (sst <= sumQ (fun x => if fst x =? fst i then sst else 0%Q) old)%Q).
  { clear - IO S0. induction old as [|z l IH]; [destruct IO|]. cbn [sumQ]. assert (P0 : (0 <= sumQ (fun x => if fst x =? fst i then sst else 0%Q) l)%Q) by (apply sumQ_nonneg; intros x _; destruct (fst x =? fst i); lra). destruct IO as [->|I]; [rewrite Nat.eqb_refl; lra|]. specialize (IH I). destruct (fst z =? fst i); lra. }
  assert (Z : forall a b, (a == 0)%Q -> (a + b <= b)%Q) by (intros a b H; rewrite H; lra).
  eapply Qle_trans; [exact C2|]. eapply Qle_trans; [apply CU; [intros x y X Y E; apply filter_In in X, Y; apply SAME; [apply X|apply Y|exact E]| |]|apply Z; exact C1].
  - intros x _. cbv beta. destruct (Nat.eqb _ _); [exact S0|apply Qle_refl].
  - intros x X. pose proof (W x X) as WX. cbv beta. destruct (Nat.eqb _ _); [exact WX|]. eapply Qle_trans; [exact S0|exact WX].
Qed.

(** * Cases that meet the hypotheses *)
Definition plane_rows : list grow := map (fun p => gw (3 * fst p + 4 * snd p + fst p * snd p + 7) [fst p + 1; snd p - 2])%Q signs.
Example C73_ex : grows_ok 2 plane_rows /\ clean 2 plane_rows /\ exists m e, glm passes 2 (1 # 10) (1 # 2) plane_rows = Some (m, e) /\ not_tiny (lm_b m) /\ (e == net_err 2 (1 # 10) (1 # 2) plane_rows m)%Q /\ (0 < e)%Q /\ (0 < nth 0 (lm_b m) 0)%Q /\ (0 < nth 1 (lm_b m) 0)%Q.
Proof.
  assert (OK : grows_ok 2 plane_rows) by repeat constructor. assert (CL : clean 2 plane_rows) by (intros [|[|j]] [|[|k]] J K N; try lia; left; vm_compute; reflexivity). split; [exact OK|]. split; [exact CL|].
  destruct (run_some (glm passes 2 (1 # 10) (1 # 2) plane_rows) (fun m e => forallb (fun v => Qle_bool (1 # 10000) (Qabs v)) (lm_b m) && (qlt 0 e && (qlt 0 (nth 0 (lm_b m) 0%Q) && qlt 0 (nth 1 (lm_b m) 0%Q))))) as (m & e & G & F); [vm_compute; reflexivity|].
  exists m, e. apply andb_prop in F. destruct F as [F1 F2]. apply andb_prop in F2. destruct F2 as [F2 F3]. apply andb_prop in F3. destruct F3 as [F3 F4]. apply qlt_iff in F2, F3, F4.
  assert (NT : not_tiny (lm_b m)) by (intros v V; right; rewrite forallb_forall in F1; apply Qle_bool_iff, F1, V). split; [exact G|]. split; [exact NT|]. split; [|tauto]. apply (C73_cost_partial passes 2 (1 # 10) (1 # 2)); try assumption; [discriminate|vm_compute; discriminate|vm_compute; discriminate].
Qed.
Example C74_ex : (forall j r, j < 2 -> In r plane_rows -> ~ flat plane_rows j) /\ settled passes 2 0 (1 # 2) plane_rows /\ exists m e, glm passes 2 0 (1 # 2) plane_rows = Some (m, e) /\ (e < cov2 plane_rows fst fst)%Q /\ (0 < e)%Q.
Proof.
  split; [intros [|[|j]] r J R F; [vm_compute in F; discriminate|vm_compute in F; discriminate|lia]|]. split; [intros [|[|j]] J; [vm_compute; reflexivity|vm_compute; reflexivity|lia]|].
  destruct (run_some (glm passes 2 0 (1 # 2) plane_rows) (fun m e => qlt e (cov2 plane_rows fst fst) && qlt 0 e)) as (m & e & G & F); [vm_compute; reflexivity|]. exists m, e. apply andb_prop in F. destruct F as [F1 F2]. apply qlt_iff in F1, F2. tauto.
Qed.
Definition line_rows : list grow := [gw 1 [1]; gw 3 [2]; gw 2 [3]; gw 7 [5]]%Q.
Example C74_one_ex : grows_ok 1 line_rows /\ exists m e, glm passes 1 (1 # 10) (1 # 10) line_rows = Some (m, e) /\ (0 < e)%Q /\ (1 < nth 0 (lm_b m) 0)%Q.
Proof.
  split; [repeat constructor|]. destruct (run_some (glm passes 1 (1 # 10) (1 # 10) line_rows) (fun m e => qlt 0 e && qlt 1 (nth 0 (lm_b m) 0%Q))) as (m & e & G & F); [vm_compute; reflexivity|]. exists m, e. apply andb_prop in F. destruct F as [F1 F2]. apply qlt_iff in F1, F2. tauto.
Qed.
Definition two_leaves : ltree := LSplit 3 (LLeaf (LM [1; 2]%Q 5)) (LLeaf (LM [0; - (3)]%Q 1)).
Example C75_ex : Forall wide [2; 1 # 2]%Q /\ gt_ok 2 two_leaves /\ forall x, has 3 x = false -> exists t', g_post_tree [1; 2]%Q [2; 1 # 2]%Q two_leaves = Some t' /\ (gt_predict t' x [7; 4]%Q == 16)%Q.
Proof. split; [repeat constructor; vm_compute; discriminate|]. split; [split; reflexivity|]. intros x H. eexists. split; [reflexivity|]. cbn [gt_predict]. rewrite H. vm_compute. reflexivity. Qed.
Example C75_constant_ex : let rows := [gw 1 [5]; gw 2 [5]]%Q in (forall r, In r rows -> (colv 0 r == avg (colv 0) rows)%Q) /\ (0 * 0 == avg (fun r => colv 0 r * colv 0 r) rows - avg (colv 0) rows * avg (colv 0) rows)%Q.
Proof. cbn zeta. split; [intros r [<-|[<-|[]]]; vm_compute; reflexivity|vm_compute; reflexivity]. Qed.
Definition square_rows : list (nat * grow) := number (map (fun p => gw (3 * fst p + 4 * snd p) [fst p; snd p])%Q signs).
Example C71_linear_ex : NoDup (map fst square_rows) /\ (10 * 10 == cov2 (map snd square_rows) fst fst)%Q /\ let old := filter (fun r => fst r <? 3) square_rows in
  In (hd (9, gw 0 []) square_rows) old /\ ~ In (hd (9, gw 0 []) square_rows) (filter (fun r => 0 <? fst r) square_rows) /\ clean 2 (map snd old) /\ exists m e, glm passes 2 0 0 (map snd old) = Some (m, e).
Proof.
  split; [cbn; repeat constructor; cbn; lia|]. split; [vm_compute; reflexivity|]. cbn zeta. split; [now left|]. split; [intros H; apply filter_In in H; destruct H as [_ H]; discriminate|]. split; [intros [|[|j]] [|[|k]] J K N; try lia; right; vm_compute; discriminate|].
  destruct (run_some (glm passes 2 0 0 (map snd (filter (fun r => fst r <? 3) square_rows))) (fun m e => true)) as (m & e & G & F); [vm_compute; reflexivity|]. exists m, e. exact G.
Qed.

Print Assumptions C72_condition.
Print Assumptions C72_constant_target_refuted.
Print Assumptions C73_cost_partial.
Print Assumptions C73_score.
Print Assumptions C73_refuted.
Print Assumptions C74_mean_partial.
Print Assumptions C74_one_column_partial.
Print Assumptions C74_settled_partial.
Print Assumptions C74_refuted.
Print Assumptions C74_lasso_refuted.
Print Assumptions C75_partial.
Print Assumptions C75_constant_column_refuted.
Print Assumptions C75_narrow_column_refuted.
Print Assumptions C71_linear_refuted.
Print Assumptions C71_linear_partial.
