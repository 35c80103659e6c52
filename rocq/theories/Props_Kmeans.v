(** C40: the one-dimensional clustering; C60: the k-means bound of cost-complex regression. *)
From Coq Require Import List Arith Bool Lia QArith Qminmax Lqa Permutation ZArith Qround.
From Verif Require Import Base_Q Model_FeatureVector Model_Data Model_Node Model_Terminal Model_Solver Model_Preproc
  Model_Regression Model_Kmeans Model_KmeansBound Spec_Tree Spec_Examples Proofs_Feature Proofs_Kmeans Proofs_Smawk Props_Regression.
Import ListNotations.
Local Open Scope nat_scope.

(** * Specification *)
(** Weighted sum of squared distances when point [p] is given to the center [a p]. *)
Definition clustering_cost (w x : nat -> Q) (N : nat) (a : nat -> Q) : Q :=
  sumQ (fun p => w p * ((x p - a p) * (x p - a p)))%Q (seq 0 N).
Definition uses (N : nat) (cs : list Q) (a : nat -> Q) : Prop := forall p, p < N -> In (a p) cs.

(** * Clustering *)
Lemma rng_seq N : rng 0 N = seq 0 N.
Proof. unfold rng. now rewrite Nat.sub_0_r. Qed.
(** For any number of sorted points with positive weights, the routine returns the least value of
    within-cluster sum of squares plus [reg] for every cluster after the first, over all ways of
    choosing up to [K] centers and giving every point to any of them; and the number of
    additional clusters with which it is reached. *)
Theorem C40_clustering w x N K reg : (forall i, i < N -> (0 < w i)%Q) -> (forall i j, i <= j -> j < N -> (x i <= x j)%Q) ->
  1 <= K -> K <= N -> (0 <= reg)%Q ->
  let r := dynamic_stop w x N K reg in
  snd r < K
  /\ (exists cs a, length cs = S (snd r) /\ uses N cs a /\ (fst r == clustering_cost w x N a + qn (snd r) * reg)%Q)
  /\ (forall cs a, 1 <= length cs <= K -> uses N cs a -> (fst r <= clustering_cost w x N a + qn (length cs - 1) * reg)%Q).
Proof.
  intros Hw Hx H1 H2 Hr r. assert (Hw' : forall i, i < N -> (0 < w i)%Q) by exact Hw.
  destruct (dynamic_stop_spec w x N Hw' Hx K reg Hr H1 H2) as (A & B & C). fold r in A, B, C. split; [exact A|]. split.
  - destruct (reached w x N (snd r) N ltac:(lia) ltac:(lia)) as (cs & a & L & I & V). exists cs, a. split; [exact L|]. split; [exact I|].
    rewrite B. unfold clustering_cost. rewrite <- rng_seq. rewrite V. reflexivity.
  - intros cs a L U. destruct cs as [|c cs]; [cbn in L; lia|].
    destruct (cover w x N Hw' Hx (length cs) (c :: cs) (fun p => w p * ((x p - a p) * (x p - a p)))%Q N) as (q & Q1 & Q2 & Q3); [reflexivity|lia|lia| |].
    { intros p Hp. exists (a p). split; [apply U; exact Hp|lra]. }
    cbn [length] in L |- *. replace (S (length cs) - 1) with (length cs) by lia.
    eapply Qle_trans; [apply (C q); lia|]. unfold clustering_cost. rewrite <- rng_seq.
    assert (M : (qn q * reg <= qn (length cs) * reg)%Q).
    { apply Qmult_le_compat_r; [|exact Hr]. rewrite (qn_lin q (length cs) Q1). pose proof (qn_nonneg (length cs - q)). lra. }
    lra.
Qed.
(** With weight zero for the first point every weight is ignored and every cost is zero. *)
Theorem C40_zero_weight_refuted : exists w x, (forall i j, i <= j -> j < 2 -> (x i <= x j)%Q) /\ (0 <= w 0%nat /\ 0 <= w 1%nat)%Q /\
  (fst (dynamic_stop w x 3 1 1) == 0)%Q /\ forall c, (0 < clustering_cost w x 3 (fun _ => c))%Q.
Proof.
  exists (fun i => if i =? 0 then 0%Q else 1%Q), (fun i => qn i). split; [|split; [cbn; lra|split; [vm_compute; reflexivity|]]].
  - intros i j A B. unfold qn. rewrite <- Zle_Qle. lia.
  - intro c. unfold clustering_cost. cbn [seq sumQ Nat.eqb]. change (qn 1) with 1%Q. change (qn 2) with 2%Q. change (qn 0) with 0%Q.
    pose proof (sq_nonneg (2 * c - 3)) as X. destruct (Qlt_le_dec c (3 # 2)) as [L|L]; nra.
Qed.

(** * The bound of a part of the data *)
Fixpoint rnodes (t : rtree) : nat := match t with RLeaf _ => 0 | RSplit _ l r => S (rnodes l + rnodes r) end.
Fixpoint rleaves (t : rtree) : list Q := match t with RLeaf c => [c] | RSplit _ l r => rleaves l ++ rleaves r end.
Lemma rleaves_length t : length (rleaves t) = S (rnodes t).
Proof. induction t as [c|f l IHl r IHr]; cbn; [reflexivity|]. rewrite app_length, IHl, IHr. lia. Qed.
Lemma rpredict_leaf t x : In (rpredict t x) (rleaves t).
Proof. induction t as [c|f l IHl r IHr]; cbn; [now left|]. apply in_or_app. destruct (has f x); [now right|now left]. Qed.

(** cost of giving a group its nearest center *)
Definition near (cs : list Q) (g : Q * nat) : Q := minl (map (fun c => qn (snd g) * ((fst g - c) * (fst g - c)))%Q cs).
Lemma near_le cs g c : In c cs -> (near cs g <= qn (snd g) * ((fst g - c) * (fst g - c)))%Q.
Proof. intro I. unfold near. apply minl_le. apply in_map_iff. exists c. split; [reflexivity|exact I]. Qed.
Lemma near_in cs g : cs <> [] -> exists c, In c cs /\ (qn (snd g) * ((fst g - c) * (fst g - c)) <= near cs g)%Q.
Proof.
  intro NE. unfold near. destruct (minl_in (map (fun c => qn (snd g) * ((fst g - c) * (fst g - c)))%Q cs)) as (x & I & E); [destruct cs; [now elim NE|discriminate]|].
  apply in_map_iff in I. destruct I as (c & <- & I). exists c. split; [exact I|]. rewrite E. lra.
Qed.

Section Groups.
  Variable p : inst -> Q.
  Variable cs : list Q.
  Hypothesis Hp : forall x, In (p x) cs.
  Lemma groups_cost rest : forall cur y q n acc, 0 < n -> Forall item_ok rest -> same_p p (cur :: rest) ->
    (cc_bound_loop (r_uid cur) y q n acc rest + sumQ (near cs) (cc_groups_loop (r_uid cur) y n rest)
     <= acc + phi (p (r_x cur)) y q n + sumQ (fun i => item_cost (p (r_x i)) i) rest)%Q.
  Proof.
    assert (ONE : forall cur y q n, 0 < n -> (q - y * y / qn n + near cs ((y / qn n)%Q, n) <= phi (p (r_x cur)) y q n)%Q).
    { intros cur y q n N0. pose proof (near_le cs ((y / qn n)%Q, n) (p (r_x cur)) (Hp _)) as L. cbn [fst snd] in L. pose proof (qn_pos n N0) as P. unfold phi.
      assert (E : (qn n * ((y / qn n - p (r_x cur)) * (y / qn n - p (r_x cur))) == y * y / qn n - 2 * p (r_x cur) * y + qn n * p (r_x cur) * p (r_x cur))%Q) by (field; lra). lra. }
    induction rest as [|c rest IH]; intros cur y q n acc N0 OK SP; cbn [cc_bound_loop cc_groups_loop sumQ].
    - pose proof (ONE cur y q n N0). lra.
    - inversion OK as [|? ? [W _] OK']; subst. destruct (r_uid cur =? r_uid c) eqn:U.
      + apply Nat.eqb_eq in U. eapply Qle_trans; [apply (IH cur); [lia|exact OK'|]|].
        * intros i j I J. apply SP; cbn in *; intuition.
        * assert (E : p (r_x cur) = p (r_x c)) by (apply SP; [now left|right; now left|exact U]). unfold item_cost, phi. rewrite E, qn_add. lra.
      + cbn [sumQ]. pose proof (IH c (r_y c) (r_q c) (r_w c) (acc + (q - y * y / qn n))%Q W OK') as X.
        assert (SP' : same_p p (c :: rest)) by (intros i j I J; apply SP; cbn in *; intuition). specialize (X SP').
        pose proof (ONE cur y q n N0). change (item_cost (p (r_x c)) c) with (phi (p (r_x c)) (r_y c) (r_q c) (r_w c)). lra.
  Qed.
End Groups.
Lemma groups_weight rest : forall u y n, 0 < n -> Forall item_ok rest -> Forall (fun g => 0 < snd g) (cc_groups_loop u y n rest).
Proof.
  induction rest as [|c rest IH]; intros u y n N0 OK; cbn [cc_groups_loop]; [constructor; [exact N0|constructor]|].
  inversion OK as [|? ? [W _] OK']; subst. destruct (_ =? _); [apply IH; [lia|exact OK']|]. constructor; [exact N0|]. apply IH; assumption.
Qed.
Lemma wv_insert_perm x l : Permutation (wv_insert x l) (x :: l).
Proof. induction l as [|y l IH]; cbn [wv_insert]; [reflexivity|]. destruct (qlt _ _); [|reflexivity]. rewrite IH. apply perm_swap. Qed.
Lemma wv_sort_perm l : Permutation (wv_sort l) l.
Proof. induction l as [|x l IH]; cbn; [reflexivity|]. rewrite wv_insert_perm, IH. reflexivity. Qed.
Fixpoint ascending (l : list (Q * nat)) : Prop := match l with [] => True | x :: l' => (forall y, In y l' -> (fst x <= fst y)%Q) /\ ascending l' end.
Lemma wv_insert_asc x l : ascending l -> ascending (wv_insert x l).
Proof.
  induction l as [|y l IH]; intro A; cbn [wv_insert]; [cbn; tauto|]. destruct A as [A1 A2]. destruct (qlt (fst y) (fst x)) eqn:E.
  - apply qlt_true in E. cbn [ascending]. split; [|apply IH, A2]. intros z Z. apply (Permutation_in z (wv_insert_perm x l)) in Z. destruct Z as [<-|Z]; [lra|apply A1, Z].
  - apply qlt_false in E. cbn [ascending]. split; [|split; [exact A1|exact A2]]. intros z [<-|Z]; [exact E|]. specialize (A1 z Z). lra.
Qed.
Lemma wv_sort_asc l : ascending (wv_sort l).
Proof. induction l as [|x l IH]; cbn; [exact I|]. apply wv_insert_asc, IH. Qed.
Lemma asc_nth l : ascending l -> forall i j d, i <= j -> j < length l -> (fst (nth i l d) <= fst (nth j l d))%Q.
Proof.
  induction l as [|x l IH]; intros A i j d Hij Hj; [cbn in Hj; lia|]. destruct A as [A1 A2]. destruct i as [|i], j as [|j]; cbn [nth].
  - lra.
  - apply A1. apply nth_In. cbn in Hj. lia.
  - lia.
  - apply IH; [exact A2|lia|cbn in Hj; lia].
Qed.
Lemma sum_nth {A} (f : A -> Q) d l : (sumQ (fun i => f (nth i l d)) (rng 0 (length l)) == sumQ f l)%Q.
Proof.
  rewrite rng_seq. assert (G : forall l k (pre : list A), length pre = k -> (sumQ (fun i => f (nth i (pre ++ l) d)) (seq k (length l)) == sumQ f l)%Q).
  { clear l. induction l as [|x l IH]; intros k pre E; cbn [length seq sumQ]; [reflexivity|].
    rewrite app_nth2 by lia. replace (k - length pre) with 0 by lia. cbn [nth]. replace (pre ++ x :: l) with ((pre ++ [x]) ++ l) by (rewrite <- app_assoc; reflexivity).
    rewrite (IH (S k) (pre ++ [x])) by (rewrite app_length; cbn; lia). reflexivity. }
  apply (G l 0 []). reflexivity.
Qed.

(** The value of the call of the clustering never exceeds what the leaves of a tree cost. *)
Lemma km_call_le gs K bc cs : gs <> [] -> Forall (fun g => 0 < snd g) gs -> (0 <= bc)%Q -> cs <> [] ->
  1 <= K <= length gs -> (K = length gs \/ length cs <= K) ->
  (fst (km_call gs K bc) <= sumQ (near cs) gs + qn (length cs - 1) * bc)%Q.
Proof.
  intros NE W Hb Nc HK HC. unfold km_call. set (s := wv_sort gs). pose proof (wv_sort_perm gs) as P. fold s in P.
  assert (Ls : length s = length gs) by (apply Permutation_length; exact P).
  set (w := fun i => qn (snd (nth i s (0%Q, 0)))). set (x := fun i => fst (nth i s (0%Q, 0))).
  assert (Hw : forall i, i < length s -> (0 < w i)%Q).
  { intros i Hi. unfold w. apply qn_pos. rewrite Forall_forall in W. apply W. apply (Permutation_in _ P). apply nth_In. exact Hi. }
  assert (Hx : forall i j, i <= j -> j < length s -> (x i <= x j)%Q).
  { intros i j A B. unfold x. apply asc_nth; [apply wv_sort_asc|exact A|exact B]. }
  destruct (dynamic_stop_spec w x (length s) Hw Hx K bc Hb ltac:(lia) ltac:(lia)) as (A & B & C).
  destruct (cover w x (length s) Hw Hx (length cs - 1) cs (fun i => near cs (nth i s (0%Q, 0))) (length s)) as (q & Q1 & Q2 & Q3).
  - destruct cs; [now elim Nc|cbn; lia].
  - lia.
  - lia.
  - intros i Hi. destruct (near_in cs (nth i s (0%Q, 0)) Nc) as (c & I & L). exists c. split; [exact I|exact L].
  - rewrite (sum_nth (near cs)) in Q3. rewrite (sumQ_perm _ _ _ P) in Q3. cbv zeta.
    eapply Qle_trans; [apply (C q); lia|].
    assert (M : (qn q * bc <= qn (length cs - 1) * bc)%Q).
    { apply Qmult_le_compat_r; [|exact Hb]. rewrite (qn_lin q (length cs - 1) Q1). pose proof (qn_nonneg (length cs - 1 - q)). lra. }
    lra.
Qed.

(** * The memo *)
Lemma nth_set_nth k j (x : Q) l : nth j (set_nth k x l) 0%Q = if (j =? k) && (k <? length l) then x else nth j l 0%Q.
Proof.
  revert k j. induction l as [|y l IH]; intros [|k] [|j]; cbn [set_nth nth length Nat.eqb andb]; try reflexivity.
  - rewrite andb_false_r. reflexivity.
  - rewrite IH. reflexivity.
Qed.
Lemma nth_fill lo hi (x : Q) : forall l j, nth j (sols_fill lo hi x l) 0%Q = nth j l 0%Q \/ (lo <= j < hi /\ nth j (sols_fill lo hi x l) 0%Q = x).
Proof.
  unfold sols_fill. remember (hi - lo) as m eqn:Em. revert lo hi Em. induction m as [|m IH]; intros lo hi Em l j; cbn [seq fold_left]; [now left|].
  destruct (IH (S lo) hi ltac:(lia) (set_nth lo x l) j) as [E|[B E]].
  - rewrite E, nth_set_nth. destruct (Nat.eqb_spec j lo) as [->|NE]; cbn [andb]; [|now left]. destruct (lo <? length l); [right|now left]. split; [lia|reflexivity].
  - right. split; [lia|exact E].
Qed.
Lemma nth_resize k l j : nth j (sols_resize k l) 0%Q = nth j l 0%Q.
Proof.
  unfold sols_resize. destruct (Nat.lt_ge_cases j (length l)) as [H|H]; [apply app_nth1, H|]. rewrite app_nth2 by exact H. rewrite (nth_overflow l) by exact H.
  generalize (j - length l). generalize (k - length l). clear. intros n. induction n as [|n IH]; intros [|m]; cbn; auto.
Qed.

Section Bound.
  Context (xs : list ritem) (km : bool) (bc : Q).
  (** What is assumed about the part of the data. *)
  Hypothesis Hok : Forall item_ok xs.
  Hypothesis Hne : xs <> [].
  Hypothesis Hsame : forall t, same_p (rpredict t) xs.
  Hypothesis Hbc : (0 <= bc)%Q.
  Definition hard : nat := if km then 50 else 1.
  Definition full_cost (t : rtree) : Q := (cc_tree_cost xs t + qn (rnodes t) * bc)%Q.
  (** A remembered value that may be used at position [i]. *)
  Definition valid (i : nat) (z : Q) : Prop := forall t, rnodes t <= i \/ length (cc_groups xs) <= S i \/ S i = hard -> (z <= full_cost t)%Q.
  Definition memo_ok (sols : list Q) : Prop := forall i, ~ (nth i sols 0 == 0)%Q -> valid i (nth i sols 0%Q).

  Lemma plain_parts t : exists base, cc_bound xs = Some base /\ (base + sumQ (near (rleaves t)) (cc_groups xs) <= cc_tree_cost xs t)%Q.
  Proof.
    pose proof (tree_cost_sum t xs Hok) as TS. pose proof (Hsame t) as SP. pose proof Hok as OK. pose proof Hne as NE. clear Hok Hne Hsame. destruct xs as [|c rest]; [now elim NE|].
    eexists. split; [reflexivity|]. inversion OK as [|? ? [W _] OK']; subst.
    pose proof (groups_cost (rpredict t) (rleaves t) (rpredict_leaf t) rest c (r_y c) (r_q c) (r_w c) 0%Q W OK' SP) as X.
    rewrite TS. cbn [cc_groups sumQ]. change (item_cost (rpredict t (r_x c)) c) with (phi (rpredict t (r_x c)) (r_y c) (r_q c) (r_w c)). lra.
  Qed.
  Lemma near_sum_nonneg cs gs : cs <> [] -> Forall (fun g => 0 < snd g) gs -> (0 <= sumQ (near cs) gs)%Q.
  Proof.
    intros NE W. apply sumQ_nonneg. intros g I. destruct (near_in cs g NE) as (c & _ & L). eapply Qle_trans; [|exact L].
    rewrite Forall_forall in W. pose proof (qn_pos _ (W g I)) as P. apply Qmult_le_0_compat; [lra|]. apply sq_nonneg.
  Qed.
  Lemma groups_ok : cc_groups xs <> [] /\ Forall (fun g => 0 < snd g) (cc_groups xs).
  Proof.
    destruct xs as [|c rest] eqn:E; [now elim Hne|]. cbn [cc_groups]. inversion Hok as [|? ? [W _] OK']; subst. split; [|apply groups_weight; assumption].
    clear. revert c. generalize (r_uid). intros u c. generalize (r_y c) (r_w c). generalize (u c). clear c u. induction rest as [|d rest IH]; intros u y n; cbn [cc_groups_loop]; [discriminate|]. destruct (_ =? _); [apply IH|discriminate].
  Qed.
  Lemma leaves_ne t : rleaves t <> [].
  Proof. intro E. pose proof (rleaves_length t) as L. rewrite E in L. discriminate. Qed.
  Lemma base_valid base i : cc_bound xs = Some base -> valid i base.
  Proof.
    intros E t _. destruct (plain_parts t) as (b & E' & L). rewrite E in E'. injection E' as <-. destruct groups_ok as [_ W].
    pose proof (near_sum_nonneg (rleaves t) (cc_groups xs) (leaves_ne t) W). unfold full_cost.
    assert (M : (0 <= qn (rnodes t) * bc)%Q) by (apply Qmult_le_0_compat; [apply qn_nonneg|exact Hbc]). lra.
  Qed.
  Lemma kmeans_valid base K i : cc_bound xs = Some base -> 1 <= K <= length (cc_groups xs) -> K < hard ->
    (i < K \/ K = length (cc_groups xs)) -> snd (km_call (cc_groups xs) K bc) <= i -> i < K \/ K = length (cc_groups xs) ->
    valid i (base + fst (km_call (cc_groups xs) K bc))%Q.
  Proof.
    intros E HK Hh Hi Hlo _ t Ht. destruct (plain_parts t) as (b & E' & L). rewrite E in E'. injection E' as <-. destruct groups_ok as [NE W].
    pose proof (rleaves_length t) as LL. unfold full_cost.
    assert (X : (fst (km_call (cc_groups xs) K bc) <= sumQ (near (rleaves t)) (cc_groups xs) + qn (length (rleaves t) - 1) * bc)%Q).
    { apply km_call_le; [exact NE|exact W|exact Hbc|apply leaves_ne|exact HK|]. rewrite LL. destruct Hi as [Hi|Hi]; [|now left]. destruct Ht as [Ht|[Ht|Ht]]; [right; lia|left; lia|lia]. }
    rewrite LL in X. replace (S (rnodes t) - 1) with (rnodes t) in X by lia. lra.
  Qed.

  Lemma call_ok sols n : memo_ok sols -> exists z sols', cc_lb_call km bc sols n xs = Some (z, sols') /\ memo_ok sols' /\ forall t, rnodes t <= n -> (z <= full_cost t)%Q.
  Proof.
    intro M. unfold cc_lb_call. fold hard. cbv zeta. set (idx := Nat.min hard (n + 1) - 1). set (s1 := sols_resize (idx + 1) sols).
    assert (Hh : 1 <= hard) by (unfold hard; case km; lia).
    assert (M1 : memo_ok s1) by (intro i; unfold s1; rewrite nth_resize; apply M).
    assert (USE : forall z, valid idx z -> forall t, rnodes t <= n -> (z <= full_cost t)%Q).
    { intros z V t Ht. apply V. destruct (Nat.le_gt_cases (n + 1) hard) as [G|G]; [left; unfold idx; lia|right; right; unfold idx; lia]. }
    assert (SET : forall z s, memo_ok s -> valid idx z -> memo_ok (set_nth idx z s)).
    { intros z s Ms V i. rewrite nth_set_nth. destruct (Nat.eqb_spec i idx) as [->|NE]; cbn [andb]; [|apply Ms]. destruct (idx <? length s); [intros _; exact V|apply Ms]. }
    destruct (Qeq_bool (nth idx s1 0%Q) 0) eqn:Z; cbn [negb].
    2:{ eexists _, _. split; [reflexivity|]. split; [exact M1|]. apply USE. apply M1. intro X. apply Qeq_bool_iff in X. congruence. }
    destruct (plain_parts (RLeaf 0)) as (base & E & _). rewrite E.
    assert (PLAIN : exists z sols', Some (base, set_nth idx base s1) = Some (z, sols') /\ memo_ok sols' /\ forall t, rnodes t <= n -> (z <= full_cost t)%Q).
    { eexists _, _. split; [reflexivity|]. split; [apply SET; [exact M1|]|apply USE]; apply base_valid; exact E. }
    destruct (km && negb (length (cc_groups xs) =? 1)) eqn:Q; [|exact PLAIN].
    apply andb_true_iff in Q. destruct Q as [Qk Qn]. assert (H50 : hard = 50) by (unfold hard; rewrite Qk; reflexivity).
    destruct groups_ok as [NE W]. assert (LN : 1 <= length (cc_groups xs)) by (destruct (cc_groups xs); [now elim NE|cbn; lia]).
    set (K := Nat.min (n + 1) (length (cc_groups xs))).
    (* what is valid for K clusters is valid for n nodes *)
    assert (LIFT : forall z, valid (Nat.min hard K - 1) z -> valid idx z).
    { intros z V t Ht. apply V. unfold idx, K in *. destruct Ht as [Ht|[Ht|Ht]]; lia. }
    destruct (Qeq_bool (nth (Nat.min hard K - 1) s1 0%Q) 0) eqn:Y; cbn [negb].
    2:{ assert (V : valid idx (nth (Nat.min hard K - 1) s1 0%Q)) by (apply LIFT, M1; intro X; apply Qeq_bool_iff in X; congruence).
        eexists _, _. split; [reflexivity|]. split; [apply SET; assumption|apply USE, V]. }
    destruct (Nat.ltb_spec K hard) as [G|G]; [|exact PLAIN].
    set (b := km_call (cc_groups xs) K bc). set (lb := (base + fst b)%Q).
    assert (BK : snd b < K).
    { unfold b, km_call. pose proof (wv_sort_perm (cc_groups xs)) as P. pose proof (Permutation_length P) as LP.
      apply dynamic_stop_spec; [| | exact Hbc | unfold K; lia | rewrite LP; unfold K; lia].
      - intros i Hi. apply qn_pos. rewrite Forall_forall in W. apply W. apply (Permutation_in _ P). apply nth_In. exact Hi.
      - intros i j A B. apply asc_nth; [apply wv_sort_asc|exact A|exact B]. }
    assert (VK : forall i, snd b <= i < K -> valid i lb).
    { intros i Hi. apply kmeans_valid; [exact E|unfold K; lia|exact G|left; lia|apply Hi|left; lia]. }
    assert (VI : valid idx lb).
    { apply LIFT. replace (Nat.min hard K) with K by lia. apply VK. lia. }
    eexists _, _. split; [reflexivity|]. split; [|apply USE, VI]. apply SET; [|exact VI].
    intro i. destruct (nth_fill (snd b) K lb s1 i) as [->|[B ->]]; [apply M1|intros _; apply VK, B].
  Qed.
  Lemma run_ok ns : forall sols, memo_ok sols -> Forall2 (fun n a => exists z, a = Some z /\ forall t, rnodes t <= n -> (z <= full_cost t)%Q) ns (cc_lb_run km bc sols ns xs).
  Proof.
    induction ns as [|n ns IH]; intros sols M; cbn [cc_lb_run]; [constructor|]. destruct (call_ok sols n M) as (z & s' & -> & M' & V).
    constructor; [exists z; split; [reflexivity|exact V]|apply IH, M'].
  Qed.
End Bound.

(** The items of a part of the training data, before or after the rows with equal features were
    put together. *)
Definition part_of (rows : list (inst * Q)) (xs : list ritem) : Prop :=
  forall i, In i xs -> In i (reg_preprocess rows) \/ exists ys, cc_merge (reg_preprocess rows) = Some ys /\ In i ys.
Lemma part_facts rows xs : rows_ok rows -> part_of rows xs -> Forall item_ok xs /\ forall t, same_p (rpredict t) xs.
Proof.
  intros OK IN.
  assert (MI : forall rs cur y q n w i, 0 < n -> (y * y <= qn n * q)%Q -> item_ok cur -> Forall item_ok rs -> In i (cc_group cur y q n w rs) -> item_ok i /\ exists j, (j = cur \/ In j rs) /\ r_x i = r_x j /\ r_uid i = r_uid j).
  { intros rs cur y q n w i N S C F I. split; [pose proof (group_ok rs cur y q n w N S C F) as G; rewrite Forall_forall in G; auto|]. clear N S C F. revert cur y q n w i I. induction rs as [|d rs IH]; intros cur y q n w i I; cbn [cc_group] in I.
    - destruct I as [<-|[]]. exists cur. auto.
    - destruct (_ =? _).
      + destruct (IH _ _ _ _ _ _ I) as (j & J & E & F). exists j. cbn. intuition.
      + destruct I as [<-|I]; [exists cur; unfold close_item; destruct (_ <? _); auto|]. destruct (IH _ _ _ _ _ _ I) as (j & J & E & F). exists j. cbn. intuition. }
  assert (ALL : forall i, In i xs -> item_ok i /\ exists j, In j (reg_preprocess rows) /\ r_x i = r_x j /\ r_uid i = r_uid j).
  { intros i I. destruct (IN i I) as [J|(ys & M & J)]; [split; [apply (items_fv rows); assumption|exists i; auto]|].
    unfold cc_merge in M. pose proof (id_sort_perm (reg_preprocess rows)) as P. destruct (id_sort (reg_preprocess rows)) as [|d ds]; [discriminate|]. injection M as <-.
    assert (IO : forall i, In i (d :: ds) -> item_ok i) by (intros k K; apply (items_fv rows); [exact OK|]; apply (Permutation_in k P), K). pose proof (IO d (or_introl eq_refl)) as [DW DS].
    apply MI in J; [|exact DW|exact DS|split; assumption|apply Forall_forall; intros k K; apply IO; now right]. destruct J as [A (j & J & E & F)]. split; [exact A|]. exists j. split; [|auto]. apply (Permutation_in j P). destruct J as [->|J]; [now left|now right]. }
  split; [apply Forall_forall; intros i I; apply ALL, I|].
  intros t i j I J U. destruct (ALL i I) as [_ (i' & I' & EI & UI)]. destruct (ALL j J) as [_ (j' & J' & EJ & UJ)]. rewrite EI, EJ.
  apply same_rpredict; [apply (items_fv rows); assumption|apply (items_fv rows); assumption|]. apply (preprocess_class rows); [exact I'|exact J'|congruence].
Qed.

(** For every part of every training data set, both settings of the bound and every sequence of node budgets asked for one branch: every answer
    is at most the cost (squared errors plus [bc] per node) of every regression tree with at most
    that many nodes. *)
Theorem C60_bound rows xs km bc ns : rows_ok rows -> part_of rows xs -> xs <> [] -> (0 <= bc)%Q ->
  Forall2 (fun n a => exists z, a = Some z /\ forall t, rnodes t <= n -> (z <= cc_tree_cost xs t + qn (rnodes t) * bc)%Q) ns (cc_lb_run km bc [] ns xs).
Proof.
  intros OK IN NE Hb. destruct (part_facts rows xs OK IN) as [A B]. apply (run_ok xs km bc A NE B Hb). intros i H. destruct i; cbn in H; elim H; reflexivity.
Qed.

(** The same for the bound as the search asks the task for it. *)
Theorem C60_task_bound rows it km bc v b d n g : rows_ok rows -> part_of rows (ccr_items it v) -> ccr_items it v <> [] -> (0 <= bc)%Z ->
  tk_lb (ccr it km bc) = Some g ->
  forall t, rnodes t <= n -> (inject_Z (g v b d n) <= cc_tree_cost (ccr_items it v) t + qn (rnodes t) * inject_Z bc)%Q.
Proof.
  intros OK IN NE Hb [= <-] t Ht. assert (Hb' : (0 <= inject_Z bc)%Q) by (unfold Qle; cbn; rewrite Z.mul_1_r; exact Hb).
  pose proof (C60_bound rows (ccr_items it v) km (inject_Z bc) [n] OK IN NE Hb') as R. cbn [cc_lb_run] in R. cbv beta.
  destruct (cc_lb_call km (inject_Z bc) [] n (ccr_items it v)) as [[z s']|]; inversion R as [|? ? ? ? (z' & E & H) _]; [|discriminate].
  injection E as ->. eapply Qle_trans; [apply Qround.Qfloor_le|]. apply H. exact Ht.
Qed.

(** * Cases *)
Definition km_rows : list (inst * Q) :=
  flat_map (fun p => [p; p]) [(mk_inst 0 [1;1], 12%Q); (mk_inst 0 [1;0], 10%Q); (mk_inst 0 [0;1], 2%Q); (mk_inst 0 [0;0], 0%Q)].
Definition km_items : list ritem := match cc_merge (reg_preprocess km_rows) with Some xs => xs | None => [] end.
Definition show_lb (r : list (option Q)) : list Q := map (fun a => match a with Some z => Qred z | None => (-1)%Q end) r.
Example C60_ex : rows_ok km_rows /\ part_of km_rows km_items /\ length km_items = 4
  /\ show_lb (cc_lb_run true 3 [] [0; 1; 2; 3; 1; 60] km_items) = [208; 11; 10; 9; 11; 9]%Q
  /\ show_lb (cc_lb_run false 3 [] [0; 1; 2; 3; 1; 60] km_items) = [0; 0; 0; 0; 0; 0]%Q
  /\ Qred (cc_tree_cost km_items (RSplit 0 (RSplit 1 (RLeaf 0) (RLeaf 2)) (RSplit 1 (RLeaf 10) (RLeaf 12)))) = 0%Q.
Proof.
  split; [repeat (apply Forall_cons; [apply fv_make_ok|]); apply Forall_nil|]. split.
  - intros i I. right. exists km_items. split; [vm_compute; reflexivity|exact I].
  - split; [vm_compute; reflexivity|]. split; [vm_compute; reflexivity|]. split; vm_compute; reflexivity.
Qed.
Example C40_clustering_ex : let w := fun i => nth i [2;1;1;3;1]%Q 1%Q in let x := fun i => nth i [0;1;5;6;20]%Q 20%Q in
  let r := dynamic_stop w x 5 4 1 in snd r = 2 /\ (fst r == 2 + (2 # 3) + (3 # 4))%Q.
Proof. split; vm_compute; reflexivity. Qed.

(** With more than 300 points the linear-time filler is used: 301 points of two values. *)
Example C40_clustering_many_ex : let w := fun _ : nat => 1%Q in let x := fun i => inject_Z (Z.of_nat (i / 200)) in
  let r := dynamic_stop w x 301 3 1 in (snd r, Qred (fst r)) = (1, 1%Q).
Proof. vm_compute. reflexivity. Qed.
(** The linear-time filler fills cells that do not matter for the answer with values that are not
    minimal: six points of two values in four clusters cost nothing. *)
Theorem C40_cells_refuted : let w := fun _ : nat => 1%Q in let x := fun i => if i <? 5 then 1%Q else 3%Q in
  let r3 := fill_smawk w x 9 (fill_smawk w x 9 (fill_smawk w x 9 (first_row w x 9) 1 1) 2 2) 3 3 in
  (fst r3 5%nat == 2)%Q /\ exists cs a, length cs = 4 /\ uses 6 cs a /\ (clustering_cost w x 6 a == 0)%Q.
Proof.
  split; [vm_compute; reflexivity|]. exists [1; 3; 1; 3]%Q, (fun i => if i <? 5 then 1%Q else 3%Q). split; [reflexivity|]. split.
  - intros p _. destruct (p <? 5); [now left|right; now left].
  - vm_compute. reflexivity.
Qed.

(** * The search *)
(** Squared errors and node costs of a tree of the search; the leaves predict the mean. *)
Fixpoint km_cost (bc : Z) (v : view) (t : tree) : Z :=
  match t with
  | Leaf _ => match cc_leaf 1 (ccr_items (fun i => nth i km_items (RI (mk_inst 0 []) 0 0 0 0)) v) with Some (_, e) => Qfloor e | None => 0%Z end
  | Split f l r => (bc + km_cost bc (map (filter (fun x => negb (has f x))) v) l + km_cost bc (map (filter (has f)) v) r)%Z
  end.
Definition km_view : view := mk_view 1 [([1;1],0); ([1;0],0); ([0;1],0); ([0;0],0)].
Definition km_task (km : bool) : task := ccr (fun i => nth i km_items (RI (mk_inst 0 []) 0 0 0 0)) km 3.
(** The items of the view are the items of the data; every cost of a part of it is whole. *)
Example km_view_items : ccr_items (fun i => nth i km_items (RI (mk_inst 0 []) 0 0 0 0)) km_view = km_items.
Proof. vm_compute. reflexivity. Qed.
Definition km_parts : list view :=
  let p := fun f v => [map (filter (fun x => negb (has f x))) v; map (filter (has f)) v] in
  km_view :: p 0 km_view ++ p 1 km_view ++ flat_map (p 1) (p 0 km_view).
Example C60_task_ex : ccr_items (fun i => nth i km_items (RI (mk_inst 0 []) 0 0 0 0)) km_view = km_items
  /\ option_map (fun g => g km_view [] 3 1) (tk_lb (km_task true)) = Some 11%Z.
Proof. split; vm_compute; reflexivity. Qed.
Example km_whole : forallb (fun v => match cc_leaf 1 (ccr_items (fun i => nth i km_items (RI (mk_inst 0 []) 0 0 0 0)) v) with
  Some (_, e) => Qeq_bool e (inject_Z (Qfloor e)) | None => false end) km_parts = true.
Proof. vm_compute. reflexivity. Qed.
(** Upper and lower bounds and the data set cache on, terminal solver and similarity bound off. *)
Definition km_answer (km : bool) : fit_result :=
  fit (km_task km) (Switches true true true false false false true false 1) (Params 2 3 false no_bound) 2 no_limit km_view.
(** With the k-means bound (the default of the Python class) the search adds a cost per node to
    a bound that already contains it: a tree that is not the best is returned as proven optimal. *)
Theorem C60_search_refuted : exists t,
  allowed (fun f => f < 2) 1 2 3 km_view t
  /\ (km_cost 3 km_view t < nd_sol (fr_value (km_answer true)))%Z
  /\ fr_proven (km_answer true) = true.
Proof.
  exists (Split 0 (Split 1 (Leaf 0) (Leaf 0)) (Split 1 (Leaf 0) (Leaf 0))). split; [|split; vm_compute; reflexivity].
  unfold allowed. split; [|split; [|split]].
  - cbn [fits]. replace (length km_view) with 1 by (vm_compute; reflexivity). lia.
  - cbn [leaves_ok]. repeat split; apply Nat.leb_le; vm_compute; reflexivity.
  - cbn; lia.
  - cbn; lia.
Qed.
(** The plain bound does not lose it. *)
Example C60_search_plain : nd_sol (fr_value (km_answer false)) = 9%Z /\ nd_sol (fr_value (km_answer true)) = 11%Z.
Proof. split; vm_compute; reflexivity. Qed.

Print Assumptions C40_clustering.
Print Assumptions C40_cells_refuted.
Print Assumptions C40_zero_weight_refuted.
Print Assumptions C60_bound.
Print Assumptions C60_task_bound.
Print Assumptions C60_search_refuted.
