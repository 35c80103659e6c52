(** C41: binarisation. *)
From Coq Require Import List ZArith QArith Qround Bool Arith Lia Lqa Sorted Permutation.
From Verif Require Import Model_Binarizer.
Import ListNotations.
Local Open Scope Q_scope.

Lemma qle_t a b : Qle_bool a b = true <-> a <= b.
Proof. apply Qle_bool_iff. Qed.
Lemma qle_f a b : Qle_bool a b = false <-> b < a.
Proof.
  split; intros H.
  - destruct (Qlt_le_dec b a) as [X|X]; [exact X|]. apply Qle_bool_iff in X. congruence.
  - destruct (Qle_bool a b) eqn:E; [|reflexivity]. apply Qle_bool_iff in E. lra.
Qed.
Lemma qeq_t a b : Qeq_bool a b = true <-> a == b.
Proof. apply Qeq_bool_iff. Qed.
Lemma qeq_f a b : Qeq_bool a b = false <-> ~ a == b.
Proof. rewrite <- qeq_t. destruct (Qeq_bool a b); intuition congruence. Qed.

(** * Sorted lists *)
Lemma uinsert_in x y l : In y (uinsert x l) -> y = x \/ In y l.
Proof.
  induction l as [|z l IH]; cbn; [intuition|]. destruct (Qeq_bool x z); [auto|]. destruct (Qle_bool x z); cbn; intuition.
Qed.
Lemma uinsert_keeps x y l : In y l -> In y (uinsert x l).
Proof. induction l as [|z l IH]; cbn; [tauto|]. destruct (Qeq_bool x z); [auto|]. destruct (Qle_bool x z); cbn; intuition. Qed.
Lemma uinsert_has x l : exists y, In y (uinsert x l) /\ y == x.
Proof.
  induction l as [|z l (y & I & E)]; cbn; [exists x; split; [now left|reflexivity]|]. destruct (Qeq_bool x z) eqn:B.
  - apply qeq_t in B. exists z. split; [now left|]. symmetry. exact B.
  - destruct (Qle_bool x z); [exists x; split; [now left|reflexivity]|]. exists y. split; [now right|exact E].
Qed.
Lemma uinsert_sorted x l : StronglySorted Qlt l -> StronglySorted Qlt (uinsert x l).
Proof.
  induction 1 as [|z l S IH F]; cbn; [repeat constructor|]. destruct (Qeq_bool x z) eqn:B; [constructor; assumption|]. apply qeq_f in B.
  destruct (Qle_bool x z) eqn:L.
  - apply qle_t in L. constructor; [constructor; assumption|]. constructor; [lra|]. eapply Forall_impl; [|exact F]. cbn. intros; lra.
  - apply qle_f in L. constructor; [exact IH|]. apply Forall_forall. intros y I. apply uinsert_in in I. destruct I as [->|I]; [exact L|]. rewrite Forall_forall in F. auto.
Qed.
Lemma unique_sorted l : StronglySorted Qlt (unique l).
Proof. induction l; cbn; [constructor|]. now apply uinsert_sorted. Qed.
Lemma unique_in x l : In x (unique l) -> In x l.
Proof. induction l as [|y l IH]; cbn; [tauto|]. intros I. apply uinsert_in in I. destruct I as [->|I]; auto. Qed.
Lemma unique_has x l : In x l -> exists y, In y (unique l) /\ y == x.
Proof.
  induction l as [|y l IH]; cbn; [tauto|]. intros [->|I]; [apply uinsert_has|]. destruct (IH I) as (z & J & E). exists z. split; [now apply uinsert_keeps|exact E].
Qed.
Lemma uinsert_length x l : (length (uinsert x l) <= S (length l))%nat.
Proof. induction l as [|z l IH]; cbn; [lia|]. destruct (Qeq_bool x z); [cbn; lia|]. destruct (Qle_bool x z); cbn; lia. Qed.
Lemma unique_length l : (length (unique l) <= length l)%nat.
Proof. induction l as [|y l IH]; cbn [length]; [cbn; lia|]. change (unique (y :: l)) with (uinsert y (unique l)). pose proof (uinsert_length y (unique l)). lia. Qed.
Lemma hd_le l x : StronglySorted Qlt l -> In x l -> col_min l <= x.
Proof. intros S I. inversion S as [|z l' S' F]; subst; [destruct I|]. unfold col_min. cbn [hd]. destruct I as [->|I]; [lra|]. rewrite Forall_forall in F. specialize (F x I). lra. Qed.
Lemma last_cons2 (a b : Q) l : last (a :: b :: l) 0 = last (b :: l) 0.
Proof. reflexivity. Qed.
Lemma last_ge l x : StronglySorted Qlt l -> In x l -> x <= col_max l.
Proof.
  unfold col_max. intros S. revert x. induction S as [|z l S IH F]; intros x I; [destruct I|]. destruct l as [|b l]; [destruct I as [->|[]]; cbn [last]; lra|]. rewrite last_cons2.
  destruct I as [->|I]; [|auto]. rewrite Forall_forall in F. specialize (F b (or_introl eq_refl)). specialize (IH b (or_introl eq_refl)). lra.
Qed.
Lemma hd_in (l : list Q) : l <> [] -> In (col_min l) l.
Proof. destruct l; [contradiction|]. now left. Qed.
Lemma last_in (l : list Q) : l <> [] -> In (col_max l) l.
Proof. unfold col_max. intros NE. destruct (exists_last NE) as (l' & x & ->). rewrite last_last. apply in_or_app. right. now left. Qed.
Lemma midpoints_cons a b l : midpoints (a :: b :: l) = midpoint a b :: midpoints (b :: l).
Proof. reflexivity. Qed.
Lemma mid_between a b : a < b -> a < midpoint a b /\ midpoint a b < b.
Proof. unfold midpoint. intros H. split; [apply Qlt_shift_div_l; lra|apply Qlt_shift_div_r; lra]. Qed.
Lemma midpoints_between l m : StronglySorted Qlt l -> In m (midpoints l) -> col_min l < m /\ m < col_max l.
Proof.
  unfold col_min, col_max. induction 1 as [|a l S IH F]; [intros []|]. destruct l as [|b l]; [intros []|]. rewrite midpoints_cons, last_cons2. cbn [hd].
  assert (AB : a < b) by (rewrite Forall_forall in F; apply F; now left). intros [<-|I].
  - destruct (mid_between a b AB). split; [assumption|]. pose proof (last_ge (b :: l) b S (or_introl eq_refl)) as LG. unfold col_max in LG. lra.
  - destruct (IH I) as [H1 H2]. cbn [hd] in H1. split; [lra|exact H2].
Qed.
Lemma midpoints_sorted l : StronglySorted Qlt l -> StronglySorted Qlt (midpoints l).
Proof.
  induction 1 as [|a l S IH F]; [constructor|]. destruct l as [|b l]; [constructor|]. rewrite midpoints_cons. constructor; [exact IH|].
  assert (AB : a < b) by (rewrite Forall_forall in F; apply F; now left). destruct (mid_between a b AB).
  apply Forall_forall. intros m I. destruct (midpoints_between _ _ S I) as [H1 _]. cbn [col_min hd] in H1. unfold col_min in H1. cbn in H1. lra.
Qed.
Lemma midpoints_split l a b : StronglySorted Qlt l -> In a l -> In b l -> a < b -> exists m, In m (midpoints l) /\ a <= m /\ m < b.
Proof.
  induction 1 as [|c l S IH F]; intros A B L; [destruct A|]. rewrite Forall_forall in F. destruct l as [|d l].
  - destruct A as [<-|[]], B as [<-|[]]. lra.
  - rewrite midpoints_cons. assert (CD : c < d) by (apply F; now left). destruct (mid_between c d CD) as [M1 M2].
    destruct A as [<-|A].
    + exists (midpoint c d). split; [now left|]. split; [lra|]. destruct B as [<-|B]; [lra|]. pose proof (hd_le (d :: l) b S B) as H. cbn in H. lra.
    + destruct B as [<-|B].
      * specialize (F a A). lra.
      * destruct (IH A B L) as (m & I & H). exists m. split; [now right|exact H].
Qed.
Lemma midpoints_length l : length (midpoints l) = (length l - 1)%nat.
Proof. induction l as [|a l IH]; [reflexivity|]. destruct l as [|b l]; [reflexivity|]. rewrite midpoints_cons. cbn [length] in *. lia. Qed.

(** * Thresholds *)
Lemma inj_lt a b : (a < b)%nat -> inject_Z (Z.of_nat a) < inject_Z (Z.of_nat b).
Proof. intros H. rewrite <- Zlt_Qlt. lia. Qed.
Lemma linspace_sorted lo hi n : (0 < n)%nat -> lo < hi -> StronglySorted Qlt (linspace lo hi n).
Proof.
  intros N L. unfold linspace. set (s := (hi - lo) / inject_Z (Z.of_nat n)).
  assert (SP : 0 < s) by (apply Qlt_shift_div_l; [change 0 with (inject_Z (Z.of_nat 0)); now apply inj_lt|lra]).
  generalize (S n) as k. intros k. generalize 0%nat as i. induction k as [|k IH]; intros i; cbn [seq map]; [constructor|]. constructor; [apply IH|].
  apply Forall_forall. intros x I. apply in_map_iff in I. destruct I as (j & <- & J). apply in_seq in J.
  assert (H : inject_Z (Z.of_nat i) * s < inject_Z (Z.of_nat j) * s) by (apply Qmult_lt_r; [exact SP|apply inj_lt; lia]). lra.
Qed.
Lemma linspace_min lo hi n : col_min (linspace lo hi n) == lo.
Proof. unfold linspace, col_min. cbn [seq map hd]. change (inject_Z (Z.of_nat 0)) with 0. lra. Qed.
Lemma linspace_max lo hi n : (0 < n)%nat -> col_max (linspace lo hi n) == hi.
Proof.
  intros N. unfold linspace, col_max. rewrite seq_S, map_app. cbn [map]. rewrite last_last, Nat.add_0_l.
  assert (P : ~ inject_Z (Z.of_nat n) == 0) by (unfold Qeq; cbn; lia). field. exact P.
Qed.

(** The thresholds of a column ascend. *)
Definition given_ok (st : strategy) : Prop := match st with Given c => StronglySorted Qle c | _ => True end.
Lemma lt_le l : StronglySorted Qlt l -> StronglySorted Qle l.
Proof. induction 1 as [|a l S IH F]; constructor; auto. eapply Forall_impl; [|exact F]. cbn; intros; lra. Qed.
Theorem C41_ascending st n col : given_ok st -> StronglySorted Qle (thresholds st n col).
Proof.
  intros G. unfold thresholds. destruct (_ || _); [constructor|]. destruct st; [| |exact G]; (destruct (_ <=? _)%nat; [apply lt_le, midpoints_sorted, unique_sorted|apply lt_le, unique_sorted]).
Qed.
(** So every value falls in exactly one of the intervals: its indicators are a run of "above"
    (the thresholds below the value) followed by a run of "at most". *)
Theorem C41_interval cuts x : StronglySorted Qle cuts -> exists k, threshold_bits cuts x = repeat false k ++ repeat true (length cuts - k) /\ (k <= length cuts)%nat
  /\ (forall i, (i < k)%nat -> nth i cuts 0 < x) /\ (forall i, (k <= i < length cuts)%nat -> x <= nth i cuts 0).
Proof.
  induction 1 as [|c cuts S (k & E & L & B & A) F].
  - exists 0%nat. repeat split; intros; cbn in *; try lia.
  - cbn [threshold_bits map]. fold (threshold_bits cuts x). destruct (Qle_bool x c) eqn:Q.
    + apply qle_t in Q. exists 0%nat. rewrite Nat.sub_0_r. split; [|split; [lia|split; [intros; lia|]]].
      * cbn [repeat app length]. f_equal. clear E A B k L. induction F as [|d l D F IH]; cbn; [reflexivity|]. replace (Qle_bool x d) with true by (symmetry; apply qle_t; lra). f_equal. apply IH. now inversion S.
      * intros [|i] [_ I]; cbn [nth]; [exact Q|]. cbn in I. rewrite Forall_forall in F. specialize (F (nth i cuts 0) ltac:(apply nth_In; lia)). lra.
    + apply qle_f in Q. exists (Datatypes.S k). cbn [repeat app length]. rewrite E. split; [reflexivity|]. split; [lia|]. split.
      * intros [|i] I; cbn [nth]; [exact Q|apply B; lia].
      * intros [|i] I; [lia|]. cbn [nth]. apply A. lia.
Qed.
(** An indicator never switches on again for a larger value. *)
Theorem C41_monotone cuts x y i : x <= y -> nth i (threshold_bits cuts y) false = true -> nth i (threshold_bits cuts x) false = true.
Proof.
  intros L. revert i. induction cuts as [|c cuts IH]; intros [|i]; cbn; auto. intros H. apply qle_t in H. apply qle_t. lra.
Qed.
(** No more thresholds than asked for, all of them inside the range of the column. *)
Theorem C41_count st n col : match st with Given _ => False | _ => True end -> (length (thresholds st n col) <= n)%nat.
Proof.
  intros G. unfold thresholds. destruct (_ || _); [cbn; lia|]. destruct st as [| |g]; [| |destruct G]; destruct (_ <=? _)%nat eqn:E.
  - apply Nat.leb_le in E. rewrite midpoints_length. lia.
  - etransitivity; [apply unique_length|]. rewrite map_length, seq_length. lia.
  - apply Nat.leb_le in E. rewrite midpoints_length. lia.
  - etransitivity; [apply unique_length|]. rewrite midpoints_length. unfold linspace. rewrite map_length, seq_length. lia.
Qed.

Lemma insert_in x y l : In y (insert x l) <-> y = x \/ In y l.
Proof. induction l as [|z l IH]; cbn; [intuition|]. destruct (Qle_bool x z); cbn; [intuition|]. rewrite IH. intuition. Qed.
Lemma sort_in x l : In x (sort l) <-> In x l.
Proof. induction l as [|y l IH]; cbn; [tauto|]. rewrite insert_in, IH. intuition. Qed.
Lemma sort_length l : length (sort l) = length l.
Proof. induction l as [|y l IH]; [reflexivity|]. change (sort (y :: l)) with (insert y (sort l)). cbn [length]. rewrite <- IH. generalize (sort l). clear. induction l as [|z l IH]; cbn; [reflexivity|]. destruct (Qle_bool y z); cbn; congruence. Qed.
Lemma quantile_between col q lo hi : col <> [] -> 0 <= q -> q <= 1 -> (forall x, In x col -> lo <= x /\ x <= hi) -> lo <= quantile col q /\ quantile col q <= hi.
Proof.
  intros NE Q0 Q1 H. unfold quantile. set (h := q * inject_Z (Z.of_nat (length col) - 1)). set (k := Qfloor h).
  assert (LN : (0 < length col)%nat) by (destruct col; [contradiction|cbn; lia]).
  assert (P0 : 0 <= inject_Z (Z.of_nat (length col) - 1)) by (change 0 with (inject_Z 0); rewrite <- Zle_Qle; lia).
  assert (H0 : 0 <= h) by (unfold h; apply Qmult_le_0_compat; assumption).
  assert (H1 : h <= inject_Z (Z.of_nat (length col) - 1)).
  { unfold h. setoid_replace (inject_Z (Z.of_nat (length col) - 1)) with (1 * inject_Z (Z.of_nat (length col) - 1)) at 2 by lra. apply Qmult_le_compat_r; assumption. }
  assert (K0 : (0 <= k)%Z) by (unfold k; change 0%Z with (Qfloor 0); now apply Qfloor_resp_le).
  assert (K1 : (k <= Z.of_nat (length col) - 1)%Z) by (unfold k; rewrite <- (Qfloor_Z (Z.of_nat (length col) - 1)); now apply Qfloor_resp_le).
  assert (A : In (nth (Z.to_nat k) (sort col) 0) col) by (apply sort_in, nth_In; rewrite sort_length; lia).
  assert (B : In (nth (Nat.min (S (Z.to_nat k)) (length (sort col) - 1)) (sort col) 0) col) by (apply sort_in, nth_In; rewrite sort_length; lia).
  destruct (H _ A) as [A1 A2], (H _ B) as [B1 B2]. set (a := nth (Z.to_nat k) (sort col) 0) in *. set (b := nth _ (sort col) 0) in *.
  assert (F0 : 0 <= h - inject_Z k) by (pose proof (Qfloor_le h); fold k in H2; lra).
  assert (F1 : h - inject_Z k <= 1) by (pose proof (Qlt_floor h) as X; fold k in X; rewrite inject_Z_plus in X; change (inject_Z 1) with 1 in X; lra).
  generalize dependent (h - inject_Z k). intros f F0 F1. clear - A1 A2 B1 B2 F0 F1. split; nra.
Qed.
Theorem C41_inside st n col c : match st with Given _ => False | _ => True end -> In c (thresholds st n col) ->
  exists lo hi, In lo col /\ In hi col /\ lo <= c /\ c <= hi.
Proof.
  intros G I. unfold thresholds in I. destruct ((n =? 0)%nat || _) eqn:Z; [destruct I|]. apply orb_false_iff in Z. destruct Z as [N0 MM]. apply Nat.eqb_neq in N0. apply qeq_f in MM.
  assert (NE : unique col <> []) by (intros E; rewrite E in MM; apply MM; reflexivity).
  assert (CN : col <> []) by (intros ->; apply NE; reflexivity).
  pose proof (hd_in _ NE) as HI. pose proof (last_in _ NE) as LI. exists (col_min (unique col)), (col_max (unique col)).
  split; [now apply unique_in|]. split; [now apply unique_in|].
  assert (R : forall x, In x col -> col_min (unique col) <= x /\ x <= col_max (unique col)).
  { intros x X. destruct (unique_has x col X) as (y & Y & E). pose proof (hd_le _ _ (unique_sorted col) Y). pose proof (last_ge _ _ (unique_sorted col) Y). lra. }
  assert (LT : col_min (unique col) < col_max (unique col)).
  { destruct (R _ (unique_in _ _ LI)) as [A _]. destruct (Qlt_le_dec (col_min (unique col)) (col_max (unique col))) as [X|X]; [exact X|]. exfalso. apply MM. lra. }
  destruct st as [| |g]; [| |destruct G]; destruct (_ <=? _)%nat eqn:E.
  - destruct (midpoints_between _ _ (unique_sorted col) I). lra.
  - apply unique_in, in_map_iff in I. destruct I as (i & <- & J). apply in_seq in J. apply quantile_between; auto.
    + apply Qle_shift_div_l; [change 0 with (inject_Z (Z.of_nat 0)); apply inj_lt; lia|]. rewrite Qmult_0_l. change 0 with (inject_Z 0). rewrite <- Zle_Qle. lia.
    + apply Qle_shift_div_r; [change 0 with (inject_Z (Z.of_nat 0)); apply inj_lt; lia|]. rewrite Qmult_1_l, <- Zle_Qle. lia.
  - destruct (midpoints_between _ _ (unique_sorted col) I). lra.
  - apply unique_in in I. destruct (midpoints_between _ _ (linspace_sorted _ _ n ltac:(lia) LT) I) as [A B]. rewrite linspace_min in A. rewrite linspace_max in B by lia. lra.
Qed.
(** With the uniform strategy, or few distinct values, a threshold has training values on both
    sides; the quantile strategy may give a threshold that all training values meet (refuted). *)
Theorem C41_both_sides st n col c : (st = Uniform \/ (st = Quantile /\ length (unique col) <= n + 1)%nat) -> In c (thresholds st n col) ->
  exists lo hi, In lo col /\ In hi col /\ Qle_bool lo c = true /\ Qle_bool hi c = false.
Proof.
  intros G I. unfold thresholds in I. destruct ((n =? 0)%nat || _) eqn:Z; [destruct I|]. apply orb_false_iff in Z. destruct Z as [N0 MM]. apply Nat.eqb_neq in N0. apply qeq_f in MM.
  assert (NE : unique col <> []) by (intros E; rewrite E in MM; apply MM; reflexivity).
  pose proof (hd_in _ NE) as HI. pose proof (last_in _ NE) as LI. exists (col_min (unique col)), (col_max (unique col)).
  split; [now apply unique_in|]. split; [now apply unique_in|]. rewrite qle_t, qle_f.
  assert (LT : col_min (unique col) < col_max (unique col)).
  { pose proof (last_ge _ _ (unique_sorted col) HI) as A. destruct (Qlt_le_dec (col_min (unique col)) (col_max (unique col))) as [X|X]; [exact X|]. exfalso. apply MM. lra. }
  destruct G as [->|[-> U]].
  - destruct (_ <=? _)%nat eqn:E.
    + destruct (midpoints_between _ _ (unique_sorted col) I). lra.
    + apply unique_in in I. destruct (midpoints_between _ _ (linspace_sorted _ _ n ltac:(lia) LT) I) as [A B]. rewrite linspace_min in A. rewrite linspace_max in B by lia. lra.
  - apply Nat.leb_le in U. rewrite U in I. destruct (midpoints_between _ _ (unique_sorted col) I). lra.
Qed.
Theorem C41_constant_indicator_refuted : exists col c, In c (thresholds Quantile 1 col) /\ Forall (fun x => Qle_bool x c = true) col.
Proof. set (col := [0; 1; 2; 2; 2; 2; 2]). exists col, (hd 0 (thresholds Quantile 1 col)). split; [vm_compute; now left|]. unfold col at 2. repeat (constructor; [reflexivity|]); constructor. Qed.
(** The quantile strategy spreads the thresholds evenly over the training values: for every
    i = 1 .. n there is a threshold that more than the share i/(n+1) of the other values is at
    most, and more than the share 1 - i/(n+1) at least. *)
Definition at_most (col : list Q) (c : Q) : nat := length (filter (fun x => Qle_bool x c) col).
Definition at_least (col : list Q) (c : Q) : nat := length (filter (fun x => Qle_bool c x) col).
Lemma insert_perm x l : Permutation (insert x l) (x :: l).
Proof. induction l as [|y l IH]; cbn; [reflexivity|]. destruct (Qle_bool x y); [reflexivity|]. rewrite IH. apply perm_swap. Qed.
Lemma sort_perm l : Permutation (sort l) l.
Proof. induction l as [|y l IH]; cbn; [constructor|]. fold (sort l). rewrite insert_perm. now constructor. Qed.
Lemma insert_sorted x l : StronglySorted Qle l -> StronglySorted Qle (insert x l).
Proof.
  induction 1 as [|z l S IH F]; cbn; [repeat constructor|]. destruct (Qle_bool x z) eqn:L.
  - apply qle_t in L. constructor; [constructor; assumption|]. constructor; [lra|]. eapply Forall_impl; [|exact F]. cbn. intros; lra.
  - apply qle_f in L. constructor; [exact IH|]. apply Forall_forall. intros y I. apply insert_in in I. destruct I as [->|I]; [lra|]. rewrite Forall_forall in F. auto.
Qed.
Lemma sort_sorted l : StronglySorted Qle (sort l).
Proof. induction l; cbn; [constructor|]. now apply insert_sorted. Qed.
Lemma filter_len_perm {A} (f : A -> bool) l l' : Permutation l l' -> length (filter f l) = length (filter f l').
Proof. induction 1; cbn; try congruence; [destruct (f x); cbn; congruence|destruct (f x), (f y); reflexivity]. Qed.
Lemma below_count s c k : StronglySorted Qle s -> (k < length s)%nat -> nth k s 0 <= c -> (k < at_most s c)%nat.
Proof.
  intros S. revert k. induction S as [|a s S IH F]; intros k L H; [cbn in L; lia|]. unfold at_most. cbn [filter].
  assert (A : a <= c). { destruct k as [|k]; [exact H|]. cbn [nth] in H. rewrite Forall_forall in F. specialize (F (nth k s 0) ltac:(apply nth_In; cbn in L; lia)). lra. }
  apply qle_t in A. rewrite A. cbn [length]. destruct k as [|k]; [lia|]. cbn in L, H. specialize (IH k ltac:(lia) H). unfold at_most in IH. lia.
Qed.
Lemma above_count s c k : StronglySorted Qle s -> (k < length s)%nat -> c <= nth k s 0 -> (length s - k <= at_least s c)%nat.
Proof.
  intros S. revert k. induction S as [|a s S IH F]; intros k L H; [cbn in L; lia|]. unfold at_least. cbn [filter].
  destruct k as [|k].
  - cbn [nth] in H. replace (filter (fun x => Qle_bool c x) s) with s.
    + destruct (Qle_bool c a) eqn:E; [cbn; lia|]. apply qle_f in E. lra.
    + clear - F H. induction F as [|b s B F IH]; cbn; [reflexivity|]. replace (Qle_bool c b) with true by (symmetry; apply qle_t; lra). now rewrite <- IH.
  - cbn in L, H. specialize (IH k ltac:(lia) H). unfold at_least in IH. destruct (Qle_bool c a); cbn [length]; lia.
Qed.
Lemma quantile_shares col q : col <> [] -> 0 <= q -> q < 1 ->
  q * inject_Z (Z.of_nat (length col) - 1) < inject_Z (Z.of_nat (at_most col (quantile col q)))
  /\ (1 - q) * inject_Z (Z.of_nat (length col) - 1) < inject_Z (Z.of_nat (at_least col (quantile col q))).
Proof.
  intros NE Q0 Q1. unfold quantile. set (N := Z.of_nat (length col)). set (h := q * inject_Z (N - 1)). set (k := Qfloor h).
  assert (LN : (0 < length col)%nat) by (destruct col; [contradiction|cbn; lia]).
  assert (P0 : 0 <= inject_Z (N - 1)) by (change 0 with (inject_Z 0); rewrite <- Zle_Qle; lia).
  assert (H0 : 0 <= h) by (unfold h; apply Qmult_le_0_compat; assumption).
  assert (H1 : h <= inject_Z (N - 1)).
  { unfold h. setoid_replace (inject_Z (N - 1)) with (1 * inject_Z (N - 1)) at 2 by lra. apply Qmult_le_compat_r; [lra|assumption]. }
  assert (K0 : (0 <= k)%Z) by (unfold k; change 0%Z with (Qfloor 0); now apply Qfloor_resp_le).
  assert (K1 : (k <= N - 1)%Z) by (unfold k; rewrite <- (Qfloor_Z (N - 1)); now apply Qfloor_resp_le).
  pose proof (Qfloor_le h) as F0. pose proof (Qlt_floor h) as F1. fold k in F0, F1. rewrite inject_Z_plus in F1. change (inject_Z 1) with 1 in F1.
  set (a := nth (Z.to_nat k) (sort col) 0). set (b := nth (Nat.min (S (Z.to_nat k)) (length (sort col) - 1)) (sort col) 0).
  assert (AB : a <= b).
  { unfold a, b. assert (G : forall s, StronglySorted Qle s -> forall i j, (i <= j < length s)%nat -> nth i s 0 <= nth j s 0).
    { induction 1 as [|x s S IH F]; intros i j [I J]; [cbn in J; lia|]. destruct j as [|j]; [replace i with 0%nat by lia; lra|]. cbn in J.
      destruct i as [|i]; cbn [nth]; [rewrite Forall_forall in F; apply F, nth_In; lia|apply IH; lia]. }
    apply G; [apply sort_sorted|]. rewrite sort_length. lia. }
  set (c := a + (h - inject_Z k) * (b - a)).
  assert (CA : a <= c) by (unfold c; assert (0 <= (h - inject_Z k) * (b - a)) by (apply Qmult_le_0_compat; lra); lra).
  assert (CB : c <= b) by (unfold c; assert ((h - inject_Z k) * (b - a) <= 1 * (b - a)) by (apply Qmult_le_compat_r; lra); lra).
  split.
  - assert (C : (Z.to_nat k < at_most (sort col) c)%nat) by (apply below_count; [apply sort_sorted|rewrite sort_length; lia|exact CA]).
    unfold at_most in *. rewrite (filter_len_perm _ _ _ (sort_perm col)) in C.
    apply Qlt_le_trans with (inject_Z (k + 1)); [rewrite inject_Z_plus; exact F1|]. rewrite <- Zle_Qle. lia.
  - setoid_replace ((1 - q) * inject_Z (N - 1)) with (inject_Z (N - 1) - h) by (unfold h; ring).
    destruct (Qlt_le_dec (inject_Z k) h) as [X|X].
    + assert (KN : (k < N - 1)%Z). { rewrite Zlt_Qlt. apply Qlt_le_trans with h; assumption. }
      assert (C : (length (sort col) - S (Z.to_nat k) <= at_least (sort col) c)%nat).
      { apply above_count; [apply sort_sorted|rewrite sort_length; lia|]. eapply Qle_trans; [exact CB|]. unfold b. rewrite sort_length. replace (Nat.min _ _) with (S (Z.to_nat k)) by lia. apply Qle_refl. }
      unfold at_least in *. rewrite (filter_len_perm _ _ _ (sort_perm col)), sort_length in C.
      apply Qlt_le_trans with (inject_Z (N - 1 - k)).
      * setoid_replace (inject_Z (N - 1 - k)) with (inject_Z (N - 1) - inject_Z k) by (unfold Qminus; rewrite <- inject_Z_opp, <- inject_Z_plus; reflexivity). lra.
      * rewrite <- Zle_Qle. lia.
    + assert (CE : c <= a) by (unfold c; assert (HK : h - inject_Z k == 0) by lra; rewrite HK; lra).
      assert (C : (length (sort col) - Z.to_nat k <= at_least (sort col) c)%nat) by (apply above_count; [apply sort_sorted|rewrite sort_length; lia|exact CE]).
      unfold at_least in *. rewrite (filter_len_perm _ _ _ (sort_perm col)), sort_length in C.
      apply Qlt_le_trans with (inject_Z (N - k)).
      * setoid_replace (inject_Z (N - k)) with (inject_Z (N - 1) + 1 - inject_Z k) by (change 1 with (inject_Z 1); unfold Qminus; rewrite <- inject_Z_opp, <- !inject_Z_plus; f_equiv; lia). lra.
      * rewrite <- Zle_Qle. lia.
Qed.
Theorem C41_quantiles n col i : (n + 1 < length (unique col))%nat -> (1 <= i <= n)%nat ->
  exists c, In c (thresholds Quantile n col) /\ (i * (length col - 1) < (n + 1) * at_most col c)%nat /\ ((n + 1 - i) * (length col - 1) < (n + 1) * at_least col c)%nat.
Proof.
  intros U I. unfold thresholds. replace (n =? 0)%nat with false by (symmetry; apply Nat.eqb_neq; lia). cbn [orb].
  destruct (Qeq_bool (col_min (unique col)) (col_max (unique col))) eqn:MM.
  - exfalso. apply qeq_t in MM. pose proof (unique_sorted col) as S. destruct (unique col) as [|a [|b u]] eqn:E; cbn in U; try lia.
    pose proof (last_ge _ b S ltac:(right; now left)) as L. cbn [col_min hd] in MM. unfold col_min in MM. cbn [hd] in MM.
    inversion S as [|? ? _ F]; subst. rewrite Forall_forall in F. specialize (F b (or_introl eq_refl)). lra.
  - replace (length (unique col) <=? n + 1)%nat with false by (symmetry; apply Nat.leb_gt; lia).
    set (q := inject_Z (Z.of_nat i) / inject_Z (Z.of_nat (n + 1))).
    assert (NP : 0 < inject_Z (Z.of_nat (n + 1))) by (change 0 with (inject_Z 0); rewrite <- Zlt_Qlt; lia).
    assert (Q0 : 0 <= q). { apply Qle_shift_div_l; [exact NP|]. rewrite Qmult_0_l. change 0 with (inject_Z 0). rewrite <- Zle_Qle. lia. }
    assert (Q1 : q < 1). { apply Qlt_shift_div_r; [exact NP|]. rewrite Qmult_1_l, <- Zlt_Qlt. lia. }
    assert (NE : col <> []) by (intros ->; cbn in U; lia). assert (LN : (0 < length col)%nat) by (destruct col; [contradiction|cbn; lia]).
    destruct (quantile_shares col q NE Q0 Q1) as [A B].
    assert (qn : q * inject_Z (Z.of_nat (n + 1)) == inject_Z (Z.of_nat i)) by (unfold q; field; lra).
    destruct (unique_has (quantile col q) (map (fun i => quantile col (inject_Z (Z.of_nat i) / inject_Z (Z.of_nat (n + 1)))) (seq 1 n))) as (c & C & E).
    { apply in_map_iff. exists i. split; [reflexivity|]. apply in_seq. lia. }
    exists c. split; [exact C|].
    assert (EM : at_most col c = at_most col (quantile col q)).
    { unfold at_most. f_equal. apply filter_ext. intros x. apply eq_true_iff_eq. rewrite !qle_t, E. reflexivity. }
    assert (EL : at_least col c = at_least col (quantile col q)).
    { unfold at_least. f_equal. apply filter_ext. intros x. apply eq_true_iff_eq. rewrite !qle_t, E. reflexivity. }
    rewrite EM, EL. generalize dependent (at_most col (quantile col q)). generalize dependent (at_least col (quantile col q)). intros m B _ k A _.
    split; apply Nat2Z.inj_lt; rewrite !Nat2Z.inj_mul, Zlt_Qlt, !inject_Z_mult, Nat2Z.inj_sub by lia.
    + change (Z.of_nat 1) with 1%Z. rewrite <- qn.
      setoid_replace (q * inject_Z (Z.of_nat (n + 1)) * inject_Z (Z.of_nat (length col) - 1)) with (inject_Z (Z.of_nat (n + 1)) * (q * inject_Z (Z.of_nat (length col) - 1))) by ring.
      apply Qmult_lt_l; assumption.
    + change (Z.of_nat 1) with 1%Z. rewrite Nat2Z.inj_sub by lia.
      setoid_replace (inject_Z (Z.of_nat (n + 1) - Z.of_nat i)) with ((1 - q) * inject_Z (Z.of_nat (n + 1))).
      2:{ unfold Zminus. rewrite inject_Z_plus, inject_Z_opp, <- qn. ring. }
      setoid_replace ((1 - q) * inject_Z (Z.of_nat (n + 1)) * inject_Z (Z.of_nat (length col) - 1)) with (inject_Z (Z.of_nat (n + 1)) * ((1 - q) * inject_Z (Z.of_nat (length col) - 1))) by ring.
      apply Qmult_lt_l; assumption.
Qed.
Example C41_quantiles_ex : (2 + 1 < length (unique [4; 2; 2; 8; 5]%Q))%nat /\ map Qred (thresholds Quantile 2 [4; 2; 2; 8; 5]) = [8 # 3; 14 # 3].
Proof. split; [vm_compute; lia|vm_compute; reflexivity]. Qed.
(** Nothing is lost when a column has few distinct values. *)
Theorem C41_separates st n col x y : match st with Given _ => False | _ => True end -> (0 < n)%nat -> (length (unique col) <= n + 1)%nat ->
  In x col -> In y col -> threshold_bits (thresholds st n col) x = threshold_bits (thresholds st n col) y -> x == y.
Proof.
  intros G N U X Y E.
  assert (SEP : forall a b, In a col -> In b col -> a < b -> threshold_bits (thresholds st n col) a <> threshold_bits (thresholds st n col) b).
  { clear x y X Y E. intros a b A B L E. destruct (unique_has a col A) as (a' & A' & Ea). destruct (unique_has b col B) as (b' & B' & Eb).
    destruct (midpoints_split _ a' b' (unique_sorted col) A' B' ltac:(lra)) as (m & M & M1 & M2).
    assert (T : thresholds st n col = midpoints (unique col)).
    { unfold thresholds. replace (n =? 0)%nat with false by (symmetry; apply Nat.eqb_neq; lia). cbn [orb].
      replace (Qeq_bool _ _) with false; [|symmetry; apply qeq_f; pose proof (hd_le _ _ (unique_sorted col) A'); pose proof (last_ge _ _ (unique_sorted col) B'); lra].
      apply Nat.leb_le in U. rewrite U. destruct st; [reflexivity|reflexivity|destruct G]. }
    rewrite T in E. unfold threshold_bits in E. assert (P : forall l, In m l -> map (fun c => Qle_bool a c) l = map (fun c => Qle_bool b c) l -> Qle_bool a m = Qle_bool b m).
    { clear. induction l as [|c l IH]; intros I H; [destruct I|]. injection H as H1 H2. destruct I as [->|I]; auto. }
    specialize (P _ M E). replace (Qle_bool a m) with true in P by (symmetry; apply qle_t; lra). symmetry in P. apply qle_t in P. lra. }
  destruct (Q_dec x y) as [[L|L]|Eq]; [destruct (SEP x y X Y L E)|destruct (SEP y x Y X L (eq_sym E))|exact Eq].
Qed.
Example C41_thresholds_ex : map Qred (thresholds Uniform 3 [0; 1; 5; 9; 3]) = [3 # 2; 9 # 2; 15 # 2] /\ map Qred (thresholds Quantile 3 [4; 2; 2; 8]) = [3; 6]
  /\ map Qred (thresholds Quantile 1 [0; 1; 5; 9; 3]) = [3] /\ threshold_bits [3 # 2; 9 # 2; 15 # 2] 5 = [false; false; true].
Proof. repeat split; vm_compute; reflexivity. Qed.

(** * Categories *)
Local Open Scope nat_scope.
Definition hits (x : Q) (l : list Q) : nat := length (filter (Qeq_bool x) l).
Lemma distinct_spec col : forall seen x, hits x (distinct seen col) = if existsb (Qeq_bool x) seen then 0 else if existsb (Qeq_bool x) col then 1 else 0.
Proof.
  assert (TR : forall a b, (a == b)%Q -> forall l, existsb (Qeq_bool a) l = existsb (Qeq_bool b) l).
  { intros a b E l. apply eq_true_iff_eq. rewrite !existsb_exists. split; intros (y & I & H); exists y; (split; [exact I|]); apply qeq_t in H; apply qeq_t; lra. }
  induction col as [|y col IH]; intros seen x; cbn [distinct existsb].
  - cbn. destruct (existsb _ seen); reflexivity.
  - destruct (existsb (Qeq_bool y) seen) eqn:S.
    + rewrite IH. destruct (existsb (Qeq_bool x) seen) eqn:SX; [reflexivity|]. destruct (Qeq_bool x y) eqn:E; [|reflexivity]. apply qeq_t in E. rewrite (TR x y E) in SX. congruence.
    + unfold hits. cbn [filter]. destruct (Qeq_bool x y) eqn:E; cbn [length orb].
      * fold (hits x (distinct (y :: seen) col)). rewrite IH. cbn [existsb]. rewrite E. cbn [orb]. apply qeq_t in E. rewrite (TR x y E), S. reflexivity.
      * fold (hits x (distinct (y :: seen) col)). rewrite IH. cbn [existsb]. rewrite E. reflexivity.
Qed.
Lemma distinct_in col : forall seen x, In x (distinct seen col) -> In x col.
Proof. induction col as [|y col IH]; intros seen x; cbn; [tauto|]. destruct (existsb (Qeq_bool y) seen); [eauto|]. intros [->|I]; eauto. Qed.
Lemma hits_app x a b : hits x (a ++ b) = hits x a + hits x b.
Proof. unfold hits. now rewrite filter_app, app_length. Qed.
Lemma hits_pos x l : existsb (Qeq_bool x) l = true <-> 0 < hits x l.
Proof.
  induction l as [|y l IH]; cbn; [split; [discriminate|intros H; inversion H]|]. unfold hits. cbn [filter]. destruct (Qeq_bool x y); cbn [length orb]; [split; [lia|reflexivity]|exact IH].
Qed.
Definition on (bits : list bool) : nat := length (filter (fun b => b) bits).
Lemma on_app a b : on (a ++ b) = on a + on b.
Proof. unfold on. now rewrite filter_app, app_length. Qed.
Lemma on_le groups x : on (category_bits groups x) <= hits x (concat groups) /\ (0 < hits x (concat groups) -> 0 < on (category_bits groups x)).
Proof.
  induction groups as [|g gs [IH1 IH2]]; [split; [apply le_n|auto]|]. cbn [category_bits map concat]. fold (category_bits gs x). rewrite hits_app. unfold on. cbn [filter].
  destruct (existsb (Qeq_bool x) g) eqn:E; cbn [length]; fold (on (category_bits gs x)).
  - apply hits_pos in E. split; lia.
  - assert (Z : hits x g = 0) by (destruct (hits x g) eqn:Z; [reflexivity|]; assert (existsb (Qeq_bool x) g = true) by (apply hits_pos; lia); congruence). rewrite Z. split; assumption.
Qed.
Lemma singles vs : concat (map (fun v : Q => [v]) vs) = vs.
Proof. induction vs; cbn; congruence. Qed.
Lemma cinsert_in c x y l : In y (cinsert c x l) <-> y = x \/ In y l.
Proof. induction l as [|z l IH]; cbn; [intuition|]. destruct (c z <=? c x); cbn; [intuition|]. rewrite IH. intuition. Qed.
Lemma most_common_in col x : In x (most_common col) <-> In x (distinct [] col).
Proof. unfold most_common. generalize (distinct [] col). induction l as [|y l IH]; cbn; [tauto|]. rewrite cinsert_in, IH. intuition. Qed.
Lemma most_common_hits col x : hits x (most_common col) = hits x (distinct [] col).
Proof.
  unfold most_common. generalize (distinct [] col). induction l as [|y l IH]; [reflexivity|]. cbn [fold_right].
  assert (G : forall l, hits x (cinsert (occurrences col) y l) = hits x (y :: l)).
  { clear. induction l as [|z l IH]; cbn [cinsert]; [reflexivity|]. destruct (_ <=? _); [reflexivity|]. unfold hits in *. cbn [filter] in *. destruct (Qeq_bool x z), (Qeq_bool x y); cbn [length] in *; lia. }
  rewrite G. unfold hits in *. cbn [filter]. destruct (Qeq_bool x y); cbn [length]; rewrite IH; reflexivity.
Qed.
Lemma most_common_length col : length (most_common col) = length (distinct [] col).
Proof.
  unfold most_common. generalize (distinct [] col). induction l as [|y l IH]; cbn; [reflexivity|]. rewrite <- IH. generalize (fold_right (cinsert (occurrences col)) [] l). clear.
  induction l as [|z l IH]; cbn; [reflexivity|]. destruct (_ <=? _); cbn; congruence.
Qed.
(** At most one indicator of a category is on, for any value. *)
Theorem C41_exclusive n col x : on (category_bits (categories n col) x) <= 1.
Proof.
  assert (H1 : hits x (distinct [] col) <= 1) by (rewrite distinct_spec; cbn; destruct (existsb _ col); lia).
  unfold categories. destruct (_ || _); [cbn; lia|]. destruct (_ || _).
  - unfold category_bits, on. cbn. destruct (Qeq_bool x (nth 1 (most_common col) 0%Q)); cbn; lia.
  - destruct (n <? _).
    + etransitivity; [apply on_le|]. rewrite concat_app, singles. cbn [concat]. rewrite app_nil_r, firstn_skipn. exact H1.
    + etransitivity; [apply on_le|]. rewrite singles. exact H1.
Qed.
(** With three or more categories every training value has exactly one. *)
Theorem C41_one_category n col x : 3 <= n -> 3 <= length (distinct [] col) -> In x col -> on (category_bits (categories n col) x) = 1.
Proof.
  intros N D I. apply Nat.le_antisymm; [apply C41_exclusive|].
  assert (H1 : 0 < hits x (distinct [] col)).
  { rewrite distinct_spec. cbn. replace (existsb (Qeq_bool x) col) with true; [lia|]. symmetry. apply existsb_exists. exists x. split; [exact I|]. apply qeq_t. reflexivity. }
  unfold categories. replace (n <=? 1) with false by (symmetry; apply Nat.leb_gt; lia). replace (length (distinct [] col) <=? 1) with false by (symmetry; apply Nat.leb_gt; lia). cbn [orb].
  replace (n =? 2) with false by (symmetry; apply Nat.eqb_neq; lia). replace (length (distinct [] col) =? 2) with false by (symmetry; apply Nat.eqb_neq; lia). cbn [orb].
  destruct (n <? _).
  - apply on_le. rewrite concat_app, singles. cbn [concat]. rewrite app_nil_r, firstn_skipn. exact H1.
  - apply on_le. rewrite singles. exact H1.
Qed.
(** With at most as many values as categories no two training values share their indicators. *)
Theorem C41_categories_separate n col x y : 2 <= n -> length (distinct [] col) <= n -> In x col -> In y col ->
  category_bits (categories n col) x = category_bits (categories n col) y -> (x == y)%Q.
Proof.
  intros N D X Y E. destruct (Qeq_dec x y) as [H|NE]; [exact H|exfalso].
  assert (HAS : forall z, In z col -> exists w, In w (distinct [] col) /\ (z == w)%Q).
  { intros z Z. assert (P : 0 < hits z (distinct [] col)).
    { rewrite distinct_spec. cbn. replace (existsb (Qeq_bool z) col) with true; [lia|]. symmetry. apply existsb_exists. exists z. split; [exact Z|]. apply qeq_t. reflexivity. }
    apply hits_pos, existsb_exists in P. destruct P as (w & W & Q). exists w. split; [exact W|]. now apply qeq_t. }
  destruct (HAS x X) as (wx & Wx & Ex), (HAS y Y) as (wy & Wy & Ey).
  unfold categories in E. replace (n <=? 1) with false in E by (symmetry; apply Nat.leb_gt; lia). cbn [orb] in E.
  destruct (length (distinct [] col) <=? 1) eqn:D1.
  { apply Nat.leb_le in D1. destruct (distinct [] col) as [|a [|b l]]; [destruct Wx| |cbn in D1; lia]. destruct Wx as [<-|[]], Wy as [<-|[]]. apply NE. lra. }
  apply Nat.leb_gt in D1. destruct ((n =? 2) || (length (distinct [] col) =? 2)) eqn:D2.
  - assert (L2 : length (distinct [] col) = 2) by (apply orb_true_iff in D2; destruct D2 as [H|H]; apply Nat.eqb_eq in H; lia).
    pose proof (most_common_length col) as ML. rewrite L2 in ML. destruct (most_common col) as [|a [|b [|]]] eqn:MC; cbn in ML; try lia. cbn [nth] in E.
    rewrite <- most_common_in, MC in Wx, Wy. unfold category_bits in E. cbn in E. injection E as E. rewrite !orb_false_r in E.
    assert (AB : ~ (a == b)%Q).
    { intros Q. assert (P : hits a (most_common col) <= 1) by (rewrite most_common_hits, distinct_spec; cbn; destruct (existsb _ col); lia).
      rewrite MC in P. unfold hits in P. cbn [filter] in P. replace (Qeq_bool a a) with true in P by (symmetry; apply qeq_t; lra).
      replace (Qeq_bool a b) with true in P by (symmetry; apply qeq_t; lra). cbn in P. lia. }
    destruct Wx as [<-|[<-|[]]], Wy as [<-|[<-|[]]]; try (apply NE; lra).
    + replace (Qeq_bool y b) with true in E by (symmetry; apply qeq_t; lra). apply qeq_t in E. apply AB. lra.
    + replace (Qeq_bool x b) with true in E by (symmetry; apply qeq_t; lra). symmetry in E. apply qeq_t in E. apply AB. lra.
  - replace (n <? length (distinct [] col)) with false in E by (symmetry; apply Nat.ltb_ge; lia).
    unfold category_bits in E. rewrite !map_map in E. assert (P : forall l, In wx l -> map (fun v => existsb (Qeq_bool x) [v]) l = map (fun v => existsb (Qeq_bool y) [v]) l -> existsb (Qeq_bool x) [wx] = existsb (Qeq_bool y) [wx]).
    { clear. induction l as [|c l IH]; intros I H; [destruct I|]. injection H as H1 H2. destruct I as [->|I]; auto. }
    specialize (P _ Wx E). cbn in P. rewrite !orb_false_r in P. replace (Qeq_bool x wx) with true in P by (symmetry; now apply qeq_t). symmetry in P. apply qeq_t in P. apply NE. lra.
Qed.

(** No more groups than asked for. *)
Theorem C41_category_count n col : length (categories n col) <= n.
Proof.
  unfold categories. destruct (n <=? 1) eqn:N; [cbn; lia|]. apply Nat.leb_gt in N. cbn [orb]. destruct (_ <=? 1); [cbn; lia|].
  destruct (_ || _); [cbn; lia|]. destruct (n <? _) eqn:L.
  - apply Nat.ltb_lt in L. rewrite app_length, map_length, firstn_length. cbn [length]. lia.
  - apply Nat.ltb_ge in L. now rewrite map_length.
Qed.
Example C41_categories_ex : let col := [5; 7; 5; 9; 7; 5; 4]%Q in categories 3 col = [[5]; [7]; [9; 4]]%Q /\ categories 2 col = [[7]]%Q /\ category_bits (categories 3 col) 4 = [false; false; true]
  /\ category_bits (categories 3 col) 8 = [false; false; false].
Proof. repeat split; vm_compute; reflexivity. Qed.

(** * Whole rows *)
Theorem C41_width B r r' : length (transform B r) = length (transform B r').
Proof.
  unfold transform. rewrite !app_length, !map_length. f_equal. f_equal.
  - induction (b_cat B) as [|p l IH]; cbn; [reflexivity|]. rewrite !app_length, IH. unfold category_bits. now rewrite !map_length.
  - induction (b_cont B) as [|p l IH]; cbn; [reflexivity|]. rewrite !app_length, IH. unfold threshold_bits. now rewrite !map_length.
Qed.
Theorem C41_binary st nt nc w cats rows r : In r rows -> Forall (fun x => (x == 0 \/ x == 1)%Q) (transform (fit_binarizer st nt nc w cats rows) r).
Proof.
  intros I. assert (BB : forall l, Forall (fun x => (x == 0 \/ x == 1)%Q) (map bit l)).
  { induction l as [|[|] l IH]; cbn; constructor; auto; [right|left]; reflexivity. }
  unfold transform. apply Forall_app. split; [|apply Forall_app; split].
  - apply Forall_forall. intros x X. apply in_map_iff in X. destruct X as (j & <- & J). cbn [b_bin fit_binarizer] in J. apply filter_In in J. destruct J as [_ J].
    unfold binary_column in J. rewrite forallb_forall in J. specialize (J (nth j r 0%Q)). rewrite orb_true_iff, !qeq_t in J. apply J. unfold column. apply in_map_iff. eauto.
  - induction (b_cat _) as [|p l IH]; cbn; [constructor|]. apply Forall_app. auto.
  - induction (b_cont _) as [|p l IH]; cbn; [constructor|]. apply Forall_app. auto.
Qed.
Lemma app_split {A} (a b c d : list A) : length a = length c -> a ++ b = c ++ d -> a = c /\ b = d.
Proof. revert c. induction a as [|x a IH]; intros [|y c]; cbn; try discriminate; auto. intros [= L] [= -> H]. destruct (IH c L H) as [-> ->]. auto. Qed.
Lemma flat_len {A B} (f g : A -> list B) l : (forall a, length (f a) = length (g a)) -> length (flat_map f l) = length (flat_map g l).
Proof. intros H. induction l as [|a l IH]; cbn; [reflexivity|]. now rewrite !app_length, IH, H. Qed.
Lemma flat_split {A B} (f g : A -> list B) l a : (forall a, length (f a) = length (g a)) -> flat_map f l = flat_map g l -> In a l -> f a = g a.
Proof.
  intros L. induction l as [|b l IH]; intros E I; [destruct I|]. cbn in E. apply app_split in E; [|apply L]. destruct E as [E1 E2]. destruct I as [->|I]; auto.
Qed.
Lemma bit_inj l : forall l', map bit l = map bit l' -> l = l'.
Proof. induction l as [|[|] l IH]; intros [|[|] l']; cbn; try discriminate; auto; intros [= H]; f_equal; auto. Qed.
(** Binarisation loses nothing when every continuous column has at most one more distinct value
    than thresholds and every categorical one at most as many values as categories. *)
Theorem C41_lossless st nt nc w cats rows r r' : match st with Given _ => False | _ => True end -> 0 < nt -> 2 <= nc ->
  (forall j, length (unique (column j rows)) <= nt + 1) -> (forall j, In j cats -> length (distinct [] (column j rows)) <= nc) ->
  In r rows -> In r' rows -> transform (fit_binarizer st nt nc w cats rows) r = transform (fit_binarizer st nt nc w cats rows) r' ->
  forall j, j < w -> (nth j r 0 == nth j r' 0)%Q.
Proof.
  intros G N C FT FC I I' E j J. unfold transform in E. apply app_split in E; [|now rewrite !map_length]. destruct E as [E1 E2].
  apply app_split in E2.
  2:{ apply flat_len. intros. unfold category_bits. now rewrite !map_length. }
  destruct E2 as [E2 E3]. assert (COL : forall q, In q rows -> In (nth j q 0%Q) (column j rows)) by (intros q Q; unfold column; apply in_map_iff; eauto).
  destruct (existsb (Nat.eqb j) cats) eqn:CJ.
  - apply existsb_exists in CJ. destruct CJ as (j' & CJ & EJ). apply Nat.eqb_eq in EJ. subst j'.
    assert (IN : In (j, categories nc (column j rows)) (b_cat (fit_binarizer st nt nc w cats rows))) by (cbn; apply in_map_iff; eauto).
    apply (flat_split _ _ _ (j, categories nc (column j rows))) in E2; [|intros; unfold category_bits; now rewrite !map_length|exact IN]. cbn [fst snd] in E2.
    apply bit_inj in E2. apply (C41_categories_separate nc (column j rows)); auto.
  - destruct (binary_column rows j) eqn:BJ.
    + cbn [b_bin fit_binarizer] in E1. assert (IN : In j (filter (binary_column rows) (seq 0 w))) by (apply filter_In; split; [apply in_seq; lia|exact BJ]).
      revert IN E1. generalize (filter (binary_column rows) (seq 0 w)). clear. induction l as [|a l IH]; intros IN E; [destruct IN|]. injection E as E1 E2. destruct IN as [->|IN]; [rewrite E1; reflexivity|auto].
    + assert (IN : In (j, thresholds st nt (column j rows)) (b_cont (fit_binarizer st nt nc w cats rows))).
      { cbn. apply in_map_iff. exists j. split; [reflexivity|]. apply filter_In. rewrite CJ, BJ. split; [apply in_seq; lia|reflexivity]. }
      apply (flat_split _ _ _ (j, thresholds st nt (column j rows))) in E3; [|intros; unfold threshold_bits; now rewrite !map_length|exact IN]. cbn [fst snd] in E3.
      apply bit_inj in E3. apply (C41_separates st nt (column j rows)); auto.
Qed.
Definition ex_rows : list (list Q) := [[0; 5; 3]; [1; 7; 1]; [1; 5; 2]; [0; 7; 2]; [1; 6; 2]]%Q.
Example C41_lossless_ex : (forall j, length (unique (column j ex_rows)) <= 2 + 1) /\ length (distinct [] (column 1 ex_rows)) <= 3 /\
  map (transform (fit_binarizer Quantile 2 3 3 [1] ex_rows)) ex_rows = [[0; 1; 0; 0; 0; 0]; [1; 0; 1; 0; 1; 1]; [1; 1; 0; 0; 0; 1]; [0; 0; 1; 0; 0; 1]; [1; 0; 0; 1; 0; 1]]%Q.
Proof.
  split; [|split; [cbn; lia|vm_compute; reflexivity]]. intros [|[|[|j]]]; [vm_compute; lia..|]. unfold column. cbn. destruct j; vm_compute; lia.
Qed.
(** Refuted: a categorical column of zeros and ones also counts as binary, so it comes twice. *)
Theorem C41_once_refuted : exists rows, map (transform (fit_binarizer Quantile 2 3 1 [0] rows)) rows = [[0; 0]; [1; 1]; [0; 0]]%Q.
Proof. exists [[0]; [1]; [0]]%Q. vm_compute. reflexivity. Qed.

Print Assumptions C41_ascending.
Print Assumptions C41_interval.
Print Assumptions C41_monotone.
Print Assumptions C41_count.
Print Assumptions C41_inside.
Print Assumptions C41_both_sides.
Print Assumptions C41_constant_indicator_refuted.
Print Assumptions C41_separates.
Print Assumptions C41_exclusive.
Print Assumptions C41_one_category.
Print Assumptions C41_categories_separate.
Print Assumptions C41_width.
Print Assumptions C41_binary.
Print Assumptions C41_lossless.
Print Assumptions C41_once_refuted.
Print Assumptions C41_quantiles.
Print Assumptions C41_category_count.
