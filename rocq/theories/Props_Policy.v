(** C37: shifting the scores of prescriptive policies. *)
From Coq Require Import List Arith Bool Lia QArith Qminmax Qabs Lqa.
From Verif Require Import Model_FeatureVector Model_Data Model_Terminal Spec_Tree Base_Q Model_Policy.
Import ListNotations.
Local Open Scope nat_scope.

(** * Specification *)
(** The estimated outcome of giving treatment [k] (larger is better). *)
Definition outcome (m : teacher) (e : ppg) (k : nat) : Q :=
  match m with
  | DM => yhat e k
  | IPW => if k =? p_hist e then p_y e / p_mu e else 0
  | DR => yhat e k + (if k =? p_hist e then (p_y e - yhat e (p_hist e)) / p_mu e else 0)
  end%Q.
(** The value of the policy [t] on the data. *)
Definition policy_value (m : teacher) (d : pview) (t : tree) : Q := sumQ (fun i => outcome m (pi_e i) (predict t (pi_x i))) (concat d).
Definition total_score (m : teacher) (d : pview) (t : tree) : Q := sumQ (fun i => score m (pi_e i) (predict t (pi_x i))) (concat d).
Fixpoint leaves_below (nl : nat) (t : tree) : Prop := match t with Leaf l => l < nl | Split _ l r => leaves_below nl l /\ leaves_below nl r end.
Lemma predict_below nl t x : leaves_below nl t -> predict t x < nl.
Proof. induction t as [l|f l IHl r IHr]; cbn; [auto|]. intros [A B]. destruct (has f x); auto. Qed.

(** * Proofs *)
Lemma leaf_sum T d l : (policy_leaf T d l == sumQ (fun i => table_get T (pid i) l) (concat d))%Q.
Proof. unfold policy_leaf. rewrite (fold_sum (fun i => table_get T (pid i) l)). lra. Qed.
Lemma split_sum (g : pinst -> bool) (f : pinst -> Q) d :
  (sumQ f (concat (map (filter (fun i => negb (g i))) d)) + sumQ f (concat (map (filter g) d)) == sumQ f (concat d))%Q.
Proof.
  induction d as [|l d IH]; cbn [map concat]; [cbn; lra|]. rewrite !sumQ_app, <- IH.
  assert (E : (sumQ f (filter (fun i => negb (g i)) l) + sumQ f (filter g l) == sumQ f l)%Q).
  { clear. induction l as [|x l IH]; cbn; [lra|]. destruct (g x); cbn; rewrite <- IH; lra. }
  rewrite <- E. lra.
Qed.
Lemma concat_filter_in (g : pinst -> bool) d i : In i (concat (map (filter g) d)) <-> In i (concat d) /\ g i = true.
Proof.
  induction d as [|l d IH]; cbn; [tauto|]. rewrite !in_app_iff, filter_In, IH. tauto.
Qed.
(** The cost of a tree is the sum, over the instances, of the cost of the label it gives. *)
Lemma cost_sum T t : forall d, (policy_cost T d t == sumQ (fun i => table_get T (pid i) (predict t (pi_x i))) (concat d))%Q.
Proof.
  induction t as [l|f l IHl r IHr]; intros d; cbn [policy_cost predict]; [apply leaf_sum|]. rewrite IHl, IHr.
  rewrite <- (split_sum (fun i => has f (pi_x i)) (fun i => table_get T (pid i) (if has f (pi_x i) then predict r (pi_x i) else predict l (pi_x i)))).
  assert (HL : (sumQ (fun i => table_get T (pid i) (if has f (pi_x i) then predict r (pi_x i) else predict l (pi_x i))) (concat (map (filter (fun i => negb (has f (pi_x i)))) d)) == sumQ (fun i => table_get T (pid i) (predict l (pi_x i))) (concat (map (filter (fun i => negb (has f (pi_x i)))) d)))%Q).
  { apply sumQ_ext. intros i I. apply concat_filter_in in I. destruct I as [_ I]. apply negb_true_iff in I. rewrite I. reflexivity. }
  assert (HR : (sumQ (fun i => table_get T (pid i) (if has f (pi_x i) then predict r (pi_x i) else predict l (pi_x i))) (concat (map (filter (fun i => has f (pi_x i))) d)) == sumQ (fun i => table_get T (pid i) (predict r (pi_x i))) (concat (map (filter (fun i => has f (pi_x i))) d)))%Q).
  { apply sumQ_ext. intros i I. apply concat_filter_in in I. destruct I as [_ I]. rewrite I. reflexivity. }
  rewrite HL, HR. reflexivity.
Qed.
Lemma set_nth_same {A} k (x d : A) l : k < length l -> nth k (set_nth k x l) d = x.
Proof. revert k. induction l as [|y l IH]; intros [|k] H; cbn in *; try lia; [reflexivity|]. apply IH. lia. Qed.
Lemma set_nth_other {A} k j (x d : A) l : j <> k -> nth j (set_nth k x l) d = nth j l d.
Proof. revert k j. induction l as [|y l IH]; intros [|k] [|j] H; cbn; try reflexivity; [congruence|]. apply IH. congruence. Qed.
Lemma set_nth_length {A} k (x : A) l : length (set_nth k x l) = length l.
Proof. revert k. induction l as [|y l IH]; intros [|k]; cbn; auto. Qed.
Lemma fill_keep (row : pinst -> list Q) l : forall T id, ~ In id (map pid l) -> nth id (fold_left (fun T i => set_nth (pid i) (row i) T) l T) [] = nth id T [].
Proof. induction l as [|x l IH]; intros T id N; cbn; [reflexivity|]. rewrite IH by (intros I; apply N; now right). apply set_nth_other. intros E. apply N. left. auto. Qed.
Lemma fill_get (row : pinst -> list Q) l : forall T i, NoDup (map pid l) -> In i l -> pid i < length T -> nth (pid i) (fold_left (fun T i => set_nth (pid i) (row i) T) l T) [] = row i.
Proof.
  induction l as [|x l IH]; intros T i N I L; [destruct I|]. inversion N; subst. cbn [fold_left]. destruct I as [->|I].
  - rewrite fill_keep by assumption. apply set_nth_same. exact L.
  - apply IH; [assumption|exact I|]. rewrite set_nth_length. exact L.
Qed.
Lemma max_id_gt l : forall a i, (In i l -> pid i < fold_left (fun a i => Nat.max a (S (pid i))) l a) /\ a <= fold_left (fun a i => Nat.max a (S (pid i))) l a.
Proof.
  induction l as [|x l IH]; intros a i; cbn [fold_left]; [split; [intros []|lia]|]. destruct (IH (Nat.max a (S (pid x))) i) as [A B]. split; [|lia]. intros [->|I]; [lia|auto].
Qed.
(** What the table holds. *)
Lemma table_spec m nl d i k : NoDup (map pid (concat d)) -> In i (concat d) -> k < nl ->
  table_get (cost_table m nl d) (pid i) k = (score m (pi_e i) k - min_score m nl d)%Q.
Proof.
  intros N I K. unfold table_get, cost_table. rewrite fill_get; [|exact N|exact I|].
  - rewrite (nth_indep _ 0%Q ((fun k => score m (pi_e i) k - min_score m nl d)%Q 0)) by (rewrite map_length, seq_length; exact K). rewrite (map_nth (fun k => score m (pi_e i) k - min_score m nl d)%Q). rewrite seq_nth by exact K. reflexivity.
  - rewrite repeat_length. unfold max_id. apply max_id_gt. exact I.
Qed.
Lemma qmin_scan (f : nat -> Q) ks : forall a, (fold_left (fun a k => Qmin (f k) a) ks a <= a)%Q /\ forall k, In k ks -> (fold_left (fun a k => Qmin (f k) a) ks a <= f k)%Q.
Proof.
  induction ks as [|x ks IH]; intros a; cbn [fold_left]; [split; [lra|intros k []]|]. destruct (IH (Qmin (f x) a)) as [A B]. split; [eapply Qle_trans; [exact A|apply Q.le_min_r]|].
  intros k [->|I]; [eapply Qle_trans; [exact A|apply Q.le_min_l]|apply B; exact I].
Qed.
Lemma min_le m nl d : (min_score m nl d <= 1)%Q /\ forall i k, In i (concat d) -> k < nl -> (min_score m nl d <= score m (pi_e i) k)%Q.
Proof.
  unfold min_score. generalize 1%Q. induction (concat d) as [|x l IH]; intros a; cbn [fold_left]; [split; [lra|intros i k []]|].
  destruct (qmin_scan (score m (pi_e x)) (seq 0 nl) a) as [A B]. destruct (IH (fold_left (fun a k => Qmin (score m (pi_e x) k) a) (seq 0 nl) a)) as [C D]. split; [lra|].
  intros i k [->|I] K; [eapply Qle_trans; [exact C|]; apply B; apply in_seq; lia|apply D; assumption].
Qed.

(** Every tree costs its total score minus the same constant per instance. *)
Theorem C37_shift m d t : NoDup (map pid (concat d)) -> leaves_below (length d) t ->
  (policy_cost (cost_table m (length d) d) d t == total_score m d t - inject_Z (Z.of_nat (length (concat d))) * min_score m (length d) d)%Q.
Proof.
  intros N L. rewrite cost_sum. unfold total_score. set (s := min_score m (length d) d).
  rewrite (sumQ_ext _ (fun i => score m (pi_e i) (predict t (pi_x i)) - s)%Q) by (intros i I; rewrite table_spec by (try apply predict_below; assumption); reflexivity).
  generalize (concat d). induction l as [|x l IH]; cbn [sumQ length]; [change (inject_Z (Z.of_nat 0)) with 0%Q; lra|].
  rewrite IH. rewrite Nat2Z.inj_succ, <- Z.add_1_l, inject_Z_plus. change (inject_Z 1) with 1%Q. lra.
Qed.
(** So the ranking of all trees is that of the unshifted scores ... *)
Theorem C37_ranking m d t1 t2 : NoDup (map pid (concat d)) -> leaves_below (length d) t1 -> leaves_below (length d) t2 ->
  (policy_cost (cost_table m (length d) d) d t1 <= policy_cost (cost_table m (length d) d) d t2 <-> total_score m d t1 <= total_score m d t2)%Q.
Proof. intros N L1 L2. rewrite !C37_shift by assumption. split; lra. Qed.
(** ... which is the ranking by estimated outcome, when the propensities are not tiny. *)
Theorem C37_outcome m d t1 t2 : NoDup (map pid (concat d)) -> leaves_below (length d) t1 -> leaves_below (length d) t2 ->
  (m <> DM -> Forall (fun i => 1 # 1000000 < Qabs (p_mu (pi_e i)))%Q (concat d)) ->
  (policy_cost (cost_table m (length d) d) d t1 <= policy_cost (cost_table m (length d) d) d t2 <-> policy_value m d t2 <= policy_value m d t1)%Q.
Proof.
  intros N L1 L2 MU. rewrite C37_ranking by assumption.
  assert (E : forall t, (total_score m d t == - policy_value m d t)%Q).
  { intros t. unfold total_score, policy_value. assert (S : forall i, In i (concat d) -> (score m (pi_e i) (predict t (pi_x i)) == - outcome m (pi_e i) (predict t (pi_x i)))%Q).
    { intros i I. destruct m; cbn [score outcome]; [reflexivity| |].
      all: assert (T : tiny (pi_e i) = false) by (specialize (MU ltac:(discriminate)); rewrite Forall_forall in MU; specialize (MU i I); unfold tiny; apply not_true_is_false; intros Q; apply Qle_bool_iff in Q; lra).
      all: rewrite T; reflexivity. }
    rewrite (sumQ_ext _ _ _ S). clear. induction (concat d) as [|x l IH]; cbn; [lra|]. rewrite IH. lra. }
  rewrite !E. split; lra.
Qed.
(** All leaf costs are non-negative, for every part of the training data. *)
Theorem C37_nonnegative m d d' l : NoDup (map pid (concat d)) -> (forall i, In i (concat d') -> In i (concat d)) -> l < length d ->
  (0 <= policy_leaf (cost_table m (length d) d) d' l)%Q.
Proof.
  intros N SUB L. rewrite leaf_sum. induction (concat d') as [|i is IH]; cbn; [lra|]. specialize (IH (fun j J => SUB j (or_intror J))).
  rewrite table_spec by (try assumption; apply SUB; now left). pose proof (proj2 (min_le m (length d) d) i l (SUB i (or_introl eq_refl)) L). lra.
Qed.
(** The counters of the depth-two solver add up to the cost of a leaf, and taking an instance out again undoes it. *)
Theorem C37_counters T d l : (policy_leaf T d l == sumQ (fun i => policy_d2 T i l 1) (concat d))%Q /\ forall i, (policy_d2 T i l 1 + policy_d2 T i l (-1) == 0)%Q.
Proof.
  split; [rewrite leaf_sum; apply sumQ_ext; intros i _|intros i]; unfold policy_d2.
  - change (inject_Z 1) with 1%Q. lra.
  - change (inject_Z 1) with 1%Q. change (inject_Z (-1)) with (-1)%Q. lra.
Qed.

(** The worst case per label, after any history of trainings of the same task object, is at
    least the cost of every instance of that label under every label. *)
Lemma wscan (f : nat -> Q) ks : forall w, (w <= fold_left (fun w k => if Qle_bool (f k) w then w else f k) ks w)%Q /\ forall k, In k ks -> (f k <= fold_left (fun w k => if Qle_bool (f k) w then w else f k) ks w)%Q.
Proof.
  induction ks as [|x ks IH]; intros w; cbn [fold_left]; [split; [lra|intros k []]|]. destruct (IH (if Qle_bool (f x) w then w else f x)) as [A B].
  assert (C : (w <= (if Qle_bool (f x) w then w else f x) /\ f x <= (if Qle_bool (f x) w then w else f x))%Q).
  { destruct (Qle_bool (f x) w) eqn:E; [apply Qle_bool_iff in E; lra|]. assert (~ (f x <= w)%Q) by (intros Q; apply Qle_bool_iff in Q; congruence). lra. }
  split; [lra|]. intros k [->|I]; [lra|apply B; exact I].
Qed.
Lemma worst_scan_ge m nl l : forall w, (w <= worst_scan m nl l w)%Q /\ forall i k, In i l -> k < nl -> (score m (pi_e i) k <= worst_scan m nl l w)%Q.
Proof.
  unfold worst_scan. induction l as [|x l IH]; intros w; cbn [fold_left]; [split; [lra|intros i k []]|].
  destruct (wscan (score m (pi_e x)) (seq 0 nl) w) as [A B]. destruct (IH (fold_left (fun w k => if Qle_bool (score m (pi_e x) k) w then w else score m (pi_e x) k) (seq 0 nl) w)) as [C D]. split; [lra|].
  intros i k [->|I] K; [eapply Qle_trans; [|exact C]; apply B; apply in_seq; lia|apply D; assumption].
Qed.
Lemma worst_pass_spec m nl d : forall k0 w, k0 <= length w ->
  length (worst_pass m nl k0 d w) = length w + length d /\
  (forall j, j < k0 -> nth j (worst_pass m nl k0 d w) 0%Q = nth j w 0%Q) /\
  (forall j i k, j < length d -> In i (nth j d []) -> k < nl -> (score m (pi_e i) k <= nth (k0 + j) (worst_pass m nl k0 d w) 0)%Q).
Proof.
  induction d as [|l d IH]; intros k0 w L; cbn [worst_pass length].
  - split; [lia|]. split; [reflexivity|]. intros j i k H. lia.
  - set (w1 := w ++ [int_min_q]). set (w2 := set_nth k0 (worst_scan m nl l (nth k0 w1 0%Q)) w1). assert (L1 : length w1 = S (length w)) by (unfold w1; rewrite app_length; cbn; lia).
    assert (L2 : length w2 = S (length w)) by (unfold w2; rewrite set_nth_length; exact L1).
    destruct (IH (S k0) w2 ltac:(lia)) as (A & B & C). split; [lia|]. split.
    + intros j J. rewrite B by lia. unfold w2. rewrite set_nth_other by lia. unfold w1. rewrite app_nth1 by lia. reflexivity.
    + intros [|j] i k J I K.
      * rewrite Nat.add_0_r, B by lia. unfold w2. rewrite set_nth_same by lia. apply worst_scan_ge; assumption.
      * replace (k0 + S j) with (S k0 + j) by lia. apply C; [lia|exact I|exact K].
Qed.
Lemma in_nth_concat (d : pview) j i : In i (nth j d []) -> In i (concat d).
Proof. intros I. apply in_concat. exists (nth j d []). split; [|exact I]. destruct (Nat.lt_ge_cases j (length d)) as [L|L]; [apply nth_In; exact L|]. rewrite nth_overflow in I by exact L. destruct I. Qed.
Theorem C37_worst m ds d j i k : NoDup (map pid (concat d)) -> In i (nth j d []) -> k < length d ->
  (table_get (cost_table m (length d) d) (pid i) k <= nth j (worst_history m (ds ++ [d])) 0)%Q.
Proof.
  intros N I K. assert (J : j < length d) by (destruct (Nat.lt_ge_cases j (length d)) as [J|J]; [exact J|]; rewrite nth_overflow in I by exact J; destruct I).
  rewrite table_spec; [|exact N|apply in_nth_concat with j; exact I|exact K]. unfold worst_history. rewrite fold_left_app. cbn [fold_left]. set (w := fold_left _ ds []). unfold worst_train.
  destruct (worst_pass_spec m (length d) d 0 w ltac:(lia)) as (A & _ & C). set (w1 := worst_pass m (length d) 0 d w) in *.
  assert (NTH : nth j (map (fun p => if fst p <? length d then (snd p - min_score m (length d) d)%Q else snd p) (combine (seq 0 (length w1)) w1)) 0%Q = (nth j w1 0 - min_score m (length d) d)%Q).
  { set (h := fun p : nat * Q => if fst p <? length d then (snd p - min_score m (length d) d)%Q else snd p).
    rewrite (nth_indep _ 0%Q (h (0, 0%Q))) by (rewrite map_length, combine_length, seq_length; lia).
    rewrite map_nth, combine_nth by apply seq_length. rewrite seq_nth by lia. unfold h. cbn [fst snd plus]. destruct (Nat.ltb_spec j (length d)); [reflexivity|lia]. }
  rewrite NTH. specialize (C j i k J I K). cbn [plus] in C. lra.
Qed.

(** * Cases *)
Definition px (n : nat) (b : bool) (h : nat) (y mu a0 a1 : Q) : pinst := PI (Inst n (fv_make [b])) (PPG h y mu [a0; a1]).
Definition pol_ex : pview := [[px 0 true 0 3 (1#2) 2 4; px 1 false 1 (-1) (1#4) 1 0]; [px 2 true 1 5 (3#4) 1 6]].
Example C37_ex : NoDup (map pid (concat pol_ex)) /\ leaves_below (length pol_ex) (Split 0 (Leaf 0) (Leaf 1)) /\
  Forall (fun i => 1 # 1000000 < Qabs (p_mu (pi_e i)))%Q (concat pol_ex) /\
  (policy_cost (cost_table DR 2 pol_ex) pol_ex (Split 0 (Leaf 0) (Leaf 1)) == 13 # 3)%Q /\ (policy_value DR pol_ex (Split 0 (Leaf 0) (Leaf 1)) == 29 # 3)%Q.
Proof. split; [|split; [|split; [|split]]]; [|cbn; lia| | |]; [cbn; repeat (apply NoDup_cons; [cbn; intuition discriminate|]); apply NoDup_nil| |vm_compute; reflexivity|vm_compute; reflexivity]. repeat constructor. Qed.
(** With tiny propensities the doubly robust score drops the predicted outcome: a tree of lower
    cost can have the worse estimate. *)
Theorem C37_tiny_refuted : exists d t1 t2, NoDup (map pid (concat d)) /\ leaves_below (length d) t1 /\ leaves_below (length d) t2 /\
  (forall i, In i (concat d) -> exists k, p_hist (pi_e i) = k /\ 0 < p_mu (pi_e i))%Q /\
  (policy_cost (cost_table DR (length d) d) d t1 < policy_cost (cost_table DR (length d) d) d t2)%Q /\ (policy_value DR d t1 < policy_value DR d t2)%Q.
Proof.
  exists [[px 0 true 0 2 (1 # 10000000) 2 50; px 1 true 0 3 (1 # 2) 3 2]; []], (Leaf 0), (Leaf 1). split; [cbn; repeat (apply NoDup_cons; [cbn; intuition discriminate|]); apply NoDup_nil|]. split; [cbn; lia|]. split; [cbn; lia|].
  split; [|split; vm_compute; reflexivity]. intros i [<-|[<-|[]]]; eexists; split; vm_compute; reflexivity.
Qed.

Print Assumptions C37_shift.
Print Assumptions C37_ranking.
Print Assumptions C37_outcome.
Print Assumptions C37_nonnegative.
Print Assumptions C37_counters.
Print Assumptions C37_worst.
Print Assumptions C37_tiny_refuted.
