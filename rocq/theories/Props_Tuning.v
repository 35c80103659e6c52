(** C31, C32, C33: the tuning grid, the choice of a configuration, result lists. *)
From Coq Require Import List String ZArith QArith Qround Bool Arith Lia Lqa Permutation Sorted.
From Verif Require Import Model_Params Spec_Params Proofs_Params Model_Terminal Spec_Tree Model_Tuning.
Import ListNotations.
Local Open Scope nat_scope.

(** * C31 *)
Theorem C31_grid N D d n : In (d, n) (tune_grid N D) <-> d <= D /\ d <= n /\ n <= N /\ n <= 2 ^ d - 1.
Proof.
  unfold tune_grid. rewrite in_flat_map. split.
  - intros (d' & I & J). apply in_map_iff in J. destruct J as (i & E & J). injection E as -> ->. apply in_seq in I, J. lia.
  - intros (A & B & C & E). exists d. split; [apply in_seq; lia|]. apply in_map_iff. exists n. split; [reflexivity|]. apply in_seq. lia.
Qed.
Lemma nodup_flat {A B} (f : A -> list B) l : NoDup l -> (forall a, NoDup (f a)) -> (forall a b x, In x (f a) -> In x (f b) -> a = b) -> NoDup (flat_map f l).
Proof.
  intros N F D. induction N as [|a l NI N IH]; cbn; [constructor|].
  assert (G : forall l1 l2 : list B, NoDup l1 -> NoDup l2 -> (forall x, In x l1 -> ~ In x l2) -> NoDup (l1 ++ l2)).
  { clear. induction l1 as [|x l1 IH]; intros l2 N1 N2 H; cbn; [exact N2|]. inversion N1; subst. constructor.
    - rewrite in_app_iff. intros [I|I]; [contradiction|]. exact (H x (or_introl eq_refl) I).
    - apply IH; auto. intros y I. apply H. now right. }
  apply G; [apply F|exact IH|]. intros x I J. apply in_flat_map in J. destruct J as (b & Ib & J). rewrite (D a b x I J) in NI. contradiction.
Qed.
Theorem C31_once N D : NoDup (tune_grid N D).
Proof.
  unfold tune_grid. apply nodup_flat.
  - apply seq_NoDup.
  - intros d. generalize (seq_NoDup (S (Nat.min N (2 ^ d - 1)) - d) d). intros ND. induction ND; cbn; constructor; auto.
    rewrite in_map_iff. intros (y & E & I). injection E as ->. contradiction.
  - intros a b x I J. apply in_map_iff in I, J. destruct I as (i & <- & _), J as (j & E & _). injection E as -> _. reflexivity.
Qed.
(** Every tree within the budgets has its exact size among the tried ones. *)
Theorem C31_every_tree N D t : depth t <= D -> nodes t <= N -> In (depth t, nodes t) (tune_grid N D).
Proof.
  intros HD HN. apply C31_grid. assert (G : depth t <= nodes t /\ nodes t + 1 <= 2 ^ depth t).
  { clear. induction t as [l|f l [IL1 IL2] r [IR1 IR2]]; cbn [depth nodes]; [cbn; lia|]. split; [lia|]. cbn [Nat.pow].
    assert (2 ^ depth l <= 2 ^ Nat.max (depth l) (depth r)) by (apply Nat.pow_le_mono_r; lia).
    assert (2 ^ depth r <= 2 ^ Nat.max (depth l) (depth r)) by (apply Nat.pow_le_mono_r; lia). lia. }
  lia.
Qed.
Example C31_ex : tune_grid 5 3 = [(0, 0); (1, 1); (2, 2); (2, 3); (3, 3); (3, 4); (3, 5)].
Proof. reflexivity. Qed.

(** * C32: the choice. *)
(** [c] is a best configuration, [lt] reading "is worse than"; ties go to the earliest. *)
Definition earliest_best (lt : Q -> Q -> Prop) (score : nat -> Q) (n c : nat) : Prop :=
  c < n /\ forall c', c' < n -> ~ lt (score c) (score c') /\ (c' < c -> lt (score c') (score c)).

Section Select.
Variables (better : Q -> Q -> bool) (lt : Q -> Q -> Prop).
Hypothesis better_lt : forall a b, better a b = true <-> lt b a.
Hypothesis lt_trans : forall a b c, lt a b -> lt b c -> lt a c.
Hypothesis lt_irr : forall a, ~ lt a a.
Hypothesis lt_neg : forall a b c, ~ lt a b -> lt c b -> lt c a.
Lemma select_inv avgs : forall pre best, match best with
    | None => pre = []
    | Some (b, s) => s = nth b (pre ++ avgs) 0%Q /\ earliest_best lt (fun c => nth c (pre ++ avgs) 0%Q) (List.length pre) b end ->
  match select_from better (List.length pre) best avgs with
  | None => pre ++ avgs = []
  | Some (b, s) => earliest_best lt (fun c => nth c (pre ++ avgs) 0%Q) (List.length (pre ++ avgs)) b end.
Proof.
  induction avgs as [|a avgs IH]; intros pre best H; cbn [select_from].
  - rewrite app_nil_r in *. destruct best as [[b s]|]; [tauto|exact H].
  - assert (E : pre ++ a :: avgs = (pre ++ [a]) ++ avgs) by (rewrite <- app_assoc; reflexivity).
    assert (L : List.length (pre ++ [a]) = S (List.length pre)) by (rewrite app_length; cbn; lia).
    assert (NA : nth (List.length pre) ((pre ++ [a]) ++ avgs) 0%Q = a).
    { rewrite <- app_assoc. rewrite app_nth2 by lia. rewrite Nat.sub_diag. reflexivity. }
    rewrite E in *. rewrite <- L. apply IH. rewrite L.
    destruct best as [[b s]|].
    + destruct H as (S1 & Hb & Hall). destruct (better a s) eqn:B.
      * apply better_lt in B. split; [symmetry; exact NA|]. split; [lia|]. intros c' Hc. rewrite NA. rewrite S1 in B.
        destruct (Nat.eq_dec c' (List.length pre)) as [->|NE].
        { rewrite NA. split; [apply lt_irr|lia]. }
        destruct (Hall c' ltac:(lia)) as [H1 H2]. split.
        { intros X. apply H1. exact (lt_trans _ _ _ B X). }
        { intros _. exact (lt_neg _ _ _ H1 B) || (destruct (better a (nth c' ((pre ++ [a]) ++ avgs) 0%Q)) eqn:B2; [apply better_lt; exact B2|]).
          exfalso. assert (N2 : ~ lt (nth c' ((pre ++ [a]) ++ avgs) 0%Q) a) by (rewrite <- better_lt; congruence).
          apply H1. eapply lt_neg; [|exact B]. exact N2. }
      * assert (B' : ~ lt s a) by (rewrite <- better_lt; congruence). split; [exact S1|]. split; [lia|]. intros c' Hc. rewrite <- S1 in Hall |- *.
        destruct (Nat.eq_dec c' (List.length pre)) as [->|NE].
        { rewrite NA. split; [exact B'|lia]. }
        exact (Hall c' ltac:(lia)).
    + subst pre. cbn in *. split; [reflexivity|]. split; [lia|]. intros c' Hc. assert (c' = 0) as -> by lia. split; [apply lt_irr|lia].
Qed.
Lemma select_spec avgs c : select better avgs = Some c -> earliest_best lt (fun c => nth c avgs 0%Q) (List.length avgs) c.
Proof.
  unfold select. pose proof (select_inv avgs [] None eq_refl) as H. cbn in H.
  destruct (select_from better 0 None avgs) as [[b s]|]; cbn; [|discriminate]. intros [= <-]. exact H.
Qed.
Lemma select_some avgs : avgs <> [] -> exists c, select better avgs = Some c.
Proof.
  unfold select. pose proof (select_inv avgs [] None eq_refl) as H. cbn in H.
  destruct (select_from better 0 None avgs) as [[b s]|]; cbn; [eauto|contradiction].
Qed.
End Select.

Lemma larger_lt a b : larger a b = true <-> (b < a)%Q.
Proof.
  unfold larger. rewrite negb_true_iff. split.
  - intros H. destruct (Qlt_le_dec b a) as [X|X]; [exact X|]. apply Qle_bool_iff in X. congruence.
  - intros H. destruct (Qle_bool a b) eqn:E; [|reflexivity]. apply Qle_bool_iff in E. lra.
Qed.
Lemma smaller_lt a b : smaller a b = true <-> (a < b)%Q.
Proof.
  unfold smaller. rewrite negb_true_iff. split.
  - intros H. destruct (Qlt_le_dec a b) as [X|X]; [exact X|]. apply Qle_bool_iff in X. congruence.
  - intros H. destruct (Qle_bool b a) eqn:E; [|reflexivity]. apply Qle_bool_iff in E. lra.
Qed.

(** The mean of a list of numbers. *)
Definition mean (l : list Q) : Q := (fold_right Qplus 0 l / inject_Z (Z.of_nat (List.length l)))%Q.
Lemma qsum_fold l : (qsum l == fold_right Qplus 0 l)%Q.
Proof.
  unfold qsum. assert (G : forall l a, (fold_left Qplus l a == a + fold_right Qplus 0 l)%Q).
  { clear. induction l as [|x l IH]; intros a; cbn; [lra|]. rewrite IH. lra. }
  rewrite G. lra.
Qed.
(** C33: the averaged score is the arithmetic mean. *)
Theorem C33_average l a : average l = Some a -> (a == mean l)%Q /\ l <> [].
Proof.
  unfold average, mean. destruct l as [|x l]; [discriminate|]. intros [= <-]. split; [|discriminate]. rewrite qsum_fold. reflexivity.
Qed.

(** All runs of a fold finish: in time, with a tree, proven optimal. *)
Definition complete (scores : list Q) (rs : list run_out) : Prop :=
  Forall2 (fun q r => ro_time r = true /\ ro_opt r = true /\ exists n, ro_tree r = Some (q, n)) scores rs.
Lemma fold_complete worst m scores rs : complete scores rs -> forall prev, fold_scores worst false m prev false rs = Some scores.
Proof.
  induction 1 as [|q r scores rs (T & O & n & E) H IH]; intros prev; cbn; [reflexivity|].
  rewrite T, E, O. cbn. rewrite IH. reflexivity.
Qed.

Lemma table_complete worst m scoress folds : Forall2 complete scoress folds ->
  fold_right (fun rs acc => match fold_scores worst false m None false rs, acc with Some l, Some ls => Some (l :: ls) | _, _ => None end) (Some []) folds = Some scoress.
Proof.
  induction 1 as [|scores rs scoress folds C H IH]; cbn [fold_right]; [reflexivity|].
  rewrite IH, (fold_complete worst m scores rs C None). reflexivity.
Qed.
Lemma avgs_of worst table n0 k : table <> [] ->
  exists avgs, fold_right (fun c acc => match average (map (fun l => nth c l worst) table), acc with Some a, Some l => Some (a :: l) | _, _ => None end) (Some []) (seq n0 k) = Some avgs
    /\ List.length avgs = k /\ forall c, c < k -> (nth c avgs 0 == mean (map (fun l => nth (n0 + c) l worst) table))%Q.
Proof.
  intros NE. revert n0. induction k as [|k IH]; intros n0; cbn [seq fold_right].
  - exists []. split; [reflexivity|]. split; [reflexivity|]. lia.
  - destruct (IH (S n0)) as (avgs & E & L & V). rewrite E.
    destruct (average (map (fun l => nth n0 l worst) table)) as [a|] eqn:A.
    + exists (a :: avgs). split; [reflexivity|]. split; [cbn; lia|]. intros [|c] Hc; cbn [nth].
      * rewrite Nat.add_0_r. apply (C33_average _ _ A).
      * rewrite V by lia. replace (S n0 + c) with (n0 + S c) by lia. reflexivity.
    + destruct table; [contradiction|discriminate].
Qed.

Lemma best_ext (lt : Q -> Q -> Prop) (P : forall a b c d, (a == b)%Q -> (c == d)%Q -> lt a c -> lt b d) f g n c :
  (forall c, c < n -> (f c == g c)%Q) -> earliest_best lt f n c -> earliest_best lt g n c.
Proof.
  intros E (H1 & H2). split; [exact H1|]. intros c' Hc. destruct (H2 c' Hc) as [A B]. split.
  - intros X. apply A. apply (P (g c) (f c) (g c') (f c')); auto using Qeq_sym.
  - intros L. apply (P (f c') (g c') (f c) (g c)); auto.
Qed.

(** C32: with one finished run per fold and configuration, the chosen configuration has the
    best mean test score, the earliest of the best ones. *)
Theorem C32_best_largest worst m k scoress folds c : Forall2 complete scoress folds -> phase larger worst false m k folds = Some c ->
  earliest_best Qlt (fun c => mean (map (fun scores => nth c scores worst) scoress)) k c.
Proof.
  intros H P. unfold phase in P. rewrite (table_complete worst m _ _ H) in P.
  destruct scoress as [|s0 ss].
  { destruct k; cbn in P; discriminate. }
  destruct (avgs_of worst (s0 :: ss) 0 k ltac:(discriminate)) as (avgs & E & L & V). rewrite E in P.
  apply (select_spec larger Qlt larger_lt) in P; [|intros; lra|intros; lra|intros; lra]. rewrite L in P.
  refine (best_ext Qlt _ _ _ k c V P). intros; lra.
Qed.
Theorem C32_best_smallest worst m k scoress folds c : Forall2 complete scoress folds -> phase smaller worst false m k folds = Some c ->
  earliest_best (fun a b => (b < a)%Q) (fun c => mean (map (fun scores => nth c scores worst) scoress)) k c.
Proof.
  intros H P. unfold phase in P. rewrite (table_complete worst m _ _ H) in P.
  destruct scoress as [|s0 ss].
  { destruct k; cbn in P; discriminate. }
  destruct (avgs_of worst (s0 :: ss) 0 k ltac:(discriminate)) as (avgs & E & L & V). rewrite E in P.
  apply (select_spec smaller (fun a b => (b < a)%Q)) in P; [|intros; apply smaller_lt|intros; lra|intros; lra|intros; lra]. rewrite L in P.
  refine (best_ext (fun a b => (b < a)%Q) _ _ _ k c V P). intros; lra.
Qed.

(** A configuration is always chosen when there is one to choose and no tree is missing. *)
Theorem C32_chooses better worst skip m k folds : 0 < k -> folds <> [] ->
  Forall (fun rs => Forall (fun r => ro_time r = true -> skip = true -> ro_tree r <> None) rs) folds -> exists c, phase better worst skip m k folds = Some c.
Proof.
  intros K NE H. unfold phase.
  assert (F : forall rs prev sk, Forall (fun r => ro_time r = true -> skip = true -> ro_tree r <> None) rs -> exists l, fold_scores worst skip m prev sk rs = Some l).
  { clear. induction rs as [|r rs IH]; intros prev sk F; cbn; [eauto|]. inversion F as [|? ? F1 F2]; subst. destruct sk.
    - destruct (IH (Some (match prev with Some p => p | None => worst end)) true F2) as (l & ->). cbn. eauto.
    - destruct (ro_time r) eqn:T; cbn.
      + destruct (ro_tree r) as [[q n]|] eqn:E.
        * match goal with |- context [fold_scores worst skip m ?a ?b rs] => destruct (IH a b F2) as (l & ->) end. cbn. eauto.
        * destruct skip; [exfalso; apply F1; auto|]. match goal with |- context [fold_scores worst ?s m ?a ?b rs] => destruct (IH a b F2) as (l & ->) end. cbn. eauto.
      + destruct (IH (Some worst) false F2) as (l & ->). cbn. eauto. }
  assert (T : exists table, table <> [] /\ fold_right (fun rs acc => match fold_scores worst skip m None false rs, acc with Some l, Some ls => Some (l :: ls) | _, _ => None end) (Some []) folds = Some table).
  { assert (T0 : exists table, List.length table = List.length folds /\ fold_right (fun rs acc => match fold_scores worst skip m None false rs, acc with Some l, Some ls => Some (l :: ls) | _, _ => None end) (Some []) folds = Some table).
    { clear NE. induction H as [|rs folds H1 H2 IH]; cbn [fold_right]; [exists []; auto|]. destruct IH as (t & L & ->). destruct (F rs None false H1) as (l & ->). exists (l :: t). cbn; auto. }
    destruct T0 as (t & L & E). exists t. split; [|exact E]. destruct t; [|discriminate]. destruct folds; [contradiction|discriminate]. }
  destruct T as (table & TN & ->). destruct (avgs_of worst table 0 k TN) as (avgs & E & L & _). rewrite E.
  assert (A : avgs <> []) by (destruct avgs; [cbn in L; lia|discriminate]).
  unfold select. assert (G : forall l n b, (exists x, select_from better n (Some b) l = Some x)).
  { clear. induction l as [|a l IH]; intros n b; cbn; [eauto|]. destruct b as [b s]. destruct (better a s); apply IH. }
  destruct avgs as [|a avgs]; [contradiction|]. cbn. destruct (G avgs 1 (0, a)) as (x & ->). cbn. eauto.
Qed.

(** Unfinished runs: a score in the table is the score of this or an earlier configuration of
    the same fold, or the worst score. *)
Theorem C32_carried worst skip m rs l c : fold_scores worst skip m None false rs = Some l -> c < List.length rs ->
  nth c l worst = worst \/ exists c' r q n, c' <= c /\ nth_error rs c' = Some r /\ ro_time r = true /\ ro_opt r = true /\ ro_tree r = Some (q, n) /\ nth c l worst = q.
Proof.
  assert (G : forall rs prev sk l c, fold_scores worst skip m prev sk rs = Some l -> c < List.length rs ->
    nth c l worst = worst \/ prev = Some (nth c l worst) \/ exists c' r q n, c' <= c /\ nth_error rs c' = Some r /\ ro_time r = true /\ ro_opt r = true /\ ro_tree r = Some (q, n) /\ nth c l worst = q).
  { clear. induction rs as [|r rs IH]; intros prev sk l c H L; [cbn in L; lia|]. cbn in H.
    assert (STEP : forall s p' sk', option_map (cons s) (fold_scores worst skip m (Some s) sk' rs) = Some l ->
      (s = worst \/ p' = Some s \/ exists n, ro_time r = true /\ ro_opt r = true /\ ro_tree r = Some (s, n)) ->
      nth c l worst = worst \/ p' = Some (nth c l worst) \/ exists c' r' q n, c' <= c /\ nth_error (r :: rs) c' = Some r' /\ ro_time r' = true /\ ro_opt r' = true /\ ro_tree r' = Some (q, n) /\ nth c l worst = q).
    { intros s p' sk' E Hs. destruct (fold_scores worst skip m (Some s) sk' rs) as [l'|] eqn:F; [|discriminate]. cbn in E. injection E as <-.
      assert (Hs' : s = worst \/ p' = Some s \/ exists c' r' q n, c' <= c /\ nth_error (r :: rs) c' = Some r' /\ ro_time r' = true /\ ro_opt r' = true /\ ro_tree r' = Some (q, n) /\ s = q).
      { destruct Hs as [?|[?|(n & A & B & C)]]; [auto|auto|]. right; right. exists 0, r, s, n. repeat split; auto. lia. }
      destruct c as [|c]; cbn [nth]; [exact Hs'|]. destruct (IH _ _ _ c F) as [A|[A|(c' & r' & q & n & A1 & A2 & A3)]]; [cbn in L; lia|auto| |].
      - injection A as A. rewrite <- A. exact Hs'.
      - right; right. exists (S c'), r', q, n. split; [lia|]. auto. }
    destruct sk.
    - apply (STEP _ prev true H). destruct prev; auto.
    - destruct (ro_time r) eqn:T; cbn in H.
      + destruct (ro_tree r) as [[q n]|] eqn:E.
        * apply (STEP _ prev _ H). destruct (ro_opt r) eqn:O; [right; right; eauto 10|]. destruct prev; auto.
        * destruct skip; [discriminate|]. apply (STEP _ prev _ H). destruct prev; auto.
      + apply (STEP _ prev _ H). auto. }
  intros H L. destruct (G rs None false l c H L) as [A|[A|A]]; [auto|discriminate|auto].
Qed.

(** Non-vacuity: two folds, three configurations; the means are 3/4, 1 and 1, the second wins. *)
Definition fin (q : Q) := RunOut true (Some (q, 1)) true.
Example C32_ex : let folds := [[fin (1 # 2); fin 1; fin 1]; [fin 1; fin 1; fin 1]]%Q in
  Forall2 complete [[1 # 2; 1; 1]; [1; 1; 1]]%Q folds /\ phase larger 0 false 7 3 folds = Some 1.
Proof. split; [|vm_compute; reflexivity]. repeat constructor; cbn; eauto. Qed.

(** Refuted for ties in the instance cost-sensitive task: the last one wins. *)
Theorem C32_ties_refuted : phase smaller_eq 0 false 7 2 [[fin 1; fin 1]] = Some 1.
Proof. reflexivity. Qed.

(** Refuted for cost-complex accuracy: below ten training rows there is nothing to choose
    from and the configuration at index -1 is read; from ten on there is. *)
Theorem C32_small_data_refuted n better worst skip m folds : (n < 10)%positive ->
  cca_grid n = [] /\ phase better worst skip m (List.length (cca_grid n)) folds = None.
Proof.
  intros L. assert (E : cca_grid n = []).
  { assert (C : n = 1%positive \/ n = 2%positive \/ n = 3%positive \/ n = 4%positive \/ n = 5%positive \/ n = 6%positive \/ n = 7%positive \/ n = 8%positive \/ n = 9%positive) by lia.
    repeat (destruct C as [->|C]; [vm_compute; reflexivity|]). subst n. vm_compute. reflexivity. }
  split; [exact E|]. rewrite E. cbn. unfold phase. destruct (fold_right _ (Some []) folds); reflexivity.
Qed.
Lemma in_ins q x l : In x (ins_desc q l) <-> x = q \/ In x l.
Proof.
  induction l as [|r l IH]; cbn; [intuition|]. destruct (Qle_bool r q); cbn; [intuition|]. rewrite IH. intuition.
Qed.
Lemma in_sort x l : In x (fold_right ins_desc [] l) <-> In x l.
Proof. induction l as [|q l IH]; cbn; [tauto|]. rewrite in_ins, IH. intuition. Qed.
Theorem C32_enough_data n : (10 <= n)%positive -> cca_grid n <> [].
Proof.
  intros L E. assert (I : In ((1 # n) * inject_Z 1)%Q (cca_grid n)).
  { unfold cca_grid. apply filter_In. split.
    - apply in_sort. unfold cca_alphas. apply in_or_app. left. cbn [seq map]. left. reflexivity.
    - apply Qle_bool_iff. unfold Qle; cbn. lia. }
  rewrite E in I. destruct I.
Qed.
(** The tried costs are positive, at most 0.1 and in decreasing order. *)
Theorem C32_costs n : StronglySorted (fun a b => (b <= a)%Q) (cca_grid n) /\ Forall (fun a => (0 < a <= 1 # 10)%Q) (cca_grid n).
Proof.
  split.
  - unfold cca_grid. assert (S : forall l, StronglySorted (fun a b => (b <= a)%Q) (fold_right ins_desc [] l)).
    { induction l as [|q l IH]; cbn; [constructor|]. revert IH. generalize (fold_right ins_desc [] l). clear. intros l IH.
      induction IH as [|r l S IH F]; cbn; [repeat constructor|]. destruct (Qle_bool r q) eqn:E.
      - apply Qle_bool_iff in E. constructor; [constructor; assumption|]. constructor; [exact E|]. eapply Forall_impl; [|exact F]. cbn. intros; lra.
      - constructor; [exact IH|]. apply Forall_forall. intros x I. apply in_ins in I. rewrite Forall_forall in F. destruct I as [->|I]; [|auto].
        destruct (Qlt_le_dec q r) as [X|X]; [lra|]. apply Qle_bool_iff in X. congruence. }
    specialize (S (cca_alphas n)). induction S as [|r l S IH F]; cbn; [constructor|]. destruct (Qle_bool r (1 # 10)); [|exact IH]. constructor; [exact IH|].
    apply Forall_forall. intros x I. apply filter_In in I. rewrite Forall_forall in F. apply F. tauto.
  - apply Forall_forall. intros x I. unfold cca_grid in I. apply filter_In in I. destruct I as [I J]. apply Qle_bool_iff in J. split; [|exact J].
    pose proof (proj1 (in_sort x (cca_alphas n)) I) as I'. clear I. rename I' into I. unfold cca_alphas in I. rewrite !in_app_iff, !in_map_iff in I. destruct I as [(a & <- & I)|[(a & <- & I)|I]].
    + apply in_seq in I. unfold Qlt, inject_Z; cbn -[Z.of_nat Z.mul]. lia.
    + apply in_seq in I. unfold Qlt, inject_Z; cbn -[Z.of_nat Z.mul Nat.mul]. lia.
    + assert (G : forall k a, (0 < a)%Q -> In x (alpha_steps k a) -> (0 < x)%Q).
      { clear. induction k as [|k IH]; cbn; intros a P I; [destruct I|]. destruct (Qle_bool (1 # 100) a); [destruct I|]. destruct I as [<-|I]; [exact P|]. apply (IH (a + (1 # 1000))%Q); [lra|exact I]. }
      refine (G _ _ _ I). reflexivity.
Qed.

(** Refuted: running past the time limit during tuning ends the process; otherwise the rest of the time is kept. *)
Theorem C58_late_refuted R h0 cs h left : define_parameters = Ok h0 -> prun R h0 cs = Ok h -> (left < 0)%Q -> tune_end h left = Exit.
Proof.
  intros D H L. pose proof (decl_run R cs h0 h D H) as DH. destruct (decl_flt h "time" 0 (2 ^ 31 - 1) DH (or_introl eq_refl)) as (e & G & E1 & E2 & O).
  unfold tune_end, set_flt. rewrite G. assert (K : check_flt e (FNum left) = false).
  { unfold check_flt. apply negb_false_iff, orb_true_iff. left. rewrite E1. cbn. apply negb_true_iff. destruct (Qle_bool (inject_Z 0) left) eqn:X; [|reflexivity].
    apply Qle_bool_iff in X. change (inject_Z 0) with 0%Q in X. lra. }
  rewrite K. reflexivity.
Qed.
Theorem C58_in_time R h0 cs h left : define_parameters = Ok h0 -> prun R h0 cs = Ok h -> (0 <= left)%Q -> (left <= inject_Z i32max)%Q ->
  exists h', tune_end h left = Ok h' /\ get_flt h' "time" = Ok (FNum left).
Proof.
  intros D H L1 L2. pose proof (decl_run R cs h0 h D H) as DH. destruct (decl_flt h "time" 0 (2 ^ 31 - 1) DH (or_introl eq_refl)) as (e & G & E1 & E2 & O).
  unfold tune_end, set_flt, get_flt. rewrite G. assert (K : check_flt e (FNum left) = true).
  { unfold check_flt. apply negb_true_iff, orb_false_iff. rewrite E1, E2. cbn. split; apply negb_false_iff, Qle_bool_iff; assumption. }
  rewrite K. eexists. split; [reflexivity|]. cbn. rewrite get_put_same. reflexivity.
Qed.

(** * C33: result lists. *)
Section Result.
Context {T : Type}.
Implicit Type l : list (T * Q).
Lemma add_perm l t s : Permutation (add_solution l t s) ((t, s) :: l).
Proof.
  induction l as [|[t' s'] l IH]; cbn; [reflexivity|]. destruct (negb (Qle_bool s' s)); [reflexivity|].
  rewrite IH. apply perm_swap.
Qed.
Lemma add_sorted l t s : StronglySorted (fun a b => (snd a <= snd b)%Q) l -> StronglySorted (fun a b => (snd a <= snd b)%Q) (add_solution l t s).
Proof.
  induction 1 as [|[t' s'] l S IH F]; cbn; [repeat constructor|]. destruct (Qle_bool s' s) eqn:E; cbn.
  - constructor; [exact IH|]. apply Forall_forall. intros x I. apply (Permutation_in _ (add_perm l t s)) in I. destruct I as [<-|I]; cbn.
    + apply Qle_bool_iff. exact E.
    + rewrite Forall_forall in F. exact (F x I).
  - assert (L : (s < s')%Q) by (destruct (Qlt_le_dec s s') as [X|X]; [exact X|apply Qle_bool_iff in X; congruence]).
    constructor; [constructor; assumption|]. constructor; cbn; [lra|]. eapply Forall_impl; [|exact F]. cbn. intros; lra.
Qed.
(** No solution is lost or invented, and the list is in ascending order of the score. *)
Theorem C33_kept (ts : list (T * Q)) : Permutation (add_all ts) ts /\ StronglySorted (fun a b => (snd a <= snd b)%Q) (add_all ts).
Proof.
  unfold add_all. assert (G : forall ts l, StronglySorted (fun a b => (snd a <= snd b)%Q) l ->
    Permutation (fold_left (fun l p => add_solution l (fst p) (snd p)) ts l) (l ++ ts) /\ StronglySorted (fun a b => (snd a <= snd b)%Q) (fold_left (fun l p => add_solution l (fst p) (snd p)) ts l)).
  { clear. induction ts as [|[t s] ts IH]; intros l S; cbn; [rewrite app_nil_r; auto|].
    destruct (IH (add_solution l t s) (add_sorted l t s S)) as [P S']. split; [|exact S']. rewrite P, (add_perm l t s). cbn. apply Permutation_middle. }
  destruct (G ts [] (SSorted_nil _)) as [P S]. auto.
Qed.
(** The one solution of a task with a total order is the best one. *)
Theorem C33_single (t : T) s : best_solution (add_all [(t, s)]) = Some (t, s).
Proof. reflexivity. Qed.
(** The solution handed out is one of lowest score ... *)
Theorem C33_first_is_lowest (ts : list (T * Q)) t s : best_solution (add_all ts) = Some (t, s) -> In (t, s) ts /\ forall t' s', In (t', s') ts -> (s <= s')%Q.
Proof.
  destruct (C33_kept ts) as [P S]. unfold best_solution. destruct (add_all ts) as [|p l]; cbn; [discriminate|]. intros [= ->]. split.
  - apply (Permutation_in _ P). now left.
  - intros t' s' I. apply (Permutation_in _ (Permutation_sym P)) in I. inversion S as [|? ? S' F]; subst. destruct I as [E|I]; [injection E as <- <-; lra|].
    rewrite Forall_forall in F. exact (F _ I).
Qed.
End Result.
(** ... so with two solutions of a task that maximises its score it is the worse one: refuted. *)
Theorem C33_best_first_refuted : exists (ts : list (nat * Q)) t s t' s', best_solution (add_all ts) = Some (t, s) /\ In (t', s') ts /\ (s < s')%Q.
Proof. exists [(0, 9 # 10); (1, 1 # 2)], 1, (1 # 2), 0, (9 # 10). split; [reflexivity|]. split; [now left|reflexivity]. Qed.
Example C33_ex : map fst (add_all [(1, 3 # 4); (2, 1 # 2); (3, 3 # 4); (4, 1%Q)]) = [2; 1; 3; 4].
Proof. reflexivity. Qed.

Print Assumptions C31_grid.
Print Assumptions C31_once.
Print Assumptions C31_every_tree.
Print Assumptions C32_best_largest.
Print Assumptions C32_best_smallest.
Print Assumptions C32_chooses.
Print Assumptions C32_carried.
Print Assumptions C32_ties_refuted.
Print Assumptions C32_small_data_refuted.
Print Assumptions C32_enough_data.
Print Assumptions C32_costs.
Print Assumptions C58_late_refuted.
Print Assumptions C58_in_time.
Print Assumptions C33_average.
Print Assumptions C33_kept.
Print Assumptions C33_single.
Print Assumptions C33_first_is_lowest.
Print Assumptions C33_best_first_refuted.
