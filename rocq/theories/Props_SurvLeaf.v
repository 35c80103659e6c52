(** C59: the leaves of survival trees are maximum-likelihood estimates. *)
From Coq Require Import List Bool Reals Lra Lia ZArith.
From Verif Require Import Model_SurvLeaf.
Import ListNotations.
Local Open Scope R_scope.

(** * Specification: the deviance of the proportional hazards model (LeBlanc and Crowley 1992) *)
Fixpoint sumR {A} (f : A -> R) (l : list A) : R := match l with [] => 0 | x :: l' => f x + sumR f l' end.
(** A row with baseline hazard [h] and risk factor [theta] expects [theta * h] events; its loss is
    that of one observed event, or of none, against the perfect expectation. *)
Definition row_loss (theta : R) (r : hrow) : R := let expected := theta * snd r in if fst r then expected - 1 - ln expected else expected.
Definition loss (theta : R) (rows : list hrow) : R := sumR (row_loss theta) rows.
Definition events (rows : list hrow) : nat := length (filter fst rows).
Definition hazards_ok (rows : list hrow) : Prop := Forall (fun r => 0 < snd r) rows.

(** * Sums *)
Lemma sumR_ext {A} (f g : A -> R) l : (forall x, In x l -> f x = g x) -> sumR f l = sumR g l.
Proof. induction l as [|x l IH]; intros H; cbn; [reflexivity|]. rewrite (H x), IH; [reflexivity| |now left]. intros y I. apply H. now right. Qed.
Definition haz (rows : list hrow) : R := sumR snd rows.
Definition nlh (rows : list hrow) : R := sumR (fun r : hrow => if fst r then - ln (snd r) else 0) rows.
Lemma sums_eq rows : sa_sums rows = D2SA (haz rows) (Z.of_nat (events rows)) (nlh rows).
Proof.
  unfold sa_sums, haz, nlh, events. assert (G : forall s, fold_left (fun (s : d2sa) (r : hrow) => if fst r then D2SA (d_haz s + snd r) (d_ev s + 1) (d_nlh s + - ln (snd r)) else D2SA (d_haz s + snd r) (d_ev s) (d_nlh s)) rows s = D2SA (d_haz s + sumR snd rows) (d_ev s + Z.of_nat (length (filter fst rows))) (d_nlh s + sumR (fun r : hrow => if fst r then - ln (snd r) else 0) rows)).
  { induction rows as [|[e h] rows IH]; intros s; cbn [fold_left filter sumR fst snd length]; [destruct s; cbn; f_equal; [lra|lia|lra]|]. destruct e; rewrite IH; cbn [d_haz d_ev d_nlh length filter fst]; f_equal; try lia; lra. }
  rewrite G. cbn [d_haz d_ev d_nlh]. rewrite !Rplus_0_l, Z.add_0_l. reflexivity.
Qed.
Lemma haz_nonneg rows : hazards_ok rows -> 0 <= haz rows.
Proof. induction 1 as [|r l H F IH]; cbn; [lra|]. unfold haz in IH. lra. Qed.
Lemma haz_pos rows : hazards_ok rows -> rows <> [] -> 0 < haz rows.
Proof. intros H N. destruct H as [|r l H F]; [now elim N|]. cbn. pose proof (haz_nonneg l F). unfold haz in *. lra. Qed.
Lemma ln_le x : 0 < x -> ln x <= x - 1.
Proof. intros P. pose proof (exp_ineq1_le (ln x)) as E. rewrite exp_ln in E by exact P. lra. Qed.
Lemma row_nonneg theta r : 0 < theta -> 0 < snd r -> 0 <= row_loss theta r.
Proof. intros T H. unfold row_loss. pose proof (Rmult_lt_0_compat _ _ T H) as P. destruct (fst r); [pose proof (ln_le _ P); lra|lra]. Qed.
Lemma loss_nonneg theta rows : 0 < theta -> hazards_ok rows -> 0 <= loss theta rows.
Proof. intros T. unfold loss. induction 1 as [|r l H F IH]; cbn; [lra|]. pose proof (row_nonneg theta r T H). lra. Qed.
Lemma loss_sums theta rows : 0 < theta -> hazards_ok rows -> loss theta rows = nlh rows - INR (events rows) * (ln theta + 1) + theta * haz rows.
Proof.
  intros T. unfold loss, nlh, haz, events. induction 1 as [|[e h] l H F IH]; cbn [sumR filter fst snd length]; [cbn; lra|]. rewrite IH. unfold row_loss. cbn [fst snd] in *. destruct e; [|lra]. rewrite ln_mult by assumption. cbn [length]. rewrite S_INR. lra.
Qed.
Lemma events_pos rows : events rows <> 0%nat -> 0 < INR (events rows). Proof. intros H. apply lt_0_INR. lia. Qed.
Lemma events_some rows : events rows <> 0%nat -> rows <> []. Proof. intros H E. subst. apply H. reflexivity. Qed.
Lemma theta_eq rows : sa_theta rows = if (events rows =? 0)%nat then (1 / 2) / haz rows else INR (events rows) / haz rows.
Proof. unfold sa_theta. rewrite sums_eq. cbn [d_ev d_haz]. destruct (Nat.eqb_spec (events rows) 0) as [->|N]; [reflexivity|]. destruct (Z.eqb_spec (Z.of_nat (events rows)) 0); [lia|]. now rewrite <- INR_IZR_INZ. Qed.
Lemma theta_pos rows : hazards_ok rows -> rows <> [] -> 0 < sa_theta rows.
Proof. intros H N. rewrite theta_eq. pose proof (haz_pos rows H N). destruct (Nat.eqb_spec (events rows) 0) as [E|E]; apply Rdiv_lt_0_compat; try assumption; [lra|apply events_pos, E]. Qed.
Lemma costs_eq rows theta : 0 < theta -> hazards_ok rows -> sa_costs rows theta = Some (loss theta rows).
Proof.
  intros T H. unfold sa_costs. rewrite sums_eq. cbn [d_ev d_haz d_nlh]. rewrite <- INR_IZR_INZ. rewrite <- loss_sums by assumption. pose proof (loss_nonneg theta rows T H). destruct (Rle_dec _ _) as [L|L]; [|exfalso; apply L; lra]. rewrite Rmax_right by lra. reflexivity.
Qed.
Lemma theta_haz rows : hazards_ok rows -> events rows <> 0%nat -> sa_theta rows * haz rows = INR (events rows).
Proof. intros H N. rewrite theta_eq. destruct (Nat.eqb_spec (events rows) 0); [congruence|]. pose proof (haz_pos rows H (events_some _ N)). field. lra. Qed.
Lemma error_eq rows : hazards_ok rows -> sa_error rows = if (events rows =? 0)%nat then 0 else loss (sa_theta rows) rows.
Proof.
  intros H. unfold sa_error. rewrite sums_eq. cbn [d_ev d_haz d_nlh]. rewrite <- INR_IZR_INZ. destruct (Nat.eqb_spec (events rows) 0) as [E|E].
  - rewrite E. cbn [INR]. assert (N : nlh rows = 0); [|rewrite N; lra]. unfold events in E. unfold nlh. clear H. induction rows as [|[e h] rows IH]; [reflexivity|]. cbn [filter fst] in E. cbn [sumR fst]. destruct e; [discriminate|]. rewrite IH by exact E. lra.
  - rewrite loss_sums by (assumption || (apply theta_pos; [assumption|apply events_some, E])). rewrite theta_haz by assumption. lra.
Qed.
(** * The leaf *)
(** The value of a leaf is the smallest loss any risk factor reaches on its rows; the assertion
    never fails and nothing is cut off. *)
Theorem C59_leaf_optimal rows : hazards_ok rows -> rows <> [] -> exists theta v, sa_leaf rows = Some (theta, v) /\ 0 < theta /\ (forall theta', 0 < theta' -> v <= loss theta' rows) /\ (events rows <> 0%nat -> v = loss theta rows) /\ (events rows = 0%nat -> v = 0).
Proof.
  intros H N. exists (sa_theta rows), (sa_error rows). assert (NN : 0 <= sa_error rows). { rewrite error_eq by exact H. destruct (Nat.eqb_spec (events rows) 0); [lra|]. apply loss_nonneg; [apply theta_pos; assumption|exact H]. }
  split; [unfold sa_leaf; destruct (Rle_dec _ _) as [L|L]; [rewrite Rmax_right by exact NN; reflexivity|exfalso; apply L; lra]|]. split; [apply theta_pos; assumption|]. rewrite error_eq by exact H. split; [|split].
  - intros t T. destruct (Nat.eqb_spec (events rows) 0) as [E|E]; [apply loss_nonneg; assumption|].
    pose proof (theta_pos rows H N) as P. rewrite !loss_sums by assumption. rewrite theta_haz by assumption. pose proof (theta_haz rows H E) as TH. pose proof (events_pos rows E) as EP.
    assert (Q : 0 < t / sa_theta rows) by (apply Rdiv_lt_0_compat; assumption). pose proof (ln_le _ Q) as LN. unfold Rdiv in LN at 1. rewrite ln_mult in LN by (assumption || (apply Rinv_0_lt_compat; assumption)). rewrite ln_Rinv in LN by assumption.
    assert (TE : t * haz rows = INR (events rows) * (t / sa_theta rows)) by (rewrite <- TH; field; lra). rewrite TE.
    pose proof (Rmult_le_compat_l (INR (events rows)) _ _ (Rlt_le _ _ EP) LN). lra.
  - intros E. destruct (Nat.eqb_spec (events rows) 0); [congruence|reflexivity].
  - intros E. rewrite E. reflexivity.
Qed.
(** The risk factor is the only one that reaches it. *)
Lemma ln_lt x : 0 < x -> x <> 1 -> ln x < x - 1.
Proof. intros P N. assert (Z : ln x <> 0) by (intros E; apply N; rewrite <- (exp_ln x P), E, exp_0; reflexivity). pose proof (exp_ineq1 (ln x) Z) as E. rewrite exp_ln in E by exact P. lra. Qed.
Theorem C59_leaf_unique rows t : hazards_ok rows -> events rows <> 0%nat -> 0 < t -> t <> sa_theta rows -> loss (sa_theta rows) rows < loss t rows.
Proof.
  intros H E T N. pose proof (theta_pos rows H (events_some _ E)) as P. rewrite !loss_sums by assumption. rewrite theta_haz by assumption. pose proof (theta_haz rows H E) as TH. pose proof (events_pos rows E) as EP.
  assert (Q : 0 < t / sa_theta rows) by (apply Rdiv_lt_0_compat; assumption). assert (Q1 : t / sa_theta rows <> 1) by (intros X; apply N; apply (Rmult_eq_compat_r (sa_theta rows)) in X; unfold Rdiv in X; rewrite Rmult_assoc, Rinv_l, Rmult_1_r, Rmult_1_l in X by lra; exact X).
  pose proof (ln_lt _ Q Q1) as LN. unfold Rdiv in LN at 1. rewrite ln_mult in LN by (assumption || (apply Rinv_0_lt_compat; assumption)). rewrite ln_Rinv in LN by assumption.
  assert (TE : t * haz rows = INR (events rows) * (t / sa_theta rows)) by (rewrite <- TH; field; lra). rewrite TE.
  pose proof (Rmult_lt_compat_l (INR (events rows)) _ _ EP LN). lra.
Qed.
(** Scoring a leaf gives the loss of its risk factor; the assertion never fails. *)
Theorem C59_score rows theta : 0 < theta -> hazards_ok rows -> sa_costs rows theta = Some (loss theta rows).
Proof. intros T H. apply costs_eq; assumption. Qed.

(** * The depth-two solver *)
(** Rows added and taken away that leave each row of [rows] once and no other. *)
Definition hrow_dec (a b : hrow) : {a = b} + {a <> b}.
Proof. destruct a as [x h], b as [y k]. destruct (bool_dec x y) as [->|N]; [|right; congruence]. destruct (Req_EM_T h k) as [->|N]; [now left|right; congruence]. Defined.
Fixpoint net (ops : list (hrow * Z)) (r : hrow) : Z := match ops with [] => 0%Z | (x, m) :: ops' => ((if hrow_dec x r then m else 0) + net ops' r)%Z end.
Definition leaves (ops : list (hrow * Z)) (rows : list hrow) : Prop := forall r, net ops r = Z.of_nat (count_occ hrow_dec rows r).
Lemma sum_ops (f : hrow -> R) ops rows : leaves ops rows -> sumR (fun o : hrow * Z => f (fst o) * IZR (snd o)) ops = sumR f rows.
Proof.
  intros L. set (U := nodup hrow_dec (map fst ops ++ rows)).
  assert (NU : NoDup U) by apply NoDup_nodup.
  (* both sums group by distinct rows *)
  assert (S1 : forall u x a, NoDup u -> In x u -> sumR (fun r : hrow => if hrow_dec x r then a r else 0) u = a x).
  { induction u as [|y u IH]; intros x a ND I; [destruct I|]. inversion ND; subst. cbn [sumR]. destruct (hrow_dec x y) as [->|N].
    - assert (Z : sumR (fun r : hrow => if hrow_dec y r then a r else 0) u = 0); [|lra]. clear -H1. induction u as [|z u IH]; [reflexivity|]. cbn [sumR]. destruct (hrow_dec y z) as [->|N]; [exfalso; apply H1; now left|]. rewrite IH by (intros I; apply H1; now right). lra.
    - destruct I as [->|I]; [congruence|]. rewrite IH by assumption. lra. }
  assert (SP : forall (u : list hrow) a b, sumR (fun r : hrow => a r + b r) u = sumR a u + sumR b u) by (induction u as [|y u IH]; intros a b; cbn; [lra|rewrite IH; lra]).
  assert (A : forall o, (forall x, In x o -> In (fst x) U) -> sumR (fun o : hrow * Z => f (fst o) * IZR (snd o)) o = sumR (fun r : hrow => f r * IZR (net o r)) U).
  { induction o as [|[x m] o IH]; intros SUB; cbn [sumR net fst snd].
    - clear. induction U as [|y u IH]; cbn [sumR Z.of_nat]; [reflexivity|]. cbn [Z.of_nat] in IH. rewrite <- IH. lra.
    - rewrite IH by (intros y I; apply SUB; now right). rewrite (sumR_ext (fun r => f r * IZR ((if hrow_dec x r then m else 0) + net o r)) (fun r => (if hrow_dec x r then f r * IZR m else 0) + f r * IZR (net o r))) by (intros r _; rewrite plus_IZR; destruct (hrow_dec x r); lra).
      rewrite SP, (S1 U x (fun r => f r * IZR m)); [reflexivity|exact NU|apply (SUB (x, m)); now left]. }
  assert (B : forall l, (forall x, In x l -> In x U) -> sumR f l = sumR (fun r : hrow => f r * IZR (Z.of_nat (count_occ hrow_dec l r))) U).
  { induction l as [|x l IH]; intros SUB; cbn [sumR count_occ].
    - clear. induction U as [|y u IH]; cbn [sumR Z.of_nat]; [reflexivity|]. cbn [Z.of_nat] in IH. rewrite <- IH. lra.
    - rewrite IH by (intros y I; apply SUB; now right). rewrite (sumR_ext (fun r => f r * IZR (Z.of_nat (if hrow_dec x r then S (count_occ hrow_dec l r) else count_occ hrow_dec l r))) (fun r => (if hrow_dec x r then f r else 0) + f r * IZR (Z.of_nat (count_occ hrow_dec l r)))) by (intros r _; destruct (hrow_dec x r); [rewrite Nat2Z.inj_succ; unfold Z.succ; rewrite plus_IZR; lra|lra]).
      rewrite SP, (S1 U x f); [reflexivity|exact NU|apply SUB; now left]. }
  rewrite A by (intros x I; apply nodup_In, in_or_app; left; apply in_map, I). rewrite B by (intros x I; apply nodup_In, in_or_app; right; exact I). apply sumR_ext. intros r _. rewrite L. reflexivity.
Qed.
Lemma d2_eq ops rows : leaves ops rows -> d2_count ops = sa_sums rows.
Proof.
  intros L. rewrite sums_eq. unfold d2_count.
  assert (G : forall s, fold_left (fun (s : d2sa) (o : hrow * Z) => d2_add s (d2_row (fst o) (snd o))) ops s = D2SA (d_haz s + sumR (fun o : hrow * Z => snd (fst o) * IZR (snd o)) ops) (d_ev s + fold_right (fun (o : hrow * Z) (a : Z) => ((if fst (fst o) then snd o else 0) + a)%Z) 0%Z ops) (d_nlh s + sumR (fun o : hrow * Z => (if fst (fst o) then - ln (snd (fst o)) else 0) * IZR (snd o)) ops)).
  { clear. induction ops as [|[[e h] m] ops IH]; intros s; cbn [fold_left sumR fold_right fst snd]; [destruct s; cbn; f_equal; [lra|lia|lra]|]. rewrite IH. unfold d2_add, d2_row. destruct e; cbn [fst snd d_haz d_ev d_nlh]; f_equal; try lia; lra. }
  rewrite G. cbn [d_haz d_ev d_nlh]. rewrite (sum_ops snd ops rows L), (sum_ops (fun r => if fst r then - ln (snd r) else 0) ops rows L). rewrite !Rplus_0_l. f_equal.
  apply eq_IZR. rewrite Z.add_0_l. assert (E : IZR (fold_right (fun (o : hrow * Z) (a : Z) => ((if fst (fst o) then snd o else 0) + a)%Z) 0%Z ops) = sumR (fun o : hrow * Z => (if fst (fst o) then 1 else 0) * IZR (snd o)) ops) by (clear; induction ops as [|[[e h] m] ops IH]; cbn [fold_right sumR fst snd]; [reflexivity|]; rewrite plus_IZR, IH; destruct e; lra).
  rewrite E, (sum_ops (fun r => if fst r then 1 else 0) ops rows L). unfold events. clear. induction rows as [|[e h] rows IH]; cbn [sumR filter fst]; [reflexivity|]. rewrite IH. destruct e; cbn [length]; [rewrite Nat2Z.inj_succ; unfold Z.succ; rewrite plus_IZR; lra|lra].
Qed.
(** Whatever rows were added and taken away, the counters give the leaf of the rows that are left. *)
Theorem C59_counters ops rows : leaves ops rows -> hazards_ok rows -> rows <> [] -> sa_leaf rows = Some (d2_label (d2_count ops), d2_costs (d2_count ops)).
Proof.
  intros L H N. rewrite (d2_eq ops rows L). destruct (C59_leaf_optimal rows H N) as (th & v & E & _). rewrite E. unfold sa_leaf in E. destruct (Rle_dec _ _); [|discriminate]. injection E as <- <-. unfold d2_costs, d2_label, sa_error.
  assert (T : Rmax (1 / 2) (IZR (d_ev (sa_sums rows))) / d_haz (sa_sums rows) = sa_theta rows); [|rewrite T; reflexivity].
  unfold sa_theta. rewrite sums_eq. cbn [d_ev d_haz]. destruct (Z.eqb_spec (Z.of_nat (events rows)) 0) as [Z|Z]; [rewrite Z, Rmax_left by lra; reflexivity|].
  rewrite Rmax_right; [reflexivity|]. assert (1 <= IZR (Z.of_nat (events rows))) by (apply IZR_le; lia). lra.
Qed.

(** * Trees *)
(** Rows with their answers to the questions. *)
Definition frow := ((nat -> bool) * hrow)%type.
Fixpoint srisk (t : stree) (x : nat -> bool) : R := match t with SLeaf th => th | SNode f l r => if x f then srisk r x else srisk l x end.
(** The loss of a tree: every row with the risk factor of its leaf. *)
Definition tree_loss (t : stree) (rows : list frow) : R := sumR (fun r : frow => row_loss (srisk t (fst r)) (snd r)) rows.
(** The value the search gives to the shape of a tree: the sum over its leaves. *)
Fixpoint tree_value (t : stree) (rows : list frow) : R :=
  match t with
  | SLeaf _ => match sa_leaf (map snd rows) with Some (_, v) => v | None => 0 end
  | SNode f l r => tree_value l (filter (fun x => negb (fst x f)) rows) + tree_value r (filter (fun x => fst x f) rows)
  end.
Fixpoint thetas_pos (t : stree) : Prop := match t with SLeaf th => 0 < th | SNode _ l r => thetas_pos l /\ thetas_pos r end.
Lemma loss_split (g : frow -> R) f rows : sumR g rows = sumR g (filter (fun x => negb (fst x f)) rows) + sumR g (filter (fun x => fst x f) rows).
Proof. induction rows as [|x rows IH]; cbn [sumR filter]; [lra|]. rewrite IH. destruct (fst x f); cbn [negb sumR]; lra. Qed.
Lemma hz_filter p (rows : list frow) : hazards_ok (map snd rows) -> hazards_ok (map snd (filter p rows)).
Proof. unfold hazards_ok. rewrite !Forall_map, !Forall_forall. intros H x I. apply filter_In in I. apply H, I. Qed.
(** No tree has a smaller loss than the value of its shape, whatever its risk factors. *)
Theorem C59_tree t rows : thetas_pos t -> hazards_ok (map snd rows) -> tree_value t rows <= tree_loss t rows.
Proof.
  revert rows. induction t as [th|f l IHl r IHr]; intros rows P H; cbn [tree_value thetas_pos] in *.
  - assert (E : tree_loss (SLeaf th) rows = loss th (map snd rows)) by (unfold tree_loss, loss; cbn [srisk]; clear; induction rows as [|x rows IH]; cbn [sumR map]; [reflexivity|]; rewrite IH; reflexivity). rewrite E.
    destruct rows as [|x rows]; [cbn [map]; unfold sa_leaf, sa_error; cbn; destruct (Rle_dec _ _); [|lra]; rewrite Rmult_0_l, Rminus_0_r, Rmax_left by lra; unfold loss; cbn; lra|].
    destruct (C59_leaf_optimal (map snd (x :: rows)) H ltac:(discriminate)) as (t & v & -> & _ & M & _). apply M, P.
  - destruct P as [Pl Pr]. unfold tree_loss in *. rewrite (loss_split _ f rows). apply Rplus_le_compat.
    + eapply Rle_trans; [apply IHl; [exact Pl|apply hz_filter, H]|]. apply Req_le, sumR_ext. intros x I. apply filter_In in I. cbn [srisk]. destruct (fst x f); [destruct I; discriminate|reflexivity].
    + eapply Rle_trans; [apply IHr; [exact Pr|apply hz_filter, H]|]. apply Req_le, sumR_ext. intros x I. apply filter_In in I. cbn [srisk]. destruct I as [_ ->]. reflexivity.
Qed.
(** The tree with the risk factors of the leaves reaches it, if no leaf is without an event. *)
Fixpoint refit (t : stree) (rows : list frow) : stree :=
  match t with
  | SLeaf th => SLeaf (sa_theta (map snd rows))
  | SNode f l r => SNode f (refit l (filter (fun x => negb (fst x f)) rows)) (refit r (filter (fun x => fst x f) rows))
  end.
Fixpoint eventful (t : stree) (rows : list frow) : Prop :=
  match t with SLeaf _ => events (map snd rows) <> 0%nat | SNode f l r => eventful l (filter (fun x => negb (fst x f)) rows) /\ eventful r (filter (fun x => fst x f) rows) end.
Theorem C59_reached t rows : eventful t rows -> hazards_ok (map snd rows) -> tree_loss (refit t rows) rows = tree_value t rows.
Proof.
  revert rows. induction t as [th|f l IHl r IHr]; intros rows E H; cbn [tree_value refit eventful] in *.
  - assert (EQ : tree_loss (SLeaf (sa_theta (map snd rows))) rows = loss (sa_theta (map snd rows)) (map snd rows)) by (unfold tree_loss, loss; cbn [srisk]; generalize (sa_theta (map snd rows)); intros q; clear; induction rows as [|x rows IH]; cbn [sumR map]; [reflexivity|]; rewrite IH; reflexivity).
    rewrite EQ. destruct (C59_leaf_optimal (map snd rows) H (events_some _ E)) as (t & v & L & _ & _ & V & _). rewrite L. rewrite (V E). unfold sa_leaf in L. destruct (Rle_dec _ _); [|discriminate]. injection L as <- _. reflexivity.
  - destruct E as [El Er]. rewrite <- (IHl _ El) by apply hz_filter, H. rewrite <- (IHr _ Er) by apply hz_filter, H. unfold tree_loss. rewrite (loss_split _ f rows). f_equal; apply sumR_ext; intros x I; apply filter_In in I; cbn [srisk].
    + destruct (fst x f); [destruct I; discriminate|reflexivity].
    + destruct I as [_ ->]. reflexivity.
Qed.

(** * Cases *)
Definition leaf_rows : list hrow := [(true, 1 / 4); (false, 1); (true, 3 / 4)].
Example C59_ex : hazards_ok leaf_rows /\ leaf_rows <> [] /\ events leaf_rows = 2%nat /\ sa_theta leaf_rows = 1.
Proof. split; [repeat (apply Forall_cons; [cbn; lra|]); apply Forall_nil|]. split; [discriminate|]. split; [reflexivity|]. rewrite theta_eq. cbn. unfold haz, leaf_rows. cbn. field. Qed.
Example C59_ops_ex : leaves [((true, 1 / 4), 1%Z); ((false, 1), 1%Z); ((true, 1 / 4), (-1)%Z)] [(false, 1)].
Proof. intros [e h]. cbn [net count_occ]. destruct (hrow_dec (true, 1 / 4) (e, h)), (hrow_dec (false, 1) (e, h)); lia. Qed.
Definition tree_rows : list frow := [((fun _ => true), (true, 1 / 2)); ((fun _ => false), (true, 1)); ((fun _ => false), (false, 2))].
Example C59_tree_ex : eventful (SNode 0 (SLeaf 1) (SLeaf 1)) tree_rows /\ hazards_ok (map snd tree_rows) /\ thetas_pos (SNode 0 (SLeaf 1) (SLeaf 1)).
Proof. split; [cbn; split; discriminate|]. split; [repeat (apply Forall_cons; [cbn; lra|]); apply Forall_nil|]. cbn. split; lra. Qed.
(** A leaf without an event is given the value 0 by the search, but its risk factor scores 1/2. *)
Theorem C59_no_event_refuted : exists rows theta v, hazards_ok rows /\ sa_leaf rows = Some (theta, v) /\ v = 0 /\ sa_costs rows theta = Some (1 / 2).
Proof.
  set (rows := [(false, 1)] : list hrow). assert (H : hazards_ok rows) by (repeat constructor; cbn; lra). assert (E : events rows = 0%nat) by reflexivity.
  destruct (C59_leaf_optimal rows H ltac:(discriminate)) as (th & v & L & P & _ & _ & Z). exists rows, th, v. split; [exact H|]. split; [exact L|]. split; [apply Z, E|]. rewrite costs_eq by assumption. f_equal. unfold sa_leaf in L. destruct (Rle_dec _ _); [|discriminate]. injection L as <- _. rewrite theta_eq, E. cbn [Nat.eqb]. unfold loss, haz, rows, row_loss. cbn. field.
Qed.

Print Assumptions C59_leaf_optimal.
Print Assumptions C59_leaf_unique.
Print Assumptions C59_score.
Print Assumptions C59_counters.
Print Assumptions C59_tree.
Print Assumptions C59_reached.
Print Assumptions C59_no_event_refuted.
