(** C86: the predictions of survival trees. *)
From Coq Require Import List Arith Bool Lia QArith Qreals Reals Lra Sorted Permutation.
From Verif Require Import Base_Q Model_Survival Model_SurvLeaf Model_SurvPredict Props_Survival Props_SurvLeaf.
Import ListNotations.
Local Open Scope R_scope.

Lemma q2r_pos q : (0 < q)%Q -> 0 < Q2R q.
Proof. intro H. apply Qlt_Rlt in H. rewrite RMicromega.Q2R_0 in H. exact H. Qed.
Lemma tally_add_keeps r tl e : In e tl -> exists e', In e' (tally_add r tl) /\ key e' = key e /\ (dead e <= dead e')%nat.
Proof.
  induction tl as [|[s [c d]] tl IH]; cbn [tally_add]; [intros []|]. destruct (Qeq_bool s (fst r)).
  - intros [<-|I]; [|exists e; split; [now right|split; [reflexivity|lia]]].
    eexists. split; [now left|]. unfold key, dead. destruct (snd r); cbn [fst snd]; split; (reflexivity || lia).
  - intros [<-|I]; [exists (s, (c, d)); split; [now left|split; [reflexivity|lia]]|]. destruct (IH I) as (e' & A & B). exists e'. split; [now right|exact B].
Qed.
Lemma tally_add_own r tl : exists e, In e (tally_add r tl) /\ (key e == fst r)%Q /\ (snd r = true -> (0 < dead e)%nat).
Proof.
  induction tl as [|[s [c d]] tl IH]; cbn [tally_add].
  - eexists. split; [now left|]. unfold key, dead. destruct (snd r); cbn [fst snd]; split; try reflexivity; [lia|discriminate].
  - destruct (Qeq_bool s (fst r)) eqn:E.
    + eexists. split; [now left|]. unfold key, dead. apply Qeq_bool_eq in E. destruct (snd r); cbn [fst snd]; split; try exact E; [lia|discriminate].
    + destruct IH as (e & A & B). exists e. split; [now right|exact B].
Qed.
Lemma tally_own rows r : In r rows -> exists e, In e (tally rows) /\ (key e == fst r)%Q /\ (snd r = true -> (0 < dead e)%nat).
Proof.
  unfold tally. assert (K : forall rows tl e, In e tl -> exists e', In e' (fold_left (fun tl r => tally_add r tl) rows tl) /\ key e' = key e /\ (dead e <= dead e')%nat).
  { induction rows0 as [|x l IH]; intros tl e I; cbn [fold_left]; [exists e; repeat split; [exact I|lia]|].
    destruct (tally_add_keeps x tl e I) as (e1 & I1 & K1 & D1). destruct (IH _ _ I1) as (e2 & I2 & K2 & D2). exists e2. split; [exact I2|]. split; [congruence|lia]. }
  generalize (@nil (Q * (nat * nat))). induction rows as [|x l IH]; intros tl I; [destruct I|]. cbn [fold_left]. destruct I as [->|I]; [|apply IH; exact I].
  destruct (tally_add_own r tl) as (e & A & B & C). destruct (K l _ e A) as (e' & A' & B' & C'). exists e'. split; [exact A'|]. split; [rewrite B'; exact B|]. intro S. specialize (C S). lia.
Qed.

(** The times of a prediction: increasing, those of the training rows, and marked exactly when
    an event was seen. *)
Theorem C86_times rows : StronglySorted Qlt (map fst (unique_times rows))
  /\ (forall r, In r rows -> exists e, In e (unique_times rows) /\ (fst e == fst r)%Q /\ (snd r = true -> snd e = true))
  /\ (forall e, In e (unique_times rows) -> exists r, In r rows /\ (fst e == fst r)%Q /\ (snd e = true -> exists r', In r' rows /\ (fst e == fst r')%Q /\ snd r' = true)).
Proof.
  unfold unique_times. split; [|split].
  - rewrite map_map. pose proof (time_sort_sorted _ (tally_distinct rows)) as S. induction S as [|x l S IH F]; cbn [map]; [constructor|]. constructor; [exact IH|].
    apply Forall_forall. intros q I. apply in_map_iff in I. destruct I as (e & <- & I). rewrite Forall_forall in F. exact (F e I).
  - intros r I. destruct (tally_own rows r I) as (e & A & B & C). exists (fst e, (0 <? snd (snd e))%nat). split; [|split; [exact B|]].
    + apply (in_map (fun e => (fst e, (0 <? snd (snd e))%nat))). apply (Permutation_in e (Permutation_sym (time_sort_perm _))). exact A.
    + intro S. apply Nat.ltb_lt. exact (C S).
  - intros e I. apply in_map_iff in I. destruct I as (k & <- & I). apply (Permutation_in k (time_sort_perm _)) in I. destruct (tally_from rows k I) as (r & R1 & R2).
    exists r. split; [exact R1|]. split; [exact R2|]. cbn [fst snd]. intro D. apply Nat.ltb_lt in D. destruct (tally_dead_from rows k I D) as (r' & A & B & C). exists r'. auto.
Qed.
Lemma times_nonneg rows e : times_ok rows -> In e (unique_times rows) -> (0 <= fst e)%Q.
Proof. intros OK I. destruct (proj2 (proj2 (C86_times rows)) e I) as (r & A & B & _). unfold times_ok in OK. rewrite Forall_forall in OK. rewrite B. apply OK, A. Qed.
Lemma sorted_nth (l : list Q) : StronglySorted Qlt l -> forall i j, (i <= j)%nat -> (j < length l)%nat -> (nth i l 0 <= nth j l 0)%Q.
Proof.
  induction 1 as [|x l S IH F]; intros i j L B; cbn [length] in B; [lia|]. destruct i as [|i], j as [|j]; cbn [nth]; [apply Qle_refl| |lia|apply IH; lia].
  apply Qlt_le_weak. rewrite Forall_forall in F. apply F, nth_In. lia.
Qed.

(** The curves of a row with a positive risk factor: the cumulative hazard is positive, does not
    fall and is the factor times the Nelson-Aalen estimate; the survival probability lies
    strictly between 0 and 1, does not rise and belongs to that hazard. *)
Theorem C86_curves : forall rows theta, times_ok rows -> 0 < theta ->
  length (chf rows theta) = length (unique_times rows) /\ length (survival rows theta) = length (unique_times rows)
  /\ forall i j, (i <= j < length (unique_times rows))%nat ->
     let H k := nth k (chf rows theta) 0 in let S k := nth k (survival rows theta) 0 in
     0 < H i <= H j /\ 0 < S j <= S i /\ S i < 1
     /\ H i = theta * Q2R (baseline rows (fst (nth i (unique_times rows) (0%Q, false)))) /\ S i = exp (- H i).
Proof.
  intros rows theta OK T. unfold chf, survival. rewrite !map_length. split; [reflexivity|]. split; [reflexivity|]. intros i j L. cbv zeta.
  assert (N : forall k (f : Q * bool -> R), (k < length (unique_times rows))%nat -> nth k (map f (unique_times rows)) 0 = f (nth k (unique_times rows) (0%Q, false))).
  { intros k f K. rewrite (nth_indep _ 0 (f (0%Q, false))) by (rewrite map_length; exact K). apply map_nth. }
  rewrite !N by lia. set (ei := nth i (unique_times rows) (0%Q, false)). set (ej := nth j (unique_times rows) (0%Q, false)).
  assert (Ii : In ei (unique_times rows)) by (apply nth_In; lia). assert (Ij : In ej (unique_times rows)) by (apply nth_In; lia).
  pose proof (C38_python rows (fst ei) OK (times_nonneg rows ei OK Ii)) as Ei. pose proof (C38_python rows (fst ej) OK (times_nonneg rows ej OK Ij)) as Ej.
  rewrite (Qeq_eqR _ _ Ei), (Qeq_eqR _ _ Ej). pose proof (q2r_pos _ (baseline_pos rows (fst ei))) as Pi. pose proof (q2r_pos _ (baseline_pos rows (fst ej))) as Pj.
  assert (LE : (fst ei <= fst ej)%Q).
  { pose proof (sorted_nth _ (proj1 (C86_times rows)) i j ltac:(lia) ltac:(rewrite map_length; lia)) as X.
    change 0%Q with (fst (0%Q, false)) in X. rewrite !map_nth in X. exact X. }
  pose proof (Qle_Rle _ _ (baseline_mono rows _ _ LE)) as M.
  assert (A : theta * Q2R (baseline rows (fst ei)) <= theta * Q2R (baseline rows (fst ej))) by (apply Rmult_le_compat_l; lra).
  assert (B : 0 < theta * Q2R (baseline rows (fst ei))) by (apply Rmult_lt_0_compat; lra).
  split; [split; assumption|]. split; [|split; [|split; [reflexivity|f_equal; lra]]].
  - split; [apply exp_pos|]. assert (C : - theta * Q2R (baseline rows (fst ej)) <= - theta * Q2R (baseline rows (fst ei))) by lra.
    destruct C as [C|C]; [left; apply exp_increasing; exact C|rewrite C; right; reflexivity].
  - rewrite <- exp_0. apply exp_increasing. lra.
Qed.

(** Risk scores rank rows by their risk factors, as long as an event was seen in training; the
    survival curve of a higher factor lies below. *)
Lemma masked_chf rows theta : risk_score rows theta = theta * masked_sum (unique_times rows) (chf rows 1).
Proof.
  unfold risk_score, masked_sum, chf. induction (unique_times rows) as [|e l IH]; cbn [map combine fold_right fst snd]; [ring|].
  rewrite IH. destruct (snd e); ring.
Qed.
Lemma masked_pos rows : times_ok rows -> (exists r, In r rows /\ snd r = true) -> 0 < masked_sum (unique_times rows) (chf rows 1).
Proof.
  intros OK (r & I & E). destruct (proj1 (proj2 (C86_times rows)) r I) as (e & A & _ & C). specialize (C E).
  assert (P : forall e, In e (unique_times rows) -> 0 < 1 * Q2R (py_hazard rows (fst e))).
  { intros x X. rewrite Rmult_1_l. apply q2r_pos. rewrite (C38_python rows (fst x) OK (times_nonneg rows x OK X)). apply baseline_pos. }
  unfold masked_sum, chf. revert A P. induction (unique_times rows) as [|x l IH]; [intros []|]. intros A P. cbn [map combine fold_right fst snd].
  assert (NN : 0 <= fold_right (fun (p : (Q * bool) * R) a => if snd (fst p) then snd p + a else a) 0 (combine l (map (fun e => 1 * Q2R (py_hazard rows (fst e))) l))).
  { clear -P. assert (P' : forall e, In e l -> 0 < 1 * Q2R (py_hazard rows (fst e))) by (intros; apply P; now right). clear P. induction l as [|y l IH]; cbn [map combine fold_right fst snd]; [lra|].
    pose proof (P' y (or_introl eq_refl)). specialize (IH (fun e I => P' e (or_intror I))). destruct (snd y); lra. }
  destruct A as [->|A].
  - rewrite C. pose proof (P e (or_introl eq_refl)). lra.
  - specialize (IH A (fun e I => P e (or_intror I))). pose proof (P x (or_introl eq_refl)). destruct (snd x); lra.
Qed.
Theorem C86_ranking : forall rows theta1 theta2, times_ok rows -> (exists r, In r rows /\ snd r = true) -> 0 < theta1 -> 0 < theta2 ->
  (risk_score rows theta1 < risk_score rows theta2 <-> theta1 < theta2)
  /\ (risk_score rows theta1 = risk_score rows theta2 <-> theta1 = theta2)
  /\ (theta1 < theta2 -> forall k, (k < length (unique_times rows))%nat -> nth k (survival rows theta2) 0 < nth k (survival rows theta1) 0).
Proof.
  intros rows t1 t2 OK E T1 T2. pose proof (masked_pos rows OK E) as P. rewrite !masked_chf. split; [|split].
  - split; intro H; [|apply Rmult_lt_compat_r; assumption]. apply (Rmult_lt_reg_r _ _ _ P H).
  - split; intro H; [|congruence]. apply (Rmult_eq_reg_r _ _ _ H). lra.
  - intros H k K. pose proof (proj2 (proj2 (C86_curves rows t1 OK T1)) k k ltac:(lia)) as (_ & _ & _ & A1 & A2).
    pose proof (proj2 (proj2 (C86_curves rows t2 OK T2)) k k ltac:(lia)) as (_ & _ & _ & B1 & B2). rewrite A2, B2, A1, B1. apply exp_increasing.
    pose proof (q2r_pos _ (baseline_pos rows (fst (nth k (unique_times rows) (0%Q, false))))) as Q0.
    assert (t1 * Q2R (baseline rows (fst (nth k (unique_times rows) (0%Q, false)))) < t2 * Q2R (baseline rows (fst (nth k (unique_times rows) (0%Q, false))))) by (apply Rmult_lt_compat_r; assumption). lra.
Qed.

(** Calibration: in a leaf with an event the predicted cumulative hazards of its training rows,
    each at its own time, add up to the number of events; in a leaf without one to one half. *)
Definition solver_rows (rows leaf : list srow) : list hrow := map (fun r : srow => (snd r, Q2R (hazard rows (fst r)))) leaf.
Theorem C86_calibrated : forall rows leaf, times_ok rows -> leaf <> [] -> incl leaf rows ->
  (forall r s, In r leaf -> In s rows -> snd s = true -> ~ (fst r < fst s <= fst r + (1 # 1000000))%Q) ->
  sumR (fun r : srow => sa_theta (solver_rows rows leaf) * Q2R (py_hazard rows (fst r))) leaf
  = if (length (filter snd leaf) =? 0)%nat then 1 / 2 else INR (length (filter snd leaf)).
Proof.
  intros rows leaf OK N I G. set (th := sa_theta (solver_rows rows leaf)).
  assert (HO : hazards_ok (solver_rows rows leaf)).
  { apply Forall_forall. intros x X. apply in_map_iff in X. destruct X as (r & <- & X). cbn [snd]. apply q2r_pos. apply C38_positive. exact OK. }
  assert (EV : events (solver_rows rows leaf) = length (filter snd leaf)).
  { unfold events, solver_rows. clear. induction leaf as [|r l IH]; [reflexivity|]. cbn [map filter fst]. destruct (snd r); cbn [length]; rewrite IH; reflexivity. }
  assert (HZ : sumR (fun r : srow => th * Q2R (py_hazard rows (fst r))) leaf = th * haz (solver_rows rows leaf)).
  { assert (X : forall r, In r leaf -> Q2R (py_hazard rows (fst r)) = Q2R (hazard rows (fst r))).
    { intros r R. symmetry. apply Qeq_eqR. apply C38_agree; [exact OK|unfold times_ok in OK; rewrite Forall_forall in OK; apply OK, I, R|intros s S1 S2; apply (G r s R S1 S2)]. }
    unfold haz, solver_rows. generalize th. clear -X. intro th. induction leaf as [|r l IH]; cbn [sumR map snd]; [ring|]. rewrite IH by (intros; apply X; now right). rewrite X by now left. ring. }
  rewrite HZ. unfold th. rewrite theta_eq, EV. assert (N' : solver_rows rows leaf <> []) by (destruct leaf; [congruence|discriminate]). pose proof (haz_pos _ HO N').
  destruct (Nat.eqb_spec (length (filter snd leaf)) 0) as [Z|Z]; field; lra.
Qed.

(** What a new fit that comes through predicts does not depend on earlier fits. *)
Theorem C86_last_fit : forall X (o : sobj X) rows t x, so_chf (so_fit o rows (Some t)) x = Some (chf rows (t x)).
Proof. reflexivity. Qed.
(** A fit that is refused leaves the old tree with the baseline and the times of the new data. *)
Theorem C86_refused_fit_refuted : exists rows1 rows2 (t : unit -> R), let o := so_fit (SObj [] None) rows1 (Some t) in
  times_ok rows1 /\ times_ok rows2 /\ 0 < t tt
  /\ so_chf (so_fit o rows2 None) tt <> so_chf o tt /\ so_chf (so_fit o rows2 None) tt = Some (chf rows2 (t tt)).
Proof.
  exists [(1%Q, true)], [(1%Q, true); (1%Q, false)], (fun _ => 1). cbv zeta. split; [repeat constructor; discriminate|]. split; [repeat constructor; discriminate|]. split; [lra|]. split; [|reflexivity].
  unfold so_chf, so_fit. cbn [so_tree so_rows option_map]. intro H. apply (f_equal (fun x => match x with Some l => hd 0 l | None => 0 end)) in H. unfold chf in H.
  replace (unique_times [(1%Q, true); (1%Q, false)]) with [(1%Q, true)] in H by (vm_compute; reflexivity).
  replace (unique_times [(1%Q, true)]) with [(1%Q, true)] in H by (vm_compute; reflexivity). cbn [map fst hd] in H.
  assert (A : (py_hazard [(1%Q, true); (1%Q, false)] 1 == 1 # 2)%Q) by (vm_compute; reflexivity).
  assert (B : (py_hazard [(1%Q, true)] 1 == 1)%Q) by (vm_compute; reflexivity).
  rewrite (Qeq_eqR _ _ A), (Qeq_eqR _ _ B) in H. unfold Q2R in H. cbn in H. lra.
Qed.

Example C86_ex : times_ok surv_rows /\ (exists r, In r surv_rows /\ snd r = true) /\ map snd (unique_times surv_rows) = [true; false; true; true; false]
  /\ incl [(2%Q, true); (5%Q, false)] surv_rows /\ (py_hazard surv_rows 2 == 5 # 12)%Q
  /\ (forall r s, In r [(2%Q, true); (5%Q, false)] -> In s surv_rows -> snd s = true -> ~ (fst r < fst s <= fst r + (1 # 1000000))%Q).
Proof.
  split; [apply C38_ex|]. split; [exists (3%Q, true); split; [now left|reflexivity]|]. split; [vm_compute; reflexivity|]. split; [intros r [<-|[<-|[]]]; cbn; tauto|]. split; [vm_compute; reflexivity|].
  intros r s R S _ [A B]. assert (X : forallb (fun r => forallb (fun s : srow => negb (negb (Qle_bool (fst s) (fst r)) && Qle_bool (fst s) (fst r + (1 # 1000000)))) surv_rows) [(2%Q, true); (5%Q, false)] = true) by (vm_compute; reflexivity).
  rewrite forallb_forall in X. specialize (X r R). rewrite forallb_forall in X. specialize (X s S). apply Qle_bool_iff in B. rewrite B in X.
  destruct (Qle_bool (fst s) (fst r)) eqn:E; [|discriminate]. apply Qle_bool_iff in E. apply (Qlt_not_le _ _ A E).
Qed.

Print Assumptions C86_times.
Print Assumptions C86_curves.
Print Assumptions C86_ranking.
Print Assumptions C86_calibrated.
Print Assumptions C86_last_fit.
Print Assumptions C86_refused_fit_refuted.
