(** C93: configurations that tuning skips.  C94: tuning of the linear regressions.  C95: the memo
    of the last leaf. *)
From Coq Require Import List Arith Bool Lia ZArith QArith Qabs Lqa Sorted.
From Verif Require Import Base_Q Model_FeatureVector Model_Data Model_Tuning Model_TunePhases Props_Tuning.
Import ListNotations.
Local Open Scope nat_scope.

(** * C93 *)
Section Skip.
  (** The trees within the limits on one fold, with training error, number of nodes and test
      score; [a]: the cost of a node. *)
  Context {T : Type} (within : T -> Prop) (err : T -> Q) (size : T -> nat) (score : T -> Q) (N : nat).
  Hypothesis at_most : forall t, within t -> size t <= N.
  Definition optimal (a : Q) (t : T) : Prop := within t /\ forall t', within t' -> (err t + a * qn (size t) <= err t' + a * qn (size t'))%Q.
  Definition descending (l : list Q) : Prop := StronglySorted (fun a b => (b <= a)%Q) l.
  (** The finished runs of the configurations: their trees and test scores. *)
  Definition runs_of (ts : list T) : list run_out := map (fun t => RunOut true (Some (score t, size t)) true) ts.

  (** A tree of the largest size that is optimal for one cost is optimal for every lower cost. *)
  Lemma larger_stays a b t : optimal a t -> size t = N -> (b <= a)%Q -> optimal b t.
  Proof.
    intros [W O] S L. split; [exact W|]. intros t' W'. specialize (O t' W'). pose proof (at_most t' W') as M. rewrite S in *.
    assert (Q : (qn (size t') <= qn N)%Q) by (unfold qn; rewrite <- Zle_Qle; lia).
    assert (X : ((a - b) * qn (size t') <= (a - b) * qn N)%Q) by (apply Qmult_le_l_le || (setoid_rewrite (Qmult_comm (a - b)); apply Qmult_le_compat_r; [exact Q|lra])).
    lra.
  Qed.
  Lemma skipped_copies worst t a rs : forall cs, length cs = length rs -> optimal a t -> size t = N -> Forall (fun b => (b <= a)%Q) cs ->
    exists us, fold_scores worst true N (Some (score t)) true rs = Some (map score us) /\ Forall2 optimal cs us.
  Proof.
    induction rs as [|r rs IH]; intros [|b cs] L O S F; try discriminate L; [exists []; split; constructor|]. inversion_clear F as [|? ? F1 F2].
    destruct (IH cs ltac:(cbn in L; lia) O S F2) as (us & E & H). exists (t :: us). split; [cbn; rewrite E; reflexivity|]. constructor; [|exact H]. exact (larger_stays a b t O S F1).
  Qed.
  (** Every score in the table of a fold, copied or not, is the score of a tree that is optimal for
      its configuration. *)
  Theorem C93_skipped worst cs ts : descending cs -> Forall2 optimal cs ts ->
    exists us, fold_scores worst true N None false (runs_of ts) = Some (map score us) /\ Forall2 optimal cs us.
  Proof.
    generalize (@None Q) as prev. intros prev D H. revert prev D. induction H as [|a t cs ts O H IH]; intros prev D; [exists []; split; constructor|].
    inversion_clear D as [|? ? D1 D2]. cbn [runs_of map fold_scores ro_time ro_tree ro_opt negb andb].
    destruct (Nat.eqb_spec (size t) N) as [E|NE].
    - destruct (skipped_copies worst t a (runs_of ts) cs) as (us & Eu & Hu); [|exact O|exact E|exact D2|].
      { unfold runs_of. rewrite map_length. clear -H. induction H; cbn; congruence. }
      exists (t :: us). unfold runs_of in Eu. rewrite Eu. split; [reflexivity|]. constructor; assumption.
    - destruct (IH (Some (score t)) D1) as (us & Eu & Hu). exists (t :: us). unfold runs_of in Eu. rewrite Eu. split; [reflexivity|]. constructor; assumption.
  Qed.
  (** With one optimal tree per configuration nothing changes. *)
  Theorem C93_same_scores worst cs ts : descending cs -> Forall2 optimal cs ts -> (forall a t t', In a cs -> optimal a t -> optimal a t' -> (score t = score t')) ->
    fold_scores worst true N None false (runs_of ts) = fold_scores worst false N None false (runs_of ts).
  Proof.
    intros D H U. destruct (C93_skipped worst cs ts D H) as (us & E & Hu). rewrite E.
    assert (X : forall prev, fold_scores worst false N prev false (runs_of ts) = Some (map score ts)).
    { clear. induction ts as [|t ts IH]; intro prev; [reflexivity|]. cbn. unfold runs_of in IH. rewrite IH. reflexivity. }
    rewrite X. f_equal. clear -H Hu U. revert us Hu. induction H as [|a t cs ts O H IH]; intros us Hu; inversion Hu as [|? u ? us' Ou Hu']; subst; [reflexivity|]. cbn. f_equal.
    - apply (U a); [left; reflexivity|exact Ou|exact O].
    - apply IH; [|exact Hu']. intros b x y I. apply U. right. exact I.
  Qed.
End Skip.
(** The grids with node costs are descending. *)
Theorem C93_grids n : descending (cca_grid n) /\ descending alphas.
Proof. split; [exact (proj1 (C32_costs n))|]. unfold alphas, descending. repeat (constructor; [|repeat (constructor; [unfold Qle; cbn; lia|]); constructor]). constructor. Qed.
(** Of two optimal trees the skipped run might have returned the other one. *)
Theorem C93_ties_refuted : exists (within : bool -> Prop) (err : bool -> Q) (size : bool -> nat) (score : bool -> Q) cs ts,
  (forall t, within t -> size t <= 1) /\ descending cs /\ Forall2 (optimal within err size) cs ts
  /\ fold_scores 0%Q true 1 None false (runs_of size score ts) <> fold_scores 0%Q false 1 None false (runs_of size score ts).
Proof.
  exists (fun _ : bool => True), (fun _ : bool => 0%Q), (fun _ : bool => 1), (fun t : bool => if t then 1%Q else 0%Q), [1 # 10; 1 # 100]%Q, [true; false].
  split; [lia|]. split; [apply SSorted_cons; [apply SSorted_cons; [apply SSorted_nil|constructor]|constructor; [unfold Qle; cbn; lia|constructor]]|].
  split; [repeat constructor; intros; lra|]. vm_compute. discriminate.
Qed.
(** A fold where the tree grows up to three nodes and then stays. *)
Definition ex_err (t : nat) : Q := nth t [10 # 100; 4 # 100; 35 # 1000] (1 # 100).
Example C93_ex : let within := fun t : nat => t <= 3 in let cs := [1 # 10; 5 # 100; 1 # 100; 1 # 1000]%Q in
  descending cs /\ Forall2 (optimal within ex_err (fun t : nat => t)) cs [0; 1; 3; 3]
  /\ fold_scores 0%Q true 3 None false (runs_of (fun t : nat => t) (fun t => (1 - ex_err t)%Q) [0; 1; 3; 3]) <> None.
Proof.
  cbv zeta. split; [unfold descending; repeat (constructor; [|repeat (constructor; [unfold Qle; cbn; lia|]); constructor]); constructor|].
  split; [|vm_compute; discriminate].
  repeat (constructor; [split; [lia|]; intros [|[|[|[|t]]]] H; try lia; unfold Qle; vm_compute; discriminate|]). constructor.
Qed.

(** * C94 *)
Lemma max_lambda_nonneg nc rows : (0 <= max_lambda nc rows)%Q.
Proof.
  unfold max_lambda. assert (X : forall l m, (0 <= m)%Q -> (0 <= fold_left (fun m j => let v := Qabs (sumQ (fun r => (fst r * nth j (snd r) 0)%Q) rows / qn (length rows)) in if Qle_bool v m then m else v) l m)%Q).
  { induction l as [|j l IH]; intros m H; [exact H|]. cbn [fold_left]. apply IH. cbv zeta. destruct (Qle_bool _ m); [exact H|apply Qabs_nonneg]. }
  apply X. lra.
Qed.
(** The largest correlation of a column with the targets. *)
Theorem C94_scale nc rows : (forall j, j < nc -> (Qabs (sumQ (fun r => fst r * nth j (snd r) 0) rows / qn (length rows)) <= max_lambda nc rows)%Q)
  /\ ((max_lambda nc rows == 0)%Q \/ exists j, j < nc /\ (max_lambda nc rows == Qabs (sumQ (fun r => fst r * nth j (snd r) 0) rows / qn (length rows)))%Q).
Proof.
  unfold max_lambda. set (v := fun j => Qabs (sumQ (fun r => (fst r * nth j (snd r) 0)%Q) rows / qn (length rows))). change (fun m j => _) with (fun m j => if Qle_bool (v j) m then m else v j).
  assert (X : forall l m, (m <= fold_left (fun m j => if Qle_bool (v j) m then m else v j) l m)%Q /\ (forall j, In j l -> (v j <= fold_left (fun m j => if Qle_bool (v j) m then m else v j) l m)%Q)
     /\ (fold_left (fun m j => if Qle_bool (v j) m then m else v j) l m = m \/ exists j, In j l /\ fold_left (fun m j => if Qle_bool (v j) m then m else v j) l m = v j)).
  { induction l as [|j l IH]; intros m; cbn [fold_left]; [split; [lra|]; split; [intros j []|left; reflexivity]|].
    destruct (IH (if Qle_bool (v j) m then m else v j)) as (A & B & C). destruct (Qle_bool (v j) m) eqn:E.
    - apply Qle_bool_iff in E. split; [exact A|]. split; [intros i [<-|I]; [lra|auto]|]. destruct C as [C|(i & I & C)]; [left; exact C|right; exists i; split; [right; exact I|exact C]].
    - assert (E' : (m < v j)%Q) by (apply Qnot_le_lt; intro Z; apply Qle_bool_iff in Z; congruence). split; [lra|]. split; [intros i [<-|I]; [exact A|auto]|].
      destruct C as [C|(i & I & C)]; [right; exists j; split; [left; reflexivity|exact C]|right; exists i; split; [right; exact I|exact C]]. }
  destruct (X (seq 0 nc) 0%Q) as (A & B & C). split; [intros j J; apply B; apply in_seq; lia|].
  destruct C as [C|(j & I & C)]; [left; rewrite C; reflexivity|right; exists j; apply in_seq in I; split; [lia|rewrite C; reflexivity]].
Qed.

Lemma accept_some cs skip cs' s : accept cs skip = Some (cs', s) -> cs' = cs /\ s = skip.
Proof. unfold accept. destruct (forallb _ cs); [|discriminate]. intros E. injection E as <- <-. auto. Qed.
(** The last step of tuning: the parameters before it and the chosen configuration. *)
Lemma hyper3 grid worst m runs p0 p : hyper grid worst m runs 3 0 p0 = Some p ->
  exists p1 p2 cs0 cs1 cs2 s0 s1 s2 c0 c1 c2, grid 0 p0 = Some (cs0, s0) /\ grid 1 p1 = Some (cs1, s1) /\ grid 2 p2 = Some (cs2, s2)
    /\ phase smaller worst s0 m (length cs0) (runs 0 cs0) = Some c0 /\ phase smaller worst s1 m (length cs1) (runs 1 cs1) = Some c1 /\ phase smaller worst s2 m (length cs2) (runs 2 cs2) = Some c2
    /\ nth_error cs0 c0 = Some p1 /\ nth_error cs1 c1 = Some p2 /\ nth_error cs2 c2 = Some p.
Proof.
  cbn [hyper]. intros H.
  destruct (grid 0 p0) as [[cs0 s0]|] eqn:G0; [|discriminate]. destruct (phase smaller worst s0 m (length cs0) (runs 0 cs0)) as [c0|] eqn:P0; [|discriminate]. destruct (nth_error cs0 c0) as [p1|] eqn:N0; [|discriminate].
  destruct (grid 1 p1) as [[cs1 s1]|] eqn:G1; [|discriminate]. destruct (phase smaller worst s1 m (length cs1) (runs 1 cs1)) as [c1|] eqn:P1; [|discriminate]. destruct (nth_error cs1 c1) as [p2|] eqn:N1; [|discriminate].
  destruct (grid 2 p2) as [[cs2 s2]|] eqn:G2; [|discriminate]. destruct (phase smaller worst s2 m (length cs2) (runs 2 cs2)) as [c2|] eqn:P2; [|discriminate]. destruct (nth_error cs2 c2) as [p3|] eqn:N2; [|discriminate].
  injection H as <-. exists p1, p2, cs0, cs1, cs2, s0, s1, s2, c0, c1, c2. repeat split; assumption.
Qed.
Lemma in_pwl ml cc p : In p (pwl_penalties ml cc) <-> exists lp r, In lp shares /\ In r ratios /\ (Qeq_bool lp 0 = true -> r = 0%Q) /\ p = Lin cc (r * lp * ml) ((1 - r) * lp * ml).
Proof.
  unfold pwl_penalties. rewrite in_flat_map. split.
  - intros (lp & I & J). apply in_map_iff in J. destruct J as (r & <- & J). exists lp, r. split; [exact I|]. destruct (Qeq_bool lp 0).
    + cbn in J. destruct J as [<-|[]]. split; [left; reflexivity|]. auto.
    + split; [exact J|]. split; [discriminate|reflexivity].
  - intros (lp & r & I & J & K & ->). exists lp. split; [exact I|]. apply in_map_iff. exists r. split; [reflexivity|]. destruct (Qeq_bool lp 0); [rewrite K by reflexivity; left; reflexivity|exact J].
Qed.

(** The score of a run with the largest number of nodes stands for the runs after it. *)
Fixpoint carried (m : nat) (xs : list (Q * nat)) : list Q :=
  match xs with [] => [] | (q, n) :: xs' => q :: (if n =? m then map (fun _ => q) xs' else carried m xs') end.
(** [p] is the earliest configuration with the least mean score over the folds, when all runs were
    finished; a run: score and number of nodes of its tree. *)
Definition chosen (worst : Q) (carry : option nat) (cs : list lin) (folds : list (list run_out)) (p : lin) : Prop :=
  exists c, nth_error cs c = Some p /\ forall xss, folds = map (map (fun x => RunOut true (Some x) true)) xss ->
    earliest_best (fun a b => (b < a)%Q) (fun c => mean (map (fun xs => nth c (match carry with Some m => carried m xs | None => map fst xs end) worst) xss)) (length cs) c.
Lemma fold_same worst m q xs : fold_scores worst true m (Some q) true (map (fun x => RunOut true (Some x) true) xs) = Some (map (fun _ => q) xs).
Proof. induction xs as [|x xs IH]; cbn; [reflexivity|]. rewrite IH. reflexivity. Qed.
Lemma fold_finished worst m (skip : bool) xs : forall prev, fold_scores worst skip m prev false (map (fun x => RunOut true (Some x) true) xs) = Some (if skip then carried m xs else map fst xs).
Proof.
  induction xs as [|[q n] xs IH]; intro prev; cbn; [destruct skip; reflexivity|]. destruct skip; cbn [andb].
  - destruct (n =? m); [rewrite fold_same|rewrite IH]; reflexivity.
  - rewrite IH. reflexivity.
Qed.
Lemma phase_chosen worst m (skip : bool) k xss c : phase smaller worst skip m k (map (map (fun x => RunOut true (Some x) true)) xss) = Some c ->
  earliest_best (fun a b => (b < a)%Q) (fun c => mean (map (fun xs => nth c (match (if skip then Some m else None) with Some m => carried m xs | None => map fst xs end) worst) xss)) k c.
Proof.
  intros P. unfold phase in P.
  assert (T : fold_right (fun rs acc => match fold_scores worst skip m None false rs, acc with Some l, Some ls => Some (l :: ls) | _, _ => None end) (Some []) (map (map (fun x => RunOut true (Some x) true)) xss) = Some (map (fun xs => if skip then carried m xs else map fst xs) xss)).
  { clear. induction xss as [|xs xss IH]; cbn [fold_right map]; [reflexivity|]. rewrite IH, fold_finished. reflexivity. }
  rewrite T in P. clear T. destruct xss as [|x0 xss]; [destruct k; cbn in P; discriminate|]. set (table := map (fun xs => if skip then carried m xs else map fst xs) (x0 :: xss)) in P.
  destruct (avgs_of worst table 0 k ltac:(discriminate)) as (avgs & E & L & V). rewrite E in P.
  apply (select_spec smaller (fun a b => (b < a)%Q)) in P; [|intros; apply smaller_lt|intros; lra|intros; lra|intros; lra]. rewrite L in P.
  assert (G : earliest_best (fun a b => (b < a)%Q) (fun c => mean (map (fun scores => nth c scores worst) table)) k c) by (refine (best_ext (fun a b => (b < a)%Q) _ _ _ k c V P); intros; lra).
  unfold table in G. assert (X : forall c, map (fun scores => nth c scores worst) (map (fun xs => if skip then carried m xs else map fst xs) (x0 :: xss)) = map (fun xs => nth c (match (if skip then Some m else None) with Some m => carried m xs | None => map fst xs end) worst) (x0 :: xss)) by (intro i; rewrite map_map; apply map_ext; intro xs; destruct skip; reflexivity).
  unfold earliest_best in *. setoid_rewrite X in G. exact G.
Qed.
(** The documented grids. *)
Definition ten_costs : list Q := [1 # 10; 5 # 100; 25 # 1000; 1 # 100; 75 # 10000; 5 # 1000; 25 # 10000; 1 # 1000; 5 # 10000; 1 # 10000]%Q.
Definition sixteen (ml cc : Q) : list lin :=
  map (fun x => Lin cc (snd x * fst x * ml) ((1 - snd x) * fst x * ml))%Q
    [(1 # 2, 0); (1 # 2, 1 # 4); (1 # 2, 1 # 2); (1 # 2, 3 # 4); (1 # 2, 1); (5 # 100, 0); (5 # 100, 1 # 4); (5 # 100, 1 # 2); (5 # 100, 3 # 4); (5 # 100, 1);
     (5 # 1000, 0); (5 # 1000, 1 # 4); (5 # 1000, 1 # 2); (5 # 1000, 3 # 4); (5 # 1000, 1); (0, 0)]%Q.
(** Tuning of the linear regression: penalties for a high node cost, then the node cost for these
    penalties, then again the penalties for this node cost, always by the least mean score. *)
Theorem C94_linear : forall ml worst m runs p0 p, hyper (pwl_grid ml) worst m runs 3 0 p0 = Some p ->
  exists p1 p2, let costs := map (fun a => Lin a (l_lasso p1) (l_ridge p1)) ten_costs in
    chosen worst None (sixteen ml (99 # 100)) (runs 0 (sixteen ml (99 # 100))) p1
    /\ chosen worst (Some m) costs (runs 1 costs) p2
    /\ chosen worst None (sixteen ml (l_cc p2)) (runs 2 (sixteen ml (l_cc p2))) p.
Proof.
  intros ml worst m runs p0 p H. destruct (hyper3 _ _ _ _ _ _ H) as (p1 & p2 & cs0 & cs1 & cs2 & s0 & s1 & s2 & c0 & c1 & c2 & G0 & G1 & G2 & P0 & P1 & P2 & N0 & N1 & N2).
  cbn [pwl_grid] in *. apply accept_some in G0. destruct G0 as [-> ->]. apply accept_some in G1. destruct G1 as [-> ->]. apply accept_some in G2. destruct G2 as [-> ->].
  assert (E : forall cc, pwl_penalties ml cc = sixteen ml cc) by reflexivity. rewrite E in *. exists p1, p2. cbn zeta. change ten_costs with alphas.
  split; [|split].
  - exists c0. split; [exact N0|]. intros xss EX. rewrite EX in P0. exact (phase_chosen worst m false _ xss c0 P0).
  - exists c1. split; [exact N1|]. intros xss EX. rewrite EX in P1. exact (phase_chosen worst m true _ xss c1 P1).
  - exists c2. split; [exact N2|]. intros xss EX. rewrite EX in P2. exact (phase_chosen worst m false _ xss c2 P2).
Qed.
(** The node cost is one of the ten and the penalties are shares of the scale. *)
Theorem C94_linear_range : forall ml worst m runs p0 p, hyper (pwl_grid ml) worst m runs 3 0 p0 = Some p ->
  In (l_cc p) ten_costs /\ exists lp r, In lp [1 # 2; 5 # 100; 5 # 1000; 0]%Q /\ In r [0; 1 # 4; 1 # 2; 3 # 4; 1]%Q /\ l_lasso p = (r * lp * ml)%Q /\ l_ridge p = ((1 - r) * lp * ml)%Q.
Proof.
  intros ml worst m runs p0 p H. destruct (C94_linear _ _ _ _ _ _ H) as (p1 & p2 & _ & (c1 & N1 & _) & (c2 & N2 & _)).
  apply nth_error_In in N1. apply in_map_iff in N1. destruct N1 as (a & <- & I1). cbn [l_cc] in *.
  apply nth_error_In in N2. unfold sixteen in N2. apply in_map_iff in N2. destruct N2 as ([lp r] & <- & I2). cbn [l_cc l_lasso l_ridge fst snd].
  split; [exact I1|]. exists lp, r. cbn [In] in I2. repeat destruct I2 as [I2|I2]; try (injection I2 as <- <-; cbn [In]; auto 8). destruct I2.
Qed.
Definition seven : list Q := [1000; 100; 10; 1; 1 # 10; 1 # 100; 0]%Q.
Theorem C94_simple : forall worst m runs p0 p, hyper slr_grid worst m runs 3 0 p0 = Some p ->
  exists p1 p2, let first := map (fun lp => Lin (1 # 10) lp (l_ridge p0)) seven in let costs := map (fun a => Lin a (l_lasso p1) (l_ridge p0)) ten_costs in let last := map (fun lp => Lin (l_cc p2) lp (l_ridge p0)) seven in
    chosen worst None first (runs 0 first) p1 /\ chosen worst (Some m) costs (runs 1 costs) p2 /\ chosen worst None last (runs 2 last) p.
Proof.
  intros worst m runs p0 p H. destruct (hyper3 _ _ _ _ _ _ H) as (p1 & p2 & cs0 & cs1 & cs2 & s0 & s1 & s2 & c0 & c1 & c2 & G0 & G1 & G2 & P0 & P1 & P2 & N0 & N1 & N2).
  cbn [slr_grid] in *. apply accept_some in G0. destruct G0 as [-> ->]. apply accept_some in G1. destruct G1 as [-> ->]. apply accept_some in G2. destruct G2 as [-> ->].
  exists p1, p2. cbn zeta. change ten_costs with alphas. change seven with penalties.
  assert (R1 : l_ridge p1 = l_ridge p0) by (apply nth_error_In in N0; apply in_map_iff in N0; destruct N0 as (a & <- & _); reflexivity).
  assert (R2 : l_ridge p2 = l_ridge p0) by (apply nth_error_In in N1; apply in_map_iff in N1; destruct N1 as (a & <- & _); exact R1). rewrite R1, R2 in *.
  split; [|split].
  - exists c0. split; [exact N0|]. intros xss EX. rewrite EX in P0. exact (phase_chosen worst m false _ xss c0 P0).
  - exists c1. split; [exact N1|]. intros xss EX. rewrite EX in P1. exact (phase_chosen worst m true _ xss c1 P1).
  - exists c2. split; [exact N2|]. intros xss EX. rewrite EX in P2. exact (phase_chosen worst m false _ xss c2 P2).
Qed.
Theorem C94_simple_range : forall worst m runs p0 p, hyper slr_grid worst m runs 3 0 p0 = Some p -> In (l_cc p) ten_costs /\ In (l_lasso p) seven /\ l_ridge p = l_ridge p0.
Proof.
  intros worst m runs p0 p H. destruct (C94_simple _ _ _ _ _ H) as (p1 & p2 & _ & (c1 & N1 & _) & (c2 & N2 & _)).
  apply nth_error_In in N1. apply in_map_iff in N1. destruct N1 as (a & <- & I1). cbn [l_cc] in *. apply nth_error_In in N2. apply in_map_iff in N2. destruct N2 as (lp & <- & I2). cbn. auto.
Qed.
(** With targets so large that the scale is above 2 * 10^12 tuning ends the process; otherwise all
    configurations are accepted. *)
Lemma qle_mul a b c : (0 <= a)%Q -> (b <= c)%Q -> (a * b <= a * c)%Q.
Proof. intros A B. rewrite !(Qmult_comm a). apply Qmult_le_compat_r; assumption. Qed.
Theorem C94_accepted nc rows ph p : (max_lambda nc rows <= inject_Z (2 * 10 ^ 12))%Q -> in_range p = true -> exists cs skip, pwl_grid (max_lambda nc rows) ph p = Some (cs, skip) /\ cs <> [].
Proof.
  intros B R. pose proof (max_lambda_nonneg nc rows) as P. set (ml := max_lambda nc rows) in *.
  assert (R1 : (Qle_bool 0 (l_cc p) && Qle_bool (l_cc p) 1) = true /\ (Qle_bool 0 (l_lasso p) && Qle_bool (l_lasso p) (inject_Z (10 ^ 12))) && (Qle_bool 0 (l_ridge p) && Qle_bool (l_ridge p) (inject_Z (10 ^ 12))) = true).
  { unfold in_range in R. rewrite <- andb_assoc in R. apply andb_prop in R. exact R. }
  destruct R1 as [R1 R2].
  assert (G : forall cc, (Qle_bool 0 cc && Qle_bool cc 1) = true -> forallb in_range (pwl_penalties ml cc) = true).
  { intros cc Hc. apply forallb_forall. intros q I. apply in_pwl in I. destruct I as (lp & r & J1 & J2 & _ & ->). unfold in_range. cbn [l_cc l_lasso l_ridge]. rewrite Hc. cbn [andb].
    assert (Lp : (0 <= lp <= 1 # 2)%Q) by (repeat destruct J1 as [<-|J1]; try (split; unfold Qle; cbn; lia); destruct J1).
    assert (Rr : (0 <= r <= 1)%Q) by (repeat destruct J2 as [<-|J2]; try (split; unfold Qle; cbn; lia); destruct J2).
    assert (X : forall s, (0 <= s <= 1)%Q -> Qle_bool 0 (s * lp * ml) && Qle_bool (s * lp * ml) (inject_Z (10 ^ 12)) = true).
    { intros s [S1 S2]. apply andb_true_intro. split; apply Qle_bool_iff.
      - apply Qmult_le_0_compat; [apply Qmult_le_0_compat; [exact S1|exact (proj1 Lp)]|exact P].
      - assert (Y1 : (s * lp <= 1 # 2)%Q) by (apply Qle_trans with (1 * lp)%Q; [apply Qmult_le_compat_r; [exact S2|exact (proj1 Lp)]|lra]).
        assert (Y2 : (s * lp * ml <= (1 # 2) * ml)%Q) by (apply Qmult_le_compat_r; assumption). change (inject_Z (2 * 10 ^ 12)) with (2000000000000 # 1)%Q in B. change (inject_Z (10 ^ 12)) with (1000000000000 # 1)%Q. lra. }
    rewrite X by exact Rr. rewrite X by lra. reflexivity. }
  assert (NE : forall cc, pwl_penalties ml cc <> []) by (intros cc; discriminate).
  destruct ph as [|[|ph]]; cbn [pwl_grid]; unfold accept.
  - rewrite G by reflexivity. eexists _, _. split; [reflexivity|apply NE].
  - assert (X : forallb in_range (map (fun a => Lin a (l_lasso p) (l_ridge p)) alphas) = true).
    { apply forallb_forall. intros q I. apply in_map_iff in I. destruct I as (a & <- & I). unfold in_range. cbn [l_cc l_lasso l_ridge]. rewrite <- andb_assoc, R2. rewrite andb_true_r.
      repeat destruct I as [<-|I]; try reflexivity. destruct I. }
    rewrite X. eexists _, _. split; [reflexivity|discriminate].
  - rewrite G by exact R1. eexists _, _. split; [reflexivity|apply NE].
Qed.
Theorem C94_large_refuted nc rows worst m runs p0 : (inject_Z (2 * 10 ^ 12) < max_lambda nc rows)%Q -> hyper (pwl_grid (max_lambda nc rows)) worst m runs 3 0 p0 = None.
Proof.
  intros B. cbn [hyper pwl_grid]. unfold accept. set (ml := max_lambda nc rows) in *.
  assert (X : forallb in_range (pwl_penalties ml (99 # 100)) = false).
  { apply not_true_is_false. intro H. rewrite forallb_forall in H. specialize (H (Lin (99 # 100) (1 * (1 # 2) * ml) ((1 - 1) * (1 # 2) * ml))%Q).
    assert (I : In (Lin (99 # 100) (1 * (1 # 2) * ml) ((1 - 1) * (1 # 2) * ml))%Q (pwl_penalties ml (99 # 100))).
    { apply in_pwl. exists (1 # 2)%Q, 1%Q. split; [left; reflexivity|]. split; [do 4 right; left; reflexivity|]. split; [discriminate|reflexivity]. }
    specialize (H I). unfold in_range in H. cbn [l_cc l_lasso l_ridge] in H. apply andb_prop in H. destruct H as [H _]. apply andb_prop in H. destruct H as [_ H]. apply andb_prop in H. destruct H as [_ H].
    apply Qle_bool_iff in H. change (inject_Z (2 * 10 ^ 12)) with (2000000000000 # 1)%Q in B. change (inject_Z (10 ^ 12)) with (1000000000000 # 1)%Q in H. lra. }
  rewrite X. reflexivity.
Qed.
(** Tuning that chooses the second to last node cost and a mixed penalty. *)
Definition ex_runs (ph : nat) (cs : list lin) : list (list run_out) :=
  repeat (map (fun p => RunOut true (Some (((l_lasso p - (1 # 80)) * (l_lasso p - (1 # 80)) + (l_ridge p - (3 # 80)) * (l_ridge p - (3 # 80)) + (l_cc p - (1 # 2000)) * (l_cc p - (1 # 2000)))%Q, 2)) true) cs) 5.
Example C94_ex : (max_lambda 2%nat [(1, [1; 0]); (3, [-(1); 1]); (2, [0; -(2)])] == 2 # 3)%Q /\ match hyper (pwl_grid 1) 9 3 ex_runs 3 0 (Lin 0 0 0) with Some p => (l_cc p == 1 # 2000)%Q /\ (l_lasso p == 1 # 80)%Q /\ (l_ridge p == 3 # 80)%Q | None => False end
  /\ exists xss, ex_runs 2 (sixteen 1 (1 # 2000)) = map (map (fun x => RunOut true (Some x) true)) xss.
Proof.
  split; [vm_compute; reflexivity|]. split; [vm_compute; auto|].
  exists (map (map (fun r => match ro_tree r with Some x => x | None => (0%Q, 0) end)) (ex_runs 2 (sixteen 1 (1 # 2000)))). vm_compute. reflexivity.
Qed.

(** * C95 *)
Section MemoProps.
  Context {A : Type} (no_label : A -> bool).
  Lemma same_branch_eq a : forall b, same_branch a b = true -> a = b.
  Proof. induction a as [|x a IH]; intros [|y b] H; try discriminate; [reflexivity|]. cbn in H. apply andb_prop in H. destruct H as [H1 H2]. apply Nat.eqb_eq in H1. subst y. f_equal. apply IH. exact H2. Qed.
  Lemma memo_run g bs : forall st : branch * A, fst st = [] \/ snd st = g (fst st) -> snd (memo_calls no_label g st bs) = map g bs.
  Proof.
    induction bs as [|b bs IH]; intros st H; [reflexivity|]. cbn [memo_calls map].
    assert (X : snd (memo_leaf no_label g st b) = g b /\ (fst (fst (memo_leaf no_label g st b)) = [] \/ snd (fst (memo_leaf no_label g st b)) = g (fst (fst (memo_leaf no_label g st b))))).
    { unfold memo_leaf. destruct (same_branch b (fst st)) eqn:S; cbn [andb]; [|auto]. apply same_branch_eq in S. destruct (0 <? length (fst st)) eqn:L; cbn [andb]; [|auto].
      destruct H as [H|H]; [rewrite H in L; discriminate|]. destruct (no_label (snd st)); cbn [negb fst snd]; [auto|]. rewrite S. auto. }
    destruct (memo_leaf no_label g st b) as [st' x]. cbn [fst snd] in X. destruct X as [X1 X2]. specialize (IH st' X2). destruct (memo_calls no_label g st' bs) as [st'' xs]. cbn [snd] in *. now rewrite X1, IH.
  Qed.
  Definition starts_at_root (bs : list branch) : Prop := match bs with [] => True | b :: _ => b = [] end.
  (** Every leaf is computed from the data and parameters of its own fit, whatever was fitted on the
      solver before, since every fit first asks for the leaf of all its rows. *)
  Theorem C95_fresh : forall st fits, Forall (fun f => starts_at_root (snd f)) fits -> memo_fits no_label st fits = map (fun f => map (fst f) (snd f)) fits.
  Proof.
    intros st fits H. revert st. induction H as [|[g bs] fits R _ IH]; intro st; [reflexivity|]. cbn [memo_fits map fst snd] in *.
    assert (X : snd (memo_calls no_label g st bs) = map g bs).
    { destruct bs as [|b bs]; [reflexivity|]. cbn in R. subst b. assert (ML : memo_leaf no_label g st [] = (([], g []), g [])) by (unfold memo_leaf; destruct (fst st); reflexivity).
      cbn [memo_calls map]. rewrite ML. pose proof (memo_run g bs ([], g []) (or_introl eq_refl)) as M. destruct (memo_calls no_label g ([], g []) bs) as [s' xs']. cbn [snd] in *. rewrite M. reflexivity. }
    destruct (memo_calls no_label g st bs) as [st' xs]. cbn [snd] in X. rewrite X, IH. reflexivity.
  Qed.
End MemoProps.
(** The hypothesis is needed: a fit that starts with the last branch of the fit before gets its
    leaf. *)
Theorem C95_needs_root : exists (fits : list ((branch -> nat) * list branch)), memo_fits (fun _ => false) ([], 0) fits <> map (fun f => map (fst f) (snd f)) fits.
Proof. exists [(fun b => length b, [[]; [3]]); (fun b => 7 + length b, [[3]])]. vm_compute. discriminate. Qed.
Example C95_ex : let fits := [(fun b : branch => length b, [[]; [3]; [3]; [2]]); (fun b => 7 + length b, [[]; [2]; [2]; [3]])] in
  Forall (fun f => starts_at_root (snd f)) fits /\ memo_fits (fun _ => false) ([], 0) fits = [[0; 1; 1; 1]; [7; 8; 8; 8]].
Proof. split; [repeat constructor|reflexivity]. Qed.

Print Assumptions C93_skipped.
Print Assumptions C93_same_scores.
Print Assumptions C93_grids.
Print Assumptions C93_ties_refuted.
Print Assumptions C94_scale.
Print Assumptions C94_linear.
Print Assumptions C94_linear_range.
Print Assumptions C94_simple_range.
Print Assumptions C94_simple.
Print Assumptions C94_accepted.
Print Assumptions C94_large_refuted.
Print Assumptions C95_fresh.
Print Assumptions C95_needs_root.
