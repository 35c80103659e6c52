(** C100: several calls with one solver on the same data, as tuning makes them for the
    configurations of a fold. *)
From Coq Require Import List Arith Bool Lia ZArith QArith.
From Verif Require Import Model_FeatureVector Model_Data Model_Node Model_Cache Model_Terminal Model_Heap Model_Solver Model_Preproc Model_Session Model_Tuning
  Spec_Tree Spec_Examples Spec_Rows Proofs_View Proofs_Base Proofs_Rows Proofs_Score Proofs_Fit Proofs_Session Props_Solver.
Import ListNotations.
Local Open Scope nat_scope.

(** The results of the calls [cs] (each with its limits and whether the solver is reset before it)
    of one solver on the same rows. *)
Definition session_rows (W : switches) (nf nl : nat) (clk : nat -> bool) (rows : list (list nat * nat)) (cs : list (bool * params)) : list fit_result :=
  session acc W nf clk (mk_view nl rows) cs.

(** A fit is the first call of a session. *)
Theorem C100_first_is_fit : forall W nf nl clk rows r P cs,
  nth_error (session_rows W nf nl clk rows ((r, P) :: cs)) 0 = Some (fit_rows W P nf nl clk rows).
Proof.
  intros. unfold session_rows, session, fit_rows, fit. destruct (preprocess acc (w_mls W) nf (mk_view nl rows)) as [[fl red] v'].
  cbn [calls map nth_error]. destruct r; reflexivity.
Qed.
Print Assumptions C100_first_is_fit.

(** Without the depth-two solver: after any number of calls, in any order of limits, with or without
    resets, no tree within the limits of any call so far makes fewer errors than the best tree
    returned so far. *)
Theorem C100_best_so_far : forall W ub nf nl clk rows cs,
  (forall r P, In (r, P) cs -> usable W P nf nl rows /\ p_ub P = ub) ->
  w_term W = false -> (w_sim W = true -> w_mls W = 1) ->
  (forall R, In R (session_rows W nf nl clk rows cs) -> fr_proven R = true) ->
  forall k r P t, nth_error cs k = Some (r, P) ->
    row_allowed nf nl (w_mls W) (p_depth P) (p_nodes P) rows t -> (Z.of_nat (row_errors rows t) <= ub)%Z ->
    exists j R t', j <= k /\ nth_error (session_rows W nf nl clk rows cs) j = Some R /\ fr_tree R = Some t'
      /\ row_errors rows t' <= row_errors rows t.
Proof.
  intros W ub nf nl clk rows cs Hcs Ht Hs Hp k r P t Hk Ha He.
  destruct (Hcs r P (nth_error_In _ _ Hk)) as [HU _]. pose proof (us_rows _ _ _ _ _ HU) as Hg.
  pose proof (row_allowed_size _ _ _ _ _ _ _ Ha) as Hsz.
  destruct (session_spec acc acc_good W ub nf clk (mk_view nl rows) (us_leaf _ _ _ _ _ HU) (fun _ _ => eq_refl) (rows_loaded nf nl rows Hg)
             (fun _ _ _ _ _ => eq_refl) (fun _ _ _ _ => eq_refl)) with (cs := cs) (k := k) (r := r) (P := P) as [_ H].
  - rewrite rows_labels. apply (us_labels _ _ _ _ _ HU).
  - apply (acc_worst W P nf nl rows HU).
  - rewrite (rows_size nf nl rows Hg). exact Hsz.
  - exact Hs.
  - exact Ht.
  - apply Forall_forall. intros [r0 P0] Hin. destruct (Hcs r0 P0 Hin) as [HU0 E0]. split; [exact (us_nodes _ _ _ _ _ HU0)|exact E0].
  - apply Forall_forall. exact Hp.
  - exact Hk.
  - destruct (H t) as (j & R & t' & H1 & H2 & H3 & H4).
    + apply (to_view W P nf nl rows HU). exact Ha.
    + rewrite (cost_view W P nf nl rows HU). cbn [acc tk_worst]. pose proof (errors_small W P nf nl rows HU t). unfold int32_max. lia.
    + exists j, R, t'. split; [exact H1|]. split; [exact H2|]. split; [exact H3|]. rewrite !(cost_view W P nf nl rows HU) in H4. lia.
Qed.
Print Assumptions C100_best_so_far.

(** With any switches and any clock: the tree a call returns is within the depth and the leaf size of
    its own call, whatever the calls before left in the caches. *)
Theorem C100_limits : forall W nf nl clk rows cs,
  (forall r P, In (r, P) cs -> usable W P nf nl rows) -> w_mls W <= length rows ->
  forall k r P R t, nth_error cs k = Some (r, P) -> nth_error (session_rows W nf nl clk rows cs) k = Some R -> fr_tree R = Some t ->
    row_allowed nf nl (w_mls W) (p_depth P) (2 ^ p_depth P - 1) rows t.
Proof.
  intros W nf nl clk rows cs Hcs Hsz k r P R t Hk HR Ht.
  pose proof (Hcs r P (nth_error_In _ _ Hk)) as HU. pose proof (us_rows _ _ _ _ _ HU) as Hg.
  apply (of_view W P nf nl rows HU).
  assert (H : allowed (fun f => f < nf) (w_mls W) (Nat.min (p_depth P) (p_nodes P)) (2 ^ Nat.min (p_depth P) (p_nodes P) - 1) (mk_view nl rows) t).
  { apply (any_session acc acc_good W nf clk (mk_view nl rows) (us_leaf _ _ _ _ _ HU) (fun _ _ => eq_refl) (rows_loaded nf nl rows Hg)
             (fun _ _ _ _ _ => eq_refl) (fun _ _ _ _ => eq_refl)) with (cs := cs) (k := k) (r := r) (P := P) (R := R); try assumption.
    - rewrite rows_labels. apply (us_labels _ _ _ _ _ HU).
    - apply (acc_worst W P nf nl rows HU).
    - rewrite (rows_size nf nl rows Hg). exact Hsz.
    - apply Forall_forall. intros [r0 P0] Hin. exact (us_nodes _ _ _ _ _ (Hcs r0 P0 Hin)). }
  eapply allowed_mono; [exact H|lia|]. assert (2 ^ Nat.min (p_depth P) (p_nodes P) <= 2 ^ p_depth P) by (apply Nat.pow_le_mono_r; lia). lia.
Qed.
Print Assumptions C100_limits.

(** * Tuning *)
Lemma tune_calls_in all ub : forall cs depth r P, In (r, P) (tune_calls all ub depth cs) -> exists d n, In (d, n) cs /\ P = Params d n all ub.
Proof.
  induction cs as [|[d n] cs IH]; intros depth r P H; [destruct H|]. cbn [tune_calls] in H. destruct H as [H|H].
  - injection H as <- <-. exists d, n. split; [left|]; reflexivity.
  - destruct (IH _ _ _ H) as (d' & n' & H1 & H2). exists d', n'. split; [right; exact H1|exact H2].
Qed.
Lemma tune_calls_nth all ub : forall cs depth k d n, nth_error cs k = Some (d, n) -> exists r, nth_error (tune_calls all ub depth cs) k = Some (r, Params d n all ub).
Proof.
  induction cs as [|[d0 n0] cs IH]; intros depth k d n H; [destruct k; discriminate|]. destruct k as [|k]; cbn [nth_error tune_calls] in *.
  - injection H as <- <-. eexists. reflexivity.
  - apply IH. exact H.
Qed.
Lemma tune_grid_nodes M D d n : In (d, n) (tune_grid M D) -> n <= 2 ^ d - 1.
Proof.
  unfold tune_grid. rewrite in_flat_map. intros (d' & _ & H). apply in_map_iff in H. destruct H as (i & E & H). injection E as <- <-.
  apply in_seq in H. lia.
Qed.

(** The configurations of a fold, in the order tuning tries them: the best tree found up to a
    configuration is at least as good as every tree within the limits of the configuration. *)
Theorem C100_tuning : forall W all ub nf nl clk rows M D,
  good_rows nf nl rows -> 1 <= nl -> (Z.of_nat (length rows) < 2147483647)%Z -> 1 <= w_mls W -> (Z.of_nat (length rows) <= ub)%Z ->
  w_term W = false -> (w_sim W = true -> w_mls W = 1) ->
  (forall R, In R (session_rows W nf nl clk rows (tune_calls all ub D (tune_grid M D))) -> fr_proven R = true) ->
  forall k d n t, nth_error (tune_grid M D) k = Some (d, n) -> row_allowed nf nl (w_mls W) d n rows t ->
    exists j R t', j <= k /\ nth_error (session_rows W nf nl clk rows (tune_calls all ub D (tune_grid M D))) j = Some R /\ fr_tree R = Some t'
      /\ row_errors rows t' <= row_errors rows t.
Proof.
  intros W all ub nf nl clk rows M D H1 H2 H3 H4 Hub Ht Hs Hp k d n t Hk Ha.
  destruct (tune_calls_nth all ub _ D k d n Hk) as [r Hr].
  apply (C100_best_so_far W ub nf nl clk rows (tune_calls all ub D (tune_grid M D))) with (r := r) (P := Params d n all ub); try assumption.
  - intros r0 P0 Hin. destruct (tune_calls_in _ _ _ _ _ _ Hin) as (d0 & n0 & Hg & ->). split; [|reflexivity].
    apply tune_grid_nodes in Hg. constructor; try assumption. cbn [p_all p_nodes p_depth]. intros _. exact Hg.
  - pose proof (filter_length_le (fun p : list nat * nat => negb (row_predict t (fst p) =? snd p)) rows). unfold row_errors. lia.
Qed.
Print Assumptions C100_tuning.

(** The claim that every configuration gets its own best tree is false, with the default settings.
    Or of three features: with depth 3 and 3 nodes the tree is right everywhere; the next
    configuration, depth 3 and 4 nodes, returns a tree with an error, marked as proven optimal:
    the bound left by the call before makes the search at depth 3 empty, but at depth 2 a worse
    tree is in the cache and is returned without looking at the bound (solver.cpp:291-297). *)
Definition or_rows : list (list nat * nat) := [([0;0;0],0); ([0;1;0],1); ([1;0;0],1); ([0;0;1],1)].
Definition or_grid := tune_calls false no_bound 3 (tune_grid 7 3).
Theorem C100_own_best_refuted :
  exists k r R t t', nth_error or_grid k = Some (r, Params 3 4 false no_bound)
    /\ nth_error (session_rows (defaults true 1) 3 2 no_limit or_rows or_grid) k = Some R
    /\ fr_proven R = true /\ fr_tree R = Some t /\ row_errors or_rows t = 1
    /\ row_allowed 3 2 1 3 4 or_rows t' /\ row_errors or_rows t' = 0.
Proof.
  exists 5, false, (nth 5 (session_rows (defaults true 1) 3 2 no_limit or_rows or_grid) (fit_rows (defaults true 1) (Params 3 4 false no_bound) 3 2 no_limit or_rows)).
  eexists. exists (Split 0 (Split 1 (Split 2 (Leaf 0) (Leaf 1)) (Leaf 1)) (Leaf 1)).
  split; [reflexivity|]. split; [vm_compute; reflexivity|]. split; [vm_compute; reflexivity|]. split; [vm_compute; reflexivity|].
  split; [vm_compute; reflexivity|]. split; [|reflexivity]. repeat split; cbn; lia.
Qed.
Print Assumptions C100_own_best_refuted.

(** The hypotheses of the theorems hold for this data without the depth-two solver, and there the
    fifth configuration finds the best tree while the sixth returns a worse one. *)
Definition or_switches := Switches true true true false true false true true 1.
Example C100_case : (forall R, In R (session_rows or_switches 3 2 no_limit or_rows or_grid) -> fr_proven R = true)
  /\ map (fun R => option_map (row_errors or_rows) (fr_tree R)) (session_rows or_switches 3 2 no_limit or_rows or_grid)
     = [Some 1; Some 1; Some 1; None; Some 0; Some 1; Some 1; Some 1; Some 1]
  /\ map (fun c => p_nodes (snd c)) or_grid = [0; 1; 2; 3; 3; 4; 5; 6; 7].
Proof.
  split; [|split; vm_compute; reflexivity].
  assert (H : forallb fr_proven (session_rows or_switches 3 2 no_limit or_rows or_grid) = true) by (vm_compute; reflexivity).
  rewrite forallb_forall in H. exact H.
Qed.
