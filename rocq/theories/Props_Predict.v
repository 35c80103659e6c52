(** C23, C50, C54: predictions and scores on new tables, and the memo of data splits. *)
From Coq Require Import List Arith Bool Lia ZArith.
From Verif Require Import Model_FeatureVector Model_Data Model_Node Model_Terminal Model_Solver Model_Preproc Model_Predict
  Spec_Tree Spec_Examples Spec_Rows Proofs_View Proofs_Predict.
Import ListNotations.
Local Open Scope nat_scope.

(** What a call should return for the returned tree [t]: one label per row, in the order of
    the rows; the number of wrong rows and the number of nodes visited (leaf included). *)
Definition right_out (t : tree) (c : py_call) : py_out :=
  match c with
  | PyPredict rows => OutLabels (map (row_predict t) rows)
  | PyScore rows => OutScore (Z.of_nat (row_errors rows t)) (list_sum (map (fun r => S (row_tests t (fst r))) rows))
  end.
Definition call_rows (c : py_call) : list (list nat) :=
  match c with PyPredict rows => rows | PyScore rows => map fst rows end.
(** Every row has the number of features the model was fitted with (checked by the Python
    code before each call). *)
Definition call_ok (nf : nat) (c : py_call) : Prop := Forall (fun r => length r = nf) (call_rows c).
(** A tree the fit can return: features below [nf], at most 20 levels. *)
Definition tree_ok (nf nl : nat) (t : tree) : Prop := fits (fun f => f < nf) nl t /\ depth t <= 20.
(** No table has as many rows as the table just before it. *)
Fixpoint sizes_change (n : nat) (cs : list py_call) : Prop :=
  match cs with
  | [] => True
  | c :: r => length (call_rows c) <> n /\ sizes_change (length (call_rows c)) r
  end.

Lemma step_ok on fl nf nl t s c : tree_ok nf nl t -> call_ok nf c -> vsize (snd (ts_org s)) <> length (call_rows c) ->
  exists s', py_step acc on fl nf t s c = Some (right_out t c, s') /\ vsize (snd (ts_org s')) = length (call_rows c).
Proof.
  intros [Ht Hd] Hc Hs. unfold py_step.
  set (rows := match c with PyPredict xs => map (fun x => (x, 0)) xs | PyScore xs => xs end).
  assert (Er : map fst rows = call_rows c) by (unfold rows; destruct c; cbn [call_rows]; [rewrite map_map; apply map_id|reflexivity]).
  assert (Hl : rows_of_len nf rows).
  { unfold rows_of_len. unfold call_ok in Hc. rewrite <- Er in Hc. apply Forall_map in Hc. exact Hc. }
  assert (En : length rows = length (call_rows c)) by (rewrite <- Er, map_length; reflexivity).
  set (new := (ts_calls s, preprocess_test fl nf (load rows))).
  assert (Ev : vsize (snd new) = length (call_rows c)) by (unfold new; cbn [snd]; rewrite (table_size nf rows fl Hl); exact En).
  assert (Ei : init_test (Nat.eqb (ts_calls s)) new s = Some (TestState new [] (ts_calls s))).
  { unfold init_test, view_same. rewrite Ev. destruct ((vsize (snd (ts_org s)) =? 0) || _); [reflexivity|].
    rewrite (proj2 (Nat.eqb_neq _ _) Hs). reflexivity. }
  rewrite Ei. cbn [ts_org ts_memo]. assert (M0 : memo_right (snd new) []) by (intros ? ? ? []).
  destruct c as [xs|xs].
  - destruct (table_classify nf rows fl Hl nl t Ht Hd on [] M0) as (m' & E & _). unfold new at 1 2. cbn [snd]. rewrite E.
    exists (TestState new m' (S (ts_calls s))). split; [|exact Ev]. cbn [right_out]. unfold rows. rewrite map_map. reflexivity.
  - destruct (table_score nf rows fl Hl nl t Ht Hd on [] M0) as (m' & E & _). unfold new at 1. cbn [snd]. rewrite E.
    exists (TestState new m' (S (ts_calls s))). split; [reflexivity|exact Ev].
Qed.

(** C23: on a freshly fitted model predict returns, row by row and in order, the label of the
    leaf the row reaches in the returned tree (and score counts the rows where it differs from
    the given label), whatever features the solver flipped and with or without memo. *)
Theorem C23_predict : forall on fl nf nl t rows, tree_ok nf nl t -> Forall (fun r => length r = nf) rows -> rows <> [] ->
  py_run acc on fl nf t fresh_test [PyPredict rows] = Some [OutLabels (map (row_predict t) rows)].
Proof.
  intros on fl nf nl t rows Ht Hr Hn. cbn [py_run].
  destruct (step_ok on fl nf nl t fresh_test (PyPredict rows) Ht Hr) as (s' & E & _); [cbn; destruct rows; [congruence|discriminate]|].
  rewrite E. reflexivity.
Qed.
Print Assumptions C23_predict.

Theorem C23_score : forall on fl nf nl t rows, tree_ok nf nl t -> Forall (fun r => length (fst r) = nf) rows -> rows <> [] ->
  py_run acc on fl nf t fresh_test [PyScore rows]
  = Some [OutScore (Z.of_nat (row_errors rows t)) (list_sum (map (fun r => S (row_tests t (fst r))) rows))].
Proof.
  intros on fl nf nl t rows Ht Hr Hn. cbn [py_run].
  destruct (step_ok on fl nf nl t fresh_test (PyScore rows) Ht) as (s' & E & _).
  - unfold call_ok. cbn [call_rows]. apply Forall_map. exact Hr.
  - cbn. destruct rows; [congruence|discriminate].
  - rewrite E. reflexivity.
Qed.
Print Assumptions C23_score.

(** C50, the part that holds: as long as no table has as many rows as the one before, any
    number of predict and score calls all answer for their own table. *)
Theorem C50_changing_sizes_partial : forall on fl nf nl t cs, tree_ok nf nl t -> Forall (call_ok nf) cs -> sizes_change 0 cs ->
  py_run acc on fl nf t fresh_test cs = Some (map (right_out t) cs).
Proof.
  intros on fl nf nl t cs Ht. assert (G : forall s, Forall (call_ok nf) cs -> sizes_change (vsize (snd (ts_org s))) cs ->
    py_run acc on fl nf t s cs = Some (map (right_out t) cs)).
  { induction cs as [|c cs IH]; intros s Hc Hs; [reflexivity|]. cbn [sizes_change] in Hs. destruct Hs as [H1 H2].
    apply Forall_cons_iff in Hc. destruct Hc as [Hc Hcs].
    destruct (step_ok on fl nf nl t s c Ht Hc ltac:(congruence)) as (s' & E & Es). cbn [py_run]. rewrite E, (IH s' Hcs); [reflexivity|]. rewrite Es. exact H2. }
  apply (G fresh_test).
Qed.
Print Assumptions C50_changing_sizes_partial.

Example c50_ex : let t := Split 0 (Leaf 0) (Split 2 (Leaf 1) (Leaf 0)) in
  let cs := [PyPredict [[1;0;0]; [0;1;0]]; PyScore [([1;0;1], 0); ([1;1;0], 0); ([0;0;0], 1)]; PyPredict [[1;0;1]; [1;1;0]]] in
  tree_ok 3 2 t /\ Forall (call_ok 3) cs /\ sizes_change 0 cs
  /\ py_run acc true (fun f => f =? 2) 3 t fresh_test cs = Some [OutLabels [1; 0]; OutScore 2%Z 8; OutLabels [0; 1]].
Proof. cbn zeta. split; [|split; [|split]]; [repeat split; cbn; lia|repeat constructor|repeat split; cbn; lia|vm_compute; reflexivity]. Qed.

(** C50 is false: two tables with equally many rows.  The second call compares its table with
    the released table of the first. *)
Theorem C50_second_predict_refuted : exists nf nl t rows1 rows2,
  tree_ok nf nl t /\ Forall (fun r => length r = nf) rows1 /\ Forall (fun r => length r = nf) rows2 /\
  forall on fl, py_run acc on fl nf t fresh_test [PyPredict rows1; PyPredict rows2] = None.
Proof.
  exists 1, 2, (Split 0 (Leaf 0) (Leaf 1)), [[0]; [1]], [[1]; [1]]. split; [repeat split; cbn; lia|]. split; [repeat constructor|]. split; [repeat constructor|].
  intros [|] fl; cbn -[Nat.leb]; destruct (fl 0); vm_compute; reflexivity.
Qed.
Print Assumptions C50_second_predict_refuted.

(** C50, general form: on every model, a second predict with equally many rows reads released
    memory. *)
Theorem C50_always_refuted : forall on fl nf nl t rows1 rows2, tree_ok nf nl t ->
  Forall (fun r => length r = nf) rows1 -> Forall (fun r => length r = nf) rows2 -> rows1 <> [] -> length rows1 = length rows2 ->
  py_run acc on fl nf t fresh_test [PyPredict rows1; PyPredict rows2] = None.
Proof.
  intros on fl nf nl t rows1 rows2 [Ht Hd] H1 H2 Hn Hlen. cbn [py_run].
  assert (L : forall rows, Forall (fun r => length r = nf) rows -> rows_of_len nf (map (fun x => (x, 0)) rows)) by (intros rows H; apply Forall_map; exact H).
  (* one label, all rows *)
  assert (V : forall rows, rows <> [] -> Forall (fun r => length r = nf) rows -> exists g, preprocess_test fl nf (load (map (fun x => (x, 0)) rows)) = [g] /\ length g = length rows).
  { intros rows Hr Hl. pose proof (table_size nf _ fl (L rows Hl)) as S. rewrite map_length in S.
    assert (Q : forall l v, length v <= 1 -> length (fold_left load_step l v) <= 1 \/ exists p, In p l /\ Proofs_Rows.row_label p <> 0).
    { induction l as [|p l IH]; intros v Hv; [left; exact Hv|]. cbn [fold_left]. destruct (Nat.eq_dec (Proofs_Rows.row_label p) 0) as [E|E]; [|right; exists p; split; [left; reflexivity|exact E]].
      destruct (IH (load_step v p)) as [A|(q & A & B)]; [|left; exact A|right; exists q; split; [right; exact A|exact B]].
      unfold load_step. rewrite push_len, E. lia. }
    destruct (Q (Proofs_Rows.numbered (map (fun x => (x, 0)) rows)) [] ltac:(cbn; lia)) as [A|(p & A & B)].
    - rewrite <- load_eq in A. unfold preprocess_test in *. destruct (load (map (fun x => (x, 0)) rows)) as [|g [|g' r]]; cbn [length] in A; [|exists (map (flip_all fl nf) g)|lia].
      + exfalso. destruct rows; [congruence|discriminate].
      + split; [reflexivity|]. unfold vsize in S. cbn [map concat] in S. rewrite app_nil_r in S. exact S.
    - exfalso. apply B. apply Proofs_Rows.numbered_in in A. apply in_map_iff in A. destruct A as (x & E & _). unfold Proofs_Rows.row_label. rewrite <- E. reflexivity. }
  destruct (V rows1 Hn H1) as (g1 & V1 & G1). destruct (V rows2) as (g2 & V2 & G2); [intro Q; subst; destruct rows1; [congruence|discriminate]|exact H2|].
  assert (P0 : 0 < length rows1) by (destruct rows1; [congruence|cbn; lia]).
  unfold py_step at 1. cbn [ts_calls fresh_test]. unfold init_test at 1, view_same. cbn [ts_org fresh_test snd vsize concat length Nat.eqb orb].
  cbn [ts_org ts_memo snd]. destruct (classify _ _ _ _ _ _ _) as [[ls m]|]; [|reflexivity].
  unfold py_step, init_test, view_same. cbn [ts_calls ts_org fst snd]. rewrite V1, V2.
  assert (S1 : vsize [g1] = length rows1) by (unfold vsize; cbn; rewrite app_nil_r; exact G1).
  assert (S2 : vsize [g2] = length rows1) by (unfold vsize; cbn; rewrite app_nil_r; congruence).
  rewrite S1, S2, Nat.eqb_refl, (proj2 (Nat.eqb_neq _ _) (Nat.neq_sym _ _ (Nat.lt_neq _ _ P0))). cbn [orb negb sizes_same]. rewrite G1, G2, Hlen, Nat.eqb_refl. reflexivity.
Qed.
Print Assumptions C50_always_refuted.

(** ** C54: the memo of data splits *)
(** The calls are consistent: between two clearings of a memo a branch always comes with the
    same data ([dtrain], [dtest]; C10), and no branch is deeper than 19. *)
Fixpoint consistent (dtrain dtest : branch -> view) (cs : list sp_call) : Prop :=
  match cs with
  | [] => True
  | SpSplit test v b f :: r => v = (if test then dtest b else dtrain b) /\ length b < 20 /\ consistent dtrain dtest r
  | SpClear true :: r => exists d, consistent dtrain d r
  | SpClear false :: r => exists d, consistent d dtest r
  end.
(** What the calls should answer: the direct split. *)
Definition direct (c : sp_call) : option (view * view) :=
  match c with SpSplit _ v _ f => Some (split_left f v, split_right f v) | SpClear _ => None end.

Definition memo_for (d : branch -> view) (m : memo) : Prop := forall b f w, In ((b, f), w) m -> w = (split_left f (d b), split_right f (d b)).
Lemma split_memo_for d on m b f : memo_for d m -> length b < 20 ->
  exists m', split_memo on m (d b) b f = Some ((split_left f (d b), split_right f (d b)), m') /\ memo_for d m'.
Proof.
  intros Hm Hb. unfold split_memo. destruct on; [|eauto]. unfold br_depth. rewrite (proj2 (Nat.leb_gt _ _) Hb : (max_branch <=? length b) = false). destruct (memo_find b f m) as [w|] eqn:E.
  - apply memo_find_in in E. apply Hm in E. subst w. eauto.
  - eexists. split; [reflexivity|]. intros b' f' w [H|H]; [injection H as <- <- <-; reflexivity|apply Hm; exact H].
Qed.

(** C54: every split handed out by the splitter is the split of the data it was asked for. *)
Theorem C54_splits : forall on dtrain dtest cs, consistent dtrain dtest cs ->
  sp_run (Splitter on [] []) cs = Some (map direct cs).
Proof.
  intros on. assert (G : forall cs dtrain dtest mtr mte, memo_for dtrain mtr -> memo_for dtest mte -> consistent dtrain dtest cs ->
    sp_run (Splitter on mtr mte) cs = Some (map direct cs)).
  { induction cs as [|c cs IH]; intros dtrain dtest mtr mte H1 H2 Hc; [reflexivity|]. cbn [sp_run map]. destruct c as [[|] v b f|[|]]; cbn [consistent sp_step sp_on sp_train sp_test direct] in *.
    - destruct Hc as (-> & Hb & Hc). destruct (split_memo_for dtest on mte b f H2 Hb) as (m' & E & Hm). rewrite E, (IH dtrain dtest mtr m' H1 Hm Hc). reflexivity.
    - destruct Hc as (-> & Hb & Hc). destruct (split_memo_for dtrain on mtr b f H1 Hb) as (m' & E & Hm). rewrite E, (IH dtrain dtest m' mte Hm H2 Hc). reflexivity.
    - destruct Hc as (d & Hc). rewrite (IH dtrain d mtr [] H1 ltac:(intros ? ? ? []) Hc). reflexivity.
    - destruct Hc as (d & Hc). rewrite (IH d dtest [] mte ltac:(intros ? ? ? []) H2 Hc). reflexivity. }
  intros dtrain dtest cs. apply G; intros ? ? ? [].
Qed.
Print Assumptions C54_splits.

Example c54_ex : let v := mk_view 2 six_rows in let w := mk_view 2 xor_rows in
  exists dtr dte, consistent dtr dte
    [SpSplit false v [] 0; SpSplit true w [] 0; SpSplit false v [] 0; SpSplit false (split_left 0 v) (br_left [] 0) 1; SpClear true; SpSplit true v [] 0; SpSplit true v [] 0].
Proof.
  cbn zeta. exists (fun b => match b with [] => mk_view 2 six_rows | _ => split_left 0 (mk_view 2 six_rows) end), (fun _ => mk_view 2 xor_rows).
  cbn [consistent length]. repeat (split; [reflexivity || (cbn; lia)|]). exists (fun _ => mk_view 2 six_rows). cbn. repeat split; lia.
Qed.
(** Without the clearing the memo would answer for the old test data. *)
Example c54_not_cleared : let v := mk_view 2 six_rows in let w := mk_view 2 xor_rows in
  sp_run (Splitter true [] []) [SpSplit true w [] 0; SpSplit true v [] 0] <> Some (map direct [SpSplit true w [] 0; SpSplit true v [] 0]).
Proof. vm_compute. discriminate. Qed.
