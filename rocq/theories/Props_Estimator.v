(** C55, C56: what a fitted estimator remembers. *)
From Coq Require Import List Bool Arith Lia.
From Verif Require Import Model_Estimator.
Import ListNotations.

Section Estimator.
Variables Par Raw Lab Bin Tab Slv Res Tre Pre Sco : Type.
Variable K : parts Par Raw Lab Bin Tab Slv Res Tre Pre Sco.
Notation est := (est Par Lab Bin Tab Slv Res Tre).
Notation estep := (estep _ _ _ _ _ _ _ _ _ _ K).
Notation erun := (erun _ _ _ _ _ _ _ _ _ _ K).
Notation e_new := (e_new Par Lab Bin Tab Slv Res Tre).
Notation fit := (e_fit_call _ _ _ _ _ _ _ _ _ _ K).
Notation ecall := (ecall Par Raw Lab).
Notation evalue := (evalue Tre Pre Sco).

(** An object that came about by calls of a user. *)
Definition reachable (e : est) : Prop := exists p cs vs, erun (e_new p) cs = (e, vs).

Lemma step_prev e c : e_prev _ _ _ _ _ _ _ (fst (estep e c)) = e_prev _ _ _ _ _ _ _ e.
Proof.
  destruct c; cbn; try reflexivity.
  - unfold e_fit_call. destruct (negb _); [reflexivity|]. destruct (bin_fit _ _ _ _ _ _ _ _ _ _ K _ _ _) as [b []]; [|reflexivity]. cbn.
    destruct (bin_apply _ _ _ _ _ _ _ _ _ _ K b raw) as [x|]; [|reflexivity]. destruct (negb (tab_ok _ _ _ _ _ _ _ _ _ _ K x)); [reflexivity|]. cbn.
    destruct (negb (lab_ok _ _ _ _ _ _ _ _ _ _ K x y)); [reflexivity|]. cbn. destruct (negb (handler_ok _ _ _ _ _ _ _ _ _ _ K _)); [reflexivity|].
    match goal with |- context [solve _ _ _ _ _ _ _ _ _ _ K ?a ?b ?c] => destruct (solve _ _ _ _ _ _ _ _ _ _ K a b c) as [s' [[r|]|]] end; reflexivity.
  - unfold e_predict. destruct (negb _); [reflexivity|]. destruct (prepare _ _ _ _ _ _ _ _ _ _ K e raw); [|reflexivity].
    destruct (e_solver _ _ _ _ _ _ _ e) as [[s p]|]; [|reflexivity]. destruct (e_fit _ _ _ _ _ _ _ e) as [[r|]|] eqn:F; try reflexivity.
    destruct (predict_of _ _ _ _ _ _ _ _ _ _ K s r t); reflexivity.
  - unfold e_score. destruct (negb _); [reflexivity|]. destruct (prepare _ _ _ _ _ _ _ _ _ _ K e raw); [|reflexivity].
    destruct (e_solver _ _ _ _ _ _ _ e) as [[s p]|]; [|reflexivity]. destruct (e_fit _ _ _ _ _ _ _ e) as [[r|]|] eqn:F; try reflexivity.
    destruct (negb (lab_ok _ _ _ _ _ _ _ _ _ _ K t y)); [reflexivity|]. destruct (score_of _ _ _ _ _ _ _ _ _ _ K s r t y); reflexivity.
Qed.
Lemma run_prev cs : forall e, e_prev _ _ _ _ _ _ _ (fst (erun e cs)) = e_prev _ _ _ _ _ _ _ e.
Proof.
  induction cs as [|c cs IH]; intros e; cbn; [reflexivity|].
  pose proof (step_prev e c) as P. destruct (estep e c) as [e1 v]. specialize (IH e1). destruct (erun e1 cs). cbn in *. congruence.
Qed.
Lemma reach_prev e : reachable e -> e_prev _ _ _ _ _ _ _ e = None.
Proof. intros (p & cs & vs & H). pose proof (run_prev cs (e_new p)) as P. rewrite H in P. exact P. Qed.

Lemma keeps_step e c : (forall raw y, c <> CFit _ _ _ raw y) ->
  e_bin _ _ _ _ _ _ _ (fst (estep e c)) = e_bin _ _ _ _ _ _ _ e /\ e_ncols _ _ _ _ _ _ _ (fst (estep e c)) = e_ncols _ _ _ _ _ _ _ e
  /\ e_fit _ _ _ _ _ _ _ (fst (estep e c)) = e_fit _ _ _ _ _ _ _ e.
Proof.
  intros N. destruct c; cbn; auto.
  - exfalso. exact (N raw y eq_refl).
  - unfold e_predict. destruct (negb _); [auto|]. destruct (prepare _ _ _ _ _ _ _ _ _ _ K e raw); [|auto].
    destruct (e_solver _ _ _ _ _ _ _ e) as [[s p]|]; [|auto]. destruct (e_fit _ _ _ _ _ _ _ e) as [[r|]|] eqn:F; auto.
    destruct (predict_of _ _ _ _ _ _ _ _ _ _ K s r t); cbn; auto.
  - unfold e_score. destruct (negb _); [auto|]. destruct (prepare _ _ _ _ _ _ _ _ _ _ K e raw); [|auto].
    destruct (e_solver _ _ _ _ _ _ _ e) as [[s p]|]; [|auto]. destruct (e_fit _ _ _ _ _ _ _ e) as [[r|]|] eqn:F; auto.
    destruct (negb (lab_ok _ _ _ _ _ _ _ _ _ _ K t y)); [auto|]. destruct (score_of _ _ _ _ _ _ _ _ _ _ K s r t y); cbn; auto.
Qed.
Lemma keeps_run cs : (forall raw y, ~ In (CFit _ _ _ raw y) cs) -> forall e,
  e_bin _ _ _ _ _ _ _ (fst (erun e cs)) = e_bin _ _ _ _ _ _ _ e /\ e_ncols _ _ _ _ _ _ _ (fst (erun e cs)) = e_ncols _ _ _ _ _ _ _ e
  /\ e_fit _ _ _ _ _ _ _ (fst (erun e cs)) = e_fit _ _ _ _ _ _ _ e.
Proof.
  induction cs as [|c cs IH]; intros N e; cbn; [auto|].
  pose proof (keeps_step e c) as P. destruct (estep e c) as [e1 v]. specialize (IH ltac:(intros raw y I; exact (N raw y (or_intror I))) e1). destruct (erun e1 cs). cbn in *.
  destruct P as (P1 & P2 & P3); [intros raw y ->; exact (N raw y (or_introl eq_refl))|]. destruct IH as (I1 & I2 & I3). repeat split; congruence.
Qed.

(** * C81: after a fit that found a tree, and any calls other than fit, predict and score raise
    for a table that has another number of columns once binarised than the training table. *)
Theorem C81_width e raw y e1 cs : fit e raw y = (e1, Ans _ true) -> (forall raw y, ~ In (CFit _ _ _ raw y) cs) ->
  let b := fst (bin_fit _ _ _ _ _ _ _ _ _ _ K (bin_new _ _ _ _ _ _ _ _ _ _ K (e_par _ _ _ _ _ _ _ e)) raw y) in
  exists x, bin_apply _ _ _ _ _ _ _ _ _ _ K b raw = Some x
    /\ forall raw' x', bin_apply _ _ _ _ _ _ _ _ _ _ K b raw' = Some x' -> ncols _ _ _ _ _ _ _ _ _ _ K x' <> ncols _ _ _ _ _ _ _ _ _ _ K x ->
         snd (estep (fst (erun e1 cs)) (CPredict _ _ _ raw')) = VPredict _ _ _ (Raise _)
         /\ forall y', snd (estep (fst (erun e1 cs)) (CScore _ _ _ raw' y')) = VScore _ _ _ (Raise _).
Proof.
  intros H N b. destruct (keeps_run cs N e1) as (E1 & E2 & E3). unfold e_fit_call in H. subst b.
  destruct (negb (validate _ _ _ _ _ _ _ _ _ _ K _)); [discriminate|]. destruct (bin_fit _ _ _ _ _ _ _ _ _ _ K _ _ _) as [b []]; [|discriminate]. cbn in *.
  destruct (bin_apply _ _ _ _ _ _ _ _ _ _ K b raw) as [x|]; [|discriminate]. destruct (negb (tab_ok _ _ _ _ _ _ _ _ _ _ K x)); [discriminate|]. cbn in *.
  destruct (negb (lab_ok _ _ _ _ _ _ _ _ _ _ K x y)); [discriminate|]. cbn in *. destruct (negb (handler_ok _ _ _ _ _ _ _ _ _ _ K _)); [discriminate|].
  match type of H with context [solve _ _ _ _ _ _ _ _ _ _ K ?a ?b ?c] => destruct (solve _ _ _ _ _ _ _ _ _ _ K a b c) as [s' [[r|]|]] end; try discriminate.
  injection H as <-. cbn in *. exists x. split; [reflexivity|]. intros raw' x' A W. set (e2 := fst (erun _ cs)) in *.
  assert (P : prepare _ _ _ _ _ _ _ _ _ _ K e2 raw' = None).
  { unfold prepare. rewrite E1, A, E2. destruct (tab_ok _ _ _ _ _ _ _ _ _ _ K x'); [|reflexivity]. apply Nat.eqb_neq in W. now rewrite W. }
  unfold e_predict, e_score, is_fitted. rewrite E3, P. cbn. split; reflexivity.
Qed.

(** * C56: after a fit that returns, the object is that of a new estimator with the same
    settings on which only this fit was called: nothing of the history is left, but for the
    tree handed out by get_tree when no tree was found. *)
Theorem C56_history_free e raw y e1 found : reachable e -> fit e raw y = (e1, Ans _ found) ->
  exists e2, fit (e_new (e_par _ _ _ _ _ _ _ e)) raw y = (e2, Ans _ found)
    /\ (found = true -> e1 = e2)
    /\ (found = false -> forall cs, (forall c, In c cs -> c <> CTree _ _ _) -> snd (erun e1 cs) = snd (erun e2 cs)).
Proof.
  intros R H. pose proof (reach_prev e R) as P. unfold e_fit_call in *. cbn [e_par e_new Model_Estimator.e_new] in *.
  destruct (negb (validate _ _ _ _ _ _ _ _ _ _ K _)); [discriminate|]. destruct (bin_fit _ _ _ _ _ _ _ _ _ _ K _ _ _) as [b []]; [|discriminate]. cbn in *.
  destruct (bin_apply _ _ _ _ _ _ _ _ _ _ K b raw) as [x|]; [|discriminate]. destruct (negb (tab_ok _ _ _ _ _ _ _ _ _ _ K x)); [discriminate|]. cbn in *.
  destruct (negb (lab_ok _ _ _ _ _ _ _ _ _ _ K x y)); [discriminate|]. cbn in *. destruct (negb (handler_ok _ _ _ _ _ _ _ _ _ _ K _)); [discriminate|].
  unfold should_reset in *. cbn in *. rewrite P in H.
  assert (E : match e_solver Par Lab Bin Tab Slv Res Tre e with Some (_, _) | _ => true end = true) by (destruct (e_solver _ _ _ _ _ _ _ e) as [[]|]; reflexivity).
  rewrite E in H. destruct (solve _ _ _ _ _ _ _ _ _ _ K _ x y) as [s' [[r|]|]]; [| |discriminate].
  - injection H as <- <-. eexists. split; [reflexivity|]. split; [reflexivity|discriminate].
  - injection H as <- <-. eexists. split; [reflexivity|]. split; [discriminate|]. intros _ cs NT.
    (* the two differ in the tree only *)
    clear E. generalize (e_tree Par Lab Bin Tab Slv Res Tre e).
    set (p := e_par _ _ _ _ _ _ _ e). clearbody p. clear P R.
    generalize (@None (option Res)). generalize (Some (s', p)). generalize (Some (x, y)). generalize (Some (ncols _ _ _ _ _ _ _ _ _ _ K x)). generalize (Some b). revert p.
    clear s' x b raw y. intros p ob oc otr os ofr ot. generalize (@None Tab). generalize (@None Tre).
    revert p ob oc otr os ofr ot. induction cs as [|c cs IH]; intros p ob oc otr os ofr ot ot2 op; [reflexivity|].
    assert (IH' : forall p ob oc otr os op ofr ot ot2, snd (erun (Est _ _ _ _ _ _ _ p ob oc otr os op ofr ot) cs) = snd (erun (Est _ _ _ _ _ _ _ p ob oc otr os op ofr ot2) cs)).
    { intros. apply IH. intros c' I. apply NT. now right. }
    clear IH. destruct c; cbn [Model_Estimator.erun Model_Estimator.estep].
    + cbn. match goal with |- snd (let (_, _) := ?a in _) = snd (let (_, _) := ?b in _) => assert (Q : snd a = snd b) by apply IH'; destruct a, b end. cbn in *. congruence.
    + unfold e_fit_call. cbn [e_par e_bin e_ncols e_train e_solver e_prev e_fit e_tree].
      assert (SM : forall e1 e2 (v : evalue), snd (erun e1 cs) = snd (erun e2 cs) ->
        snd (let (e2, vs) := erun e1 cs in (e2, v :: vs)) = snd (let (e2, vs) := erun e2 cs in (e2, v :: vs))).
      { intros u1 u2 v Q. destruct (erun u1 cs), (erun u2 cs). cbn in *. congruence. }
      destruct (negb (validate _ _ _ _ _ _ _ _ _ _ K _)); [apply SM, IH'|]. destruct (bin_fit _ _ _ _ _ _ _ _ _ _ K _ _ _) as [b []]; cbn [negb e_par e_bin e_ncols e_train e_solver e_prev e_fit e_tree]; [|apply SM, IH'].
      destruct (bin_apply _ _ _ _ _ _ _ _ _ _ K b raw) as [x|]; [|apply SM, IH']. destruct (negb (tab_ok _ _ _ _ _ _ _ _ _ _ K x)); [apply SM, IH'|].
      cbn [negb e_par e_bin e_ncols e_train e_solver e_prev e_fit e_tree].
      destruct (negb (lab_ok _ _ _ _ _ _ _ _ _ _ K x y)); [apply SM, IH'|]. cbn [negb e_par e_bin e_ncols e_train e_solver e_prev e_fit e_tree].
      destruct (negb (handler_ok _ _ _ _ _ _ _ _ _ _ K _)); [apply SM, IH'|].
      unfold should_reset; cbn [negb e_par e_bin e_ncols e_train e_solver e_prev e_fit e_tree].
      match goal with |- context [solve _ _ _ _ _ _ _ _ _ _ K ?a ?b ?c] => destruct (solve _ _ _ _ _ _ _ _ _ _ K a b c) as [s' [[r|]|]] end;
        cbn [negb e_par e_bin e_ncols e_train e_solver e_prev e_fit e_tree]; apply SM; [reflexivity|apply IH'|apply IH'].
    + unfold e_predict, is_fitted, prepare. cbn [e_par e_bin e_ncols e_train e_solver e_prev e_fit e_tree].
      assert (SM : forall e1 e2 (v : evalue), snd (erun e1 cs) = snd (erun e2 cs) ->
        snd (let (e2, vs) := erun e1 cs in (e2, v :: vs)) = snd (let (e2, vs) := erun e2 cs in (e2, v :: vs))).
      { intros u1 u2 v Q. destruct (erun u1 cs), (erun u2 cs). cbn in *. congruence. }
      destruct ofr as [ofr|]; cbn [negb]; [|apply SM, IH'].
      match goal with |- context [match ?m with Some x => match os with _ => _ end | None => _ end] => destruct m as [x|] end; [|apply SM, IH'].
      destruct os as [[s q]|]; [|apply SM, IH']. destruct ofr as [r|]; [|apply SM, IH'].
      destruct (predict_of _ _ _ _ _ _ _ _ _ _ K s r x) as [s' o]. apply SM, IH'.
    + unfold e_score, is_fitted, prepare. cbn [e_par e_bin e_ncols e_train e_solver e_prev e_fit e_tree].
      assert (SM : forall e1 e2 (v : evalue), snd (erun e1 cs) = snd (erun e2 cs) ->
        snd (let (e2, vs) := erun e1 cs in (e2, v :: vs)) = snd (let (e2, vs) := erun e2 cs in (e2, v :: vs))).
      { intros u1 u2 v Q. destruct (erun u1 cs), (erun u2 cs). cbn in *. congruence. }
      destruct ofr as [ofr|]; cbn [negb]; [|apply SM, IH'].
      match goal with |- context [match ?m with Some x => match os with _ => _ end | None => _ end] => destruct m as [x|] end; [|apply SM, IH'].
      destruct os as [[s q]|]; [|apply SM, IH']. destruct ofr as [r|]; [|apply SM, IH'].
      destruct (negb (lab_ok _ _ _ _ _ _ _ _ _ _ K x y)); [apply SM, IH'|].
      destruct (score_of _ _ _ _ _ _ _ _ _ _ K s r x y) as [s' o]. apply SM, IH'.
    + cbn. match goal with |- snd (let (_, _) := ?a in _) = snd (let (_, _) := ?b in _) => assert (Q : snd a = snd b) by apply IH'; destruct a, b end. cbn in *. unfold e_depth; cbn. congruence.
    + exfalso. apply (NT (CTree _ _ _)); [now left|reflexivity].
Qed.

(** * C55: after a fit that found no tree, predictions, scores and the size queries refuse,
    whatever else is asked in between, until the next fit. *)
Definition refuses (c : ecall) (v : evalue) : Prop :=
  match c with
  | CPredict _ _ _ _ => v = VPredict _ _ _ (NotFitted _)
  | CScore _ _ _ _ _ => v = VScore _ _ _ (NotFitted _)
  | CDepth _ _ _ => v = VDepth _ _ _ (NotFitted _)
  | _ => True
  end.
Lemma refuse_run cs : forall e, e_fit _ _ _ _ _ _ _ e = None -> (forall raw y, ~ In (CFit _ _ _ raw y) cs) ->
  Forall2 refuses cs (snd (erun e cs)).
Proof.
  induction cs as [|c cs IH]; intros e F N; cbn; [constructor|].
  assert (S : refuses c (snd (estep e c)) /\ e_fit _ _ _ _ _ _ _ (fst (estep e c)) = None).
  { destruct c; cbn; try (split; [exact I|exact F]).
    - exfalso. apply (N raw y). now left.
    - unfold e_predict, is_fitted. rewrite F. cbn. auto.
    - unfold e_score, is_fitted. rewrite F. cbn. auto.
    - unfold e_depth. rewrite F. auto. }
  destruct (estep e c) as [e1 v]. cbn in S. destruct S as [S1 S2].
  specialize (IH e1 S2). destruct (erun e1 cs) as [e2 vs]. cbn in *. constructor; [exact S1|]. apply IH. intros raw y I. apply (N raw y). now right.
Qed.
Theorem C55_refuses_after_failed_fit e raw y e1 cs : fit e raw y = (e1, Ans _ false) -> (forall raw y, ~ In (CFit _ _ _ raw y) cs) ->
  Forall2 refuses cs (snd (erun e1 cs)).
Proof.
  intros H N. apply refuse_run; [|exact N]. unfold e_fit_call in H.
  destruct (negb (validate _ _ _ _ _ _ _ _ _ _ K _)); [discriminate|]. destruct (bin_fit _ _ _ _ _ _ _ _ _ _ K _ _ _) as [b []]; [|discriminate]. cbn in *.
  destruct (bin_apply _ _ _ _ _ _ _ _ _ _ K b raw) as [x|]; [|discriminate]. destruct (negb (tab_ok _ _ _ _ _ _ _ _ _ _ K x)); [discriminate|]. cbn in *.
  destruct (negb (lab_ok _ _ _ _ _ _ _ _ _ _ K x y)); [discriminate|]. cbn in *. destruct (negb (handler_ok _ _ _ _ _ _ _ _ _ _ K _)); [discriminate|].
  match type of H with context [solve _ _ _ _ _ _ _ _ _ _ K ?a ?b ?c] => destruct (solve _ _ _ _ _ _ _ _ _ _ K a b c) as [s' [[r|]|]] end; [discriminate| |discriminate].
  injection H as <-. reflexivity.
Qed.

(** The tree that get_tree hands out is that of the last fit that found one; a later fit
    that found none does not take it away. *)
Definition last_tree (o : option Tre) (c : ecall) (v : evalue) (t : option Tre) : option Tre :=
  match c, v with CFit _ _ _ _ _, VFit _ _ _ (Ans _ true) => t | _, _ => o end.
Lemma tree_step e c : e_tree _ _ _ _ _ _ _ (fst (estep e c)) =
  last_tree (e_tree _ _ _ _ _ _ _ e) c (snd (estep e c)) (e_tree _ _ _ _ _ _ _ (fst (estep e c))).
Proof.
  destruct c; cbn; try reflexivity.
  - unfold e_fit_call. destruct (negb _); [reflexivity|]. destruct (bin_fit _ _ _ _ _ _ _ _ _ _ K _ _ _) as [b []]; [|reflexivity]. cbn.
    destruct (bin_apply _ _ _ _ _ _ _ _ _ _ K b raw) as [x|]; [|reflexivity]. destruct (negb (tab_ok _ _ _ _ _ _ _ _ _ _ K x)); [reflexivity|]. cbn.
    destruct (negb (lab_ok _ _ _ _ _ _ _ _ _ _ K x y)); [reflexivity|]. cbn. destruct (negb (handler_ok _ _ _ _ _ _ _ _ _ _ K _)); [reflexivity|].
    match goal with |- context [solve _ _ _ _ _ _ _ _ _ _ K ?a ?b ?c] => destruct (solve _ _ _ _ _ _ _ _ _ _ K a b c) as [s' [[r|]|]] end; reflexivity.
  - unfold e_predict. destruct (negb _); [reflexivity|]. destruct (prepare _ _ _ _ _ _ _ _ _ _ K e raw); [|reflexivity].
    destruct (e_solver _ _ _ _ _ _ _ e) as [[s p]|]; [|reflexivity]. destruct (e_fit _ _ _ _ _ _ _ e) as [[r|]|] eqn:F; try reflexivity.
    destruct (predict_of _ _ _ _ _ _ _ _ _ _ K s r t); reflexivity.
  - unfold e_score. destruct (negb _); [reflexivity|]. destruct (prepare _ _ _ _ _ _ _ _ _ _ K e raw); [|reflexivity].
    destruct (e_solver _ _ _ _ _ _ _ e) as [[s p]|]; [|reflexivity]. destruct (e_fit _ _ _ _ _ _ _ e) as [[r|]|] eqn:F; try reflexivity.
    destruct (negb (lab_ok _ _ _ _ _ _ _ _ _ _ K t y)); [reflexivity|]. destruct (score_of _ _ _ _ _ _ _ _ _ _ K s r t y); reflexivity.
Qed.

(** Until a fit has found a tree, get_tree refuses. *)
Theorem C55_no_tree_before p cs e vs : erun (e_new p) cs = (e, vs) -> ~ In (VFit _ _ _ (Ans _ true)) vs -> e_get_tree _ _ _ _ _ _ _ e = NotFitted _.
Proof.
  intros H N. assert (G : forall cs e e' vs, erun e cs = (e', vs) -> ~ In (VFit _ _ _ (Ans _ true)) vs -> e_tree _ _ _ _ _ _ _ e = None -> e_tree _ _ _ _ _ _ _ e' = None).
  { clear. induction cs as [|c cs IH]; intros e e' vs H N T; cbn in H.
    - injection H as <- <-. exact T.
    - pose proof (tree_step e c) as S. destruct (estep e c) as [e1 v]. destruct (erun e1 cs) as [e2 ws] eqn:R. injection H as <- <-. cbn in S.
      apply (IH e1 e2 ws R); [intros I; apply N; now right|]. rewrite S. unfold last_tree. destruct c; auto. destruct v; auto. destruct a; auto. destruct a; auto.
      exfalso. apply N. now left. }
  unfold e_get_tree. rewrite (G _ _ _ _ H N eq_refl). reflexivity.
Qed.

(** After a fit that found a tree the size query, get_tree and the predictions all speak of
    the same result. *)
Theorem C56_one_result e raw y e1 : fit e raw y = (e1, Ans _ true) -> exists s p r,
  e_solver _ _ _ _ _ _ _ e1 = Some (s, p) /\ e_depth _ _ _ _ _ _ _ _ _ _ K e1 = Ans _ (depth_of _ _ _ _ _ _ _ _ _ _ K r)
  /\ e_get_tree _ _ _ _ _ _ _ e1 = Ans _ (get_tree_of _ _ _ _ _ _ _ _ _ _ K s r)
  /\ (forall raw' x, prepare _ _ _ _ _ _ _ _ _ _ K e1 raw' = Some x ->
       snd (e_predict _ _ _ _ _ _ _ _ _ _ K e1 raw') = match snd (predict_of _ _ _ _ _ _ _ _ _ _ K s r x) with Some a => Ans _ a | None => Raise _ end)
  /\ (exists b x, e_bin _ _ _ _ _ _ _ e1 = Some b /\ fst (bin_fit _ _ _ _ _ _ _ _ _ _ K (bin_new _ _ _ _ _ _ _ _ _ _ K p) raw y) = b
        /\ bin_apply _ _ _ _ _ _ _ _ _ _ K b raw = Some x /\ e_train _ _ _ _ _ _ _ e1 = Some (x, y)).
Proof.
  intros H. unfold e_fit_call in H.
  destruct (negb (validate _ _ _ _ _ _ _ _ _ _ K _)); [discriminate|]. destruct (bin_fit _ _ _ _ _ _ _ _ _ _ K _ _ _) as [b []] eqn:B; [|discriminate]. cbn in *.
  destruct (bin_apply _ _ _ _ _ _ _ _ _ _ K b raw) as [x|] eqn:A; [|discriminate]. destruct (negb (tab_ok _ _ _ _ _ _ _ _ _ _ K x)); [discriminate|]. cbn in *.
  destruct (negb (lab_ok _ _ _ _ _ _ _ _ _ _ K x y)); [discriminate|]. cbn in *. destruct (negb (handler_ok _ _ _ _ _ _ _ _ _ _ K _)); [discriminate|].
  match type of H with context [solve _ _ _ _ _ _ _ _ _ _ K ?a ?b ?c] => destruct (solve _ _ _ _ _ _ _ _ _ _ K a b c) as [s' [[r|]|]] end; [|discriminate|discriminate].
  injection H as <-. exists s', (e_par _ _ _ _ _ _ _ e), r. refine (conj eq_refl (conj eq_refl (conj eq_refl (conj _ _)))).
  - intros raw' x' E. unfold e_predict, is_fitted. rewrite E. cbn. destruct (predict_of _ _ _ _ _ _ _ _ _ _ K s' r x') as [s2 o]. reflexivity.
  - exists b, x. rewrite B. auto.
Qed.
End Estimator.

(** * Instances: tables are lists of numbers; the binarizer remembers the largest number
    seen (threshold); the result remembers the number of rows; a fit on an empty table finds
    no tree, a fit with label 7 raises. *)
Definition toy : parts nat (list nat) nat nat (list bool) nat nat (nat * nat) (list bool) nat :=
  Parts _ _ _ _ _ _ _ _ _ _
    (fun _ => true) (fun _ => 0) (fun _ raw _ => (fold_right max 0 raw, true)) (fun b raw => Some (map (fun v => b <=? v) raw)) (fun _ => true) (fun _ => 1)
    (fun _ y => negb (y =? 7)) (fun _ => true) (fun p => p) (fun p _ => p) (fun s x _ => (s, Some (match x with [] => None | _ => Some (length x) end)))
    (fun s r => (s, r)) (fun s _ x => (s, Some x)) (fun s _ x _ => (s, Some (length x))) (fun r => r) (fun _ _ => true).

(** Non-vacuity: a reachable object, a fit on it that finds a tree and one that finds none. *)
Example C56_ex : let e := fst (erun _ _ _ _ _ _ _ _ _ _ toy (e_new _ _ _ _ _ _ _ 3) [CFit _ _ _ [4; 5] 0; CPredict _ _ _ [5]]) in
  reachable _ _ _ _ _ _ _ _ _ _ toy e /\ snd (e_fit_call _ _ _ _ _ _ _ _ _ _ toy e [1; 2; 3] 0) = Ans _ true
  /\ snd (e_fit_call _ _ _ _ _ _ _ _ _ _ toy e [] 0) = Ans _ false.
Proof. cbn zeta. split; [|split; reflexivity]. exists 3, [CFit _ _ _ [4; 5] 0; CPredict _ _ _ [5]]. eexists. reflexivity. Qed.

(** Non-vacuity of C81: the same parts with one column per entry. *)
Definition toy_wide : parts nat (list nat) nat nat (list bool) nat nat (nat * nat) (list bool) nat :=
  Parts _ _ _ _ _ _ _ _ _ _
    (fun _ => true) (fun _ => 0) (fun _ raw _ => (fold_right max 0 raw, true)) (fun b raw => Some (map (fun v => b <=? v) raw)) (fun _ => true) (@length bool)
    (fun _ y => negb (y =? 7)) (fun _ => true) (fun p => p) (fun p _ => p) (fun s x _ => (s, Some (match x with [] => None | _ => Some (length x) end)))
    (fun s r => (s, r)) (fun s _ x => (s, Some x)) (fun s _ x _ => (s, Some (length x))) (fun r => r) (fun _ _ => true).
Example C81_ex : exists e, e_fit_call _ _ _ _ _ _ _ _ _ _ toy_wide (e_new _ _ _ _ _ _ _ 3) [4; 5] 0 = (e, Ans _ true)
  /\ snd (erun _ _ _ _ _ _ _ _ _ _ toy_wide e [CPredict _ _ _ [1; 6]; CPredict _ _ _ [1; 2; 3]; CScore _ _ _ [6] 0])
     = [VPredict _ _ _ (Ans _ [false; true]); VPredict _ _ _ (Raise _); VScore _ _ _ (Raise _)].
Proof. eexists. split; [reflexivity|]. reflexivity. Qed.

(** Refuted C55: get_tree still hands out the tree of the earlier fit. *)
Theorem C55_get_tree_refuted : exists e1 e2 t,
  e_fit_call _ _ _ _ _ _ _ _ _ _ toy (e_new _ _ _ _ _ _ _ 3) [4; 5] 0 = (e1, Ans _ true) /\ e_fit_call _ _ _ _ _ _ _ _ _ _ toy e1 [] 0 = (e2, Ans _ false)
  /\ e_get_tree _ _ _ _ _ _ _ e2 = Ans _ t /\ e_depth _ _ _ _ _ _ _ _ _ _ toy e2 = NotFitted _.
Proof.
  set (e1 := fst (e_fit_call _ _ _ _ _ _ _ _ _ _ toy (e_new _ _ _ _ _ _ _ 3) [4; 5] 0)).
  exists e1, (fst (e_fit_call _ _ _ _ _ _ _ _ _ _ toy e1 [] 0)), (3, 2). refine (conj _ (conj _ (conj _ _))); vm_compute; reflexivity.
Qed.

(** Refuted: an object that was never fitted passes the fitted check and fails otherwise. *)
Theorem C55_never_fitted_refuted Par Raw Lab Bin Tab Slv Res Tre Pre Sco K p raw :
  is_fitted _ _ _ _ _ _ _ (e_new Par Lab Bin Tab Slv Res Tre p) = true
  /\ snd (e_predict Par Raw Lab Bin Tab Slv Res Tre Pre Sco K (e_new _ _ _ _ _ _ _ p) raw) = Raise _.
Proof. split; reflexivity. Qed.

(** Refuted C56: after a fit that raises, predictions use the binarizer of the failed fit and
    the result of the earlier one; the same question before the failed fit had another answer. *)
Theorem C56_after_raise_refuted : exists e1 e2,
  e_fit_call _ _ _ _ _ _ _ _ _ _ toy (e_new _ _ _ _ _ _ _ 3) [4; 5] 0 = (e1, Ans _ true) /\ e_fit_call _ _ _ _ _ _ _ _ _ _ toy e1 [9; 8] 7 = (e2, Raise _)
  /\ snd (e_predict _ _ _ _ _ _ _ _ _ _ toy e1 [6]) = Ans _ [true] /\ snd (e_predict _ _ _ _ _ _ _ _ _ _ toy e2 [6]) = Ans _ [false].
Proof.
  set (e1 := fst (e_fit_call _ _ _ _ _ _ _ _ _ _ toy (e_new _ _ _ _ _ _ _ 3) [4; 5] 0)).
  exists e1, (fst (e_fit_call _ _ _ _ _ _ _ _ _ _ toy e1 [9; 8] 7)). refine (conj _ (conj _ (conj _ _))); vm_compute; reflexivity.
Qed.

Print Assumptions C56_history_free.
Print Assumptions C56_one_result.
Print Assumptions C55_refuses_after_failed_fit.
Print Assumptions C55_no_tree_before.
Print Assumptions C55_get_tree_refuted.
Print Assumptions C55_never_fitted_refuted.
Print Assumptions C56_after_raise_refuted.
Print Assumptions C81_width.
