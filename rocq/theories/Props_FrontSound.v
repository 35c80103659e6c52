(** C80: what is returned for the F1-score and the fairness tasks is sound with every
    combination of the switches, and the trees are blind when the depth-two solver is off. *)
From Coq Require Import List Arith Bool ZArith QArith Lia Permutation.
From Verif Require Import Model_FeatureVector Model_Data Model_Node Model_Terminal Model_Heap Model_Solver Model_Preproc Model_Container Model_Pareto Model_Fairness Model_Front.
From Verif Require Import Spec_Tree Spec_Examples Spec_Rows Spec_F1 Spec_Fair Proofs_View Proofs_Preproc Proofs_Rows Proofs_Pareto Proofs_Fairness Proofs_F1 Props_Pareto Props_Fairness Proofs_Front Props_Front.
Import ListNotations.
Local Open Scope nat_scope.

Lemma fits_weak t (P Q : nat -> Prop) nl : (forall f, P f -> Q f) -> fits P nl t -> fits Q nl t.
Proof. intro H. induction t as [l|f l IHl r IHr]; cbn [fits]; [auto|]. intros (A & B & C). auto. Qed.

(** A tree on the preprocessed data as a tree on the rows. *)
Section Up.
  Context (T : task) (mls nf : nat) (rows : list (list nat * nat)).
  Hypothesis Hg : good_rows nf 2 rows.
  Hypothesis Hm : 1 <= mls.
  Notation v := (mk_view 2 rows).
  Notation v' := (pview T mls nf v).
  Lemma up_tree (P : nat -> Prop) dp nds t : (forall f, P f -> f < nf) -> allowed P mls dp nds v' t ->
    row_allowed nf 2 mls dp nds rows (unflip (pfl T mls nf v) t) /\ fits P 2 t
    /\ (forall x, In x (concat v) -> predict (unflip (pfl T mls nf v) t) x = predict t (pg T mls nf v x)).
  Proof.
    intros HP (H1 & H2 & H3 & H4). change (length v') with (num_labels v') in H1.
    rewrite pview_labels, (rows_labels 2 rows) in H1. unfold pview in H2. rewrite concat_map_map in H2.
    destruct (Proofs_Preproc.unflip_any T mls nf v Hm (rows_loaded nf 2 rows Hg) 2 t (fun _ => true)) as (A1 & A2 & A3 & A4 & A5); rewrite ?filter_true in *;
      [exact (fits_weak t _ _ 2 HP H1)|exact H2|].
    split; [|split; [exact H1|exact A5]].
    apply (rows_allowed nf 2 rows Hg). unfold allowed. change (length v) with (num_labels v). rewrite (rows_labels 2 rows).
    split; [exact A1|]. split; [exact A2|]. lia.
  Qed.
End Up.

Section F1.
  Context (rnd : Q -> Q) (W : fswitches) (nf : nat) (rows : list (list nat * nat)).
  Notation mls := (fw_mls W).
  Hypothesis HR : f1_rows mls nf rows.
  Hypothesis Hm : 1 <= mls.
  Notation Hg := (fr_good _ _ _ HR).
  Notation v := (mk_view 2 rows).
  Notation v' := (pview acc mls nf v).
  Notation pos := (Z.of_nat (length (nth 1 v' []))).
  Notation G := (mk_fcfg W nf (pdead acc mls nf v)).
  Notation T := (f1_ftask rnd pos).

  Lemma f1_order u f : In f (pc_order (fc_p G) u) -> f < nf.
  Proof. exact (proj1 (Props_Pareto.G_order mls nf (fw_gini W) rows Hm u f)). Qed.

  Lemma f1_ffit_eq dp nds all : f1_ffit rnd W nf dp nds all v
    = map (fun p => (fst p, option_map (unflip (pfl acc mls nf v)) (snd p))) (f_trees T G v' dp nds all).
  Proof. unfold f1_ffit. rewrite preprocess_eq. reflexivity. Qed.

  Lemma f1_vals (P : nat -> Prop) dp nds t : (forall f, P f -> f < nf) -> allowed P mls dp nds v' t ->
    let t0 := unflip (pfl acc mls nf v) t in
    row_allowed nf 2 mls dp nds rows t0 /\ tval (ft_p T) v' t = F1 (row_count rows t0 1 0) (row_count rows t0 0 1).
  Proof.
    intros HP A. destruct (up_tree acc mls nf rows Hg Hm P dp nds t HP A) as (U1 & U2 & U3). split; [exact U1|].
    destruct (counts rnd mls nf rows HR Hm _ t P U2 U3) as (E1 & E2 & _).
    change (tval (f1_task rnd pos) v' t = F1 (row_count rows (unflip (pfl acc mls nf v) t) 1 0) (row_count rows (unflip (pfl acc mls nf v) t) 0 1)).
    rewrite <- E1, <- E2. destruct (tval _ v' t). reflexivity.
  Qed.

  Lemma f1_sound dp nds all x o : nds <= 2 ^ dp - 1 -> In (x, o) (f1_ffit rnd W nf dp nds all v) ->
    (exists t, row_allowed nf 2 mls dp nds rows t /\ nodes t = cs_nodes x /\ cs_val x = F1 (row_count rows t 1 0) (row_count rows t 0 1))
    /\ forall t, o = Some t -> row_allowed nf 2 mls dp (2 ^ dp - 1) rows t /\ cs_val x = F1 (row_count rows t 1 0) (row_count rows t 0 1).
  Proof.
    intros Hn Hx. rewrite f1_ffit_eq in Hx. apply in_map_iff in Hx. destruct Hx as ((y & o') & Ey & Hy). cbn [fst snd] in Ey. injection Ey as -> <-.
    destruct (ftrees_sound T G v' (vsize v')) with (dp := dp) (nds := nds) (all := all) (x := x) (o := o') as ((t & A & _ & ->) & H2); try assumption.
    - apply pview_ids. exact (rows_loaded nf 2 rows Hg).
    - apply pview_sorted. exact (rows_loaded nf 2 rows Hg).
    - intros [a1 a2] [b1 b2]. cbn. unfold f1_eqb. cbn. rewrite andb_true_iff, !Z.eqb_eq. intros [-> ->]. reflexivity.
    - exact f1_order.
    - reflexivity.
    - reflexivity.
    - split.
      + destruct (f1_vals (okm T G) dp nds t ltac:(intros f [Hf _]; exact Hf) A) as [U V]. exists (unflip (pfl acc mls nf v) t). split; [exact U|].
        split; [|exact V]. cbn [cs_nodes].
        destruct (Proofs_Preproc.unflip_any acc mls nf v Hm (rows_loaded nf 2 rows Hg) 2 t (fun _ => true)) as (_ & _ & _ & A4 & _); [| |exact A4].
        * destruct A as (A & _). change (length v') with (num_labels v') in A. rewrite pview_labels, (rows_labels 2 rows) in A.
          revert A. apply fits_weak. intros f [Hf _]. exact Hf.
        * destruct A as (_ & A & _). rewrite filter_true. unfold pview in A. rewrite concat_map_map in A. exact A.
      + intros t' E. destruct o' as [s|]; [|discriminate]. injection E as <-. destruct (H2 s eq_refl) as (B & Vs).
        destruct (f1_vals (okc T G) dp _ s ltac:(intros f [Hf _]; exact Hf) B) as [U V']. split; [exact U|].
        exact (eq_trans (eq_sym Vs) V').
  Qed.
End F1.

Section Fair.
  Context (eo : bool) (lim : Q) (W : fswitches) (nf : nat) (rows : list (list nat * nat)).
  Notation mls := (fw_mls W).
  Hypothesis HR : fair_rows eo mls nf rows.
  Hypothesis Hm : 1 <= mls.
  Hypothesis HD : (Z.of_nat (length (members eo false rows)) * Z.of_nat (length (members eo true rows)) < 10000)%Z.
  Notation Hg := (fa_good _ _ _ _ HR).
  Notation v := (mk_view 2 rows).
  Notation v' := (pview fair_pre mls nf v).
  Notation G := (mk_fcfg W nf (pdead fair_pre mls nf v)).
  Notation T := (fair_ftask eo (Z.of_nat (vsize v')) (group0_size eo v') (group1_size eo v') lim).

  Lemma fair_order u f : In f (pc_order (fc_p G) u) -> f < nf.
  Proof. exact (proj1 (Props_Fairness.G_order mls nf (fw_gini W) rows Hm u f)). Qed.

  Lemma fair_ffit_eq dp nds all : fair_ffit eo lim W nf dp nds all v
    = map (fun p => (fst p, option_map (unflip (pfl fair_pre mls nf v)) (snd p))) (f_trees T G v' dp nds all).
  Proof. unfold fair_ffit. rewrite preprocess_eq. reflexivity. Qed.

  Lemma fair_vals (P : nat -> Prop) dp nds t : (forall f, P f -> f < nf) -> allowed P mls dp nds v' t ->
    let t0 := unflip (pfl fair_pre mls nf v) t in
    row_allowed nf 2 mls dp nds rows t0 /\ fs_mis (tval (ft_p T) v' t) = Z.of_nat (row_errors rows t0)
    /\ (pt_ok (ft_p T) (tval (ft_p T) v' t) = true -> (disc eo rows t0 <= lim)%Q) /\ ((forall f, P f -> 0 < f) -> blind t0).
  Proof.
    intros HP A. destruct (up_tree fair_pre mls nf rows Hg Hm P dp nds t HP A) as (U1 & U2 & U3).
    assert (Fu : fits P 2 (unflip (pfl fair_pre mls nf v) t)) by (apply unflip_fits; exact U2).
    split; [exact U1|]. split; [|split].
    - pose proof (val_rows eo lim mls nf rows HR Hm _ _ t Fu U3) as V. cbn zeta in V. change (pt_S (ft_p T)) with fsol.
      change (fs_mis (tval (fair_task eo (Z.of_nat (vsize v')) (group0_size eo v') (group1_size eo v') lim) v' t) = Z.of_nat (row_errors rows (unflip (pfl fair_pre mls nf v) t))).
      rewrite V. reflexivity.
    - intro O. apply (ok_rows eo lim mls nf rows HR Hm _ _ t Fu U3). exact O.
    - intro H0. unfold blind. exact (fits_weak _ _ _ 2 H0 Fu).
  Qed.

  Lemma fair_sound dp nds all x o : nds <= 2 ^ dp - 1 -> In (x, o) (fair_ffit eo lim W nf dp nds all v) ->
    (exists t, row_allowed nf 2 mls dp nds rows t /\ blind t /\ (disc eo rows t <= lim)%Q
        /\ nodes t = cs_nodes x /\ fs_mis (cs_val x) = Z.of_nat (row_errors rows t))
    /\ forall t, o = Some t -> row_allowed nf 2 mls dp (2 ^ dp - 1) rows t /\ (disc eo rows t <= lim)%Q
        /\ fs_mis (cs_val x) = Z.of_nat (row_errors rows t) /\ (fw_term W = false -> blind t).
  Proof.
    intros Hn Hx. rewrite fair_ffit_eq in Hx. apply in_map_iff in Hx. destruct Hx as ((y & o') & Ey & Hy). cbn [fst snd] in Ey. injection Ey as -> <-.
    destruct (ftrees_sound T G v' (vsize v')) with (dp := dp) (nds := nds) (all := all) (x := x) (o := o') as ((t & A & O & ->) & H2); try assumption.
    - apply pview_ids. exact (rows_loaded nf 2 rows Hg).
    - apply pview_sorted. exact (rows_loaded nf 2 rows Hg).
    - intros a b. apply fs_eqb_eq. rewrite (g0_rows eo mls nf rows HR Hm), (g1_rows eo mls nf rows HR Hm). pose proof (members_pos eo mls nf rows HR Hm false). pose proof (members_pos eo mls nf rows HR Hm true). lia.
    - exact fair_order.
    - discriminate.
    - reflexivity.
    - split.
      + destruct (fair_vals (okm T G) dp nds t ltac:(intros f [Hf _]; exact Hf) A) as (U & V & D & B). exists (unflip (pfl fair_pre mls nf v) t). split; [exact U|].
        split; [apply B; intros f [_ Hf]; apply Nat.ltb_lt; exact Hf|]. split; [apply D; exact O|]. split; [|exact V]. cbn [cs_nodes].
        destruct (Proofs_Preproc.unflip_any fair_pre mls nf v Hm (rows_loaded nf 2 rows Hg) 2 t (fun _ => true)) as (_ & _ & _ & A4 & _); [| |exact A4].
        * destruct A as (A & _). change (length v') with (num_labels v') in A. rewrite pview_labels, (rows_labels 2 rows) in A.
          revert A. apply fits_weak. intros f [Hf _]. exact Hf.
        * destruct A as (_ & A & _). rewrite filter_true. unfold pview in A. rewrite concat_map_map in A. exact A.
      + intros t' E. destruct o' as [s|]; [|discriminate]. injection E as <-. destruct (H2 s eq_refl) as (B & Vs).
        destruct (fair_vals (okc T G) dp _ s ltac:(intros f [Hf _]; exact Hf) B) as (U & V' & D & Bl). split; [exact U|].
        split; [apply D; exact (eq_trans (f_equal (pt_ok (ft_p T)) Vs) O)|]. split; [exact (eq_trans (f_equal fs_mis (eq_sym Vs)) V')|].
        intro Ht. apply Bl. intros f [_ Hf]. specialize (Hf Ht). apply Nat.ltb_lt. exact Hf.
  Qed.
End Fair.

(** * C80.  With every setting of the switches (bounds, similarity bound, depth-two solver,
    caches, order of features, leaf size), all limits and both loops over the sizes, each
    solution returned for the F1-score reports the counts and number of splits of some tree
    within the limits, and a returned tree has the reported counts and is within the depth and
    the leaf size, and the largest number of splits for that depth. *)
Theorem C80_f1_sound : forall rnd W nf rows dp nds all x o, f1_rows (fw_mls W) nf rows -> 1 <= fw_mls W -> nds <= 2 ^ dp - 1 ->
  In (x, o) (f1_ffit rnd W nf dp nds all (mk_view 2 rows)) ->
  (exists t, row_allowed nf 2 (fw_mls W) dp nds rows t /\ nodes t = cs_nodes x
     /\ cs_val x = F1 (row_count rows t 1 0) (row_count rows t 0 1))
  /\ forall t, o = Some t -> row_allowed nf 2 (fw_mls W) dp (2 ^ dp - 1) rows t
     /\ cs_val x = F1 (row_count rows t 1 0) (row_count rows t 0 1).
Proof. intros rnd W nf rows dp nds all x o HR Hm Hn. apply f1_sound; assumption. Qed.
Print Assumptions C80_f1_sound.

(** For the fairness tasks, with fewer than 10000 pairs of rows of the two groups (the code
    compares scores up to 1/10000): each solution reports the errors of some tree within all
    limits that does not test the sensitive column and is within the discrimination limit; a
    returned tree has the reported number of errors and is within the discrimination limit. *)
Theorem C80_fair_sound : forall eo lim W nf rows dp nds all x o, fair_rows eo (fw_mls W) nf rows -> 1 <= fw_mls W ->
  (Z.of_nat (length (members eo false rows)) * Z.of_nat (length (members eo true rows)) < 10000)%Z -> nds <= 2 ^ dp - 1 ->
  In (x, o) (fair_ffit eo lim W nf dp nds all (mk_view 2 rows)) ->
  (exists t, row_allowed nf 2 (fw_mls W) dp nds rows t /\ blind t /\ (disc eo rows t <= lim)%Q
     /\ nodes t = cs_nodes x /\ fs_mis (cs_val x) = Z.of_nat (row_errors rows t))
  /\ forall t, o = Some t -> row_allowed nf 2 (fw_mls W) dp (2 ^ dp - 1) rows t /\ (disc eo rows t <= lim)%Q
     /\ fs_mis (cs_val x) = Z.of_nat (row_errors rows t).
Proof.
  intros eo lim W nf rows dp nds all x o HR Hm HD Hn Hx. destruct (fair_sound eo lim W nf rows HR Hm HD dp nds all x o Hn Hx) as [A B].
  split; [exact A|]. intros t Ht. destruct (B t Ht) as (B1 & B2 & B3 & _). exact (conj B1 (conj B2 B3)).
Qed.
Print Assumptions C80_fair_sound.

(** * C77.  With the depth-two solver off and every other switch arbitrary, no returned tree
    tests the sensitive column. *)
Theorem C77_partial : forall eo lim W nf rows dp nds all x t, fair_rows eo (fw_mls W) nf rows -> 1 <= fw_mls W ->
  (Z.of_nat (length (members eo false rows)) * Z.of_nat (length (members eo true rows)) < 10000)%Z -> nds <= 2 ^ dp - 1 ->
  fw_term W = false -> In (x, Some t) (fair_ffit eo lim W nf dp nds all (mk_view 2 rows)) -> blind t.
Proof.
  intros eo lim W nf rows dp nds all x t HR Hm HD Hn Ht Hx. destruct (fair_sound eo lim W nf rows HR Hm HD dp nds all x _ Hn Hx) as [_ B].
  apply (B t eq_refl). exact Ht.
Qed.
Print Assumptions C77_partial.

(** Cases: default switches, F1 at depth three; fairness at depth three, with a returned tree
    with splits, also with the depth-two solver off. *)
Example C80_f1_case : f1_rows 1 3 c76_rows /\ exists x t, f1_ffit no_rounding fdefaults 3 3 7 false (mk_view 2 c76_rows) = [(x, Some t)] /\ nodes t = 3.
Proof.
  split; [split; [repeat constructor|exists ([1;1;0],1); split; [left; reflexivity|reflexivity]|cbn; lia]|].
  do 2 eexists. split; vm_compute; reflexivity.
Qed.
Example C80_fair_case : forall eo, fair_rows eo 1 3 (if eo then c77_rows_eo else c77_rows)
  /\ exists x t, fair_ffit eo (1 # 2) fdefaults 3 3 7 false (mk_view 2 (if eo then c77_rows_eo else c77_rows)) = [(x, Some t)] /\ 1 <= nodes t.
Proof.
  intros []; (split; [apply ex_rows; [reflexivity|reflexivity|cbn; lia]|]); do 2 eexists; (split; [vm_compute; reflexivity|cbn; lia]).
Qed.
Example C77_partial_case : forall eo, exists x t,
  fair_ffit eo (1 # 2) without_terminal 3 3 7 false (mk_view 2 (if eo then c77_rows_eo else c77_rows)) = [(x, Some t)] /\ 1 <= nodes t.
Proof. intros []; do 2 eexists; (split; [vm_compute; reflexivity|cbn; lia]). Qed.
