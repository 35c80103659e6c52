(** The preprocessing keeps exactly the trees a user may want: simulation between the user's
    data and the preprocessed data in both directions. *)
From Coq Require Import List Arith Bool Lia ZArith Sorted Permutation.
From Verif Require Import Model_FeatureVector Model_Data Model_Node Model_Cache Model_Terminal Model_Heap Model_Solver Model_Preproc
  Spec_Tree Spec_Examples Spec_Rows Proofs_View Proofs_Diff Proofs_Feature Proofs_Calc Proofs_Base.
Import ListNotations.
Local Open Scope nat_scope.

(** ** Instances *)
Definition inst_ok (nf : nat) (x : inst) : Prop := fv_num (ifv x) = nf /\ fv_ok (ifv x).

Lemma fold_flip_spec (fl : nat -> bool) nf fs : NoDup fs -> (forall f, In f fs -> f < nf) -> forall x, inst_ok nf x ->
  let y := fold_left (fun x f => if fl f then flip_feature f x else x) fs x in
  inst_ok nf y /\ iid y = iid x /\ forall g, has g y = xorb (fl g && existsb (Nat.eqb g) fs) (has g x).
Proof.
  induction 1 as [|f fs Hni Hnd IH]; intros Hlt x Hx; cbn [fold_left existsb].
  - cbn zeta. split; [exact Hx|]. split; [reflexivity|]. intro g. rewrite andb_false_r. destruct (has g x); reflexivity.
  - assert (Hf : f < nf) by (apply Hlt; left; reflexivity).
    set (x1 := if fl f then flip_feature f x else x).
    assert (H1 : inst_ok nf x1 /\ iid x1 = iid x /\ forall g, has g x1 = xorb (fl g && (g =? f)) (has g x)).
    { destruct Hx as [Hn Ho]. unfold x1. destruct (fl f) eqn:E.
      - split; [|split; [reflexivity|]].
        + split; cbn [flip_feature on_fv ifv]; [rewrite fv_flip_num; exact Hn|apply fv_flip_ok; [lia|exact Ho]].
        + intro g. unfold has. cbn [flip_feature on_fv ifv]. rewrite fv_flip_has by lia.
          destruct (g =? f) eqn:Eg; [apply Nat.eqb_eq in Eg; subst; rewrite E; destruct (fv_has (ifv x) f); reflexivity|].
          rewrite andb_false_r. destruct (fv_has (ifv x) g); reflexivity.
      - split; [split; assumption|]. split; [reflexivity|]. intro g.
        destruct (g =? f) eqn:Eg; [apply Nat.eqb_eq in Eg; subst; rewrite E|rewrite andb_false_r]; cbn [andb]; destruct (has _ x); reflexivity. }
    destruct H1 as (H1 & H2 & H3). specialize (IH ltac:(intros g Hg; apply Hlt; right; exact Hg) x1 H1).
    cbn zeta in *. fold x1. destruct IH as (I1 & I2 & I3). split; [exact I1|]. split; [congruence|].
    intro g. rewrite I3, H3. destruct (g =? f) eqn:Eg.
    + apply Nat.eqb_eq in Eg. subst g. assert (Hx0 : existsb (Nat.eqb f) fs = false).
      { destruct (existsb (Nat.eqb f) fs) eqn:Ex; [|reflexivity]. apply existsb_exists in Ex. destruct Ex as (z & Hz & Ez).
        apply Nat.eqb_eq in Ez. subst. contradiction. }
      rewrite Hx0. cbn [orb]. rewrite !andb_true_r, andb_false_r. destruct (fl f), (has f x); reflexivity.
    + rewrite andb_false_r. cbn [orb]. destruct (has g x); reflexivity.
Qed.

Lemma existsb_seq g n : existsb (Nat.eqb g) (seq 0 n) = (g <? n).
Proof.
  destruct (g <? n) eqn:E.
  - apply existsb_exists. exists g. apply Nat.ltb_lt in E. rewrite in_seq, Nat.eqb_refl. split; [lia|reflexivity].
  - destruct (existsb (Nat.eqb g) (seq 0 n)) eqn:Ex; [|reflexivity]. apply existsb_exists in Ex. destruct Ex as (z & Hz & Ez).
    apply Nat.eqb_eq in Ez. subst z. apply in_seq in Hz. apply Nat.ltb_ge in E. lia.
Qed.

Lemma flip_all_spec fl nf x : inst_ok nf x ->
  inst_ok nf (flip_all fl nf x) /\ iid (flip_all fl nf x) = iid x
  /\ forall g, g < nf -> has g (flip_all fl nf x) = xorb (fl g) (has g x).
Proof.
  intro Hx. destruct (fold_flip_spec fl nf (seq 0 nf) (seq_NoDup _ _) ltac:(intros f Hf; apply in_seq in Hf; lia) x Hx) as (H1 & H2 & H3).
  split; [exact H1|]. split; [exact H2|]. intros g Hg. unfold flip_all. rewrite H3, existsb_seq.
  apply Nat.ltb_lt in Hg. rewrite Hg, andb_true_r. reflexivity.
Qed.

Lemma fold_disable_spec (red : nat -> bool) nf fs : (forall f, In f fs -> f < nf) -> forall x, inst_ok nf x ->
  let y := fold_left (fun x f => if red f then on_fv (fun w => fv_disable w f) x else x) fs x in
  inst_ok nf y /\ iid y = iid x /\ forall g, has g y = if red g && existsb (Nat.eqb g) fs then false else has g x.
Proof.
  induction fs as [|f fs IH]; intros Hlt x Hx; cbn [fold_left existsb].
  - cbn zeta. split; [exact Hx|]. split; [reflexivity|]. intro g. rewrite andb_false_r. reflexivity.
  - assert (Hf : f < nf) by (apply Hlt; left; reflexivity).
    set (x1 := if red f then on_fv (fun w => fv_disable w f) x else x).
    assert (H1 : inst_ok nf x1 /\ iid x1 = iid x /\ forall g, has g x1 = if red g && (g =? f) then false else has g x).
    { destruct Hx as [Hn Ho]. unfold x1. destruct (red f) eqn:E.
      - split; [|split; [reflexivity|]].
        + split; cbn [on_fv ifv]; [|apply fv_disable_ok; [lia|exact Ho]].
          unfold fv_disable. destruct (fv_has (ifv x) f); [rewrite fv_flip_num|]; exact Hn.
        + intro g. unfold has. cbn [on_fv ifv]. rewrite fv_disable_has by lia.
          destruct (g =? f) eqn:Eg; [apply Nat.eqb_eq in Eg; subst; rewrite E; reflexivity|].
          rewrite andb_false_r. reflexivity.
      - split; [split; assumption|]. split; [reflexivity|]. intro g.
        destruct (g =? f) eqn:Eg; [apply Nat.eqb_eq in Eg; subst; rewrite E|rewrite andb_false_r]; reflexivity. }
    destruct H1 as (H1 & H2 & H3). specialize (IH ltac:(intros g Hg; apply Hlt; right; exact Hg) x1 H1).
    cbn zeta in *. fold x1. destruct IH as (I1 & I2 & I3). split; [exact I1|]. split; [congruence|].
    intro g. rewrite I3, H3. destruct (red g), (g =? f), (existsb (Nat.eqb g) fs); reflexivity.
Qed.

Lemma disable_all_spec red nf x : inst_ok nf x ->
  inst_ok nf (disable_all red nf x) /\ iid (disable_all red nf x) = iid x
  /\ forall g, g < nf -> has g (disable_all red nf x) = if red g then false else has g x.
Proof.
  intro Hx. destruct (fold_disable_spec red nf (seq 0 nf) ltac:(intros f Hf; apply in_seq in Hf; lia) x Hx) as (H1 & H2 & H3).
  split; [exact H1|]. split; [exact H2|]. intros g Hg. unfold disable_all. rewrite H3, existsb_seq.
  apply Nat.ltb_lt in Hg. rewrite Hg, andb_true_r. reflexivity.
Qed.

(** ** Duplicate features *)
Definition dup_inv (nf : nat) (xs : list inst) (red R : nat -> bool) (m : nat) : Prop :=
  (forall f, red f = true -> R f = true)
  /\ (forall f, R f = true -> red f = true \/ exists f1, f1 < m /\ f1 < f < nf /\ R f1 = false /\ same_feature xs f1 f = true).

Lemma dup_loop nf xs red m : dup_inv nf xs red (fold_left (dup_step nf xs) (seq 0 m) red) m.
Proof.
  induction m as [|m IH].
  - cbn [seq fold_left]. split; [auto|]. intros f Hf. left. exact Hf.
  - rewrite seq_S, fold_left_app. cbn [fold_left]. change (0 + m) with m.
    set (R := fold_left (dup_step nf xs) (seq 0 m) red) in *. destruct IH as [I1 I2].
    unfold dup_step. destruct (R m) eqn:Em.
    + split; [exact I1|]. intros f Hf. destruct (I2 f Hf) as [H|(f1 & H1 & H2)]; [auto|]. right. exists f1. split; [lia|exact H2].
    + split.
      * intros f Hf. rewrite (I1 f Hf). reflexivity.
      * intros f Hf. apply orb_true_iff in Hf. destruct Hf as [Hf|Hf].
        -- destruct (I2 f Hf) as [H|(f1 & H1 & H2 & H3 & H4)]; [auto|]. right. exists f1. split; [lia|]. split; [exact H2|]. split; [|exact H4].
           rewrite H3. replace (m <? f1) with false by (symmetry; apply Nat.ltb_ge; lia). reflexivity.
        -- rewrite !andb_true_iff in Hf. destruct Hf as [[H1 H2] H3]. apply Nat.ltb_lt in H1, H2. right. exists m.
           split; [lia|]. split; [lia|]. split; [|exact H3]. rewrite Em, Nat.ltb_irrefl. reflexivity.
Qed.

Lemma mark_dups_spec nf xs red :
  (forall f, red f = true -> mark_dups nf xs red f = true)
  /\ (forall f, mark_dups nf xs red f = true -> red f = true \/
       exists f1, f1 < f < nf /\ mark_dups nf xs red f1 = false /\ same_feature xs f1 f = true).
Proof.
  destruct (dup_loop nf xs red (nf - 1)) as [H1 H2]. split; [exact H1|].
  intros f Hf. destruct (H2 f Hf) as [H|(f1 & _ & H3)]; [auto|]. right. exists f1. exact H3.
Qed.

(** ** Trees on mapped data *)
Lemma filter_map_comm {A B} (g : A -> B) (p : B -> bool) xs : filter p (map g xs) = map g (filter (fun x => p (g x)) xs).
Proof. induction xs as [|x xs IH]; [reflexivity|]. cbn [map filter]. destruct (p (g x)); cbn [map]; rewrite IH; reflexivity. Qed.

Lemma filter_ext_list {A} (p q : A -> bool) xs : (forall x, In x xs -> p x = q x) -> filter p xs = filter q xs.
Proof. apply filter_ext_in. Qed.

Lemma cost_from_map c (g : inst -> inst) t t' v k :
  (forall x j l, c (g x) j l = c x j l) ->
  (forall x, In x (concat v) -> predict t x = predict t' (g x)) ->
  cost_from c k (map (map g) v) t' = cost_from c k v t.
Proof.
  intro Hc. revert k. induction v as [|xs v IH]; intros k H; [reflexivity|]. cbn [map cost_from].
  rewrite IH by (intros x Hx; apply H; cbn [concat]; apply in_or_app; auto). f_equal.
  assert (Hx : forall x, In x xs -> predict t x = predict t' (g x)) by (intros x Hx; apply H; cbn [concat]; apply in_or_app; auto).
  clear H IH. induction xs as [|x xs IH]; [reflexivity|]. cbn [map fold_right].
  rewrite IH by (intros y Hy; apply Hx; right; exact Hy). rewrite Hc, (Hx x) by (left; reflexivity). reflexivity.
Qed.

Lemma concat_map_map {A B} (g : A -> B) (v : list (list A)) : concat (map (map g) v) = map g (concat v).
Proof. symmetry. apply concat_map. Qed.

Section Preproc.
  Context (T : task) (mls nf : nat) (v : view).
  Hypothesis Hmls : 1 <= mls.
  Hypothesis Hmay : forall f, f < nf -> tk_may T f = true.
  Hypothesis Hld : loaded nf v.

  Definition pfl : nat -> bool := fst (fst (preprocess T mls nf v)).
  Definition pdead : nat -> bool := snd (fst (preprocess T mls nf v)).
  Definition pg (x : inst) : inst := finish (disable_all pdead nf (flip_all pfl nf x)).
  Definition pview : view := map (map pg) v.

  Lemma preprocess_eq : preprocess T mls nf v = (pfl, pdead, pview).
  Proof.
    unfold pview, pg, pdead, pfl, preprocess. cbn [fst snd]. rewrite map_map. f_equal.
    apply map_ext. intro xs. rewrite map_map. reflexivity.
  Qed.

  Lemma loaded_inst x : In x (concat v) -> inst_ok nf x.
  Proof.
    intro Hx. destruct (ld_bits _ _ Hld x Hx) as (bits & Hl & Hb). split; rewrite Hb; [exact Hl|apply fv_make_ok].
  Qed.

  Lemma pg_spec x : In x (concat v) ->
    wf_inst nf (pg x) /\ iid (pg x) = iid x
    /\ forall f, f < nf -> has f (pg x) = if pdead f then false else xorb (pfl f) (has f x).
  Proof.
    intro Hx. apply loaded_inst in Hx. destruct (flip_all_spec pfl nf x Hx) as (A1 & A2 & A3).
    destruct (disable_all_spec pdead nf _ A1) as ([B1 B1'] & B2 & B3). unfold pg. split; [|split].
    - unfold wf_inst, finish. cbn [on_fv ifv fv_compute_pairs fv_pairs fv_present]. split; [exact B1|]. split; [exact B1'|].
      rewrite B1. reflexivity.
    - cbn [finish on_fv iid]. rewrite B2. exact A2.
    - intros f Hf. change (has f (finish (disable_all pdead nf (flip_all pfl nf x)))) with (has f (disable_all pdead nf (flip_all pfl nf x))).
      rewrite B3 by exact Hf. rewrite A3 by exact Hf. reflexivity.
  Qed.

  Lemma pview_in y : In y (concat pview) <-> exists x, In x (concat v) /\ y = pg x.
  Proof.
    unfold pview. rewrite concat_map_map, in_map_iff. split; intros (x & H1 & H2); exists x; auto.
  Qed.

  Lemma pview_size : vsize pview = vsize v.
  Proof. unfold vsize, pview. rewrite concat_map_map, map_length. reflexivity. Qed.

  Lemma pview_labels : num_labels pview = num_labels v.
  Proof. unfold num_labels, pview. apply map_length. Qed.

  Lemma pview_wf : wf_view nf pview.
  Proof. intros y Hy. apply pview_in in Hy. destruct Hy as (x & Hx & ->). apply pg_spec. exact Hx. Qed.

  Lemma pview_iids : map iid (concat pview) = map iid (concat v).
  Proof.
    unfold pview. rewrite concat_map_map, map_map. apply map_ext_in. intros x Hx. apply pg_spec. exact Hx.
  Qed.

  Lemma pview_ids : ids_ok (vsize pview) pview.
  Proof.
    split; [rewrite pview_iids; apply Hld|]. intros y Hy. apply pview_in in Hy. destruct Hy as (x & Hx & ->).
    rewrite pview_size. destruct (pg_spec x Hx) as (_ & -> & _). apply Hld. exact Hx.
  Qed.

  Lemma pview_sorted : view_sorted pview.
  Proof.
    pose proof (ld_order _ _ Hld) as Ho. unfold view_sorted, pview. rewrite Forall_forall in *. intros ys Hys.
    apply in_map_iff in Hys. destruct Hys as (xs & <- & Hxs). specialize (Ho xs Hxs).
    assert (Hin : forall x, In x xs -> In x (concat v)) by (intros x Hx; apply in_concat; eauto).
    clear Hxs. unfold id_sorted. induction Ho as [|x xs Hs IH Hall]; cbn [map]; constructor.
    - apply IH. intros y Hy. apply Hin. right. exact Hy.
    - rewrite Forall_forall in *. intros y Hy. apply in_map_iff in Hy. destruct Hy as (z & <- & Hz).
      unfold id_lt. destruct (pg_spec x (Hin x (or_introl eq_refl))) as (_ & -> & _).
      destruct (pg_spec z (Hin z (or_intror Hz))) as (_ & -> & _). apply Hall. exact Hz.
  Qed.

  Lemma pdead_lt f : pdead f = true -> f < nf.
  Proof.
    unfold pdead, preprocess. cbn [fst snd]. intro H. apply mark_dups_spec in H.
    destruct H as [H|(f1 & H1 & _)]; [|lia]. apply andb_true_iff in H. destruct H as [H _]. apply Nat.ltb_lt in H. exact H.
  Qed.

  Lemma pview_red f y : pdead f = true -> In y (concat pview) -> has f y = false.
  Proof.
    intros Hr Hy. apply pview_in in Hy. destruct Hy as (x & Hx & ->). destruct (pg_spec x Hx) as (_ & _ & H).
    rewrite H by (apply pdead_lt; exact Hr). rewrite Hr. reflexivity.
  Qed.

  (** A redundant feature is useless for every tree with large enough leaves, or another
      feature gives the same split. *)
  Lemma pdead_cases f : pdead f = true ->
    (pos_count (concat v) f < mls \/ (Z.of_nat (length (concat v)) - Z.of_nat mls < Z.of_nat (pos_count (concat v) f))%Z)
    \/ exists f1, f1 < nf /\ pdead f1 = false /\ forall x, In x (concat v) -> xorb (pfl f) (has f x) = xorb (pfl f1) (has f1 x).
  Proof.
    intro H. pose proof (pdead_lt f H) as Hf. revert H.
    unfold pdead, preprocess. cbn [fst snd]. intro H. apply mark_dups_spec in H. destruct H as [H|(f1 & H1 & H2 & H3)].
    - left. apply andb_true_iff in H. destruct H as [_ H]. unfold too_rare in H. apply andb_true_iff in H. destruct H as [_ H].
      apply orb_true_iff in H. destruct H as [H|H]; [left; apply Nat.ltb_lt in H; exact H|right; apply Z.ltb_lt in H; exact H].
    - right. exists f1. split; [lia|]. split; [exact H2|]. intros x Hx.
      unfold same_feature in H3. rewrite forallb_forall in H3.
      specialize (H3 (flip_all pfl nf x)). rewrite concat_map_map in H3.
      specialize (H3 (in_map _ _ _ Hx)). apply eqb_prop in H3.
      destruct (flip_all_spec pfl nf x (loaded_inst x Hx)) as (_ & _ & A3).
      rewrite !A3 in H3 by lia. symmetry. exact H3.
  Qed.

  Definition fok (f : nat) : Prop := f < nf.

  Lemma filter_le {A} (p q : A -> bool) xs : length (filter p (filter q xs)) <= length (filter p xs).
  Proof. induction xs as [|x xs IH]; [reflexivity|]. cbn [filter]. destruct (q x), (p x) eqn:E; cbn [filter length]; rewrite ?E; cbn [length]; lia. Qed.

  (** [Hdup]: a feature that gives the same split as a permitted one is permitted. *)
  Lemma norm_tree_gen (Hdup : forall f f1, f < nf -> f1 < nf -> tk_may T f = true ->
      (forall x, In x (concat v) -> xorb (pfl f) (has f x) = xorb (pfl f1) (has f1 x)) -> tk_may T f1 = true)
    nl t : forall p, let xs := filter p (concat v) in
    fits (fun f => f < nf /\ tk_may T f = true) nl t -> leaves_ok mls xs t ->
    exists t', fits (fun f => f < nf /\ tk_may T f = true) nl t' /\ leaves_ok mls (map pg xs) t'
      /\ depth t' = depth t /\ nodes t' = nodes t
      /\ forall x, In x xs -> predict t x = predict t' (pg x).
  Proof.
    induction t as [l|f l IHl r IHr]; intros p xs Hf Hl.
    - exists (Leaf l). cbn in *. rewrite map_length. auto.
    - destruct Hf as ((Hf & Hfm) & Hfl & Hfr). destruct Hl as (Hll & Hlr).
      assert (E : exists f1, f1 < nf /\ tk_may T f1 = true /\ forall x, In x (concat v) -> has f x = xorb (pfl f) (has f1 (pg x))).
      { destruct (pdead f) eqn:Ep.
        - destruct (pdead_cases f Ep) as [[H|H]|(f1 & H1 & H2 & H3)].
          + exfalso. pose proof (leaves_ok_size _ _ _ Hlr) as Hs. unfold xs in Hs.
            pose proof (filter_le (fun x => has f x) p (concat v)). unfold pos_count in H.
            change (filter (fun x => has f x)) with (filter (has f)) in *. lia.
          + exfalso. pose proof (leaves_ok_size _ _ _ Hll) as Hs. unfold xs in Hs.
            pose proof (filter_le (fun x => negb (has f x)) p (concat v)). unfold pos_count in H.
            pose proof (filter_length_split (has f) (concat v)). lia.
          + exists f1. split; [exact H1|]. split; [exact (Hdup f f1 Hf H1 Hfm H3)|]. intros x Hx. destruct (pg_spec x Hx) as (_ & _ & Hg).
            rewrite Hg by exact H1. rewrite H2, <- H3 by exact Hx. destruct (pfl f), (has f x); reflexivity.
        - exists f. split; [exact Hf|]. split; [exact Hfm|]. intros x Hx. destruct (pg_spec x Hx) as (_ & _ & Hg).
          rewrite Hg by exact Hf. rewrite Ep. destruct (pfl f), (has f x); reflexivity. }
      destruct E as (f1 & F1 & F2 & F3).
      set (xl := filter (fun x => p x && negb (has f x)) (concat v)). set (xr := filter (fun x => p x && has f x) (concat v)).
      assert (El : filter (fun x => negb (has f x)) xs = xl) by (unfold xs, xl; apply filter_filter).
      assert (Er : filter (fun x => has f x) xs = xr) by (unfold xs, xr; apply filter_filter).
      rewrite El in Hll. rewrite Er in Hlr.
      destruct (IHl _ Hfl Hll) as (l' & L1 & L2 & L3 & L4 & L5). destruct (IHr _ Hfr Hlr) as (r' & R1 & R2 & R3 & R4 & R5).
      fold xl in L2, L5. fold xr in R2, R5.
      assert (Hxs : forall x, In x xs -> In x (concat v)) by (intros x Hx; apply filter_In in Hx; apply Hx).
      destruct (pfl f) eqn:Efl; [exists (Split f1 r' l')|exists (Split f1 l' r')]; cbn [fits leaves_ok depth nodes predict].
      + split; [auto|]. split; [|split; [lia|split; [lia|]]].
        * rewrite !filter_map_comm. split.
          -- rewrite (filter_ext_list _ (fun x => has f x)); [rewrite Er; exact R2|]. intros x Hx. rewrite (F3 x (Hxs x Hx)). destruct (has f1 (pg x)); reflexivity.
          -- rewrite (filter_ext_list _ (fun x => negb (has f x))); [rewrite El; exact L2|]. intros x Hx. rewrite (F3 x (Hxs x Hx)). destruct (has f1 (pg x)); reflexivity.
        * intros x Hx. pose proof (F3 x (Hxs x Hx)) as Hh. destruct (has f1 (pg x)); cbn [xorb] in Hh; rewrite Hh.
          -- apply L5. rewrite <- El. apply filter_In. rewrite Hh. auto.
          -- apply R5. rewrite <- Er. apply filter_In. rewrite Hh. auto.
      + split; [auto|]. split; [|split; [lia|split; [lia|]]].
        * rewrite !filter_map_comm. split.
          -- rewrite (filter_ext_list _ (fun x => negb (has f x))); [rewrite El; exact L2|]. intros x Hx. rewrite (F3 x (Hxs x Hx)). destruct (has f1 (pg x)); reflexivity.
          -- rewrite (filter_ext_list _ (fun x => has f x)); [rewrite Er; exact R2|]. intros x Hx. rewrite (F3 x (Hxs x Hx)). destruct (has f1 (pg x)); reflexivity.
        * intros x Hx. pose proof (F3 x (Hxs x Hx)) as Hh. destruct (has f1 (pg x)); cbn [xorb] in Hh; rewrite Hh.
          -- apply R5. rewrite <- Er. apply filter_In. rewrite Hh. auto.
          -- apply L5. rewrite <- El. apply filter_In. rewrite Hh. auto.
  Qed.

  Lemma norm_tree nl t : forall p, let xs := filter p (concat v) in
    fits fok nl t -> leaves_ok mls xs t ->
    exists t', fits (fun f => f < nf /\ tk_may T f = true) nl t' /\ leaves_ok mls (map pg xs) t'
      /\ depth t' = depth t /\ nodes t' = nodes t
      /\ forall x, In x xs -> predict t x = predict t' (pg x).
  Proof.
    intros p xs Hf. apply norm_tree_gen.
    - intros f f1 _ H1 _ _. apply Hmay. exact H1.
    - clear xs. induction t as [l|f l IHl r IHr]; [exact Hf|]. cbn [fits] in *. unfold fok in Hf at 1. destruct Hf as (A & B & C). auto.
  Qed.

  (** The features stay the same. *)
  Lemma unflip_fits (P : nat -> Prop) nl t : fits P nl (unflip pfl t) <-> fits P nl t.
  Proof. induction t as [l|f l IHl r IHr]; [tauto|]. cbn [unflip]. destruct (pfl f); cbn [fits]; tauto. Qed.

  Lemma unflip_any nl t : forall p, let xs := filter p (concat v) in
    fits (fun f => f < nf) nl t -> leaves_ok mls (map pg xs) t ->
    fits fok nl (unflip pfl t) /\ leaves_ok mls xs (unflip pfl t)
      /\ depth (unflip pfl t) = depth t /\ nodes (unflip pfl t) = nodes t
      /\ forall x, In x xs -> predict (unflip pfl t) x = predict t (pg x).
  Proof.
    induction t as [l|f l IHl r IHr]; intros p xs Hf Hl.
    - cbn in *. rewrite map_length in Hl. auto.
    - destruct Hf as (Hf & Hfl & Hfr). destruct Hl as (Hll & Hlr).
      assert (Hxs : forall x, In x xs -> In x (concat v)) by (intros x Hx; apply filter_In in Hx; apply Hx).
      assert (Ep : pdead f = false).
      { destruct (pdead f) eqn:Ep; [exfalso|reflexivity]. pose proof (leaves_ok_size _ _ _ Hlr) as Hs.
        rewrite filter_all_false in Hs; [cbn in Hs; lia|]. intros y Hy. apply in_map_iff in Hy. destruct Hy as (x & <- & Hx).
        apply pview_red; [exact Ep|]. apply pview_in. exists x. auto. }
      assert (F3 : forall x, In x xs -> has f (pg x) = xorb (pfl f) (has f x)).
      { intros x Hx. destruct (pg_spec x (Hxs x Hx)) as (_ & _ & Hg). rewrite Hg by exact Hf. rewrite Ep. reflexivity. }
      rewrite filter_map_comm in Hll, Hlr.
      set (xl := filter (fun x => p x && negb (has f (pg x))) (concat v)). set (xr := filter (fun x => p x && has f (pg x)) (concat v)).
      assert (El : filter (fun x => negb (has f (pg x))) xs = xl) by (unfold xs, xl; apply filter_filter).
      assert (Er : filter (fun x => has f (pg x)) xs = xr) by (unfold xs, xr; apply filter_filter).
      rewrite El in Hll. rewrite Er in Hlr.
      destruct (IHl _ Hfl Hll) as (L1 & L2 & L3 & L4 & L5). destruct (IHr _ Hfr Hlr) as (R1 & R2 & R3 & R4 & R5).
      fold xl in L2, L5. fold xr in R2, R5.
      cbn [unflip]. destruct (pfl f) eqn:Efl; cbn [fits leaves_ok depth nodes predict].
      + split; [unfold fok; auto|]. split; [|split; [lia|split; [lia|]]].
        * split.
          -- rewrite (filter_ext_list _ (fun x => has f (pg x))); [rewrite Er; exact R2|]. intros x Hx. rewrite (F3 x Hx). destruct (has f x); reflexivity.
          -- rewrite (filter_ext_list _ (fun x => negb (has f (pg x)))); [rewrite El; exact L2|]. intros x Hx. rewrite (F3 x Hx). destruct (has f x); reflexivity.
        * intros x Hx. pose proof (F3 x Hx) as Hh. destruct (has f x); cbn [xorb] in Hh; rewrite Hh.
          -- apply L5. rewrite <- El. apply filter_In. rewrite Hh. auto.
          -- apply R5. rewrite <- Er. apply filter_In. rewrite Hh. auto.
      + split; [unfold fok; auto|]. split; [|split; [lia|split; [lia|]]].
        * split.
          -- rewrite (filter_ext_list _ (fun x => negb (has f (pg x)))); [rewrite El; exact L2|]. intros x Hx. rewrite (F3 x Hx). destruct (has f x); reflexivity.
          -- rewrite (filter_ext_list _ (fun x => has f (pg x))); [rewrite Er; exact R2|]. intros x Hx. rewrite (F3 x Hx). destruct (has f x); reflexivity.
        * intros x Hx. pose proof (F3 x Hx) as Hh. destruct (has f x); cbn [xorb] in Hh; rewrite Hh.
          -- apply R5. rewrite <- Er. apply filter_In. rewrite Hh. auto.
          -- apply L5. rewrite <- El. apply filter_In. rewrite Hh. auto.
  Qed.

  Lemma unflip_tree nl t : forall p, let xs := filter p (concat v) in
    fits (fun f => f < nf /\ tk_may T f = true) nl t -> leaves_ok mls (map pg xs) t ->
    fits fok nl (unflip pfl t) /\ leaves_ok mls xs (unflip pfl t)
      /\ depth (unflip pfl t) = depth t /\ nodes (unflip pfl t) = nodes t
      /\ forall x, In x xs -> predict (unflip pfl t) x = predict t (pg x).
  Proof.
    intros p xs Hf. apply unflip_any. clear xs. induction t as [l|f l IHl r IHr]; [exact Hf|]. cbn [fits] in *.
    destruct Hf as ((A & _) & B & C). auto.
  Qed.

  Lemma filter_true {A} (xs : list A) : filter (fun _ => true) xs = xs.
  Proof. induction xs; cbn; [reflexivity|]. f_equal. assumption. Qed.

  Hypothesis Hc : forall x y k l, iid x = iid y -> tk_inst T x k l = tk_inst T y k l.

  Lemma cost_pg t t' : (forall x, In x (concat v) -> predict t x = predict t' (pg x)) ->
    tree_cost (tk_inst T) pview t' = tree_cost (tk_inst T) v t.
  Proof.
    intro H. unfold tree_cost, pview.
    set (c' := fun (x : inst) (k l : nat) => tk_inst T (Inst (iid x) (fv_make [])) k l).
    assert (E : forall w k t0, cost_from (tk_inst T) k w t0 = cost_from c' k w t0).
    { induction w as [|xs w IH]; intros k t0; [reflexivity|]. cbn [cost_from]. rewrite IH. f_equal.
      induction xs as [|x xs IHx]; [reflexivity|]. cbn [fold_right]. rewrite IHx. f_equal. apply Hc. reflexivity. }
    rewrite !E. clear E.
    assert (G : forall w k, (forall x, In x (concat w) -> In x (concat v)) -> cost_from c' k (map (map pg) w) t' = cost_from c' k w t).
    { induction w as [|xs w IH]; intros k Hw; [reflexivity|]. cbn [map cost_from]. rewrite IH by (intros x Hx; apply Hw; cbn [concat]; apply in_or_app; auto). f_equal.
      assert (Hx : forall x, In x xs -> In x (concat v)) by (intros x Hx; apply Hw; cbn [concat]; apply in_or_app; auto).
      clear IH Hw. induction xs as [|x xs IH]; [reflexivity|]. cbn [map fold_right]. rewrite IH by (intros y Hy; apply Hx; right; exact Hy).
      f_equal. assert (Hx0 : In x (concat v)) by (apply Hx; left; reflexivity).
      unfold c'. destruct (pg_spec x Hx0) as (_ & -> & _). rewrite H by exact Hx0. reflexivity. }
    apply G. auto.
  Qed.

  (** Every tree allowed on the user's data has a counterpart on the preprocessed data. *)
  Lemma allowed_to d n t : allowed fok mls d n v t ->
    exists t', allowed (fun f => f < nf /\ tk_may T f = true) mls d n pview t'
      /\ tree_cost (tk_inst T) pview t' = tree_cost (tk_inst T) v t.
  Proof.
    intros (H1 & H2 & H3 & H4). destruct (norm_tree (length v) t (fun _ => true)) as (t' & A1 & A2 & A3 & A4 & A5); rewrite ?filter_true in *; try assumption.
    exists t'. split; [|apply cost_pg; exact A5]. unfold allowed. change (length pview) with (num_labels pview). rewrite pview_labels.
    split; [exact A1|]. split; [unfold pview; rewrite concat_map_map; exact A2|]. split; lia.
  Qed.

  (** Every tree allowed on the preprocessed data, after undoing the flips, is allowed on the
      user's data. *)
  Lemma allowed_from d n t : allowed (fun f => f < nf /\ tk_may T f = true) mls d n pview t ->
    allowed fok mls d n v (unflip pfl t)
      /\ tree_cost (tk_inst T) pview t = tree_cost (tk_inst T) v (unflip pfl t)
      /\ nodes (unflip pfl t) = nodes t.
  Proof.
    intros (H1 & H2 & H3 & H4). change (length pview) with (num_labels pview) in H1. rewrite pview_labels in H1.
    unfold pview in H2. rewrite concat_map_map in H2.
    destruct (unflip_tree (length v) t (fun _ => true)) as (A1 & A2 & A3 & A4 & A5); rewrite ?filter_true in *; try assumption.
    split; [|split; [apply cost_pg; exact A5|exact A4]]. split; [exact A1|]. split; [exact A2|]. split; lia.
  Qed.
End Preproc.
