(** Paths, branches and the data they reach. *)
From Coq Require Import List Arith Bool Lia Permutation Sorted.
From Verif Require Import Model_FeatureVector Model_Data Spec_Data Proofs_View Proofs_Diff.
Import ListNotations.

(** Follow a path with the model's operations. *)
Definition path_branch (p : path) : branch := fold_left (fun (b : branch) (d : nat * bool) => br_add b (fst d) (snd d)) p [].
Definition path_data (v : view) (p : path) : view :=
  fold_left (fun (v : view) (d : nat * bool) => if snd d then split_right (fst d) v else split_left (fst d) v) p v.

Lemma br_code_inj f p g q : br_code f p = br_code g q -> f = g /\ p = q.
Proof. unfold br_code. destruct p, q; intro H; split; try lia; try reflexivity. Qed.

Lemma insert_sorted_sorted x l : StronglySorted le l -> StronglySorted le (insert_sorted x l).
Proof.
  induction l as [|y l IH]; intro H; cbn [insert_sorted]; [repeat constructor|].
  inversion H as [|? ? Hl Hall]; subst. destruct (x <=? y) eqn:E.
  - apply Nat.leb_le in E. constructor; [exact H|]. constructor; [exact E|].
    eapply Forall_impl; [|exact Hall]. intros; lia.
  - apply Nat.leb_gt in E. constructor; [apply IH; exact Hl|].
    apply Forall_forall. intros z Hz.
    apply (Permutation_in _ (insert_sorted_perm x l)) in Hz. destruct Hz as [->|Hz]; [lia|].
    rewrite Forall_forall in Hall. apply Hall. exact Hz.
Qed.

Lemma sort_nat_sorted l : StronglySorted le (sort_nat l).
Proof. induction l as [|x l IH]; cbn [sort_nat]; [constructor|apply insert_sorted_sorted; exact IH]. Qed.

Lemma sorted_perm_eq a b : StronglySorted le a -> StronglySorted le b -> Permutation a b -> a = b.
Proof.
  revert b. induction a as [|x a IH]; intros b Ha Hb Hp.
  - apply Permutation_nil in Hp. congruence.
  - destruct b as [|y b]; [apply Permutation_sym, Permutation_nil in Hp; discriminate|].
    inversion Ha as [|? ? Ha' Hxa]; inversion Hb as [|? ? Hb' Hyb]; subst.
    rewrite Forall_forall in Hxa, Hyb.
    assert (x = y).
    { assert (H1 : In x (y :: b)) by (eapply Permutation_in; [exact Hp|left; reflexivity]).
      assert (H2 : In y (x :: a)) by (eapply Permutation_in; [apply Permutation_sym; exact Hp|left; reflexivity]).
      destruct H1 as [->|H1]; [reflexivity|]. destruct H2 as [->|H2]; [reflexivity|].
      specialize (Hyb x H1). specialize (Hxa y H2). lia. }
    subst y. f_equal. apply IH; [exact Ha'|exact Hb'|]. eapply Permutation_cons_inv; exact Hp.
Qed.

Lemma path_branch_snoc p d : path_branch (p ++ [d]) = br_add (path_branch p) (fst d) (snd d).
Proof. unfold path_branch. rewrite fold_left_app. reflexivity. Qed.

Lemma path_branch_perm p : Permutation (path_branch p) (map (fun d => br_code (fst d) (snd d)) (p : list (nat * bool))).
Proof.
  induction p as [|d p IH] using rev_ind; [reflexivity|].
  rewrite path_branch_snoc. unfold br_add. rewrite sort_nat_perm, map_app. cbn [map].
  apply Permutation_app_tail. exact IH.
Qed.

Lemma path_branch_sorted p : StronglySorted le (path_branch p).
Proof.
  destruct p as [|d p _] using rev_ind; [constructor|]. rewrite path_branch_snoc. apply sort_nat_sorted.
Qed.

Lemma map_inj_perm {A B} (g : A -> B) (a b : list A) :
  (forall x y, g x = g y -> x = y) -> Permutation (map g a) (map g b) -> Permutation a b.
Proof.
  intros Hg Hp. apply Permutation_map_inv in Hp. destruct Hp as (c & Hc & Hp).
  assert (a = c); [|subst; symmetry; exact Hp].
  clear Hp b. revert c Hc. induction a as [|x a IH]; intros [|y c] Hc; cbn [map] in Hc; try discriminate; [reflexivity|].
  injection Hc as H1 H2. apply Hg in H1. subst. f_equal. apply IH. exact H2.
Qed.

Lemma path_branch_eq p q : path_branch p = path_branch q <-> Permutation p q.
Proof.
  split; intro H.
  - apply (map_inj_perm (fun d : nat * bool => br_code (fst d) (snd d))).
    + intros [f a] [g c] He. cbn [fst snd] in He. apply br_code_inj in He. destruct He; congruence.
    + rewrite <- !path_branch_perm, H. reflexivity.
  - apply sorted_perm_eq; try apply path_branch_sorted. rewrite !path_branch_perm.
    apply Permutation_map. exact H.
Qed.

Lemma path_data_restrict v p : path_data v p = restrict (path_branch p) v.
Proof.
  induction p as [|d p IH] using rev_ind; [symmetry; apply restrict_nil|].
  rewrite path_branch_snoc. unfold path_data in *. rewrite fold_left_app. cbn [fold_left]. rewrite IH.
  destruct (snd d) eqn:E.
  - rewrite restrict_right. reflexivity.
  - rewrite restrict_left. reflexivity.
Qed.

Lemma sat_path p x : sat (path_branch p) x = true <-> (forall f a, In (f, a) p -> has f x = a).
Proof.
  unfold sat. rewrite (forallb_perm _ _ _ (path_branch_perm p)), forallb_forall. split; intro H.
  - intros f a Hin. specialize (H (br_code f a)). rewrite sat_code_br in H.
    apply Bool.eqb_prop. apply H. apply in_map_iff. exists (f, a). auto.
  - intros c Hc. apply in_map_iff in Hc. destruct Hc as ([f a] & <- & Hin). cbn [fst snd].
    rewrite sat_code_br. rewrite (H f a Hin). apply Bool.eqb_reflx.
Qed.

Lemma path_data_set v p q :
  (forall d, In d p <-> In d q) -> path_data v p = path_data v q.
Proof.
  intro H. rewrite !path_data_restrict. unfold restrict. apply map_ext. intro xs. apply filter_ext. intro x.
  apply Bool.eq_true_iff_eq. rewrite !sat_path. split; intros Hs f a Hin; apply Hs; apply H; exact Hin.
Qed.

Lemma path_data_in v p x :
  In x (concat (path_data v p)) <-> In x (concat v) /\ (forall f a, In (f, a) p -> has f x = a).
Proof. rewrite path_data_restrict, in_restrict, sat_path. reflexivity. Qed.

(** ** Splits *)
Lemma filter_merge {A} (p : A -> bool) (xs : list A) : merge (filter (fun x => negb (p x)) xs) (filter p xs) xs.
Proof.
  induction xs as [|x xs IH]; [constructor|]. cbn [filter]. destruct (p x); cbn [negb]; constructor; exact IH.
Qed.

Lemma nth_map_filter (p : inst -> bool) (v : view) k : nth k (map (filter p) v) [] = filter p (nth k v []).
Proof. change (@nil inst) with (filter p []) at 1. apply map_nth. Qed.

(** ** Differences *)
Lemma not_in_iff ys x : not_in ys x = true <-> ~ exists y, In y ys /\ iid y = iid x.
Proof.
  unfold not_in. rewrite negb_true_iff, <- not_true_iff_false, existsb_exists.
  split; intros H (y & Hy & He); apply H; exists y; (split; [exact Hy|]).
  - apply Nat.eqb_eq; exact He.
  - apply Nat.eqb_eq in He; exact He.
Qed.

Lemma filter_all_true {A} (p : A -> bool) xs : (forall x, In x xs -> p x = true) -> filter p xs = xs.
Proof.
  induction xs as [|x xs IH]; intro H; [reflexivity|]. cbn [filter].
  rewrite (H x (or_introl eq_refl)). f_equal. apply IH. intros; apply H; right; assumption.
Qed.

(** Instances with the same id are the same instance. *)
Definition agree (a b : list inst) : Prop := forall x y, In x a -> In y b -> iid x = iid y -> x = y.

Lemma diff_apply new old :
  id_sorted new -> id_sorted old -> agree new old ->
  Permutation (filter (not_in (snd (diff_lists new old))) old ++ fst (diff_lists new old)) new.
Proof.
  intros Hn Ho Ha. rewrite diff_lists_spec by assumption. cbn [fst snd].
  apply NoDup_Permutation.
  - assert (Hnd : forall xs, id_sorted xs -> NoDup xs).
    { intros xs Hs. apply (NoDup_map_inv iid). apply id_sorted_NoDup. exact Hs. }
    assert (G : forall (l1 l2 : list inst), NoDup l1 -> NoDup l2 -> (forall x, In x l1 -> ~ In x l2) -> NoDup (l1 ++ l2)).
    { induction l1 as [|x l1 IH]; intros l2 H1 H2 H; [exact H2|]. inversion H1; subst. cbn [app]. constructor.
      - intro Hin. apply in_app_or in Hin. destruct Hin as [Hin|Hin]; [contradiction|]. apply (H x (or_introl eq_refl)). exact Hin.
      - apply IH; [assumption|exact H2|]. intros y Hy. apply H. right. exact Hy. }
    apply G.
    + apply NoDup_filter. apply Hnd. exact Ho.
    + apply NoDup_filter. apply Hnd. exact Hn.
    + intros x H1 H2. apply filter_In in H1, H2. destruct H1 as [H1 _], H2 as [_ H2].
      apply not_in_iff in H2. apply H2. exists x. auto.
  - apply (NoDup_map_inv iid). apply id_sorted_NoDup. exact Hn.
  - intro x. rewrite in_app_iff, !filter_In, !not_in_iff. split.
    + intros [[Hx H]|[Hx _]]; [|exact Hx].
      destruct (existsb (fun y => iid y =? iid x) new) eqn:E.
      * apply existsb_exists in E. destruct E as (y & Hy & He). apply Nat.eqb_eq in He.
        rewrite <- (Ha y x Hy Hx He). exact Hy.
      * exfalso. apply H. exists x. split; [|reflexivity]. apply filter_In. split; [exact Hx|]. unfold not_in. rewrite E. reflexivity.
    + intro Hx. destruct (existsb (fun y => iid y =? iid x) old) eqn:E.
      * left. apply existsb_exists in E. destruct E as (y & Hy & He). apply Nat.eqb_eq in He.
        assert (x = y) by (apply Ha; auto). subst y. split; [exact Hy|].
        intros (z & Hz & He2). apply filter_In in Hz. destruct Hz as [_ Hz]. apply not_in_iff in Hz. apply Hz. exists x. auto.
      * right. split; [exact Hx|]. intros (y & Hy & He).
        assert (existsb (fun y => iid y =? iid x) old = true) by (apply existsb_exists; exists y; split; [exact Hy|apply Nat.eqb_eq; exact He]). congruence.
Qed.
