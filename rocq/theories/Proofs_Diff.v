(** Lemmas about the differences between two views (difference_computer.cpp). *)
From Coq Require Import List Arith Bool Lia ZArith Sorted.
From Verif Require Import Model_FeatureVector Model_Data Model_Terminal Spec_Tree Proofs_View.
Import ListNotations.

Definition id_lt (x y : inst) : Prop := iid x < iid y.
Definition id_sorted (xs : list inst) : Prop := StronglySorted id_lt xs.

(** [x] is (by id) not among [ys]. *)
Definition not_in (ys : list inst) (x : inst) : bool := negb (existsb (fun y => iid y =? iid x) ys).

Lemma not_in_nil x : not_in [] x = true.
Proof. reflexivity. Qed.

Lemma filter_true {A} (xs : list A) : filter (fun _ => true) xs = xs.
Proof. induction xs as [|x xs IH]; [reflexivity|]. cbn [filter]. f_equal. exact IH. Qed.

Lemma filter_not_in_nil xs : filter (not_in []) xs = xs.
Proof. apply filter_true. Qed.

Lemma not_in_smaller x y ys :
  id_sorted (y :: ys) -> iid x < iid y -> not_in (y :: ys) x = true.
Proof.
  intros Hs Hlt. unfold not_in. apply negb_true_iff. apply not_true_iff_false. intro H.
  apply existsb_exists in H. destruct H as (z & Hz & He). apply Nat.eqb_eq in He.
  inversion Hs as [|? ? _ Hall]; subst. destruct Hz as [->|Hz]; [lia|].
  rewrite Forall_forall in Hall. specialize (Hall z Hz). unfold id_lt in Hall. lia.
Qed.

Lemma filter_not_in_drop x xs ys :
  (forall y, In y ys -> iid x < iid y) -> filter (not_in (x :: xs)) ys = filter (not_in xs) ys.
Proof.
  intro H. apply filter_ext_in. intros y Hy. unfold not_in. cbn [existsb].
  specialize (H y Hy). destruct (iid x =? iid y) eqn:He; [apply Nat.eqb_eq in He; lia|reflexivity].
Qed.

Lemma id_sorted_gt x xs y : id_sorted (x :: xs) -> In y xs -> iid x < iid y.
Proof. intros H Hy. inversion H as [|? ? _ Hall]; subst. rewrite Forall_forall in Hall. exact (Hall y Hy). Qed.

Lemma id_sorted_tail x xs : id_sorted (x :: xs) -> id_sorted xs.
Proof. intro H. inversion H; assumption. Qed.

Lemma diff_lists_nil_l old : diff_lists [] old = ([], old).
Proof. destruct old; reflexivity. Qed.

Lemma diff_lists_cons x new y old :
  diff_lists (x :: new) (y :: old) =
    if iid x <? iid y then let (a, r) := diff_lists new (y :: old) in (x :: a, r)
    else if iid y <? iid x then let (a, r) := diff_lists (x :: new) old in (a, y :: r)
    else diff_lists new old.
Proof. reflexivity. Qed.

Lemma diff_counts_cons x new y old :
  diff_counts (x :: new) (y :: old) =
    if iid x <? iid y then let (a, r) := diff_counts new (y :: old) in (S a, r)
    else if iid y <? iid x then let (a, r) := diff_counts (x :: new) old in (a, S r)
    else diff_counts new old.
Proof. reflexivity. Qed.

Lemma diff_lists_spec new old :
  id_sorted new -> id_sorted old ->
  diff_lists new old = (filter (not_in old) new, filter (not_in new) old).
Proof.
  revert old. induction new as [|x new IHn]; intros old Hn Ho.
  - rewrite diff_lists_nil_l, filter_not_in_nil. reflexivity.
  - induction old as [|y old IHo].
    + change (diff_lists (x :: new) []) with (x :: new, @nil inst).
      rewrite filter_not_in_nil. reflexivity.
    + rewrite diff_lists_cons.
      destruct (iid x <? iid y) eqn:Hxy.
      * apply Nat.ltb_lt in Hxy. rewrite IHn by (try exact Ho; eapply id_sorted_tail; exact Hn).
        cbn [filter]. rewrite (not_in_smaller x y old Ho Hxy).
        f_equal. symmetry. apply (filter_not_in_drop x new (y :: old)).
        intros z [->|Hz]; [exact Hxy|]. pose proof (id_sorted_gt y old z Ho Hz). lia.
      * apply Nat.ltb_ge in Hxy. destruct (iid y <? iid x) eqn:Hyx.
        -- apply Nat.ltb_lt in Hyx. rewrite IHo by (eapply id_sorted_tail; exact Ho).
           f_equal.
           ++ symmetry. apply (filter_not_in_drop y old (x :: new)).
              intros z [->|Hz]; [exact Hyx|]. pose proof (id_sorted_gt x new z Hn Hz). lia.
           ++ change (filter (not_in (x :: new)) (y :: old)) with
                (if not_in (x :: new) y then y :: filter (not_in (x :: new)) old else filter (not_in (x :: new)) old).
              rewrite (not_in_smaller y x new Hn Hyx). reflexivity.
        -- apply Nat.ltb_ge in Hyx. assert (He : iid x = iid y) by lia.
           rewrite IHn by (eapply id_sorted_tail; eassumption).
           assert (E1 : not_in (y :: old) x = false) by (unfold not_in; cbn [existsb]; rewrite He, Nat.eqb_refl; reflexivity).
           assert (E2 : not_in (x :: new) y = false) by (unfold not_in; cbn [existsb]; rewrite He, Nat.eqb_refl; reflexivity).
           cbn [filter]. rewrite E1, E2. f_equal.
           ++ symmetry. apply filter_not_in_drop. intros z Hz. pose proof (id_sorted_gt x new z Hn Hz). lia.
           ++ symmetry. apply filter_not_in_drop. intros z Hz. pose proof (id_sorted_gt y old z Ho Hz). lia.
Qed.

Lemma diff_counts_lists new old :
  diff_counts new old = (length (fst (diff_lists new old)), length (snd (diff_lists new old))).
Proof.
  revert old. induction new as [|x new IHn]; intro old.
  - destruct old; reflexivity.
  - induction old as [|y old IHo]; [reflexivity|].
    rewrite diff_counts_cons, diff_lists_cons.
    destruct (iid x <? iid y); [rewrite IHn; destruct (diff_lists new (y :: old)); reflexivity|].
    destruct (iid y <? iid x); [rewrite IHo; destruct (diff_lists (x :: new) old); reflexivity|].
    apply IHn.
Qed.

Lemma diff_counts_spec new old :
  id_sorted new -> id_sorted old ->
  diff_counts new old = (length (filter (not_in old) new), length (filter (not_in new) old)).
Proof. intros Hn Ho. rewrite diff_counts_lists, diff_lists_spec by assumption. reflexivity. Qed.

(** Both views are selections from the same sorted list. *)
Lemma id_sorted_NoDup xs : id_sorted xs -> NoDup (map iid xs).
Proof.
  induction xs as [|x xs IH]; intro H; cbn [map]; constructor.
  - intro Hin. apply in_map_iff in Hin. destruct Hin as (y & He & Hy).
    pose proof (id_sorted_gt x xs y H Hy). lia.
  - apply IH. eapply id_sorted_tail; exact H.
Qed.

Lemma id_sorted_filter p xs : id_sorted xs -> id_sorted (filter p xs).
Proof.
  induction xs as [|x xs IH]; intro H; [constructor|]. cbn [filter].
  destruct (p x); [|apply IH; eapply id_sorted_tail; exact H].
  constructor; [apply IH; eapply id_sorted_tail; exact H|].
  apply Forall_forall. intros y Hy. apply filter_In in Hy. unfold id_lt. eapply id_sorted_gt; [exact H|tauto].
Qed.

Lemma not_in_filter p xs x : id_sorted xs -> In x xs -> not_in (filter p xs) x = negb (p x).
Proof.
  intros Hs Hx. unfold not_in. f_equal. destruct (p x) eqn:Hp.
  - apply existsb_exists. exists x. split; [apply filter_In; auto|apply Nat.eqb_refl].
  - apply not_true_iff_false. intro H. apply existsb_exists in H. destruct H as (y & Hy & He).
    apply filter_In in Hy. destruct Hy as [Hy Hpy]. apply Nat.eqb_eq in He.
    assert (y = x) by (eapply NoDup_iid_inj; [apply id_sorted_NoDup; exact Hs| | |]; eauto). congruence.
Qed.

Lemma diff_counts_filter p q xs :
  id_sorted xs ->
  diff_counts (filter p xs) (filter q xs) =
  (length (filter (fun x => p x && negb (q x)) xs), length (filter (fun x => q x && negb (p x)) xs)).
Proof.
  intro Hs. rewrite diff_counts_spec by (apply id_sorted_filter; exact Hs).
  rewrite !filter_filter. f_equal; f_equal; apply filter_ext_in; intros x Hx; rewrite not_in_filter by assumption; reflexivity.
Qed.

(** ** Cost bound between two selections *)
Lemma removal_cost (w : Z) (g : inst -> Z) p q xs :
  (0 <= w)%Z -> (forall x, In x xs -> (0 <= g x <= w)%Z) ->
  (zsum (map g (filter q xs)) <=
   zsum (map g (filter p xs)) + w * Z.of_nat (length (filter (fun x => q x && negb (p x)) xs)))%Z.
Proof.
  intros Hw. induction xs as [|x xs IH]; intro H; cbn [filter map zsum length]; [lia|].
  assert (Hx := H x (or_introl eq_refl)).
  assert (IH' := IH (fun y Hy => H y (or_intror Hy))). clear IH.
  destruct (q x), (p x); cbn [andb negb map zsum length]; lia.
Qed.

Definition view_sorted (v : view) : Prop := Forall id_sorted v.

Lemma diff_metrics_restrict b1 b2 root :
  view_sorted root ->
  diff_metrics (restrict b1 root) (restrict b2 root) =
  map (fun xs => (length (filter (fun x => sat b2 x && negb (sat b1 x)) xs),
                  length (filter (fun x => sat b1 x && negb (sat b2 x)) xs))) root.
Proof.
  unfold diff_metrics, restrict, view_sorted. induction root as [|xs root IH]; intro H; [reflexivity|].
  inversion H; subst. cbn [map combine fst snd]. rewrite diff_counts_filter by assumption.
  f_equal. apply IH. assumption.
Qed.

Lemma total_difference_zero b1 b2 root :
  view_sorted root ->
  total_difference (diff_metrics (restrict b1 root) (restrict b2 root)) = 0 ->
  restrict b1 root = restrict b2 root.
Proof.
  intros Hs H. rewrite (diff_metrics_restrict _ _ _ Hs) in H. unfold restrict. apply map_ext_in. intros xs Hxs.
  assert (H0 : length (filter (fun x => sat b2 x && negb (sat b1 x)) xs) = 0
               /\ length (filter (fun x => sat b1 x && negb (sat b2 x)) xs) = 0).
  { clear Hs. induction root as [|ys root IH]; [contradiction|].
    cbn [map total_difference fold_right fst snd] in H. destruct Hxs as [->|Hxs]; [lia|].
    apply IH; [|exact Hxs]. unfold total_difference. lia. }
  destruct H0 as [Ha Hb]. apply length_zero_iff_nil in Ha, Hb.
  apply filter_ext_in. intros x Hx.
  destruct (sat b1 x) eqn:E1, (sat b2 x) eqn:E2; try reflexivity; exfalso.
  - assert (Hin : In x (filter (fun x => sat b1 x && negb (sat b2 x)) xs)) by (apply filter_In; rewrite E1, E2; auto).
    rewrite Hb in Hin. exact Hin.
  - assert (Hin : In x (filter (fun x => sat b2 x && negb (sat b1 x)) xs)) by (apply filter_In; rewrite E1, E2; auto).
    rewrite Ha in Hin. exact Hin.
Qed.

(** The amount subtracted by the similarity bound covers the cost of the removed instances. *)
Fixpoint wsum_from (w : nat -> Z) (k : nat) (m : list (nat * nat)) : Z :=
  match m with [] => 0%Z | p :: r => (w k * Z.of_nat (snd p) + wsum_from w (S k) r)%Z end.

Lemma restrict_cost (w : nat -> Z) (c : nat -> inst -> Z) b1 b2 root k :
  (forall j, (0 <= w j)%Z) ->
  (forall j x, In x (nth j root []) -> (0 <= c (k + j)%nat x <= w (k + j)%nat)%Z) ->
  (vsum_from c k (restrict b1 root) <= vsum_from c k (restrict b2 root)
    + wsum_from w k (map (fun xs => (length (filter (fun x => sat b2 x && negb (sat b1 x)) xs),
                                     length (filter (fun x => sat b1 x && negb (sat b2 x)) xs))) root))%Z.
Proof.
  intros Hw. unfold restrict. revert k. induction root as [|xs root IH]; intros k H; cbn [map vsum_from wsum_from snd]; [lia|].
  assert (H0 : forall x, In x xs -> (0 <= c k x <= w k)%Z) by (intros x Hx; specialize (H 0 x Hx); rewrite Nat.add_0_r in H; exact H).
  assert (H1 := removal_cost (w k) (c k) (sat b2) (sat b1) xs (Hw k) H0).
  assert (H2 : forall j x, In x (nth j root []) -> (0 <= c (S k + j)%nat x <= w (S k + j)%nat)%Z).
  { intros j x Hx. specialize (H (S j) x Hx). rewrite Nat.add_succ_r in H. exact H. }
  specialize (IH (S k) H2). lia.
Qed.

Lemma diff_remove_restrict b1 b2 root :
  view_sorted root ->
  diff_remove (restrict b1 root) (restrict b2 root) = map (filter (fun x => sat b1 x && negb (sat b2 x))) root.
Proof.
  unfold diff_remove, restrict, view_sorted. induction root as [|xs root IH]; intro H; [reflexivity|].
  inversion H; subst. cbn [map combine fst snd]. rewrite IH by assumption. f_equal.
  rewrite diff_lists_spec by (apply id_sorted_filter; assumption). cbn [snd].
  clear IH H H3. assert (G : forall ys, (forall y, In y ys -> In y xs) ->
    filter (not_in (filter (sat b2) xs)) (filter (sat b1) ys) = filter (fun x => sat b1 x && negb (sat b2 x)) ys).
  { induction ys as [|y ys IHy]; intro Hy; [reflexivity|]. cbn [filter].
    specialize (IHy (fun z Hz => Hy z (or_intror Hz))).
    destruct (sat b1 y); cbn [andb filter]; [|exact IHy].
    rewrite (not_in_filter (sat b2) xs y H2 (Hy y (or_introl eq_refl))), IHy. reflexivity. }
  apply G. auto.
Qed.

(** The same for a worst cost per instance. *)
Lemma restrict_cost_custom (w : inst -> Z) (c : nat -> inst -> Z) b1 b2 root :
  (forall j x, In x (nth j root []) -> (0 <= c j x <= w x)%Z) ->
  (vsum c (restrict b1 root) <= vsum c (restrict b2 root)
    + zsum (map w (concat (map (filter (fun x => sat b1 x && negb (sat b2 x))) root))))%Z.
Proof.
  unfold vsum, restrict. intro H. assert (H' : forall j x, In x (nth j root []) -> (0 <= c (0 + j)%nat x <= w x)%Z) by exact H.
  clear H. revert H'. generalize 0. induction root as [|xs root IH]; intros k H; cbn [map vsum_from concat zsum]; [lia|].
  assert (H2 : forall j x, In x (nth j root []) -> (0 <= c (S k + j)%nat x <= w x)%Z).
  { intros j x Hx. specialize (H (S j) x Hx). rewrite Nat.add_succ_r in H. exact H. }
  specialize (IH (S k) H2).
  rewrite map_app. assert (Za : forall l m, zsum (l ++ m) = (zsum l + zsum m)%Z) by (induction l as [|a l IHl]; intro m; cbn [app zsum]; [lia|rewrite IHl; lia]).
  rewrite Za. clear Za.
  assert (E : (zsum (map (c k) (filter (sat b1) xs)) <= zsum (map (c k) (filter (sat b2) xs))
     + zsum (map w (filter (fun x => sat b1 x && negb (sat b2 x)) xs)))%Z); [|lia].
  assert (Hx : forall x, In x xs -> (0 <= c k x <= w x)%Z) by (intros x Hx; specialize (H 0 x Hx); rewrite Nat.add_0_r in H; exact H).
  clear -Hx. induction xs as [|x xs IHx]; cbn [filter map zsum]; [lia|].
  specialize (IHx (fun y Hy => Hx y (or_intror Hy))). pose proof (Hx x (or_introl eq_refl)) as Hx0.
  destruct (sat b1 x), (sat b2 x); cbn [andb negb map zsum]; lia.
Qed.
