(** Proofs about the container of solutions. *)
From Coq Require Import List Arith Bool ZArith Lia.
From Verif Require Import Model_Container.
Import ListNotations.
Local Open Scope nat_scope.

Lemma fop_filter : forall {A} (R : A -> A -> Prop) f l, ForallOrdPairs R l -> ForallOrdPairs R (filter f l).
Proof.
  intros A R f l H. induction H as [|x l Hx Hl IH]; [constructor|].
  cbn. destruct (f x); [|exact IH]. constructor; [|exact IH].
  apply Forall_forall. intros y Hy. apply filter_In in Hy.
  rewrite Forall_forall in Hx. apply Hx. tauto.
Qed.

Lemma fop_snoc : forall {A} (R : A -> A -> Prop) l x,
  ForallOrdPairs R l -> (forall y, In y l -> R y x) -> ForallOrdPairs R (l ++ [x]).
Proof.
  intros A R l x H K. induction H as [|y l Hy Hl IH]; cbn.
  - repeat constructor.
  - constructor.
    + apply Forall_app. split; [exact Hy|]. repeat constructor. apply K. left. reflexivity.
    + apply IH. intros z Hz. apply K. right. exact Hz.
Qed.

Lemma in_upd_nth : forall {A} i (a : A) l z, In z (upd_nth i a l) -> z = a \/ In z l.
Proof.
  intros A i a l. revert i. induction l as [|y l IH]; intros i z H; [destruct H|].
  destruct i as [|i]; cbn in H; destruct H as [H|H].
  - left. symmetry. exact H.
  - right. right. exact H.
  - right. left. exact H.
  - destruct (IH _ _ H); [left; assumption|right; right; assumption].
Qed.

Lemma upd_nth_keeps : forall {A} i (a b : A) l z,
  nth_error l i = Some b -> In z l -> z = b \/ In z (upd_nth i a l).
Proof.
  intros A i a b l. revert i. induction l as [|y l IH]; intros i z N H; [destruct H|].
  destruct i; cbn in *.
  - injection N as ->. destruct H; [left; congruence|right; right; assumption].
  - destruct H; [right; left; assumption|]. destruct (IH _ _ N H); [left; assumption|right; right; assumption].
Qed.

Lemma upd_nth_in : forall {A} i (a b : A) l, nth_error l i = Some b -> In a (upd_nth i a l).
Proof.
  intros A i a b l. revert i. induction l as [|y l IH]; intros i N; destruct i; cbn in *; try discriminate.
  - left. reflexivity.
  - right. exact (IH _ N).
Qed.

Lemma upd_nth_length : forall {A} i (a : A) l, length (upd_nth i a l) = length l.
Proof.
  intros A i a l. revert i. induction l as [|y l IH]; intros i; destruct i; cbn; auto.
Qed.

Lemma filter_le : forall {A} (f : A -> bool) l, length (filter f l) <= length l.
Proof. intros A f l. induction l as [|x l IH]; cbn; [lia|]. destruct (f x); cbn; lia. Qed.

Section P.
  Context {S P : Type} (seqb dom : S -> S -> bool).
  Hypothesis Heq : forall a b, seqb a b = true <-> a = b.
  Hypothesis Hrefl : forall a, dom a a = true.
  Hypothesis Htrans : forall a b c, dom a b = true -> dom b c = true -> dom a c = true.

  Lemma u_find_set : forall m s n t,
    u_find seqb t (u_set seqb s n m) = if seqb s t then Some n else u_find seqb t m.
  Proof.
    intros m s n t. induction m as [|[a k] m IH].
    - cbn. destruct (seqb s t) eqn:E; reflexivity.
    - cbn. destruct (seqb a s) eqn:E; cbn.
      + apply Heq in E. subst a. destruct (seqb s t); reflexivity.
      + destruct (seqb a t) eqn:E2; [|exact IH].
        destruct (seqb s t) eqn:E3; [|reflexivity].
        apply Heq in E2, E3. subst. rewrite (proj2 (Heq t t) eq_refl) in E. discriminate.
  Qed.

  Definition covers (l : list (csol S P)) (s : S) : Prop := exists y, In y l /\ dom (cs_val y) s = true.
  Definition u_ok (l : list (csol S P)) (m : list (S * nat)) : Prop :=
    forall s k, u_find seqb s m = Some k -> covers l s.
  Definition incomp (x y : csol S P) : Prop :=
    dom (cs_val x) (cs_val y) = false /\ dom (cs_val y) (cs_val x) = false.

  Lemma u_ok_set : forall l m s n, u_ok l m -> covers l s -> u_ok l (u_set seqb s n m).
  Proof.
    intros l m s n H C t k E. rewrite u_find_set in E.
    destruct (seqb s t) eqn:E2; [apply Heq in E2; subst; exact C|exact (H _ _ E)].
  Qed.

  (** The list after removing what [x] dominates and appending [x]. *)
  Definition plus (l : list (csol S P)) (x : csol S P) : list (csol S P) :=
    filter (fun y => negb (dom (cs_val x) (cs_val y))) l ++ [x].

  Lemma covers_plus : forall l x s, covers l s -> covers (plus l x) s.
  Proof.
    intros l x s (y & Hy & Hd). unfold plus.
    destruct (dom (cs_val x) (cs_val y)) eqn:E.
    - exists x. split; [apply in_or_app; right; left; reflexivity|]. exact (Htrans _ _ _ E Hd).
    - exists y. split; [|exact Hd]. apply in_or_app. left. apply filter_In. rewrite E. auto.
  Qed.
  Lemma covers_self : forall l x, covers (plus l x) (cs_val x).
  Proof. intros l x. exists x. split; [apply in_or_app; right; left; reflexivity|apply Hrefl]. Qed.

  Lemma u_test_ok : forall check m (x : csol S P) m' l,
    u_test seqb check m x = Some m' -> u_ok l m -> covers l (cs_val x) -> u_ok l m'.
  Proof.
    intros check m x m' l E H C. unfold u_test in E. destruct check; [|injection E as <-; exact H].
    destruct (u_find seqb (cs_val x) m) as [k|].
    - destruct (k <=? cs_nodes x); [discriminate|]. injection E as <-. apply u_ok_set; assumption.
    - injection E as <-. apply u_ok_set; assumption.
  Qed.
  Lemma u_test_none : forall check m (x : csol S P), u_test seqb check m x = None ->
    exists k, u_find seqb (cs_val x) m = Some k.
  Proof.
    intros check m x E. unfold u_test in E. destruct check; [|discriminate].
    destruct (u_find seqb (cs_val x) m) as [k|]; [exists k; reflexivity|discriminate].
  Qed.
  Lemma u_ok_mono : forall l l' m, (forall s, covers l s -> covers l' s) -> u_ok l m -> u_ok l' m.
  Proof. intros l l' m H K s k E. apply H. exact (K _ _ E). Qed.

  Record good (A : list (csol S P)) (c : cont S P) : Prop := {
    g_anti : ForallOrdPairs incomp (ct_sols c);
    g_sub : forall x, In x (ct_sols c) -> In x A;
    g_cov : forall x, In x A -> covers (ct_sols c) (cs_val x);
    g_uniq : u_ok (ct_sols c) (ct_uniq c) }.

  Lemma good_add : forall check A c x, good A c -> good (A ++ [x]) (ct_add seqb dom check c x).
  Proof.
    intros check A c x [G1 G2 G3 G4]. unfold ct_add.
    destruct (ct_sols c) as [|y0 l0] eqn:El.
    - split; cbn.
      + repeat constructor.
      + intros z [<-|[]]. apply in_or_app. right. left. reflexivity.
      + intros z Hz. apply in_app_or in Hz. destruct Hz as [Hz|[<-|[]]].
        * destruct (G3 z Hz) as (y & [] & _).
        * exists x. split; [left; reflexivity|apply Hrefl].
      + assert (K : u_ok [x] (ct_uniq c)).
        { intros s k E. destruct (G4 s k E) as (y & [] & _). }
        destruct check; [|exact K]. apply u_ok_set; [exact K|].
        exists x. split; [left; reflexivity|apply Hrefl].
    - rewrite <- El in *. clear El y0 l0.
      destruct (u_test seqb check (ct_uniq c) x) as [m|] eqn:Eu.
      2:{ destruct (u_test_none _ _ _ Eu) as [k Ek]. split; auto.
          - intros z Hz. apply in_or_app. left. auto.
          - intros z Hz. apply in_app_or in Hz. destruct Hz as [Hz|[<-|[]]]; [auto|]. exact (G4 _ _ Ek). }
      destruct (existsb _ (ct_sols c)) eqn:Ex.
      + apply existsb_exists in Ex. destruct Ex as (y & Hy & Hd).
        assert (C : covers (ct_sols c) (cs_val x)) by (exists y; auto).
        split; cbn; auto.
        * intros z Hz. apply in_or_app. left. auto.
        * intros z Hz. apply in_app_or in Hz. destruct Hz as [Hz|[<-|[]]]; auto.
        * exact (u_test_ok _ _ _ _ _ Eu G4 C).
      + fold (plus (ct_sols c) x). split; cbn.
        * apply fop_snoc; [apply fop_filter; exact G1|].
          intros y Hy. apply filter_In in Hy. destruct Hy as [Hy Hn]. split.
          -- destruct (dom (cs_val y) (cs_val x)) eqn:E; [|reflexivity]. exfalso.
             assert (Q : existsb (fun y => dom (cs_val y) (cs_val x)) (ct_sols c) = true)
               by (apply existsb_exists; exists y; auto). congruence.
          -- destruct (dom (cs_val x) (cs_val y)); [discriminate|reflexivity].
        * intros z Hz. apply in_app_or in Hz. apply in_or_app.
          destruct Hz as [Hz|Hz]; [left|right; exact Hz]. apply filter_In in Hz. apply G2. tauto.
        * intros z Hz. apply in_app_or in Hz. destruct Hz as [Hz|[<-|[]]].
          -- apply covers_plus. auto.
          -- apply covers_self.
        * apply (u_test_ok _ _ _ _ _ Eu); [|apply covers_self].
          exact (u_ok_mono _ _ _ (covers_plus (ct_sols c) x) G4).
  Qed.

  Lemma good_step : forall check A c o, good A c ->
    good (A ++ match o with CAdd x => [x] | CClear => [] end) (ct_step seqb dom check c o).
  Proof.
    intros check A c [x|] G; cbn.
    - apply good_add. exact G.
    - rewrite app_nil_r. destruct G as [G1 G2 G3 G4]. split; cbn; auto. intros s k E. discriminate.
  Qed.

  Lemma good_run : forall check h, good (ct_added h) (ct_run seqb dom check h).
  Proof.
    intros check h. unfold ct_run.
    assert (K : forall h A c, good A c -> good (A ++ ct_added h) (fold_left (ct_step seqb dom check) h c)).
    { clear h. induction h as [|o h IH]; intros A c G; cbn.
      - rewrite app_nil_r. exact G.
      - rewrite app_assoc. apply IH. apply good_step. exact G. }
    apply (K h [] ct_new). split; cbn; [constructor|intros x []|intros x []|intros s k E; discriminate].
  Qed.

  (** Merging. *)
  Context (diff : S -> S -> Z) (merge : S -> S -> S).
  Hypothesis Hanti : forall a b, dom a b = true -> dom b a = true -> a = b.
  Hypothesis Hm1 : forall a b, dom (merge a b) a = true.
  Hypothesis Hm2 : forall a b, dom (merge a b) b = true.

  Lemma ms_from_lt : forall (l : list (csol S P)) i x best,
    (match best with Some (j, _) => j < i | None => True end) ->
    (l <> [] \/ best <> None) -> most_similar_from diff i x best l < i + length l.
  Proof.
    induction l as [|y l IH]; intros i x best Hb Hn; cbn.
    - destruct best as [[j z]|]; [lia|]. destruct Hn as [Hn|Hn]; exfalso; apply Hn; reflexivity.
    - replace (i + Datatypes.S (length l)) with ((1 + i) + length l) by lia. apply IH.
      + destruct best as [[j z]|]; [destruct (_ <? _)%Z|]; lia.
      + right. destruct best as [[j z]|]; [destruct (_ <? _)%Z|]; discriminate.
  Qed.
  Lemma most_similar_lt : forall (l : list (csol S P)) x, l <> [] -> most_similar diff x l < length l.
  Proof. intros l x H. apply (ms_from_lt l 0 x None); [exact I|left; exact H]. Qed.

  Lemma merge_step : forall k A c x, k > 0 -> length (ct_sols c) <= k ->
    (forall x, In x A -> covers (ct_sols c) (cs_val x)) -> u_ok (ct_sols c) (ct_uniq c) ->
    exists c', ct_add_or_merge seqb dom diff merge k c x = Some c' /\ length (ct_sols c') <= k /\
      (forall z, In z (A ++ [x]) -> covers (ct_sols c') (cs_val z)) /\ u_ok (ct_sols c') (ct_uniq c').
  Proof.
    intros k A c x Hk Hl Hc Hu. unfold ct_add_or_merge.
    destruct (ct_sols c) as [|y0 l0] eqn:El.
    - eexists. split; [reflexivity|]. cbn [ct_sols ct_uniq length].
      assert (C : covers [x] (cs_val x)) by (exists x; split; [left; reflexivity|apply Hrefl]).
      assert (K : u_ok [x] (ct_uniq c)) by (intros s j E; destruct (Hu s j E) as (y & [] & _)).
      split; [lia|]. split.
      + intros z Hz. apply in_app_or in Hz. destruct Hz as [Hz|[<-|[]]]; [|exact C].
        destruct (Hc z Hz) as (y & [] & _).
      + apply u_ok_set; assumption.
    - rewrite <- El in *. clear El y0 l0.
      destruct (u_test seqb true (ct_uniq c) x) as [m|] eqn:Eu.
      2:{ destruct (u_test_none _ _ _ Eu) as [j Ej]. exists c. repeat split; auto.
          intros z Hz. apply in_app_or in Hz. destruct Hz as [Hz|[<-|[]]]; [auto|]. exact (Hu _ _ Ej). }
      destruct (existsb _ (ct_sols c)) eqn:Ex.
      { apply existsb_exists in Ex. destruct Ex as (y & Hy & Hd).
        assert (C : covers (ct_sols c) (cs_val x)) by (exists y; auto).
        eexists. split; [reflexivity|]. cbn. repeat split; auto.
        - intros z Hz. apply in_app_or in Hz. destruct Hz as [Hz|[<-|[]]]; auto.
        - exact (u_test_ok _ _ _ _ _ Eu Hu C). }
      set (l := filter _ (ct_sols c)).
      assert (Ll : length l <= length (ct_sols c)) by apply filter_le.
      destruct (length l <? k) eqn:Ek.
      { apply Nat.ltb_lt in Ek. eexists. split; [reflexivity|]. cbn.
        change (l ++ [x]) with (plus (ct_sols c) x).
        split; [unfold plus; rewrite app_length; fold l; cbn; lia|]. split.
        - intros z Hz. apply in_app_or in Hz. destruct Hz as [Hz|[<-|[]]]; [apply covers_plus; auto|apply covers_self].
        - apply (u_test_ok _ _ _ _ _ Eu); [|apply covers_self].
          exact (u_ok_mono _ _ _ (covers_plus (ct_sols c) x) Hu). }
      apply Nat.ltb_ge in Ek.
      assert (Ne : l <> []) by (intros E; rewrite E in Ek; cbn in Ek; lia).
      pose proof (most_similar_lt l (cs_val x) Ne) as Hms.
      destruct (nth_error l (most_similar diff (cs_val x) l)) as [y|] eqn:En.
      2:{ apply nth_error_None in En. lia. }
      set (i := most_similar diff (cs_val x) l) in *.
      set (y' := Csol (merge (cs_val x) (cs_val y)) (cs_nodes y) (cs_tag y)).
      set (l' := filter _ (upd_nth i y' l)).
      (* nothing that is in the merged list is strictly dominated by the new solution *)
      assert (Hdn : forall z, In z l -> dom (cs_val x) (cs_val z) = false).
      { intros z Hz. apply filter_In in Hz. destruct Hz as [_ Hz].
        destruct (dom (cs_val x) (cs_val z)); [discriminate|reflexivity]. }
      assert (Keep : forall z, In z (upd_nth i y' l) -> In z l').
      { intros z Hz. apply filter_In. split; [exact Hz|].
        destruct (in_upd_nth _ _ _ _ Hz) as [->|Hz2].
        - destruct (dom (cs_val x) (cs_val y')) eqn:E; [|rewrite andb_false_r; reflexivity].
          assert (cs_val x = cs_val y') by (apply Hanti; [exact E|apply Hm1]).
          rewrite (proj2 (Heq (cs_val x) (cs_val y'))) by assumption. reflexivity.
        - rewrite (Hdn z Hz2), andb_false_r. reflexivity. }
      assert (Cx : covers l' (cs_val x)).
      { exists y'. split; [apply Keep; exact (upd_nth_in _ _ _ _ En)|apply Hm1]. }
      assert (Cm : forall s, covers (ct_sols c) s -> covers l' s).
      { intros s (z & Hz & Hd). destruct (dom (cs_val x) (cs_val z)) eqn:E.
        - destruct Cx as (w & Hw & Dw). exists w. split; [exact Hw|].
          exact (Htrans _ _ _ Dw (Htrans _ _ _ E Hd)).
        - assert (Hz2 : In z l) by (apply filter_In; rewrite E; auto).
          destruct (upd_nth_keeps i y' y l z En Hz2) as [->|Hk2].
          + exists y'. split; [apply Keep; exact (upd_nth_in _ _ _ _ En)|].
            exact (Htrans _ _ _ (Hm2 _ _) Hd).
          + exists z. split; [apply Keep; exact Hk2|exact Hd]. }
      eexists. split; [reflexivity|]. cbn. split.
      { unfold l'. etransitivity; [apply filter_le|]. rewrite upd_nth_length. lia. }
      split.
      + intros z Hz. apply in_app_or in Hz. destruct Hz as [Hz|[<-|[]]]; [apply Cm; auto|exact Cx].
      + apply (u_test_ok _ _ _ _ _ Eu); [|exact Cx]. exact (u_ok_mono _ _ _ Cm Hu).
  Qed.

  Lemma merge_all_ok : forall k xs, k > 0 ->
    exists c, ct_merge_all seqb dom diff merge k ct_new xs = Some c /\ length (ct_sols c) <= k /\
      forall x, In x xs -> covers (ct_sols c) (cs_val x).
  Proof.
    intros k xs Hk.
    assert (K : forall xs A c, length (ct_sols c) <= k ->
      (forall x, In x A -> covers (ct_sols c) (cs_val x)) -> u_ok (ct_sols c) (ct_uniq c) ->
      exists c', ct_merge_all seqb dom diff merge k c xs = Some c' /\ length (ct_sols c') <= k /\
        forall x, In x (A ++ xs) -> covers (ct_sols c') (cs_val x)).
    { clear xs. induction xs as [|x xs IH]; intros A c H1 H2 H3.
      - exists c. rewrite app_nil_r. repeat split; auto.
      - destruct (merge_step k A c x Hk H1 H2 H3) as (c' & E & L & C & U).
        destruct (IH (A ++ [x]) c' L C U) as (c2 & E2 & L2 & C2).
        exists c2. cbn. rewrite E. rewrite <- app_assoc in C2. auto. }
    apply (K xs [] ct_new); cbn; [lia|intros x []|intros s j E; discriminate].
  Qed.
End P.
