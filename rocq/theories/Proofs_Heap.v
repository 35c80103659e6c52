(** The key-value heap: positions, keys, heap order. *)
From Coq Require Import List Arith Bool Lia QArith Lqa ZArith Sorted Permutation.
From Verif Require Import Model_FeatureVector Model_Data Model_Heap Proofs_Feature.
Import ListNotations.
Local Open Scope nat_scope.

Lemma Qle_bool_false a b : Qle_bool a b = false -> (b < a)%Q.
Proof. intro H. apply Qnot_le_lt. intro H1. apply Qle_bool_iff in H1. congruence. Qed.
Lemma Qlt_bool_true a b : Qlt_bool a b = true -> (a < b)%Q.
Proof. unfold Qlt_bool. intro H. apply negb_true_iff in H. apply Qle_bool_false. exact H. Qed.
Lemma Qlt_bool_false a b : Qlt_bool a b = false -> (b <= a)%Q.
Proof. unfold Qlt_bool. intro H. apply negb_false_iff in H. apply Qle_bool_iff. exact H. Qed.

Lemma swap_length {A} (d : A) l i j : length (swap_list d l i j) = length l.
Proof. unfold swap_list. rewrite !set_nth_length. reflexivity. Qed.

Lemma nth_swap {A} (d : A) l i j p : i < length l -> j < length l ->
  nth p (swap_list d l i j) d = if p =? j then nth i l d else if p =? i then nth j l d else nth p l d.
Proof.
  intros Hi Hj. unfold swap_list. rewrite !nth_set_nth, set_nth_length.
  apply Nat.ltb_lt in Hi, Hj. rewrite Hi, Hj, !andb_true_r. reflexivity.
Qed.

(** Positions and keys are inverse to each other. *)
Record hwf (n : nat) (h : heap) : Prop := Hwf {
  hw_val : length (h_val h) = n; hw_k2p : length (h_k2p h) = n; hw_p2k : length (h_p2k h) = n;
  hw_end : h_end h <= n;
  hw_key : forall k, k < n -> nget (h_k2p h) k < n /\ nget (h_p2k h) (nget (h_k2p h) k) = k;
  hw_pos : forall p, p < n -> nget (h_p2k h) p < n /\ nget (h_k2p h) (nget (h_p2k h) p) = p }.

(** The value of a key and whether it is in the heap. *)
Definition key_value (h : heap) (k : nat) : Q := qget (h_val h) (nget (h_k2p h) k).
Definition key_in (h : heap) (k : nat) : Prop := nget (h_k2p h) k < h_end h.

Lemma hwf_new n : hwf n (heap_new n).
Proof.
  constructor; cbn [heap_new h_val h_k2p h_p2k h_end]; rewrite ?repeat_length, ?seq_length; try lia;
  intros k Hk; unfold nget; rewrite !seq_nth by (rewrite ?seq_nth; lia); split; cbn; lia.
Qed.

Section Swap.
  Context (n : nat) (h : heap) (i j : nat) (W : hwf n h) (Hi : i < n) (Hj : j < n).

  Lemma swap_val p : qget (h_val (heap_swap h i j)) p =
    if p =? j then qget (h_val h) i else if p =? i then qget (h_val h) j else qget (h_val h) p.
  Proof. unfold qget. cbn [heap_swap h_val]. apply nth_swap; rewrite (hw_val _ _ W); assumption. Qed.

  Lemma swap_p2k p : nget (h_p2k (heap_swap h i j)) p =
    if p =? j then nget (h_p2k h) i else if p =? i then nget (h_p2k h) j else nget (h_p2k h) p.
  Proof. unfold nget. cbn [heap_swap h_p2k]. apply nth_swap; rewrite (hw_p2k _ _ W); assumption. Qed.

  Lemma swap_k2p k : nget (h_k2p (heap_swap h i j)) k =
    if k =? nget (h_p2k h) j then i else if k =? nget (h_p2k h) i then j else nget (h_k2p h) k.
  Proof.
    destruct (hw_pos _ _ W i Hi) as [A1 A2]. destruct (hw_pos _ _ W j Hj) as [B1 B2].
    unfold nget at 1. cbn [heap_swap h_k2p]. rewrite nth_swap by (rewrite (hw_k2p _ _ W); assumption).
    change (nth (nget (h_p2k h) i) (h_k2p h) 0) with (nget (h_k2p h) (nget (h_p2k h) i)).
    change (nth (nget (h_p2k h) j) (h_k2p h) 0) with (nget (h_k2p h) (nget (h_p2k h) j)).
    rewrite A2, B2. reflexivity.
  Qed.

  Lemma swap_wf : hwf n (heap_swap h i j).
  Proof.
    pose proof (hw_pos _ _ W i Hi) as [A1 A2]. pose proof (hw_pos _ _ W j Hj) as [B1 B2].
    constructor.
    - cbn [heap_swap h_val]. rewrite swap_length. apply W.
    - cbn [heap_swap h_k2p]. rewrite swap_length. apply W.
    - cbn [heap_swap h_p2k]. rewrite swap_length. apply W.
    - apply W.
    - intros k Hk. destruct (hw_key _ _ W k Hk) as [C1 C2]. rewrite swap_k2p.
      destruct (k =? nget (h_p2k h) j) eqn:E1; [apply Nat.eqb_eq in E1|apply Nat.eqb_neq in E1].
      + split; [exact Hi|]. rewrite swap_p2k. rewrite Nat.eqb_refl.
        destruct (i =? j) eqn:E; [apply Nat.eqb_eq in E; subst|]; congruence.
      + destruct (k =? nget (h_p2k h) i) eqn:E2; [apply Nat.eqb_eq in E2|apply Nat.eqb_neq in E2].
        * split; [exact Hj|]. rewrite swap_p2k, Nat.eqb_refl. congruence.
        * split; [exact C1|]. rewrite swap_p2k.
          destruct (nget (h_k2p h) k =? j) eqn:E3; [apply Nat.eqb_eq in E3; congruence|].
          destruct (nget (h_k2p h) k =? i) eqn:E4; [apply Nat.eqb_eq in E4; congruence|]. exact C2.
    - intros p Hp. destruct (hw_pos _ _ W p Hp) as [C1 C2]. rewrite swap_p2k, !swap_k2p.
      destruct (p =? j) eqn:E1; [apply Nat.eqb_eq in E1; subst p|apply Nat.eqb_neq in E1].
      + split; [exact A1|]. rewrite Nat.eqb_refl. destruct (nget (h_p2k h) i =? nget (h_p2k h) j) eqn:E; [|reflexivity].
        apply Nat.eqb_eq in E. congruence.
      + destruct (p =? i) eqn:E2; [apply Nat.eqb_eq in E2; subst p|apply Nat.eqb_neq in E2].
        * split; [exact B1|]. rewrite Nat.eqb_refl. reflexivity.
        * split; [exact C1|].
          destruct (nget (h_p2k h) p =? nget (h_p2k h) j) eqn:E3; [apply Nat.eqb_eq in E3; congruence|].
          destruct (nget (h_p2k h) p =? nget (h_p2k h) i) eqn:E4; [apply Nat.eqb_eq in E4; congruence|]. exact C2.
  Qed.

  Lemma swap_key_value k : k < n -> key_value (heap_swap h i j) k = key_value h k.
  Proof.
    intro Hk. destruct (hw_key _ _ W k Hk) as [C1 C2].
    pose proof (hw_pos _ _ W i Hi) as [A1 A2]. pose proof (hw_pos _ _ W j Hj) as [B1 B2].
    unfold key_value. rewrite swap_k2p, swap_val.
    destruct (k =? nget (h_p2k h) j) eqn:E1; [apply Nat.eqb_eq in E1|apply Nat.eqb_neq in E1].
    - rewrite Nat.eqb_refl. subst k. rewrite B2. destruct (i =? j) eqn:E; [apply Nat.eqb_eq in E; subst|]; reflexivity.
    - destruct (k =? nget (h_p2k h) i) eqn:E2; [apply Nat.eqb_eq in E2|apply Nat.eqb_neq in E2].
      + rewrite Nat.eqb_refl. subst k. rewrite A2. reflexivity.
      + destruct (nget (h_k2p h) k =? j) eqn:E3; [apply Nat.eqb_eq in E3; congruence|].
        destruct (nget (h_k2p h) k =? i) eqn:E4; [apply Nat.eqb_eq in E4; congruence|]. reflexivity.
  Qed.

  Lemma swap_key_in k : k < n -> i < h_end h -> j < h_end h -> key_in (heap_swap h i j) k <-> key_in h k.
  Proof.
    intros Hk Hie Hje. pose proof (hw_pos _ _ W i Hi) as [A1 A2]. pose proof (hw_pos _ _ W j Hj) as [B1 B2].
    unfold key_in. rewrite swap_k2p. change (h_end (heap_swap h i j)) with (h_end h).
    destruct (k =? nget (h_p2k h) j) eqn:E1; [apply Nat.eqb_eq in E1; subst k; rewrite B2; tauto|].
    destruct (k =? nget (h_p2k h) i) eqn:E2; [apply Nat.eqb_eq in E2; subst k; rewrite A2; tauto|]. tauto.
  Qed.
End Swap.

(** Two heaps with the same keys and values, arranged differently. *)
Definition hsame (n : nat) (h h' : heap) : Prop :=
  hwf n h' /\ h_end h' = h_end h /\ (forall k, k < n -> key_value h' k = key_value h k)
  /\ (forall k, k < n -> key_in h' k <-> key_in h k).

Lemma hsame_refl n h : hwf n h -> hsame n h h.
Proof. intro W. split; [exact W|]. split; [reflexivity|]. split; [reflexivity|]. tauto. Qed.

Lemma hsame_trans n h1 h2 h3 : hsame n h1 h2 -> hsame n h2 h3 -> hsame n h1 h3.
Proof.
  intros (A1 & A2 & A3 & A4) (B1 & B2 & B3 & B4). split; [exact B1|]. split; [congruence|]. split.
  - intros k Hk. rewrite B3, A3 by exact Hk. reflexivity.
  - intros k Hk. rewrite B4, A4 by exact Hk. tauto.
Qed.

Lemma hsame_swap n h i j : hwf n h -> i < h_end h -> j < h_end h -> hsame n h (heap_swap h i j).
Proof.
  intros W Hi Hj. pose proof (hw_end _ _ W). split; [apply swap_wf; [exact W|lia|lia]|]. split; [reflexivity|]. split.
  - intros k Hk. apply (swap_key_value n); try assumption; lia.
  - intros k Hk. apply (swap_key_in n); try assumption; lia.
Qed.

Lemma parent_lt i : 0 < i -> (i - 1) / 2 < i.
Proof. intro H. apply Nat.div_lt_upper_bound; lia. Qed.

Lemma sift_up_same n fuel : forall h i, hwf n h -> i < h_end h -> hsame n h (sift_up fuel h i).
Proof.
  induction fuel as [|fuel IH]; intros h i W Hi; cbn [sift_up]; [apply hsame_refl; exact W|].
  destruct (i =? 0) eqn:E; [apply hsame_refl; exact W|]. apply Nat.eqb_neq in E.
  pose proof (parent_lt i ltac:(lia)). destruct (Qle_bool _ _); [apply hsame_refl; exact W|].
  assert (S1 : hsame n h (heap_swap h i ((i - 1) / 2))) by (apply hsame_swap; [exact W|lia|lia]).
  eapply hsame_trans; [exact S1|]. apply IH; [apply S1|]. change (h_end (heap_swap h i ((i-1)/2))) with (h_end h). lia.
Qed.

Lemma largest_child_lt h i : is_leaf h i = false -> largest_child h i < h_end h.
Proof.
  unfold is_leaf, largest_child, has_right. intro E. apply Nat.leb_gt in E.
  destruct (2 * i + 2 <? h_end h) eqn:E2; cbn [andb]; [|lia]. apply Nat.ltb_lt in E2.
  destruct (Qlt_bool _ _); lia.
Qed.

Lemma locally_false h i : heap_locally h i = false -> is_leaf h i = false.
Proof. unfold heap_locally. destruct (is_leaf h i); [discriminate|reflexivity]. Qed.

Lemma largest_child_cases h i : largest_child h i = 2 * i + 1 \/ largest_child h i = 2 * i + 2.
Proof. unfold largest_child. destruct (_ && _); auto. Qed.

Lemma sift_down_same n fuel : forall h i, hwf n h -> i < h_end h -> hsame n h (sift_down fuel h i).
Proof.
  induction fuel as [|fuel IH]; intros h i W Hi; cbn [sift_down]; [apply hsame_refl; exact W|].
  destruct (heap_locally h i) eqn:E; [apply hsame_refl; exact W|].
  pose proof (largest_child_lt h i (locally_false h i E)) as Hc.
  assert (S1 : hsame n h (heap_swap h i (largest_child h i))) by (apply hsame_swap; assumption).
  eapply hsame_trans; [exact S1|]. apply IH; [apply S1|exact Hc].
Qed.

(** ** Heap order *)
Definition hval (h : heap) (p : nat) : Q := qget (h_val h) p.
Definition parent (i : nat) : nat := (i - 1) / 2.
Definition heap_order (h : heap) : Prop := forall j, 0 < j < h_end h -> (hval h j <= hval h (parent j))%Q.

Lemma parent_child j : 0 < j -> j = 2 * parent j + 1 \/ j = 2 * parent j + 2.
Proof.
  intro H. unfold parent. pose proof (Nat.div_mod (j - 1) 2 ltac:(lia)). pose proof (Nat.mod_upper_bound (j - 1) 2 ltac:(lia)). lia.
Qed.
Lemma parent_left i : parent (2 * i + 1) = i.
Proof. unfold parent. replace (2 * i + 1 - 1) with (i * 2) by lia. apply Nat.div_mul. lia. Qed.
Lemma parent_right i : parent (2 * i + 2) = i.
Proof. unfold parent. replace (2 * i + 2 - 1) with (1 + i * 2) by lia. rewrite Nat.div_add by lia. reflexivity. Qed.
Lemma parent_less j : 0 < j -> parent j < j.
Proof. apply parent_lt. Qed.

Lemma sift_up_order n fuel : forall h i, hwf n h -> i < h_end h -> i <= fuel ->
  (forall j, 0 < j < h_end h -> j <> i -> (hval h j <= hval h (parent j))%Q) ->
  (forall j, 0 < j < h_end h -> parent j = i -> 0 < i -> (hval h j <= hval h (parent i))%Q) ->
  heap_order (sift_up fuel h i).
Proof.
  induction fuel as [|fuel IH]; intros h i W Hi Hf H1 H2; cbn [sift_up].
  - intros j Hj. apply H1; [exact Hj|lia].
  - destruct (i =? 0) eqn:E; [apply Nat.eqb_eq in E; subst; intros j Hj; apply H1; [exact Hj|lia]|]. apply Nat.eqb_neq in E.
    change ((i - 1) / 2) with (parent i). pose proof (parent_less i ltac:(lia)) as Hp.
    destruct (Qle_bool (qget (h_val h) i) (qget (h_val h) (parent i))) eqn:Eq.
    + intros j Hj. destruct (Nat.eq_dec j i) as [->|Hne]; [|apply H1; assumption]. apply Qle_bool_iff. exact Eq.
    + apply Qle_bool_false in Eq. fold (hval h i) (hval h (parent i)) in Eq.
      pose proof (hw_end _ _ W) as He.
      assert (V : forall p, hval (heap_swap h i (parent i)) p = if p =? parent i then hval h i else if p =? i then hval h (parent i) else hval h p).
      { intro p. apply (swap_val n); [exact W|lia|lia]. }
      apply IH.
      * apply swap_wf; [exact W|lia|lia].
      * change (h_end (heap_swap h i (parent i))) with (h_end h). lia.
      * lia.
      * change (h_end (heap_swap h i (parent i))) with (h_end h). intros j Hj Hne. rewrite !V.
        apply Nat.eqb_neq in Hne. rewrite Hne. apply Nat.eqb_neq in Hne.
        destruct (j =? i) eqn:Eji; [apply Nat.eqb_eq in Eji; subst j|apply Nat.eqb_neq in Eji].
        -- rewrite Nat.eqb_refl. lra.
        -- destruct (parent j =? parent i) eqn:Ep.
           ++ apply Nat.eqb_eq in Ep. specialize (H1 j Hj Eji). rewrite Ep in H1. lra.
           ++ destruct (parent j =? i) eqn:Epi; [apply Nat.eqb_eq in Epi|]; [|apply H1; assumption].
              apply H2; [exact Hj|exact Epi|lia].
      * change (h_end (heap_swap h i (parent i))) with (h_end h). intros j Hj Hpj Hpos. rewrite !V.
        assert (Hpp : parent (parent i) < parent i) by (apply parent_less; lia).
        assert (Ejp : j <> parent i) by (pose proof (parent_less j ltac:(lia)); lia).
        apply Nat.eqb_neq in Ejp. rewrite Ejp. 
        replace (parent (parent i) =? parent i) with false by (symmetry; apply Nat.eqb_neq; lia).
        replace (parent (parent i) =? i) with false by (symmetry; apply Nat.eqb_neq; lia).
        assert (Hup : (hval h (parent i) <= hval h (parent (parent i)))%Q) by (apply H1; lia).
        destruct (j =? i) eqn:Eji; [exact Hup|]. apply Nat.eqb_neq in Eji.
        specialize (H1 j Hj Eji). rewrite Hpj in H1. lra.
Qed.

Lemma sift_down_order n fuel : forall h i, hwf n h -> h_end h <= i + fuel ->
  (forall j, 0 < j < h_end h -> parent j <> i -> (hval h j <= hval h (parent j))%Q) ->
  (forall j, 0 < j < h_end h -> parent j = i -> 0 < i -> (hval h j <= hval h (parent i))%Q) ->
  heap_order (sift_down fuel h i).
Proof.
  induction fuel as [|fuel IH]; intros h i W Hf H1 H2; cbn [sift_down].
  - intros j Hj. apply H1; [exact Hj|]. pose proof (parent_less j ltac:(lia)). lia.
  - destruct (heap_locally h i) eqn:El.
    + intros j Hj. destruct (Nat.eq_dec (parent j) i) as [Hp|Hp]; [|apply H1; assumption].
      rewrite Hp. unfold heap_locally in El.
      destruct (parent_child j ltac:(lia)) as [Hj'|Hj']; rewrite Hp in Hj'.
      * assert (Hlf : is_leaf h i = false) by (unfold is_leaf; apply Nat.leb_gt; lia). rewrite Hlf in El.
        apply negb_true_iff, orb_false_iff in El. destruct El as [El _]. apply Qlt_bool_false in El.
        unfold hval. rewrite Hj'. exact El.
      * assert (Hlf : is_leaf h i = false) by (unfold is_leaf; apply Nat.leb_gt; lia). rewrite Hlf in El.
        apply negb_true_iff, orb_false_iff in El. destruct El as [_ El].
        assert (Hr : has_right h i = true) by (unfold has_right; apply Nat.ltb_lt; lia). rewrite Hr in El. cbn [andb] in El.
        apply Qlt_bool_false in El. unfold hval. rewrite Hj'. exact El.
    + pose proof (locally_false h i El) as Hlf. pose proof (largest_child_lt h i Hlf) as Hc.
      pose proof (hw_end _ _ W) as He.
      set (c := largest_child h i) in *.
      assert (Hpc : parent c = i /\ i < c).
      { destruct (largest_child_cases h i) as [Hc'|Hc']; fold c in Hc'; rewrite Hc'; [rewrite parent_left|rewrite parent_right]; lia. }
      destruct Hpc as [Hpc Hic].
      assert (Hbig : (hval h i < hval h c)%Q /\ forall j, 0 < j < h_end h -> parent j = i -> (hval h j <= hval h c)%Q).
      { unfold heap_locally in El. rewrite Hlf in El. apply negb_false_iff in El.
        unfold is_leaf in Hlf. apply Nat.leb_gt in Hlf.
        unfold c, largest_child. destruct (has_right h i) eqn:Er; cbn [andb] in *.
        - destruct (Qlt_bool (qget (h_val h) (2 * i + 1)) (qget (h_val h) (2 * i + 2))) eqn:Eb.
          + apply Qlt_bool_true in Eb. split.
            * apply orb_true_iff in El. unfold hval. destruct El as [El|El]; apply Qlt_bool_true in El; lra.
            * intros j Hj Hp. unfold hval. destruct (parent_child j ltac:(lia)) as [Hj'|Hj']; rewrite Hp in Hj'; rewrite Hj'; lra.
          + apply Qlt_bool_false in Eb. split.
            * apply orb_true_iff in El. unfold hval. destruct El as [El|El]; apply Qlt_bool_true in El; lra.
            * intros j Hj Hp. unfold hval. destruct (parent_child j ltac:(lia)) as [Hj'|Hj']; rewrite Hp in Hj'; rewrite Hj'; lra.
        - rewrite orb_false_r in El. apply Qlt_bool_true in El. split; [exact El|].
          intros j Hj Hp. unfold has_right in Er. apply Nat.ltb_ge in Er. unfold hval.
          destruct (parent_child j ltac:(lia)) as [Hj'|Hj']; rewrite Hp in Hj'; rewrite Hj'; [lra|lia]. }
      destruct Hbig as [Hbig Hmax].
      assert (V : forall p, hval (heap_swap h i c) p = if p =? c then hval h i else if p =? i then hval h c else hval h p).
      { intro p. apply (swap_val n); [exact W|lia|lia]. }
      apply IH.
      * apply swap_wf; [exact W|lia|lia].
      * change (h_end (heap_swap h i c)) with (h_end h). lia.
      * change (h_end (heap_swap h i c)) with (h_end h). intros j Hj Hne. rewrite !V.
        apply Nat.eqb_neq in Hne. rewrite Hne.
        destruct (j =? c) eqn:Ejc; [apply Nat.eqb_eq in Ejc; subst j|apply Nat.eqb_neq in Ejc].
        -- rewrite Hpc, Nat.eqb_refl. lra.
        -- destruct (j =? i) eqn:Eji; [apply Nat.eqb_eq in Eji; subst j|apply Nat.eqb_neq in Eji].
           ++ destruct (parent i =? i) eqn:Ep; [apply Nat.eqb_eq in Ep; pose proof (parent_less i ltac:(lia)); lia|].
              apply H2; [lia|exact Hpc|lia].
           ++ destruct (parent j =? i) eqn:Epi; [apply Nat.eqb_eq in Epi; apply Hmax; assumption|].
              apply Nat.eqb_neq in Epi. apply H1; assumption.
      * change (h_end (heap_swap h i c)) with (h_end h). intros j Hj Hp Hcpos. rewrite !V.
        pose proof (parent_less j ltac:(lia)).
        replace (j =? c) with false by (symmetry; apply Nat.eqb_neq; lia).
        replace (j =? i) with false by (symmetry; apply Nat.eqb_neq; lia).
        rewrite Hpc. replace (i =? c) with false by (symmetry; apply Nat.eqb_neq; lia). rewrite Nat.eqb_refl.
        rewrite <- Hp. apply H1; [exact Hj|lia].
Qed.

Lemma heap_root_max h : heap_order h -> forall j, j < h_end h -> (hval h j <= hval h 0)%Q.
Proof.
  intros H j. induction j as [j IH] using lt_wf_ind. intro Hj. destruct (Nat.eq_dec j 0) as [->|Hne]; [apply Qle_refl|].
  pose proof (parent_less j ltac:(lia)). eapply Qle_trans; [apply H; lia|]. apply IH; lia.
Qed.

(** ** The operations *)
Lemma pop_spec n h : hwf n h -> 0 < h_end h ->
  let '(k, h') := heap_pop h in
  hwf n h' /\ h_end h' = h_end h - 1 /\ k < n /\ key_in h k
  /\ (forall k', k' < n -> key_value h' k' = key_value h k')
  /\ (forall k', k' < n -> key_in h' k' <-> key_in h k' /\ k' <> k)
  /\ (heap_order h -> heap_order h' /\ forall k', k' < n -> key_in h k' -> (key_value h k' <= key_value h k)%Q).
Proof.
  intros W He. unfold heap_pop, heap_remove. set (k := nget (h_p2k h) 0).
  pose proof (hw_end _ _ W) as Hn. destruct (hw_pos _ _ W 0 ltac:(lia)) as [A1 A2]. fold k in A1, A2.
  rewrite A2. set (e := h_end h - 1). set (h1 := heap_swap h 0 e).
  assert (W1 : hwf n h1) by (apply swap_wf; [exact W|lia|unfold e; lia]).
  set (h2 := Heap (h_val h1) (h_k2p h1) (h_p2k h1) (h_end h1 - 1)).
  assert (W2 : hwf n h2).
  { destruct W1; constructor; try assumption. cbn [h2 h_end]. lia. }
  assert (E2 : h_end h2 = e) by reflexivity.
  assert (K2 : forall k', k' < n -> nget (h_k2p h2) k' = nget (h_k2p h1) k') by reflexivity.
  assert (B : nget (h_k2p h1) k = e).
  { unfold h1. rewrite (swap_k2p n) by (try exact W; unfold e; lia). fold k. rewrite Nat.eqb_refl.
    destruct (k =? nget (h_p2k h) e) eqn:E; [|reflexivity]. apply Nat.eqb_eq in E.
    destruct (hw_pos _ _ W e ltac:(unfold e; lia)) as [_ B2]. rewrite <- E in B2. congruence. }
  assert (V2 : forall k', k' < n -> key_value h2 k' = key_value h k').
  { intros k' Hk'. change (key_value h2 k') with (key_value h1 k'). apply (swap_key_value n); try assumption; unfold e; lia. }
  assert (I2 : forall k', k' < n -> key_in h2 k' <-> key_in h k' /\ k' <> k).
  { intros k' Hk'. pose proof (swap_key_in n h 0 e W ltac:(lia) ltac:(unfold e; lia) k' Hk' ltac:(lia) ltac:(unfold e; lia)) as Hi. fold h1 in Hi.
    unfold key_in in *. rewrite E2. change (h_k2p h2) with (h_k2p h1). change (h_end h1) with (h_end h) in Hi.
    split.
    - intro H. split; [apply Hi; unfold e in H; lia|]. intro Heq. subst k'. lia.
    - intros [H1 H2]. apply Hi in H1. assert (nget (h_k2p h1) k' <> e).
      { intro Heq. apply H2. destruct (hw_key _ _ W1 k' Hk') as [_ C2]. destruct (hw_key _ _ W1 k A1) as [_ D2]. congruence. }
      unfold e in *. lia. }
  assert (S3 : hsame n h2 (if (1 <? h_end h2) && (0 <? h_end h2) then sift_down (h_end h2) h2 0 else h2)).
  { destruct ((1 <? h_end h2) && (0 <? h_end h2)) eqn:E; [|apply hsame_refl; exact W2].
    apply sift_down_same; [exact W2|]. apply andb_true_iff in E. destruct E as [_ E]. apply Nat.ltb_lt in E. exact E. }
  set (h3 := if (1 <? h_end h2) && (0 <? h_end h2) then sift_down (h_end h2) h2 0 else h2) in *.
  destruct S3 as (S1 & S2 & S3 & S4).
  split; [exact S1|]. split; [rewrite S2; exact E2|]. split; [exact A1|]. split; [unfold key_in; rewrite A2; exact He|].
  split; [intros k' Hk'; rewrite S3, V2 by exact Hk'; reflexivity|].
  split; [intros k' Hk'; rewrite S4, I2 by exact Hk'; tauto|].
  intro Ho. split.
  - unfold h3. destruct ((1 <? h_end h2) && (0 <? h_end h2)) eqn:E.
    + apply (sift_down_order n); [exact W2|lia| |lia]. rewrite E2.
      intros j Hj Hp. assert (V : forall p, hval h2 p = if p =? e then hval h 0 else if p =? 0 then hval h e else hval h p).
      { intro p. apply (swap_val n); [exact W|lia|unfold e; lia]. }
      rewrite !V. pose proof (parent_less j ltac:(lia)).
      replace (j =? e) with false by (symmetry; apply Nat.eqb_neq; lia).
      replace (j =? 0) with false by (symmetry; apply Nat.eqb_neq; lia).
      replace (parent j =? e) with false by (symmetry; apply Nat.eqb_neq; lia).
      replace (parent j =? 0) with false by (symmetry; apply Nat.eqb_neq; lia).
      apply Ho. unfold e in Hj. lia.
    + intros j Hj. exfalso. rewrite E2 in E, Hj. apply andb_false_iff in E. destruct E as [E|E]; apply Nat.ltb_ge in E; lia.
  - intros k' Hk' Hin. unfold key_value. rewrite A2. apply (heap_root_max h Ho). exact Hin.
Qed.

(** Removing any present key. *)
Lemma sift_down_root n fuel : forall h i, hwf n h -> 0 < i < h_end h ->
  hval (sift_down fuel h i) 0 = hval h 0.
Proof.
  induction fuel as [|fuel IH]; intros h i W Hi; cbn [sift_down]; [reflexivity|].
  destruct (heap_locally h i) eqn:El; [reflexivity|].
  pose proof (largest_child_lt h i (locally_false h i El)) as Hc. pose proof (hw_end _ _ W) as He.
  assert (Hic : i < largest_child h i) by (destruct (largest_child_cases h i) as [E|E]; rewrite E; lia).
  rewrite IH; [|apply swap_wf; [exact W|lia|lia]|change (h_end (heap_swap h i (largest_child h i))) with (h_end h); lia].
  unfold hval. rewrite (swap_val n) by (try exact W; lia).
  replace (0 =? largest_child h i) with false by (symmetry; apply Nat.eqb_neq; lia).
  replace (0 =? i) with false by (symmetry; apply Nat.eqb_neq; lia). reflexivity.
Qed.

Lemma remove_spec n h k : hwf n h -> k < n -> key_in h k ->
  let h' := heap_remove h k in let i := nget (h_k2p h) k in let e := h_end h - 1 in
  hwf n h' /\ h_end h' = e
  /\ (forall k', k' < n -> key_value h' k' = key_value h k')
  /\ (forall k', k' < n -> key_in h' k' <-> key_in h k' /\ k' <> k)
  /\ (heap_order h -> forall j, j < e -> (hval h' j <= hval h' 0)%Q)
  /\ (heap_order h -> (heap_order h' <-> i = 0 \/ i = e \/ (hval h e <= hval h (parent i))%Q)).
Proof.
  intros W A1 Hin. unfold heap_remove. cbn zeta. pose proof (hw_end _ _ W) as Hn. destruct (hw_key _ _ W k A1) as [Hi A2].
  unfold key_in in Hin. set (i := nget (h_k2p h) k) in *. set (e := h_end h - 1). set (h1 := heap_swap h i e).
  assert (He : 0 < h_end h) by lia.
  assert (W1 : hwf n h1) by (apply swap_wf; [exact W|lia|unfold e; lia]).
  set (h2 := Heap (h_val h1) (h_k2p h1) (h_p2k h1) (h_end h1 - 1)).
  assert (W2 : hwf n h2).
  { destruct W1; constructor; try assumption. cbn [h2 h_end]. lia. }
  assert (E2 : h_end h2 = e) by reflexivity.
  assert (B : nget (h_k2p h1) k = e).
  { unfold h1. rewrite (swap_k2p n) by (try exact W; unfold e; lia). rewrite A2, Nat.eqb_refl.
    destruct (k =? nget (h_p2k h) e) eqn:E; [|reflexivity]. apply Nat.eqb_eq in E.
    destruct (hw_pos _ _ W e ltac:(unfold e; lia)) as [_ B2]. rewrite <- E in B2. unfold i. exact B2. }
  assert (V2 : forall k', k' < n -> key_value h2 k' = key_value h k').
  { intros k' Hk'. change (key_value h2 k') with (key_value h1 k'). apply (swap_key_value n); try assumption; unfold e; lia. }
  assert (I2 : forall k', k' < n -> key_in h2 k' <-> key_in h k' /\ k' <> k).
  { intros k' Hk'. pose proof (swap_key_in n h i e W ltac:(lia) ltac:(unfold e; lia) k' Hk' ltac:(lia) ltac:(unfold e; lia)) as Hk. fold h1 in Hk.
    unfold key_in in *. rewrite E2. change (h_k2p h2) with (h_k2p h1). change (h_end h1) with (h_end h) in Hk.
    split.
    - intro H. split; [apply Hk; unfold e in H; lia|]. intro Heq. subst k'. lia.
    - intros [H1 H2]. apply Hk in H1. assert (nget (h_k2p h1) k' <> e).
      { intro Heq. apply H2. destruct (hw_key _ _ W1 k' Hk') as [_ C2]. destruct (hw_key _ _ W1 k A1) as [_ D2]. congruence. }
      unfold e in *. lia. }
  assert (S3 : hsame n h2 (if (1 <? h_end h2) && (i <? h_end h2) then sift_down (h_end h2) h2 i else h2)).
  { destruct ((1 <? h_end h2) && (i <? h_end h2)) eqn:E; [|apply hsame_refl; exact W2].
    apply sift_down_same; [exact W2|]. apply andb_true_iff in E. destruct E as [_ E]. apply Nat.ltb_lt in E. exact E. }
  set (h3 := if (1 <? h_end h2) && (i <? h_end h2) then sift_down (h_end h2) h2 i else h2) in *.
  destruct S3 as (S1 & S2 & S3 & S4).
  assert (V : forall p, hval h2 p = if p =? e then hval h i else if p =? i then hval h e else hval h p).
  { intro p. apply (swap_val n); [exact W|lia|unfold e; lia]. }
  (* the order after the removal *)
  assert (HO : heap_order h -> (heap_order h3 <-> i = 0 \/ i = e \/ (hval h e <= hval h (parent i))%Q)).
  { intro Ho. destruct (Nat.eq_dec i e) as [Hie|Hie].
    - split; [auto|]. intros _. unfold h3. rewrite E2, Hie, Nat.ltb_irrefl, andb_false_r.
      intros j Hj. rewrite E2 in Hj. rewrite !V. pose proof (parent_less j ltac:(lia)).
      replace (j =? e) with false by (symmetry; apply Nat.eqb_neq; lia). replace (parent j =? e) with false by (symmetry; apply Nat.eqb_neq; lia).
      rewrite Hie. replace (j =? e) with false by (symmetry; apply Nat.eqb_neq; lia). replace (parent j =? e) with false by (symmetry; apply Nat.eqb_neq; lia).
      apply Ho. unfold e in *. lia.
    - assert (Hlt : i < e) by (unfold e in *; lia).
      assert (HV : forall j, 0 < j < e -> hval h2 j = (if j =? i then hval h e else hval h j) /\ hval h2 (parent j) = if parent j =? i then hval h e else hval h (parent j)).
      { intros j Hj. rewrite !V. pose proof (parent_less j ltac:(lia)).
        replace (j =? e) with false by (symmetry; apply Nat.eqb_neq; lia). replace (parent j =? e) with false by (symmetry; apply Nat.eqb_neq; lia). auto. }
      assert (Hup : forall j, 0 < j < e -> parent j = i -> 0 < i -> (hval h j <= hval h (parent i))%Q).
      { intros j Hj Hp H0. eapply Qle_trans; [apply Ho; unfold e in *; lia|]. rewrite Hp. apply Ho. lia. }
      split.
      + intro H3. destruct (Nat.eq_dec i 0) as [H0|H0]; [auto|]. right. right. unfold h3 in H3. rewrite E2 in H3.
        replace (1 <? e) with true in H3 by (symmetry; apply Nat.ltb_lt; lia). replace (i <? e) with true in H3 by (symmetry; apply Nat.ltb_lt; lia). cbn [andb] in H3.
        destruct (Qlt_le_dec (hval h (parent i)) (hval h e)) as [Hq|Hq]; [|exact Hq]. exfalso.
        assert (El : heap_locally h2 i = true).
        { unfold heap_locally. destruct (is_leaf h2 i) eqn:Ef; [reflexivity|]. unfold is_leaf in Ef. rewrite E2 in Ef. apply Nat.leb_gt in Ef.
          apply negb_true_iff, orb_false_iff.
          assert (Hone : forall j, 0 < j < e -> parent j = i -> Qlt_bool (qget (h_val h2) i) (qget (h_val h2) j) = false).
          { intros j Hj Hp. unfold Qlt_bool. apply negb_false_iff, Qle_bool_iff. change (hval h2 j <= hval h2 i)%Q.
            destruct (HV j Hj) as [X1 X2]. rewrite Hp, Nat.eqb_refl in X2. rewrite X1, X2. pose proof (parent_less j ltac:(lia)).
            replace (j =? i) with false by (symmetry; apply Nat.eqb_neq; lia). pose proof (Hup j Hj Hp ltac:(lia)). lra. }
          split; [apply Hone; [lia|apply parent_left]|]. unfold has_right. rewrite E2. destruct (2 * i + 2 <? e) eqn:Er; [|reflexivity].
          apply Nat.ltb_lt in Er. cbn [andb]. apply Hone; [lia|apply parent_right]. }
        assert (Es : sift_down e h2 i = h2) by (destruct e; cbn [sift_down]; [reflexivity|]; rewrite El; reflexivity).
        rewrite Es in H3. specialize (H3 i ltac:(rewrite E2; lia)). destruct (HV i ltac:(lia)) as [X1 X2]. rewrite X1, X2, Nat.eqb_refl in H3.
        pose proof (parent_less i ltac:(lia)). replace (parent i =? i) with false in H3 by (symmetry; apply Nat.eqb_neq; lia). lra.
      + intro Hc. unfold h3. rewrite E2. destruct ((1 <? e) && (i <? e)) eqn:E.
        * apply (sift_down_order n); [exact W2|lia| |]; rewrite E2.
          -- intros j Hj Hp. destruct (HV j Hj) as [X1 X2]. rewrite X1, X2. replace (parent j =? i) with false by (symmetry; apply Nat.eqb_neq; exact Hp).
             destruct (j =? i) eqn:Ej; [|apply Ho; unfold e in *; lia]. apply Nat.eqb_eq in Ej. subst j. destruct Hc as [Hc|[Hc|Hc]]; [lia|lia|exact Hc].
          -- intros j Hj Hp H0. destruct (HV j Hj) as [X1 _]. rewrite X1. pose proof (parent_less j ltac:(lia)).
             replace (j =? i) with false by (symmetry; apply Nat.eqb_neq; lia). rewrite V. pose proof (parent_less i ltac:(lia)).
             replace (parent i =? e) with false by (symmetry; apply Nat.eqb_neq; lia). replace (parent i =? i) with false by (symmetry; apply Nat.eqb_neq; lia).
             apply Hup; assumption.
        * apply andb_false_iff in E. intros j Hj. rewrite E2 in Hj. exfalso. destruct E as [E|E]; apply Nat.ltb_ge in E; lia. }
  split; [exact S1|]. split; [rewrite S2; exact E2|].
  split; [intros k' Hk'; rewrite S3, V2 by exact Hk'; reflexivity|].
  split; [intros k' Hk'; rewrite S4, I2 by exact Hk'; tauto|].
  split; [|exact HO].
  intros Ho j Hj. destruct (Nat.eq_dec i 0) as [H0|H0].
  - apply heap_root_max; [apply HO; auto|rewrite S2, E2; exact Hj].
  - assert (R : hval h3 0 = hval h 0).
    { assert (R2 : hval h2 0 = hval h 0).
      { rewrite V. replace (0 =? e) with false by (symmetry; apply Nat.eqb_neq; unfold e in *; lia).
        replace (0 =? i) with false by (symmetry; apply Nat.eqb_neq; lia). reflexivity. }
      unfold h3. destruct ((1 <? h_end h2) && (i <? h_end h2)) eqn:E; [|exact R2]. apply andb_true_iff in E. destruct E as [_ E]. apply Nat.ltb_lt in E.
      rewrite (sift_down_root n) by (try exact W2; lia). exact R2. }
    rewrite R. destruct (hw_pos _ _ S1 j ltac:(unfold e in *; lia)) as [P1 P2].
    assert (Hv : hval h3 j = key_value h3 (nget (h_p2k h3) j)) by (unfold key_value; rewrite P2; reflexivity).
    rewrite Hv, S3, V2 by exact P1. unfold key_value. apply (heap_root_max h Ho).
    assert (Hk : key_in h3 (nget (h_p2k h3) j)) by (unfold key_in; rewrite P2, S2, E2; exact Hj).
    apply S4 in Hk; [|exact P1]. apply I2 in Hk; [|exact P1]. apply Hk.
Qed.

Lemma readd_spec n h k : hwf n h -> k < n -> ~ key_in h k ->
  let h' := heap_readd h k in
  hwf n h' /\ h_end h' = S (h_end h)
  /\ (forall k', k' < n -> key_value h' k' = key_value h k')
  /\ (forall k', k' < n -> key_in h' k' <-> key_in h k' \/ k' = k)
  /\ (heap_order h -> heap_order h').
Proof.
  intros W Hk Hni. unfold heap_readd. cbn zeta. pose proof (hw_end _ _ W) as Hn.
  destruct (hw_key _ _ W k Hk) as [A1 A2]. set (i := nget (h_k2p h) k) in *. unfold key_in in Hni. fold i in Hni.
  set (e := h_end h) in *. set (h1 := heap_swap h i e).
  assert (W1 : hwf n h1) by (apply swap_wf; [exact W|lia|lia]).
  set (h2 := Heap (h_val h1) (h_k2p h1) (h_p2k h1) (S (h_end h1))).
  assert (W2 : hwf n h2).
  { destruct W1; constructor; try assumption. cbn [h2 h_end]. change (h_end h1) with e. lia. }
  assert (E2 : h_end h2 = S e) by reflexivity. rewrite E2. cbn [Nat.sub]. rewrite Nat.sub_0_r.
  assert (V2 : forall k', k' < n -> key_value h2 k' = key_value h k').
  { intros k' Hk'. change (key_value h2 k') with (key_value h1 k'). apply (swap_key_value n); try assumption; lia. }
  assert (B : nget (h_k2p h2) k = e).
  { change (h_k2p h2) with (h_k2p h1). unfold h1. rewrite (swap_k2p n) by (try exact W; lia). rewrite A2, Nat.eqb_refl.
    destruct (k =? nget (h_p2k h) e) eqn:E; [|reflexivity]. apply Nat.eqb_eq in E.
    destruct (hw_pos _ _ W e ltac:(lia)) as [_ B2]. rewrite <- E in B2. unfold i. exact B2. }
  assert (I2 : forall k', k' < n -> key_in h2 k' <-> key_in h k' \/ k' = k).
  { intros k' Hk'. destruct (Nat.eq_dec k' k) as [->|Hne].
    - split; [auto|]. intros _. unfold key_in. rewrite B, E2. lia.
    - unfold key_in. rewrite E2. change (h_k2p h2) with (h_k2p h1). unfold h1. rewrite (swap_k2p n) by (try exact W; lia).
      fold e. destruct (hw_key _ _ W k' Hk') as [C1 C2]. rewrite A2.
      replace (k' =? k) with false by (symmetry; apply Nat.eqb_neq; exact Hne).
      destruct (k' =? nget (h_p2k h) e) eqn:E.
      + apply Nat.eqb_eq in E. destruct (hw_pos _ _ W e) as [D1 D2]; [lia|]. rewrite <- E in D2. rewrite D2.
        assert (i <> e) by (intro Heq; apply Hne; rewrite E, <- Heq; exact A2). split; [lia|]. intros [H'|H']; [lia|contradiction].
      + split.
        * intro H. left. assert (nget (h_k2p h) k' <> e) by (intro Heq; rewrite <- C2, Heq, Nat.eqb_refl in E; discriminate). lia.
        * intros [H|H]; [lia|contradiction]. }
  assert (S3 : hsame n h2 (sift_up e h2 e)) by (apply sift_up_same; [exact W2|rewrite E2; lia]).
  destruct S3 as (S1 & S2 & S3 & S4).
  split; [exact S1|]. split; [rewrite S2; exact E2|].
  split; [intros k' Hk'; rewrite S3, V2 by exact Hk'; reflexivity|].
  split; [intros k' Hk'; rewrite S4, I2 by exact Hk'; tauto|].
  intro Ho. apply (sift_up_order n); [exact W2|rewrite E2; lia|lia| |].
  - rewrite E2. intros j Hj Hne. assert (V : forall p, hval h2 p = if p =? e then hval h i else if p =? i then hval h e else hval h p).
    { intro p. apply (swap_val n); [exact W|lia|lia]. }
    rewrite !V. pose proof (parent_less j ltac:(lia)).
    replace (j =? e) with false by (symmetry; apply Nat.eqb_neq; lia).
    replace (j =? i) with false by (symmetry; apply Nat.eqb_neq; lia).
    replace (parent j =? e) with false by (symmetry; apply Nat.eqb_neq; lia).
    replace (parent j =? i) with false by (symmetry; apply Nat.eqb_neq; lia).
    apply Ho. fold e. lia.
  - rewrite E2. intros j Hj Hp. pose proof (parent_less j ltac:(lia)). lia.
Qed.

Lemma increment_spec n h k z : hwf n h -> k < n ->
  let h' := heap_increment h k z in
  hwf n h' /\ h_end h' = h_end h
  /\ (forall k', k' < n -> key_value h' k' = if k' =? k then (key_value h k + z)%Q else key_value h k')
  /\ (forall k', k' < n -> key_in h' k' <-> key_in h k')
  /\ ((0 <= z)%Q -> heap_order h -> heap_order h').
Proof.
  intros W Hk. unfold heap_increment. cbn zeta. destruct (hw_key _ _ W k Hk) as [A1 A2]. set (i := nget (h_k2p h) k) in *.
  set (h1 := Heap (set_nth i (qget (h_val h) i + z)%Q (h_val h)) (h_k2p h) (h_p2k h) (h_end h)).
  assert (W1 : hwf n h1).
  { destruct W; constructor; try assumption. cbn [h1 h_val]. rewrite set_nth_length. assumption. }
  assert (V : forall p, hval h1 p = if p =? i then (hval h i + z)%Q else hval h p).
  { intro p. unfold hval, h1, qget. cbn [h_val]. rewrite nth_set_nth, (hw_val _ _ W).
    apply Nat.ltb_lt in A1. rewrite A1, andb_true_r. reflexivity. }
  assert (V1 : forall k', k' < n -> key_value h1 k' = if k' =? k then (key_value h k + z)%Q else key_value h k').
  { intros k' Hk'. unfold key_value. change (h_k2p h1) with (h_k2p h). fold (hval h1 (nget (h_k2p h) k')). rewrite V.
    destruct (k' =? k) eqn:E.
    - apply Nat.eqb_eq in E. subst k'. fold i. rewrite Nat.eqb_refl. reflexivity.
    - apply Nat.eqb_neq in E. replace (nget (h_k2p h) k' =? i) with false; [reflexivity|].
      symmetry. apply Nat.eqb_neq. intro Heq. apply E. destruct (hw_key _ _ W k' Hk') as [_ C2]. congruence. }
  assert (S3 : hsame n h1 (if i <? h_end h1 then sift_up i h1 i else h1)).
  { destruct (i <? h_end h1) eqn:E; [|apply hsame_refl; exact W1]. apply Nat.ltb_lt in E. apply sift_up_same; assumption. }
  pose proof S3 as (S1 & S2 & S3' & S4).
  split; [exact S1|]. split; [rewrite S2; reflexivity|].
  split; [intros k' Hk'; rewrite S3', V1 by exact Hk'; reflexivity|].
  split; [intros k' Hk'; rewrite S4 by exact Hk'; reflexivity|].
  intros Hz Ho. destruct (i <? h_end h1) eqn:E.
  - apply Nat.ltb_lt in E. change (h_end h1) with (h_end h) in E.
    assert (Hle : forall j, 0 < j < h_end h -> j <> i -> (hval h1 j <= hval h1 (parent j))%Q).
    { intros j Hj Hne. rewrite !V. apply Nat.eqb_neq in Hne. rewrite Hne. specialize (Ho j Hj).
      destruct (parent j =? i) eqn:Ep; [apply Nat.eqb_eq in Ep; rewrite Ep in Ho; lra|exact Ho]. }
    apply (sift_up_order n); [exact W1|exact E|lia|exact Hle|].
    change (h_end h1) with (h_end h). intros j Hj Hp Hi. rewrite !V.
    pose proof (parent_less j ltac:(lia)). pose proof (parent_less i ltac:(lia)).
    replace (j =? i) with false by (symmetry; apply Nat.eqb_neq; lia).
    replace (parent i =? i) with false by (symmetry; apply Nat.eqb_neq; lia).
    pose proof (Ho j Hj) as Q1. rewrite Hp in Q1. pose proof (Ho i ltac:(lia)). lra.
  - apply Nat.ltb_ge in E. change (h_end h1) with (h_end h) in E. intros j Hj. change (h_end h1) with (h_end h) in Hj. rewrite !V.
    pose proof (parent_less j ltac:(lia)).
    replace (j =? i) with false by (symmetry; apply Nat.eqb_neq; lia).
    replace (parent j =? i) with false by (symmetry; apply Nat.eqb_neq; lia). apply Ho. exact Hj.
Qed.

Lemma new_order n : heap_order (heap_new n).
Proof.
  intros j Hj. unfold hval, qget. cbn [heap_new h_val]. rewrite !nth_repeat. apply Qle_refl.
Qed.

Lemma heap_empty_in n h k : hwf n h -> h_end h = 0 -> ~ key_in h k.
Proof. intros W He. unfold key_in. lia. Qed.

(** Popping everything. *)
Lemma pop_all_spec n : forall m h, hwf n h -> h_end h = m ->
  NoDup (heap_pop_all m h) /\ (forall k, In k (heap_pop_all m h) <-> k < n /\ key_in h k)
  /\ (heap_order h -> StronglySorted (fun a b => (key_value h b <= key_value h a)%Q) (heap_pop_all m h)).
Proof.
  induction m as [|m IH]; intros h W He; cbn [heap_pop_all].
  - split; [constructor|]. split; [|constructor]. intro k. split; [intros []|]. intros [_ H]. unfold key_in in H. lia.
  - pose proof (pop_spec n h W ltac:(lia)) as Hp. destruct (heap_pop h) as [k h'].
    destruct Hp as (P1 & P2 & P3 & P4 & P5 & P6 & P7). destruct (IH h' P1 ltac:(lia)) as (I1 & I2 & I3).
    split; [|split].
    + constructor; [|exact I1]. intro Hin. apply I2 in Hin. destruct Hin as [H1 H2]. apply P6 in H2; [|exact H1]. tauto.
    + intro k'. cbn [In]. rewrite I2. split.
      * intros [<-|[H1 H2]]; [auto|]. apply P6 in H2; tauto.
      * intros [H1 H2]. destruct (Nat.eq_dec k' k) as [->|Hne]; [auto|]. right. split; [exact H1|]. apply P6; auto.
    + intro Ho. destruct (P7 Ho) as [Q1 Q2]. constructor.
      * specialize (I3 Q1). revert I3 I2. generalize (heap_pop_all m h'). intros l I3 I2. 
        assert (Hl : forall a, In a l -> a < n) by (intros a Ha; apply I2 in Ha; apply Ha). clear I2.
        induction I3 as [|a l Hs IHs Hall]; constructor.
        -- apply IHs. intros b Hb. apply Hl. right. exact Hb.
        -- rewrite Forall_forall in *. intros b Hb. specialize (Hall b Hb).
           rewrite !P5 in Hall by (apply Hl; [right; exact Hb] || apply Hl; left; reflexivity). exact Hall.
      * apply Forall_forall. intros b Hb. apply I2 in Hb. destruct Hb as [H1 H2]. apply P6 in H2; [|exact H1]. apply Q2; tauto.
Qed.

Lemma clear_spec n : forall m h, hwf n h -> h_end h = m -> heap_order h ->
  hwf n (heap_clear m h) /\ h_end (heap_clear m h) = 0 /\ heap_order (heap_clear m h)
  /\ forall k, k < n -> key_value (heap_clear m h) k = key_value h k.
Proof.
  induction m as [|m IH]; intros h W He Ho; cbn [heap_clear]; [auto|].
  pose proof (pop_spec n h W ltac:(lia)) as Hp. destruct (heap_pop h) as [k h']. cbn [snd].
  destruct Hp as (P1 & P2 & P3 & P4 & P5 & P6 & P7). destruct (P7 Ho) as [Q1 _].
  destruct (IH h' P1 ltac:(lia) Q1) as (I1 & I2 & I3 & I4). split; [exact I1|]. split; [exact I2|]. split; [exact I3|].
  intros k' Hk'. rewrite I4, P5 by exact Hk'. reflexivity.
Qed.

(** The heap of the Gini selector after [m] features. *)
Lemma gini_fold n (g : nat -> Q) m h : m <= n -> hwf n h -> h_end h = 0 -> (forall k, k < n -> key_value h k = 0%Q) ->
  let h' := fold_left (fun h f => heap_increment (heap_readd h f) f (g f)) (seq 0 m) h in
  hwf n h' /\ h_end h' = m /\ (forall k, k < n -> key_in h' k <-> k < m)
  /\ (forall k, k < n -> key_value h' k = if k <? m then (0 + g k)%Q else 0%Q)
  /\ ((forall k, k < n -> (0 <= g k)%Q) -> heap_order h').
Proof.
  induction m as [|m IH]; intros Hm W He Hv.
  - cbn [seq fold_left]. cbn zeta. split; [exact W|]. split; [exact He|]. split; [|split; [exact Hv|]].
    + intros k Hk. unfold key_in. lia.
    + intros _ j Hj. lia.
  - rewrite seq_S, fold_left_app. cbn [fold_left]. change (0 + m) with m. cbn zeta in *.
    destruct (IH ltac:(lia) W He Hv) as (I1 & I2 & I3 & I4 & I5).
    set (h1 := fold_left (fun h f => heap_increment (heap_readd h f) f (g f)) (seq 0 m) h) in *.
    assert (Hni : ~ key_in h1 m) by (rewrite I3 by lia; lia).
    destruct (readd_spec n h1 m I1 ltac:(lia) Hni) as (R1 & R2 & R3 & R4 & R5).
    destruct (increment_spec n (heap_readd h1 m) m (g m) R1 ltac:(lia)) as (J1 & J2 & J3 & J4 & J5).
    split; [exact J1|]. split; [congruence|]. split; [|split].
    + intros k Hk. rewrite J4, R4, I3 by exact Hk. lia.
    + intros k Hk. rewrite J3 by exact Hk. destruct (k =? m) eqn:E.
      * apply Nat.eqb_eq in E. subst k. rewrite R3, I4 by lia. rewrite Nat.ltb_irrefl.
        replace (m <? S m) with true by (symmetry; apply Nat.ltb_lt; lia). reflexivity.
      * apply Nat.eqb_neq in E. rewrite R3, I4 by exact Hk.
        replace (k <? S m) with (k <? m); [reflexivity|]. apply Bool.eq_iff_eq_true. rewrite !Nat.ltb_lt. lia.
    + intro Hg. apply J5; [apply Hg; lia|]. apply R5. apply I5. exact Hg.
Qed.

Lemma gini_heap_spec nf v :
  hwf nf (gini_heap nf v) /\ h_end (gini_heap nf v) = nf
  /\ (forall k, k < nf -> key_in (gini_heap nf v) k)
  /\ (forall k, k < nf -> key_value (gini_heap nf v) k = (0 + gini_value v k)%Q)
  /\ ((forall k, k < nf -> (0 <= gini_value v k)%Q) -> heap_order (gini_heap nf v)).
Proof.
  destruct (clear_spec nf nf (heap_new nf) (hwf_new nf) eq_refl (new_order nf)) as (C1 & C2 & _ & C4).
  assert (Hv : forall k, k < nf -> key_value (heap_clear nf (heap_new nf)) k = 0%Q).
  { intros k Hk. rewrite C4 by exact Hk. unfold key_value, qget. cbn [heap_new h_val]. apply nth_repeat. }
  destruct (gini_fold nf (gini_value v) nf _ (le_n _) C1 C2 Hv) as (H1 & H2 & H3 & H4 & H5).
  fold (gini_heap nf v) in *. split; [exact H1|]. split; [exact H2|]. split; [|split].
  - intros k Hk. apply H3; exact Hk.
  - intros k Hk. pose proof (H4 k Hk) as Hk4. apply Nat.ltb_lt in Hk. rewrite Hk in Hk4. exact Hk4.
  - exact H5.
Qed.

Lemma order_gini_perm nf v : Permutation (order_gini nf v) (seq 0 nf).
Proof.
  destruct (gini_heap_spec nf v) as (H1 & H2 & H3 & _).
  destruct (pop_all_spec nf nf _ H1 H2) as (P1 & P2 & _).
  apply NoDup_Permutation; [exact P1|apply seq_NoDup|]. intro k. unfold order_gini. rewrite P2, in_seq.
  split; [intros [A _]; lia|]. intros [_ A]. split; [lia|]. apply H3. lia.
Qed.

(** ** The impurity gain is never negative *)
Definition total (c : list nat) : nat := fold_right Nat.add 0 c.
Definition sq_sum (c : list nat) : Z := fold_right (fun k a => Z.of_nat k * Z.of_nat k + a)%Z 0%Z c.
Definition qn (k : nat) : Q := inject_Z (Z.of_nat k).

Lemma qn_pos k : k <> 0 -> (0 < qn k)%Q.
Proof. intro H. unfold qn. rewrite <- (Zlt_Qlt 0). lia. Qed.

Lemma gini_sum c n : n <> 0 ->
  (fold_right (fun c a => (qn c / qn n) ^ 2 + a) 0 c * (qn n * qn n) == inject_Z (sq_sum c))%Q.
Proof.
  intro Hn. pose proof (qn_pos n Hn) as Hp. induction c as [|k c IH]; cbn [fold_right sq_sum].
  - unfold inject_Z. ring.
  - rewrite inject_Z_plus, inject_Z_mult. fold (qn k). rewrite Qmult_plus_distr_l.
    unfold sq_sum in IH. rewrite IH.
    assert (E : ((qn k / qn n) ^ 2 * (qn n * qn n) == qn k * qn k)%Q); [|rewrite E; reflexivity].
    unfold Qpower, Qpower_positive. cbn [pow_pos]. field. lra.
Qed.

(** n^2 times the impurity. *)
Lemma gini_of_eq c : total c <> 0 ->
  (gini_of c * (qn (total c) * qn (total c)) == qn (total c) * qn (total c) - inject_Z (sq_sum c))%Q.
Proof.
  intro Hn. unfold gini_of. fold (total c). replace (total c =? 0) with false by (symmetry; apply Nat.eqb_neq; exact Hn).
  pose proof (gini_sum c (total c) Hn) as H. unfold qn in *. rewrite Qmult_comm. rewrite <- H. ring.
Qed.

Lemma sq_sum_nonneg c : (0 <= sq_sum c)%Z.
Proof. induction c; cbn [sq_sum fold_right]; [lia|]. fold (sq_sum c). nia. Qed.

Definition pair_sum (p : nat * nat) : nat := fst p + snd p.

Lemma titu (l r : list nat) (nl nr : Z) : length l = length r ->
  (nl * nr * sq_sum (map pair_sum (combine l r)) <= nr * (nl + nr) * sq_sum l + nl * (nl + nr) * sq_sum r)%Z.
Proof.
  revert r; induction l as [|a l IH]; intros [|b r] Hlen; try discriminate; [cbn; lia|].
  cbn [combine map pair_sum fst snd sq_sum fold_right]. fold (sq_sum l) (sq_sum r).
  change (fold_right (fun k a0 => Z.of_nat k * Z.of_nat k + a0)%Z 0%Z (map pair_sum (combine l r))) with (sq_sum (map pair_sum (combine l r))).
  specialize (IH r ltac:(cbn in Hlen; lia)). unfold pair_sum at 1 2. cbn [fst snd]. rewrite !Nat2Z.inj_add.
  generalize (sq_sum (map pair_sum (combine l r))) (sq_sum l) (sq_sum r) IH.
  generalize (Z.of_nat a) (Z.of_nat b). intros x y sc sl sr H.
  pose proof (Z.square_nonneg (nr * x - nl * y)) as Hsq.
  assert (E : (nr * (nl + nr) * (x * x) + nl * (nl + nr) * (y * y) - nl * nr * ((x + y) * (x + y)) = (nr * x - nl * y) * (nr * x - nl * y))%Z) by ring.
  rewrite !Z.mul_add_distr_l with (p := sl), !Z.mul_add_distr_l with (p := sr), !Z.mul_add_distr_l with (p := sc). lia.
Qed.

Lemma combine_total l r : length l = length r ->
  total (map pair_sum (combine l r)) = total l + total r.
Proof.
  revert r; induction l as [|a l IH]; intros [|b r] H; try discriminate; [reflexivity|].
  cbn [combine map pair_sum total fold_right fst snd]. fold (total l) (total r). fold (total (map pair_sum (combine l r))). rewrite IH by (cbn in H; lia). unfold pair_sum. cbn [fst snd]. lia.
Qed.

Lemma sq_sum_zero c : total c = 0 -> sq_sum c = 0%Z.
Proof. induction c as [|k c IH]; [reflexivity|]. cbn [total sq_sum fold_right]. fold (total c) (sq_sum c). intro H. rewrite IH by lia. replace k with 0 by lia. reflexivity. Qed.

Lemma sq_sum_left l r : length l = length r -> total r = 0 -> sq_sum (map pair_sum (combine l r)) = sq_sum l.
Proof.
  revert r; induction l as [|a l IH]; intros [|b r] H; try discriminate; [reflexivity|]. cbn [combine map pair_sum total sq_sum fold_right fst snd].
  fold (total r). intro Ht. unfold sq_sum in IH. rewrite IH by (cbn in H; lia). replace b with 0 by lia. unfold pair_sum. cbn [fst snd]. rewrite Nat.add_0_r. reflexivity.
Qed.
Lemma sq_sum_right l r : length l = length r -> total l = 0 -> sq_sum (map pair_sum (combine l r)) = sq_sum r.
Proof.
  revert r; induction l as [|a l IH]; intros [|b r] H; try discriminate; [reflexivity|]. cbn [combine map pair_sum total sq_sum fold_right fst snd].
  fold (total l). intro Ht. unfold sq_sum in IH. rewrite IH by (cbn in H; lia). replace a with 0 by lia. reflexivity.
Qed.

Lemma gain_nonneg l r : length l = length r ->
  let c := map pair_sum (combine l r) in
  (0 <= gini_of c - qn (total l) / qn (total c) * gini_of l - qn (total r) / qn (total c) * gini_of r)%Q.
Proof.
  intros Hlen c. pose proof (combine_total l r Hlen) as Ht. fold c in Ht.
  destruct (Nat.eq_dec (total c) 0) as [Hz|Hz].
  - rewrite Hz. unfold gini_of at 1. fold (total c). rewrite Hz. cbn [Nat.eqb].
    assert (Hl : total l = 0) by lia. assert (Hr : total r = 0) by lia. rewrite Hl, Hr.
    change (qn 0) with 0%Q. assert (E0 : (0 / 0 == 0)%Q) by reflexivity. rewrite E0. lra.
  - pose proof (gini_of_eq c Hz) as Gc. pose proof (qn_pos _ Hz) as Pc.
    destruct (Nat.eq_dec (total l) 0) as [Hl|Hl]; [|destruct (Nat.eq_dec (total r) 0) as [Hr|Hr]].
    + assert (Hr : total r = total c) by lia. rewrite Hl, Hr.
      assert (Gr : (gini_of r * (qn (total c) * qn (total c)) == qn (total c) * qn (total c) - inject_Z (sq_sum r))%Q).
      { rewrite <- Hr. apply gini_of_eq. lia. }
      assert (E : sq_sum c = sq_sum r) by (apply sq_sum_right; assumption). rewrite E in Gc.
      assert (Eg : (gini_of c == gini_of r)%Q).
      { apply (Qmult_inj_r _ _ (qn (total c) * qn (total c))); [intro H0; apply Qmult_integral in H0; lra|]. rewrite Gc, Gr. reflexivity. }
      rewrite Eg. unfold qn at 1. change (inject_Z (Z.of_nat 0)) with 0%Q.
      assert (E0 : (0 / qn (total c) == 0)%Q) by (unfold Qdiv; ring). assert (E1 : (qn (total c) / qn (total c) == 1)%Q) by (field; lra).
      rewrite E0, E1. lra.
    + assert (Hl' : total l = total c) by lia. rewrite Hr, Hl'.
      assert (Gl : (gini_of l * (qn (total c) * qn (total c)) == qn (total c) * qn (total c) - inject_Z (sq_sum l))%Q).
      { rewrite <- Hl'. apply gini_of_eq. lia. }
      assert (E : sq_sum c = sq_sum l) by (apply sq_sum_left; assumption). rewrite E in Gc.
      assert (Eg : (gini_of c == gini_of l)%Q).
      { apply (Qmult_inj_r _ _ (qn (total c) * qn (total c))); [intro H0; apply Qmult_integral in H0; lra|]. rewrite Gc, Gl. reflexivity. }
      rewrite Eg. unfold qn at 3. change (inject_Z (Z.of_nat 0)) with 0%Q.
      assert (E0 : (0 / qn (total c) == 0)%Q) by (unfold Qdiv; ring). assert (E1 : (qn (total c) / qn (total c) == 1)%Q) by (field; lra).
      rewrite E0, E1. lra.
    + pose proof (gini_of_eq l Hl) as Gl. pose proof (gini_of_eq r Hr) as Gr.
      pose proof (qn_pos _ Hl) as Pl. pose proof (qn_pos _ Hr) as Pr.
      assert (Ec : (qn (total c) == qn (total l) + qn (total r))%Q).
      { unfold qn. rewrite Ht, Nat2Z.inj_add, inject_Z_plus. reflexivity. }
      pose proof (titu l r (Z.of_nat (total l)) (Z.of_nat (total r)) Hlen) as Tz. fold c in Tz.
      assert (Tq : (qn (total l) * qn (total r) * inject_Z (sq_sum c)
                    <= qn (total r) * (qn (total l) + qn (total r)) * inject_Z (sq_sum l) + qn (total l) * (qn (total l) + qn (total r)) * inject_Z (sq_sum r))%Q).
      { unfold qn. rewrite <- inject_Z_plus, <- !inject_Z_mult, <- inject_Z_plus, <- Zle_Qle. exact Tz. }
      revert Gc Gl Gr Pc Pl Pr Ec Tq. generalize (gini_of c) (gini_of l) (gini_of r) (qn (total c)) (qn (total l)) (qn (total r)) (inject_Z (sq_sum c)) (inject_Z (sq_sum l)) (inject_Z (sq_sum r)).
      intros gc gl gr n a b sc sl sr Gc Gl Gr Pn Pa Pb En Tq.
      assert (X : (gc - a / n * gl - b / n * gr == ((b * (a + b) * sl + a * (a + b) * sr) - a * b * sc) / (n * n * a * b))%Q).
      { assert (Hgc : (gc == 1 - sc / (n * n))%Q).
        { apply (Qmult_inj_r _ _ (n * n)); [intro H0; apply Qmult_integral in H0; lra|]. rewrite Gc. field. lra. }
        assert (Hgl : (gl == 1 - sl / (a * a))%Q).
        { apply (Qmult_inj_r _ _ (a * a)); [intro H0; apply Qmult_integral in H0; lra|]. rewrite Gl. field. lra. }
        assert (Hgr : (gr == 1 - sr / (b * b))%Q).
        { apply (Qmult_inj_r _ _ (b * b)); [intro H0; apply Qmult_integral in H0; lra|]. rewrite Gr. field. lra. }
        rewrite Hgc, Hgl, Hgr, En. field. repeat split; lra. }
      rewrite X. apply Qle_shift_div_l; [|lra].
      assert (0 < n * n)%Q by (apply Qmult_lt_0_compat; lra). assert (0 < n * n * a)%Q by (apply Qmult_lt_0_compat; lra).
      apply Qmult_lt_0_compat; lra.
Qed.

Lemma counts_total v : total (map (@length inst) v) = vsize v.
Proof.
  unfold vsize. induction v as [|xs v IH]; [reflexivity|]. cbn [map total fold_right concat]. rewrite app_length.
  unfold total in IH. rewrite IH. reflexivity.
Qed.

Lemma counts_split f v : map (@length inst) v
  = map pair_sum (combine (map (@length inst) (split_left f v)) (map (@length inst) (split_right f v))).
Proof.
  induction v as [|xs v IH]; [reflexivity|]. cbn [split_left split_right map combine pair_sum fst snd]. unfold split_left, split_right in IH. rewrite <- IH.
  f_equal. unfold pair_sum. cbn [fst snd]. clear IH. induction xs as [|x xs IHx]; [reflexivity|]. cbn [filter length]. destruct (has f x); cbn [negb length]; lia.
Qed.

Lemma gini_value_nonneg v f : (0 <= gini_value v f)%Q.
Proof.
  unfold gini_value. rewrite Qred_correct.
  pose proof (gain_nonneg (map (@length inst) (split_left f v)) (map (@length inst) (split_right f v))) as H.
  cbn zeta in H. rewrite <- counts_split in H. rewrite !counts_total in H. unfold qn in H. apply H.
  unfold split_left, split_right. rewrite !map_length. reflexivity.
Qed.

Lemma order_gini_sorted nf v : StronglySorted (fun a b => (gini_value v b <= gini_value v a)%Q) (order_gini nf v).
Proof.
  destruct (gini_heap_spec nf v) as (H1 & H2 & H3 & H4 & H5).
  destruct (pop_all_spec nf nf _ H1 H2) as (P1 & P2 & P3). specialize (P3 (H5 (fun k _ => gini_value_nonneg v k))).
  fold (order_gini nf v) in *.
  assert (Hl : forall a, In a (order_gini nf v) -> a < nf) by (intros a Ha; apply P2 in Ha; apply Ha).
  revert P3 Hl. generalize (order_gini nf v). intros l Hs Hl. induction Hs as [|a l Hs IHs Hall]; constructor.
  - apply IHs. intros b Hb. apply Hl. right. exact Hb.
  - rewrite Forall_forall in *. intros b Hb. specialize (Hall b Hb).
    rewrite (H4 a (Hl a (or_introl eq_refl))), (H4 b (Hl b (or_intror Hb))) in Hall. lra.
Qed.
