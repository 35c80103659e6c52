(** C34: the equivalent-points bound. *)
From Coq Require Import List Arith Bool Lia.
From Verif Require Import Model_FeatureVector Model_Data Model_Terminal Spec_Tree Proofs_Feature Model_EquivPoints.
Import ListNotations.

(** The errors of a classifier that gives label [g u] to the points with feature vector [u]. *)
Fixpoint point_errors (g : nat -> nat) (k : nat) (v : list (list point)) : nat :=
  match v with [] => 0 | l :: v' => length (filter (fun p => negb (g (snd p) =? k)) l) + point_errors g (S k) v' end.

Definition rest_errors (g : nat -> nat) (labs : list (nat * list point)) : nat :=
  fold_right (fun p a => length (filter (fun x => negb (g (snd x) =? fst p)) (snd p)) + a) 0 labs.
Lemma bubble_errors g c l : rest_errors g (bubble c l) = rest_errors g (c :: l).
Proof. induction l as [|y l IH]; cbn [bubble]; [reflexivity|]. destruct (_ <? _); [|reflexivity]. cbn [rest_errors fold_right] in *. unfold rest_errors in *. cbn in *. lia. Qed.
Lemma start_errors g v : rest_errors g (start_labels v) = point_errors g 0 v.
Proof.
  unfold start_labels. assert (G : forall v k, rest_errors g (fold_right bubble [] (filter (fun p => negb (length (snd p) =? 0)) (combine (seq k (length v)) v))) = point_errors g k v).
  { clear. induction v as [|l v IH]; intros k; cbn [length seq combine filter point_errors]; [reflexivity|]. destruct l as [|x l]; cbn [snd length Nat.eqb negb].
    - rewrite IH. reflexivity.
    - cbn [fold_right]. rewrite bubble_errors. cbn [rest_errors fold_right fst snd]. fold (rest_errors g). unfold rest_errors in IH |- *. rewrite IH. reflexivity. }
  apply G.
Qed.
Lemma max_ge l : forall a, a <= fold_left Nat.max l a /\ forall k, nth k l 0 <= fold_left Nat.max l a.
Proof.
  induction l as [|x l IH]; intros a; cbn [fold_left].
  - split; [lia|]. intros [|k]; cbn; lia.
  - destruct (IH (Nat.max a x)) as [A B]. split; [lia|]. intros [|k]; cbn [nth]; [lia|apply B].
Qed.
Lemma set_nth_get k j x l : nth j (set_nth k x l) 0 = if (j =? k) && (k <? length l) then x else nth j l 0.
Proof.
  revert k j. induction l as [|y l IH]; intros [|k] [|j]; cbn [set_nth nth length Nat.eqb andb]; try reflexivity.
  - rewrite andb_false_r. reflexivity.
  - rewrite IH. reflexivity.
Qed.
Lemma set_nth_len {A} k (x : A) l : length (set_nth k x l) = length l.
Proof. revert k. induction l as [|y l IH]; intros [|k]; cbn; auto. Qed.
Lemma close_le n counts j : nth j counts 0 <= n -> close_group n counts <= n - nth j counts 0.
Proof. intros H. unfold close_group. destruct (1 <? n); [|lia]. pose proof (proj2 (max_ge counts 0) j). lia. Qed.
Lemma count_one_get k j counts : k < length counts -> nth j (count_one k counts) 0 = nth j counts 0 + if j =? k then 1 else 0.
Proof.
  intros L. unfold count_one. rewrite set_nth_get. apply Nat.ltb_lt in L. rewrite L, andb_true_r. destruct (j =? k) eqn:E; [apply Nat.eqb_eq in E; subst; lia|lia].
Qed.
Lemma nth_repeat0 j n : nth j (repeat 0 n) 0 = 0.
Proof. revert j. induction n; intros [|j]; cbn; auto. Qed.
Lemma bubble_in c l p : In p (bubble c l) -> p = c \/ In p l.
Proof. induction l as [|y l IH]; cbn [bubble]; [cbn; intuition|]. destruct (_ <? _); cbn; intuition. Qed.

Lemma eq_loop_le g nl fuel : forall prev counts n acc labs, length counts = nl -> nth (g prev) counts 0 <= n -> Forall (fun p => fst p < nl) labs ->
  eq_loop fuel nl prev counts n acc labs <= acc + (n - nth (g prev) counts 0) + rest_errors g labs.
Proof.
  induction fuel as [|fuel IH]; intros prev counts n acc labs L C F; cbn [eq_loop].
  - pose proof (close_le n counts (g prev) C). lia.
  - destruct labs as [|[k [|x rest]] others]; try (pose proof (close_le n counts (g prev) C); lia).
    inversion F as [|? ? Fk Fo]; subst. cbn [fst] in Fk.
    assert (RE : rest_errors g ((k, x :: rest) :: others) = (if g (snd x) =? k then 0 else 1) + rest_errors g (match rest with [] => others | _ => bubble (k, rest) others end)).
    { assert (B : rest_errors g (match rest with [] => others | _ => bubble (k, rest) others end) = rest_errors g ((k, rest) :: others)) by (destruct rest; [reflexivity|apply bubble_errors]).
      rewrite B. cbn [rest_errors fold_right fst snd filter]. destruct (g (snd x) =? k); cbn [negb length]; lia. }
    assert (F' : Forall (fun p => fst p < length counts) (match rest with [] => others | _ => bubble (k, rest) others end)).
    { destruct rest as [|x1 rest]; [exact Fo|]. apply Forall_forall. intros q I. apply bubble_in in I. destruct I as [->|I]; [exact Fk|]. rewrite Forall_forall in Fo. auto. }
    rewrite RE. destruct (prev =? snd x) eqn:S.
    + apply Nat.eqb_eq in S. subst prev. pose proof (count_one_get k (g (snd x)) counts Fk) as CG. etransitivity; [apply IH|].
      * unfold count_one. now rewrite set_nth_len.
      * rewrite CG. destruct (_ =? _); lia.
      * exact F'.
      * rewrite CG. destruct (g (snd x) =? k); lia.
    + assert (LR : length (repeat 0 (length counts)) = length counts) by apply repeat_length.
      pose proof (count_one_get k (g (snd x)) (repeat 0 (length counts)) ltac:(lia)) as CG. rewrite nth_repeat0 in CG. etransitivity; [apply IH|].
      * unfold count_one. now rewrite set_nth_len.
      * rewrite CG. destruct (_ =? _); lia.
      * exact F'.
      * rewrite CG. pose proof (close_le n counts (g prev) C). destruct (g (snd x) =? k); lia.
Qed.
Lemma start_labels_lt v p : In p (start_labels v) -> fst p < length v.
Proof.
  unfold start_labels. set (l := filter _ _). assert (I0 : forall p, In p l -> fst p < length v).
  { intros q I. apply filter_In in I. destruct I as [I _]. destruct q as [k xs]. apply in_combine_l in I. apply in_seq in I. cbn. lia. }
  clearbody l. revert p. induction l as [|c l IH]; intros q I; cbn in I; [destruct I|]. apply bubble_in in I. destruct I as [->|I]; [apply I0; now left|]. apply IH; auto. intros r R. apply I0. now right.
Qed.
(** The bound never exceeds the errors of any classifier that treats equal feature vectors alike. *)
Theorem C34_sound v z : equiv_points_bound v = Some z -> forall g, z <= point_errors g 0 v.
Proof.
  unfold equiv_points_bound. destruct (start_labels v) as [|[k [|x rest]] others] eqn:S; try discriminate. intros [= <-] g.
  assert (F : forall p, In p (start_labels v) -> fst p < length v) by apply start_labels_lt. rewrite S in F.
  assert (Fk : k < length v) by (apply (F (k, x :: rest)); now left).
  pose proof (count_one_get k (g (snd x)) (repeat 0 (length v)) ltac:(rewrite repeat_length; exact Fk)) as CG. rewrite nth_repeat0 in CG.
  etransitivity; [apply (eq_loop_le g)|].
  - unfold count_one. now rewrite set_nth_len, repeat_length.
  - rewrite CG. destruct (_ =? _); lia.
  - apply Forall_forall. intros p [<-|I]; [exact Fk|apply F; now right].
  - rewrite CG. rewrite <- start_errors, S. cbn [rest_errors fold_right fst snd filter]. destruct (g (snd x) =? k); cbn [negb length]; lia.
Qed.
(** It is computed for every set of points that is not empty. *)
Theorem C34_defined v : concat v <> [] -> exists z, equiv_points_bound v = Some z.
Proof.
  intros NE. unfold equiv_points_bound. assert (NN : forall p, In p (start_labels v) -> snd p <> []).
  { unfold start_labels. set (l := filter _ _). assert (I0 : forall p, In p l -> snd p <> []).
    { intros q I. apply filter_In in I. destruct I as [_ I]. destruct (snd q); [discriminate|discriminate]. }
    clearbody l. induction l as [|c l IH]; intros p I; cbn in I; [destruct I|]. apply bubble_in in I. destruct I as [->|I]; [apply I0; now left|]. apply IH; auto. intros q Q. apply I0. now right. }
  destruct (start_labels v) as [|[k [|x rest]] others] eqn:S; [exfalso| |eauto].
  - assert (Z : forall l, fold_right bubble [] l = [] -> l = []).
    { intros [|c l] H; [reflexivity|]. cbn [fold_right] in H. destruct (fold_right bubble [] l) as [|y l']; cbn [bubble] in H; [discriminate|]. destruct (_ <? _); discriminate. }
    unfold start_labels in S. apply Z in S. apply NE. clear -S. assert (G : forall v n, filter (fun p : nat * list point => negb (length (snd p) =? 0)) (combine (seq n (length v)) v) = [] -> concat v = []).
    { clear. induction v as [|l v IH]; intros n E; [reflexivity|]. cbn in E. destruct l; [cbn in E; apply (IH _ E)|discriminate]. }
    apply (G _ _ S).
  - destruct (NN (k, []) (or_introl eq_refl) eq_refl).
Qed.
(** The fuel of the loop is enough. *)
Definition left_over (labs : list (nat * list point)) : nat := fold_right (fun p a => length (snd p) + a) 0 labs.
Lemma bubble_left c l : left_over (bubble c l) = left_over (c :: l).
Proof. induction l as [|y l IH]; cbn [bubble]; [reflexivity|]. destruct (_ <? _); [|reflexivity]. unfold left_over in *. cbn in *. lia. Qed.
Theorem C34_fuel nl : forall f1 f2 prev counts n acc labs, left_over labs <= f1 -> left_over labs <= f2 ->
  eq_loop f1 nl prev counts n acc labs = eq_loop f2 nl prev counts n acc labs.
Proof.
  assert (STOP : forall f prev counts n acc labs, left_over labs = 0 -> eq_loop f nl prev counts n acc labs = acc + close_group n counts).
  { intros [|f] prev counts n acc labs Z; [reflexivity|]. destruct labs as [|[k [|x rest]] others]; [reflexivity|reflexivity|]. cbn in Z. lia. }
  induction f1 as [|f1 IH]; intros f2 prev counts n acc labs H1 H2.
  - rewrite !STOP; lia.
  - destruct f2 as [|f2]; [rewrite !STOP; lia|]. cbn [eq_loop]. destruct labs as [|[k [|x rest]] others]; try reflexivity.
    assert (LE : S (left_over (match rest with [] => others | _ => bubble (k, rest) others end)) = left_over ((k, x :: rest) :: others)).
    { destruct rest; [reflexivity|]. rewrite bubble_left. unfold left_over. cbn. lia. }
    apply IH; lia.
Qed.

(** * Trees *)
Lemma gt_insert_in x y l : In y (cca_insert x l) <-> y = x \/ In y l.
Proof. induction l as [|z l IH]; cbn; [intuition|]. destruct (fv_gt _ _); cbn; [intuition|]. rewrite IH. intuition. Qed.
Lemma cca_sort_in x xs : In x (cca_sort xs) <-> In x xs.
Proof. induction xs as [|y xs IH]; cbn; [tauto|]. rewrite gt_insert_in, IH. intuition. Qed.
Lemma eqb_list a : forall b, list_nat_eqb a b = true <-> a = b.
Proof.
  induction a as [|x a IH]; intros [|y b]; cbn; try (split; [discriminate|discriminate]); [tauto|]. rewrite andb_true_iff, Nat.eqb_eq, IH. split; [intros [-> ->]; reflexivity|intros [= -> ->]; auto].
Qed.
Lemma number_spec xs : forall id uid p x u, In (x, u) (cca_number id uid (Some p) xs) ->
  uid <= u /\ (u = uid -> fv_present (ifv x) = fv_present (ifv p)) /\ exists x0, In x0 xs /\ ifv x = ifv x0.
Proof.
  induction xs as [|y xs IH]; intros id uid p x u; cbn [cca_number]; [intros []|]. destruct (fv_equal (ifv p) (ifv y)) eqn:E.
  - intros [I|I].
    + injection I as <- <-. cbn. split; [lia|]. split; [|exists y; auto]. intros _. apply eqb_list in E. auto.
    + destruct (IH _ _ _ _ _ I) as (A & B & x0 & X & Y). split; [exact A|]. split; [exact B|]. exists x0. split; [now right|exact Y].
  - intros [I|I].
    + injection I as <- <-. cbn. split; [lia|]. split; [lia|exists y; auto].
    + destruct (IH _ _ _ _ _ I) as (A & B & x0 & X & Y). split; [lia|]. split; [lia|]. exists x0. split; [now right|exact Y].
Qed.
Lemma number_same xs : forall id uid p x y u, In (x, u) (cca_number id uid (Some p) xs) -> In (y, u) (cca_number id uid (Some p) xs) -> fv_present (ifv x) = fv_present (ifv y).
Proof.
  induction xs as [|z xs IH]; intros id uid p x y u; cbn [cca_number]; [intros []|]. destruct (fv_equal (ifv p) (ifv z)) eqn:E.
  - apply eqb_list in E. intros [I|I] [J|J].
    + injection I as <- <-. injection J as <-. reflexivity.
    + injection I as <- <-. apply number_spec in J. cbn. rewrite <- E. symmetry. apply J. reflexivity.
    + injection J as <- <-. apply number_spec in I. cbn. rewrite <- E. apply I. reflexivity.
    + eauto.
  - intros [I|I] [J|J].
    + injection I as <- <-. injection J as <-. reflexivity.
    + injection I as <- <-. apply number_spec in J. cbn. symmetry. apply J. reflexivity.
    + injection J as <- <-. apply number_spec in I. cbn. apply I. reflexivity.
    + eauto.
Qed.
Lemma preprocess_same xs x y u : In (x, u) (cca_preprocess xs) -> In (y, u) (cca_preprocess xs) -> fv_present (ifv x) = fv_present (ifv y).
Proof.
  unfold cca_preprocess. destruct (cca_sort xs) as [|z l]; [intros []|]. cbn [cca_number]. intros [I|I] [J|J].
  - injection I as <- <-. injection J as <-. reflexivity.
  - injection I as <- <-. apply number_spec in J. cbn. symmetry. apply J. reflexivity.
  - injection J as <- <-. apply number_spec in I. cbn. apply I. reflexivity.
  - eapply number_same; eauto.
Qed.
Lemma preprocess_from xs x u : In (x, u) (cca_preprocess xs) -> exists x0, In x0 xs /\ ifv x = ifv x0.
Proof.
  unfold cca_preprocess. pose proof (fun y => proj1 (cca_sort_in y xs)) as S. destruct (cca_sort xs) as [|z l]; [intros []|]. cbn [cca_number]. intros [I|I].
  - injection I as <- _. exists z. split; [apply S; now left|reflexivity].
  - apply number_spec in I. destruct I as (_ & _ & x0 & I & E). exists x0. split; [apply S; now right|exact E].
Qed.
Lemma has_present x f : fv_ok (ifv x) -> (has f x = true <-> In f (fv_present (ifv x))).
Proof.
  intros [_ H]. rewrite H. unfold has, fv_has, fv_num. split; [|tauto]. intros E. split; [|exact E].
  destruct (Nat.lt_ge_cases f (length (fv_bits (ifv x)))) as [L|L]; [exact L|]. rewrite nth_overflow in E by exact L. discriminate.
Qed.
Lemma same_predict t x y : fv_ok (ifv x) -> fv_ok (ifv y) -> fv_present (ifv x) = fv_present (ifv y) -> predict t x = predict t y.
Proof.
  intros X Y E. induction t as [l|f l IHl r IHr]; cbn; [reflexivity|]. assert (H : has f x = has f y) by (apply eq_true_iff_eq; rewrite !has_present, E by assumption; reflexivity).
  rewrite H. destruct (has f y); assumption.
Qed.
(** The points of a view whose instances carry the numbers given by the preprocessing. *)
Definition points_of (pv : list (list (inst * nat))) : list (list point) := map (map (fun p => (iid (fst p), snd p))) pv.
Definition view_of (pv : list (list (inst * nat))) : view := map (map fst) pv.
(** The bound never exceeds the errors of any decision tree, of any size, on any part of the
    training data. *)
Theorem C34_trees xs pv z : Forall (fun x => fv_ok (ifv x)) xs -> (forall p, In p (concat pv) -> In p (cca_preprocess xs)) ->
  equiv_points_bound (points_of pv) = Some z -> forall t, z <= misclassified (view_of pv) t.
Proof.
  intros OK IN B t.
  set (g := fun u => match find (fun p => snd p =? u) (cca_preprocess xs) with Some p => predict t (fst p) | None => 0 end).
  assert (G : forall p, In p (cca_preprocess xs) -> g (snd p) = predict t (fst p)).
  { intros [x u] I. unfold g. cbn. destruct (find _ _) as [[y w]|] eqn:F.
    - apply find_some in F. destruct F as [J E]. cbn in E. apply Nat.eqb_eq in E. subst w. cbn.
      assert (K : forall q w, In (q, w) (cca_preprocess xs) -> fv_ok (ifv q)).
      { intros q w Q. apply preprocess_from in Q. destruct Q as (x0 & X0 & ->). rewrite Forall_forall in OK. auto. }
      apply same_predict; [eapply K; eauto|eapply K; eauto|]. eapply preprocess_same; eauto.
    - pose proof (find_none _ _ F _ I) as E. cbn in E. rewrite Nat.eqb_refl in E. discriminate. }
  etransitivity; [apply (C34_sound _ _ B g)|]. apply Nat.eq_le_incl. unfold misclassified, points_of, view_of. generalize 0. clear B. induction pv as [|l pv IH]; intros k; cbn [map point_errors wrong_from]; [reflexivity|].
  rewrite IH by (intros p I; apply IN; cbn; apply in_or_app; auto). f_equal.
  assert (IL : forall p, In p l -> In p (cca_preprocess xs)) by (intros p I; apply IN; cbn; apply in_or_app; auto). clear -IL G. induction l as [|p l IH]; cbn [map filter]; [reflexivity|].
  cbn [fst snd]. rewrite (G p) by (apply IL; now left). destruct (predict t (fst p) =? k); cbn [negb length]; [|f_equal]; apply IH; intros q Q; apply IL; now right.
Qed.
(** Feature vectors as the loader and the preprocessing of the solver make them satisfy the hypothesis. *)
Theorem C34_vectors_ok bits ops : (forall o, In o ops -> op_feature o < length bits) -> fv_ok (fold_left fv_apply ops (fv_make bits)).
Proof. intros H. apply fv_ops_ok; [apply fv_make_ok|exact H]. Qed.

Definition b (n : nat) : inst := Inst 0 (fv_make [Nat.odd n; Nat.odd (n / 2)]).
Definition ex_xs : list inst := [b 1; b 1; b 1; b 0; b 0; b 0; b 0].
Example C34_ex : cca_preprocess ex_xs = [(Inst 0 (ifv (b 1)), 0); (Inst 1 (ifv (b 1)), 0); (Inst 2 (ifv (b 1)), 0); (Inst 3 (ifv (b 0)), 1); (Inst 4 (ifv (b 0)), 1); (Inst 5 (ifv (b 0)), 1); (Inst 6 (ifv (b 0)), 1)] /\
  let pv := [[(Inst 0 (ifv (b 1)), 0); (Inst 1 (ifv (b 1)), 0); (Inst 3 (ifv (b 0)), 1)]; [(Inst 2 (ifv (b 1)), 0); (Inst 4 (ifv (b 0)), 1); (Inst 5 (ifv (b 0)), 1); (Inst 6 (ifv (b 0)), 1)]] in
  equiv_points_bound (points_of pv) = Some 2 /\ misclassified (view_of pv) (Split 0 (Leaf 1) (Leaf 0)) = 2.
Proof. repeat split; reflexivity. Qed.

(** Not exact: when the label of the first instance has no other instance the bound is 0,
    whatever the rest of the data; the group of the first instance can get lost as well. *)
Theorem C34_exact_refuted : exists v, equiv_points_bound v = Some 0 /\ forall g, 1 <= point_errors g 0 v.
Proof.
  exists [[(0, 0)]; [(1, 1); (3, 2)]; [(2, 1)]]. split; [reflexivity|]. intros g. cbn. destruct (g 0 =? 0), (g 1 =? 1) eqn:E, (g 2 =? 1), (g 1 =? 2) eqn:E2; cbn; try lia.
  all: apply Nat.eqb_eq in E, E2; congruence.
Qed.
Theorem C34_first_group_refuted : exists v, equiv_points_bound v = Some 0 /\ (forall g, 1 <= point_errors g 0 v) /\ Forall (fun l => 2 <= length l) v.
Proof.
  exists [[(0, 0); (2, 1)]; [(1, 0); (3, 2)]]. split; [reflexivity|]. split; [|repeat constructor]. intros g. cbn. destruct (g 0 =? 0) eqn:E, (g 1 =? 0), (g 0 =? 1) eqn:E2, (g 2 =? 1); cbn; try lia.
  all: apply Nat.eqb_eq in E, E2; congruence.
Qed.

(** * The memo *)
(** As long as a branch stands for one set of points, every answer of every sequence of calls is sound. *)
Theorem C34_memo calls : (forall br v v', In (br, v) calls -> In (br, v') calls -> v = v') ->
  Forall2 (fun c a => forall z, a = Some z -> forall g, z <= point_errors g 0 (snd c)) calls (lb_run [] calls).
Proof.
  intros ONE.
  assert (G : forall todo m, (forall c, In c todo -> In c calls) -> (forall br z, lb_find br m = Some z -> forall v, In (br, v) calls -> forall g, z <= point_errors g 0 v) ->
    Forall2 (fun c a => forall z, a = Some z -> forall g, z <= point_errors g 0 (snd c)) todo (lb_run m todo)).
  { induction todo as [|[br v] todo IH]; intros m SUB INV; cbn [lb_run]; [constructor|]. unfold lb_call. destruct (lb_find br m) as [z0|] eqn:F; cbn [fst snd].
    - constructor; [|apply IH; [intros c I; apply SUB; now right|exact INV]]. intros z [= <-] g. cbn. apply (INV br); [exact F|]. apply SUB. now left.
    - destruct (equiv_points_bound v) as [z0|] eqn:E; cbn [fst snd]; (constructor; [|apply IH; [intros c I; apply SUB; now right|]]).
      + intros z [= <-] g. apply C34_sound. exact E.
      + intros br' z. cbn [lb_find]. destruct (list_nat_eqb br' br) eqn:Q.
        * apply eqb_list in Q. subst br'. intros [= <-] w W g. assert (w = v) as -> by (apply (ONE br); [exact W|apply SUB; now left]). apply C34_sound. exact E.
        * apply INV.
      + discriminate.
      + exact INV. }
  apply (G calls []); auto. discriminate.
Qed.
(** The memo is not emptied for new data: refuted for a second data set. *)
Theorem C34_new_data_refuted : exists v1 v2 z, lb_run [] [([], v1); ([], v2)] = [Some z; Some z] /\ exists g, point_errors g 0 v2 < z.
Proof.
  exists [[(0, 0); (1, 0); (2, 0)]; [(3, 0); (4, 0)]], [[(0, 0)]; [(1, 1)]], 2. split; [reflexivity|]. exists (fun u => u). cbn. lia.
Qed.

Print Assumptions C34_sound.
Print Assumptions C34_defined.
Print Assumptions C34_fuel.
Print Assumptions C34_trees.
Print Assumptions C34_vectors_ok.
Print Assumptions C34_exact_refuted.
Print Assumptions C34_first_group_refuted.
Print Assumptions C34_memo.
Print Assumptions C34_new_data_refuted.
