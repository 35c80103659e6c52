(** Lemmas about feature vectors and the index of feature pairs. *)
From Coq Require Import List Arith Bool Lia Sorted Permutation.
From Verif Require Import Model_FeatureVector.
Import ListNotations.

(** ** The triangular index *)
Lemma tri_even f : exists q, f * (f + 1) = 2 * q /\ f * (f + 1) / 2 = q.
Proof.
  assert (H : Nat.even (f * (f + 1)) = true).
  { rewrite Nat.even_mul. replace (f + 1) with (S f) by lia. rewrite Nat.even_succ.
    rewrite <- Nat.negb_even. destruct (Nat.even f); reflexivity. }
  apply Nat.even_spec in H. destruct H as (q & Hq). exists q. split; [exact Hq|].
  rewrite Hq, Nat.mul_comm, Nat.div_mul by lia. reflexivity.
Qed.

(** First cell of row [f]: the number of cells in the rows above. *)
Definition row_start (nf f : nat) : nat := nf * f + f - f * (f + 1) / 2.

Lemma pair_index_row nf f g : f <= g -> g < nf -> pair_index nf f g = row_start nf f + (g - f).
Proof.
  intros H1 H2. unfold pair_index, row_start. destruct (tri_even f) as (q & Hq & ->). nia.
Qed.

Lemma row_start_S nf f : f < nf -> row_start nf (S f) = row_start nf f + (nf - f).
Proof.
  intro H. unfold row_start. destruct (tri_even f) as (q & Hq & ->).
  destruct (tri_even (S f)) as (q' & Hq' & ->). nia.
Qed.

Lemma row_start_mono nf f g : f <= g -> g <= nf -> row_start nf f <= row_start nf g.
Proof.
  intros H1. induction H1 as [|g H1 IH]; intro H2; [lia|].
  rewrite row_start_S by lia. specialize (IH ltac:(lia)). lia.
Qed.

Lemma row_start_end nf : row_start nf nf = num_elements nf.
Proof.
  unfold row_start, num_elements. destruct (tri_even nf) as (q & Hq & ->). nia.
Qed.

Lemma pair_index_lt nf f g : f <= g -> g < nf -> pair_index nf f g < num_elements nf.
Proof.
  intros H1 H2. rewrite pair_index_row, <- row_start_end by assumption.
  pose proof (row_start_mono nf (S f) nf ltac:(lia) ltac:(lia)). rewrite row_start_S in H by lia. lia.
Qed.

Lemma pair_index_inj nf f g f' g' :
  f <= g -> g < nf -> f' <= g' -> g' < nf ->
  pair_index nf f g = pair_index nf f' g' -> f = f' /\ g = g'.
Proof.
  intros H1 H2 H3 H4 He. rewrite !pair_index_row in He by assumption.
  destruct (lt_eq_lt_dec f f') as [[Hlt| ->]|Hgt].
  - pose proof (row_start_mono nf (S f) f' ltac:(lia) ltac:(lia)). rewrite row_start_S in H by lia. lia.
  - lia.
  - pose proof (row_start_mono nf (S f') f ltac:(lia) ltac:(lia)). rewrite row_start_S in H by lia. lia.
Qed.

Lemma row_find nf i m : m <= nf -> i < row_start nf m -> exists f, f < m /\ row_start nf f <= i < row_start nf (S f).
Proof.
  induction m as [|m IH]; intros Hm Hi; [unfold row_start in Hi; lia|].
  destruct (le_lt_dec (row_start nf m) i) as [Hle|Hlt].
  - exists m. lia.
  - destruct (IH ltac:(lia) Hlt) as (f & Hf & H). exists f. lia.
Qed.

Lemma pair_index_surj nf i : i < num_elements nf -> exists f g, f <= g /\ g < nf /\ pair_index nf f g = i.
Proof.
  rewrite <- row_start_end. intro H. destruct (row_find nf i nf (le_n _) H) as (f & Hf & Hr).
  rewrite row_start_S in Hr by exact Hf. exists f, (f + (i - row_start nf f)).
  split; [lia|]. split; [lia|]. rewrite pair_index_row by lia. lia.
Qed.

(** ** Lists of present features *)
Definition fv_ok (v : fvec) : Prop :=
  StronglySorted lt (fv_present v)
  /\ forall f, In f (fv_present v) <-> f < fv_num v /\ fv_has v f = true.

Lemma sorted_filter {A} (R : A -> A -> Prop) (p : A -> bool) l : StronglySorted R l -> StronglySorted R (filter p l).
Proof.
  induction 1 as [|x l Hs IH Hall]; cbn [filter]; [constructor|].
  destruct (p x); [|exact IH]. constructor; [exact IH|].
  rewrite Forall_forall in *. intros y Hy. apply filter_In in Hy. apply Hall. tauto.
Qed.

Lemma seq_sorted a n : StronglySorted lt (seq a n).
Proof.
  revert a; induction n as [|n IH]; intro a; cbn [seq]; constructor; [apply IH|].
  apply Forall_forall. intros x Hx. apply in_seq in Hx. lia.
Qed.

Lemma fv_make_ok bits : fv_ok (fv_make bits).
Proof.
  split; cbn [fv_make fv_present].
  - apply sorted_filter. apply seq_sorted.
  - intro f. rewrite filter_In, in_seq. unfold fv_has, fv_num. cbn [fv_make fv_bits]. split; intros [H1 H2]; split; try assumption; lia.
Qed.

Lemma set_nth_length {A} k (x : A) l : length (set_nth k x l) = length l.
Proof. revert k; induction l as [|y l IH]; intros [|k]; cbn [set_nth length]; try reflexivity. rewrite IH. reflexivity. Qed.

Lemma nth_set_nth {A} k (x d : A) l j :
  nth j (set_nth k x l) d = if (j =? k) && (k <? length l) then x else nth j l d.
Proof.
  revert k j; induction l as [|y l IH]; intros k j.
  - destruct k; cbn [set_nth length]; rewrite andb_false_r; reflexivity.
  - destruct k as [|k], j as [|j]; cbn [set_nth nth length]; try reflexivity.
    rewrite IH. reflexivity.
Qed.

Definition rgt (a b : nat) : Prop := b < a.

Lemma insert_from_back_in f l g : In g (insert_from_back f l) <-> g = f \/ In g l.
Proof.
  induction l as [|x l IH]; cbn [insert_from_back In]; [intuition|].
  destruct (x <? f); cbn [In]; [intuition|]. rewrite IH. intuition.
Qed.

Lemma insert_from_back_sorted f l : StronglySorted rgt l -> ~ In f l -> StronglySorted rgt (insert_from_back f l).
Proof.
  induction 1 as [|x l Hs IH Hall]; intro Hni; cbn [insert_from_back]; [repeat constructor|].
  destruct (x <? f) eqn:E.
  - apply Nat.ltb_lt in E. constructor; [constructor; assumption|]. constructor; [exact E|].
    eapply Forall_impl; [|exact Hall]. unfold rgt. intros; lia.
  - apply Nat.ltb_ge in E. constructor.
    + apply IH. intro; apply Hni; right; assumption.
    + apply Forall_forall. intros g Hg. apply insert_from_back_in in Hg. rewrite Forall_forall in Hall.
      destruct Hg as [->|Hg]; [|apply Hall; exact Hg]. unfold rgt.
      assert (x <> f) by (intro; subst; apply Hni; left; reflexivity). lia.
Qed.

Lemma sorted_snoc {A} (R : A -> A -> Prop) l x :
  StronglySorted R l -> (forall y, In y l -> R y x) -> StronglySorted R (l ++ [x]).
Proof.
  induction 1 as [|y l Hs IH Hall]; intro H; cbn [app]; [repeat constructor|].
  constructor.
  - apply IH. intros z Hz. apply H. right. exact Hz.
  - apply Forall_forall. intros z Hz. apply in_app_or in Hz. destruct Hz as [Hz|[<-|[]]].
    + rewrite Forall_forall in Hall. apply Hall. exact Hz.
    + apply H. left. reflexivity.
Qed.

Lemma sorted_rev {A} (R : A -> A -> Prop) l : StronglySorted R l -> StronglySorted (fun a b => R b a) (rev l).
Proof.
  induction 1 as [|x l Hs IH Hall]; cbn [rev]; [constructor|].
  apply sorted_snoc; [exact IH|]. intros y Hy. apply in_rev in Hy. rewrite Forall_forall in Hall. apply Hall. exact Hy.
Qed.

Lemma fv_has_set v f g x :
  f < fv_num v ->
  nth g (set_nth f x (fv_bits v)) false = if g =? f then x else fv_has v g.
Proof.
  intro H. rewrite nth_set_nth. unfold fv_num in H. apply Nat.ltb_lt in H. rewrite H, andb_true_r. reflexivity.
Qed.

Lemma fv_flip_num v f : fv_num (fv_flip v f) = fv_num v.
Proof. unfold fv_num, fv_flip. destruct (fv_has v f); cbn [fv_bits]; apply set_nth_length. Qed.

Lemma fv_flip_has v f g : f < fv_num v -> fv_has (fv_flip v f) g = if g =? f then negb (fv_has v f) else fv_has v g.
Proof.
  intro H. unfold fv_flip, fv_has at 1. destruct (fv_has v f) eqn:E; cbn [fv_bits]; rewrite fv_has_set by exact H; reflexivity.
Qed.

Lemma fv_flip_ok v f : f < fv_num v -> fv_ok v -> fv_ok (fv_flip v f).
Proof.
  intros Hf [Hs Hin]. split.
  - unfold fv_flip. destruct (fv_has v f) eqn:E; cbn [fv_present].
    + apply sorted_filter. exact Hs.
    + assert (H : StronglySorted rgt (insert_from_back f (rev (fv_present v)))).
      { apply insert_from_back_sorted; [apply (sorted_rev lt); exact Hs|].
        intro Hc. apply in_rev, Hin in Hc. destruct Hc. congruence. }
      apply (sorted_rev rgt) in H. exact H.
  - intro g. rewrite fv_flip_num, fv_flip_has by exact Hf. unfold fv_flip.
    destruct (fv_has v f) eqn:E; cbn [fv_present negb].
    + rewrite filter_In, Hin, negb_true_iff, Nat.eqb_neq. destruct (g =? f) eqn:Eg.
      * apply Nat.eqb_eq in Eg. subst. split; [intros [_ H]; congruence|intros [_ H]; discriminate].
      * apply Nat.eqb_neq in Eg. tauto.
    + rewrite <- in_rev, insert_from_back_in, <- in_rev, Hin. destruct (g =? f) eqn:Eg.
      * apply Nat.eqb_eq in Eg. subst. intuition.
      * apply Nat.eqb_neq in Eg. intuition.
Qed.

Lemma fv_disable_ok v f : f < fv_num v -> fv_ok v -> fv_ok (fv_disable v f).
Proof. intros Hf H. unfold fv_disable. destruct (fv_has v f); [apply fv_flip_ok; assumption|exact H]. Qed.

Lemma fv_disable_num v f : fv_num (fv_disable v f) = fv_num v.
Proof. unfold fv_disable. destruct (fv_has v f); [apply fv_flip_num|reflexivity]. Qed.

Lemma fv_disable_has v f g : f < fv_num v -> fv_has (fv_disable v f) g = if g =? f then false else fv_has v g.
Proof.
  intro H. unfold fv_disable. destruct (fv_has v f) eqn:E.
  - rewrite fv_flip_has, E by exact H. reflexivity.
  - destruct (g =? f) eqn:Eg; [apply Nat.eqb_eq in Eg; subst; exact E|reflexivity].
Qed.

Lemma fv_flip_flip_has v f g : f < fv_num v -> fv_has (fv_flip (fv_flip v f) f) g = fv_has v g.
Proof.
  intro H. rewrite fv_flip_has by (rewrite fv_flip_num; exact H). rewrite !fv_flip_has by exact H.
  rewrite Nat.eqb_refl, negb_involutive. destruct (g =? f) eqn:E; [apply Nat.eqb_eq in E; subst; reflexivity|reflexivity].
Qed.

(** Two consistent vectors with the same bits list the same features. *)
Lemma sorted_lt_ext a b : StronglySorted lt a -> StronglySorted lt b -> (forall x, In x a <-> In x b) -> a = b.
Proof.
  intros Ha. revert b. induction Ha as [|x a Hs IH Hall]; intros b Hb Hin.
  - destruct b as [|y b]; [reflexivity|]. exfalso. apply (Hin y). left. reflexivity.
  - destruct Hb as [|y b Hs' Hall'].
    + exfalso. apply (Hin x). left. reflexivity.
    + rewrite Forall_forall in Hall, Hall'.
      assert (x = y).
      { destruct (proj1 (Hin x) (or_introl eq_refl)) as [->|H1]; [reflexivity|].
        destruct (proj2 (Hin y) (or_introl eq_refl)) as [->|H2]; [reflexivity|].
        specialize (Hall y H2). specialize (Hall' x H1). lia. }
      subst y. f_equal. apply IH; [exact Hs'|]. intro z. split; intro Hz.
      * destruct (proj1 (Hin z) (or_intror Hz)) as [->|H]; [|exact H]. specialize (Hall z Hz). lia.
      * destruct (proj2 (Hin z) (or_intror Hz)) as [->|H]; [|exact H]. specialize (Hall' z Hz). lia.
Qed.

Lemma set_nth_same {A} k (d : A) l : set_nth k (nth k l d) l = l.
Proof. revert k; induction l as [|y l IH]; intros [|k]; cbn [set_nth nth]; try reflexivity. rewrite IH. reflexivity. Qed.

Lemma set_nth_twice {A} k (x y : A) l : set_nth k x (set_nth k y l) = set_nth k x l.
Proof. revert k; induction l as [|z l IH]; intros [|k]; cbn [set_nth]; try reflexivity. rewrite IH. reflexivity. Qed.

Lemma fv_flip_bits v f : fv_bits (fv_flip v f) = set_nth f (negb (fv_has v f)) (fv_bits v).
Proof. unfold fv_flip. destruct (fv_has v f); reflexivity. Qed.

Lemma fv_flip_pairs v f : fv_pairs (fv_flip v f) = fv_pairs v.
Proof. unfold fv_flip. destruct (fv_has v f); reflexivity. Qed.

Lemma fv_flip_flip v f : f < fv_num v -> fv_ok v -> fv_flip (fv_flip v f) f = v.
Proof.
  intros Hf Hok.
  assert (Hok2 : fv_ok (fv_flip (fv_flip v f) f)).
  { apply fv_flip_ok; [rewrite fv_flip_num; exact Hf|]. apply fv_flip_ok; assumption. }
  assert (Hb : fv_bits (fv_flip (fv_flip v f) f) = fv_bits v).
  { rewrite fv_flip_bits, fv_flip_has, Nat.eqb_refl, negb_involutive by exact Hf.
    rewrite fv_flip_bits, set_nth_twice. apply set_nth_same. }
  assert (Hp : fv_present (fv_flip (fv_flip v f) f) = fv_present v).
  { destruct Hok as [Hs Hin], Hok2 as [Hs2 Hin2]. apply sorted_lt_ext; [exact Hs2|exact Hs|].
    intro g. rewrite Hin, Hin2. unfold fv_num, fv_has. rewrite Hb. reflexivity. }
  assert (Hq : fv_pairs (fv_flip (fv_flip v f) f) = fv_pairs v) by (rewrite !fv_flip_pairs; reflexivity).
  destruct (fv_flip (fv_flip v f) f), v. cbn in Hb, Hp, Hq. congruence.
Qed.

(** ** Pair indices of a vector *)
Lemma in_pairs_of nf p i :
  StronglySorted lt p -> (forall f, In f p -> f < nf) ->
  (In i (pairs_of nf p) <-> exists f g, In f p /\ In g p /\ f <= g /\ i = pair_index nf f g).
Proof.
  induction 1 as [|x p Hs IH Hall]; intro Hlt; cbn [pairs_of].
  - split; [intros []|]. intros (f & g & [] & _).
  - rewrite Forall_forall in Hall. rewrite in_app_iff, in_map_iff.
    rewrite IH by (intros; apply Hlt; right; assumption). split.
    + intros [(g & Hg & Hin)|(f & g & Hf & Hg & Hle & ->)].
      * exists x, g. split; [left; reflexivity|]. split; [exact Hin|]. split; [|congruence].
        destruct Hin as [->|Hin]; [lia|]. specialize (Hall g Hin). lia.
      * exists f, g. repeat split; try assumption; right; assumption.
    + intros (f & g & [->|Hf] & Hg & Hle & ->).
      * left. exists g. split; [reflexivity|exact Hg].
      * destruct Hg as [->|Hg]; [specialize (Hall f Hf); lia|]. right. exists f, g. auto.
Qed.

Lemma pairs_of_NoDup nf p :
  StronglySorted lt p -> (forall f, In f p -> f < nf) -> NoDup (pairs_of nf p).
Proof.
  induction 1 as [|x p Hs IH Hall]; intro Hlt; cbn [pairs_of]; [constructor|].
  rewrite Forall_forall in Hall.
  assert (Hlt' : forall f, In f p -> f < nf) by (intros; apply Hlt; right; assumption).
  assert (G : forall (l1 l2 : list nat), NoDup l1 -> NoDup l2 -> (forall x, In x l1 -> ~ In x l2) -> NoDup (l1 ++ l2)).
  { induction l1 as [|z l1 IH1]; intros l2 H1 H2 H; [exact H2|]. inversion H1; subst. cbn [app]. constructor.
    - intro Hin. apply in_app_or in Hin. destruct Hin as [Hin|Hin]; [contradiction|]. apply (H z (or_introl eq_refl)). exact Hin.
    - apply IH1; [assumption|exact H2|]. intros y Hy. apply H. right. exact Hy. }
  apply G.
  - assert (Hge : forall y, In y (x :: p) -> x <= y).
    { intros y [->|Hy]; [lia|]. specialize (Hall y Hy). lia. }
    assert (Hnd : NoDup (x :: p)).
    { constructor; [intro Hc; specialize (Hall x Hc); lia|].
      clear -Hs. induction Hs as [|y p Hs IH Hall]; constructor; [|exact IH].
      intro Hc. rewrite Forall_forall in Hall. specialize (Hall y Hc). lia. }
    clear -Hge Hnd Hlt. induction Hnd as [|y l Hni Hnd IH]; cbn [map]; constructor.
    + intro Hc. apply in_map_iff in Hc. destruct Hc as (z & He & Hz).
      apply pair_index_inj in He; [destruct He; subst; contradiction|apply Hge; right; exact Hz|apply Hlt; right; exact Hz|apply Hge; left; reflexivity|apply Hlt; left; reflexivity].
    + apply IH; intros; [apply Hlt|apply Hge]; right; assumption.
  - apply IH. exact Hlt'.
  - intros i H1 H2. apply in_map_iff in H1. destruct H1 as (g & <- & Hg).
    rewrite in_pairs_of in H2 by assumption. destruct H2 as (f & g' & Hf & Hg' & Hle & He).
    apply pair_index_inj in He; [|destruct Hg as [->|Hg]; [lia|specialize (Hall g Hg); lia]|apply Hlt; exact Hg|exact Hle|apply Hlt'; exact Hg'].
    destruct He as [-> _]. specialize (Hall f Hf). lia.
Qed.

(** ** Sequences of flips and disables *)
Inductive fv_op := OFlip (f : nat) | ODisable (f : nat).
Definition fv_apply (v : fvec) (o : fv_op) : fvec :=
  match o with OFlip f => fv_flip v f | ODisable f => fv_disable v f end.
Definition op_feature (o : fv_op) : nat := match o with OFlip f | ODisable f => f end.

Lemma fv_ops_ok ops v :
  fv_ok v -> (forall o, In o ops -> op_feature o < fv_num v) ->
  fv_ok (fold_left fv_apply ops v) /\ fv_num (fold_left fv_apply ops v) = fv_num v.
Proof.
  revert v; induction ops as [|o ops IH]; intros v Hok H; cbn [fold_left]; [auto|].
  assert (Hn : fv_num (fv_apply v o) = fv_num v) by (destruct o; [apply fv_flip_num|apply fv_disable_num]).
  destruct (IH (fv_apply v o)) as [H1 H2].
  - specialize (H o (or_introl eq_refl)). destruct o; [apply fv_flip_ok|apply fv_disable_ok]; assumption.
  - intros o' Ho'. rewrite Hn. apply H. right. exact Ho'.
  - split; [exact H1|]. rewrite H2. exact Hn.
Qed.
