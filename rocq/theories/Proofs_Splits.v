(** Lemmas on the train/test and k-fold splits. *)
From Coq Require Import List Arith Bool Lia Permutation Sorted.
From Verif Require Import Model_Data Model_Splits Spec_Splits Proofs_View Proofs_Path.
Import ListNotations.

Lemma nth_nil {A} j (d : A) : nth j [] d = d.
Proof. destruct j; reflexivity. Qed.
Lemma empties_length n : length (empties n) = n.
Proof. apply repeat_length. Qed.
Lemma empties_concat n : concat (empties n) = [].
Proof. induction n; [reflexivity|]. exact IHn. Qed.
Lemma empties_nth n j : nth j (empties n) [] = [].
Proof. unfold empties. revert j. induction n as [|n IH]; intros [|j]; cbn; auto. Qed.

Lemma push_to_length xs : forall g k, length (push_to k xs g) = length g.
Proof. induction g as [|y g IH]; intros [|k]; cbn; auto. Qed.
Lemma push_to_concat xs : forall g k, k < length g -> Permutation (concat (push_to k xs g)) (concat g ++ xs).
Proof.
  induction g as [|y g IH]; intros [|k] H; cbn [length push_to concat] in *; try lia.
  - rewrite <- !app_assoc. apply Permutation_app_head, Permutation_app_comm.
  - rewrite IH by lia. rewrite app_assoc. reflexivity.
Qed.
Lemma push_to_nth xs : forall g k j, nth j (push_to k xs g) [] = if (j =? k) && (j <? length g) then nth j g [] ++ xs else nth j g [].
Proof.
  induction g as [|y g IH]; intros k j; cbn [push_to length].
  - change (j <? 0) with false. rewrite andb_false_r. destruct k; reflexivity.
  - destruct k as [|k], j as [|j]; cbn [nth Nat.eqb andb]; try reflexivity. apply IH.
Qed.

Section Labels.
  Context (lab : nat -> nat) (n : nat).
  Lemma by_labels_gen xs : forall g, length g = n ->
    length (fold_left (fun g i => push_to (lab i) [i] g) xs g) = n
    /\ (forall j, j < n -> nth j (fold_left (fun g i => push_to (lab i) [i] g) xs g) [] = nth j g [] ++ filter (fun i => lab i =? j) xs)
    /\ ((forall i, In i xs -> lab i < n) -> Permutation (concat (fold_left (fun g i => push_to (lab i) [i] g) xs g)) (concat g ++ xs)).
  Proof.
    induction xs as [|i xs IH]; intros g Hg; cbn [fold_left filter].
    - split; [exact Hg|]. split; [intros; rewrite app_nil_r; reflexivity|]. intros _. rewrite app_nil_r. reflexivity.
    - destruct (IH (push_to (lab i) [i] g)) as (A & B & C); [rewrite push_to_length; exact Hg|]. split; [exact A|]. split.
      + intros j Hj. rewrite B by exact Hj. rewrite push_to_nth, (Nat.eqb_sym j). replace (j <? length g) with true by (symmetry; apply Nat.ltb_lt; lia).
        rewrite andb_true_r. destruct (lab i =? j); [rewrite <- app_assoc|]; reflexivity.
      + intro Hl. rewrite C by (intros; apply Hl; right; assumption).
        rewrite push_to_concat by (rewrite Hg; apply Hl; left; reflexivity). rewrite <- app_assoc. reflexivity.
  Qed.
  Lemma by_labels_length xs : length (by_labels lab n xs) = n.
  Proof. apply by_labels_gen, empties_length. Qed.
  Lemma by_labels_nth xs j : j < n -> nth j (by_labels lab n xs) [] = filter (fun i => lab i =? j) xs.
  Proof. intro H. unfold by_labels. destruct (by_labels_gen xs (empties n) (empties_length n)) as (_ & B & _). rewrite B, empties_nth by exact H. reflexivity. Qed.
  Lemma by_labels_perm xs : (forall i, In i xs -> lab i < n) -> Permutation (concat (by_labels lab n xs)) xs.
  Proof. intro H. unfold by_labels. destruct (by_labels_gen xs (empties n) (empties_length n)) as (_ & _ & C). rewrite C, empties_concat by exact H. reflexivity. Qed.
End Labels.

(** Pushing a list of labelled parts. *)
Section Push.
  Context {A : Type} (dest : A -> nat) (part : A -> list nat).
  Lemma push_all_gen n ps : forall g, length g = n ->
    length (fold_left (fun g p => push_to (dest p) (part p) g) ps g) = n
    /\ (forall j, j < n -> nth j (fold_left (fun g p => push_to (dest p) (part p) g) ps g) [] = nth j g [] ++ concat (map (fun p => if dest p =? j then part p else []) ps))
    /\ ((forall p, In p ps -> dest p < n) -> Permutation (concat (fold_left (fun g p => push_to (dest p) (part p) g) ps g)) (concat g ++ concat (map part ps))).
  Proof.
    induction ps as [|p ps IH]; intros g Hg; cbn [fold_left map concat].
    - split; [exact Hg|]. split; [intros; rewrite app_nil_r; reflexivity|]. intros _. rewrite app_nil_r. reflexivity.
    - destruct (IH (push_to (dest p) (part p) g)) as (X & Y & Z); [rewrite push_to_length; exact Hg|]. split; [exact X|]. split.
      + intros j Hj. rewrite Y by exact Hj. rewrite push_to_nth, (Nat.eqb_sym j). replace (j <? length g) with true by (symmetry; apply Nat.ltb_lt; lia).
        rewrite andb_true_r. destruct (dest p =? j); [rewrite <- app_assoc|]; reflexivity.
      + intro Hl. rewrite Z by (intros; apply Hl; right; assumption).
        rewrite push_to_concat by (rewrite Hg; apply Hl; left; reflexivity). rewrite <- app_assoc. reflexivity.
  Qed.
End Push.

Lemma combine_seq_in {A} (xs : list A) : forall s p, In p (combine (seq s (length xs)) xs) -> s <= fst p < s + length xs.
Proof.
  induction xs as [|x xs IH]; intros s p H; cbn [length seq combine] in H; [destruct H|]. destruct H as [<-|H]; cbn [fst length]; [lia|].
  apply IH in H. lia.
Qed.
Lemma map_snd_combine_seq {A} (xs : list A) s : map snd (combine (seq s (length xs)) xs) = xs.
Proof. revert s. induction xs as [|x xs IH]; intro s; cbn [length seq combine map snd]; [reflexivity|]. rewrite IH. reflexivity. Qed.

Lemma bins_spec xs : bins xs = None /\ 1 <= length xs < 10 \/
  exists parts, bins xs = Some parts /\ length parts = 10 /\ Permutation (concat parts) xs /\ ~ (1 <= length xs < 10).
Proof.
  unfold bins. destruct (length xs / 10 =? 0) eqn:E1, (length xs =? 0) eqn:E2; cbn [negb andb].
  2: { left. split; [reflexivity|]. apply Nat.eqb_eq in E1. apply Nat.eqb_neq in E2. apply Nat.div_small_iff in E1; lia. }
  all: right; eexists; split; [reflexivity|].
  all: destruct (push_all_gen (fun p : nat * nat => Nat.min (fst p / (length xs / 10)) 9) (fun p => [snd p]) 10 (combine (seq 0 (length xs)) xs) (empties 10) (empties_length 10)) as (X & _ & Z).
  all: split; [exact X|]; split; [rewrite Z by (intros; lia); rewrite empties_concat; cbn [app];
    rewrite <- (map_map snd (fun x : nat => [x])), map_snd_combine_seq; clear; induction xs as [|x xs IH]; cbn; [reflexivity|rewrite IH; reflexivity]|].
  - apply Nat.eqb_eq in E2. lia.
  - apply Nat.eqb_eq in E2. lia.
  - apply Nat.eqb_neq in E1. intro H. apply E1, Nat.div_small. lia.
Qed.

Lemma concat_map_perm {A B} (f g : A -> list B) xs : (forall x, In x xs -> Permutation (f x) (g x)) -> Permutation (concat (map f xs)) (concat (map g xs)).
Proof. induction xs as [|x xs IH]; intro H; [reflexivity|]. cbn [map concat]. rewrite (H x) by (left; reflexivity). rewrite IH by (intros; apply H; right; assumption). reflexivity. Qed.
Lemma concat_map_app {A B} (f g : A -> list B) xs : Permutation (concat (map (fun x => f x ++ g x) xs)) (concat (map f xs) ++ concat (map g xs)).
Proof.
  induction xs as [|x xs IH]; [reflexivity|]. cbn [map concat]. rewrite IH. rewrite <- !app_assoc. apply Permutation_app_head.
  rewrite !app_assoc. apply Permutation_app_tail, Permutation_app_comm.
Qed.
Lemma concat_map_nil {A B} (f : A -> list B) xs : (forall x, In x xs -> f x = []) -> concat (map f xs) = [].
Proof. induction xs as [|x xs IH]; intro H; [reflexivity|]. cbn [map concat]. rewrite (H x) by (left; reflexivity). apply IH. intros; apply H; right; assumption. Qed.
Lemma concat_swap {A B C} (f : A -> B -> list C) xs ys :
  Permutation (concat (map (fun x => concat (map (f x) ys)) xs)) (concat (map (fun y => concat (map (fun x => f x y) xs)) ys)).
Proof.
  induction xs as [|x xs IH]; cbn [map concat].
  - rewrite concat_map_nil by reflexivity. reflexivity.
  - rewrite IH. rewrite <- concat_map_app. reflexivity.
Qed.

Lemma map_nth_seq {A} (g : list (list A)) : map (fun j => nth j g []) (seq 0 (length g)) = g.
Proof.
  induction g as [|x g IH]; [reflexivity|]. cbn [length seq map nth]. f_equal. rewrite <- seq_shift, map_map. exact IH.
Qed.
Lemma map_sort_perm g : Permutation (concat (map sort_nat g)) (concat g).
Proof. induction g as [|x g IH]; [reflexivity|]. cbn [map concat]. rewrite IH, sort_nat_perm. reflexivity. Qed.
Lemma nth_map_sort g j : nth j (map sort_nat g) [] = sort_nat (nth j g []).
Proof. change (@nil nat) with (sort_nat []) at 1. apply map_nth. Qed.

(** Rounding. *)
Lemma round_frac_spec a b n : 0 < b -> 2 * a * n < 2 * b * round_frac a b n + b /\ 2 * b * round_frac a b n <= 2 * a * n + b.
Proof.
  intro Hb. unfold round_frac. pose proof (Nat.div_mod (2 * a * n + b) (2 * b) ltac:(lia)) as D.
  pose proof (Nat.mod_upper_bound (2 * a * n + b) (2 * b) ltac:(lia)) as M. lia.
Qed.
Lemma round_frac_le a b n : 0 < b -> a <= b -> round_frac a b n <= n.
Proof.
  intros Hb Ha. unfold round_frac. apply Nat.lt_succ_r, Nat.div_lt_upper_bound; [lia|].
  assert (a * n <= b * n) by (apply Nat.mul_le_mono_r; exact Ha). lia.
Qed.
Lemma round_frac_mono a a' b n : 0 < b -> a <= a' -> round_frac a b n <= round_frac a' b n.
Proof.
  intros Hb Ha. unfold round_frac. apply Nat.div_le_mono; [lia|].
  assert (a * n <= a' * n) by (apply Nat.mul_le_mono_r; exact Ha). lia.
Qed.

(** The folds of one list. *)
Definition cut_at (k n j : nat) : nat := if j =? k then n else round_frac j k n.
Lemma fold_of_cut k xs f : 0 < k -> fold_of k xs f = firstn (cut_at k (length xs) (S f) - (if f =? k then length xs else cut_at k (length xs) f)) (skipn (if f =? k then length xs else cut_at k (length xs) f) xs) \/ f >= k.
Proof.
  intro Hk. destruct (le_lt_dec k f) as [H|H]; [right; exact H|left].
  unfold fold_of, cut_at. replace (f =? k) with false by (symmetry; apply Nat.eqb_neq; lia).
  replace (S f =? k) with (f =? k - 1) by (destruct (f =? k - 1) eqn:E; symmetry; [apply Nat.eqb_eq|apply Nat.eqb_neq]; [apply Nat.eqb_eq in E|apply Nat.eqb_neq in E]; lia).
  assert (Z : (if f =? 0 then 0 else round_frac f k (length xs)) = round_frac f k (length xs)).
  { destruct f; [cbn [Nat.eqb]|reflexivity]. symmetry. unfold round_frac. apply Nat.div_small. lia. }
  rewrite Z. reflexivity.
Qed.
Lemma cut_at_mono k n j : 0 < k -> j < k -> cut_at k n j <= cut_at k n (S j).
Proof.
  intros Hk Hj. unfold cut_at. replace (j =? k) with false by (symmetry; apply Nat.eqb_neq; lia).
  destruct (S j =? k); [apply round_frac_le; lia|apply round_frac_mono; lia].
Qed.
Lemma firstn_app_skipn {A} (xs : list A) a b : a <= b -> firstn a xs ++ firstn (b - a) (skipn a xs) = firstn b xs.
Proof.
  intro H. rewrite <- (firstn_skipn a xs) at 3. rewrite firstn_app. rewrite firstn_firstn. replace (min b a) with a by lia.
  f_equal. destruct (le_lt_dec a (length xs)) as [L|L]; [rewrite firstn_length_le by exact L; reflexivity|].
  rewrite skipn_all2 by lia. rewrite !firstn_nil. reflexivity.
Qed.
Lemma folds_cover k xs : 0 < k -> concat (map (fold_of k xs) (seq 0 k)) = xs.
Proof.
  intro Hk. assert (G : forall j, j <= k -> concat (map (fold_of k xs) (seq 0 j)) = firstn (cut_at k (length xs) j) xs).
  { induction j as [|j IH]; intro Hj.
    - unfold cut_at. replace (0 =? k) with false by (symmetry; apply Nat.eqb_neq; lia).
      replace (round_frac 0 k (length xs)) with 0 by (unfold round_frac; symmetry; apply Nat.div_small; lia). reflexivity.
    - rewrite seq_S, map_app, concat_app, IH by lia. cbn [map concat plus]. rewrite app_nil_r.
      destruct (fold_of_cut k xs j Hk) as [E|E]; [|lia]. rewrite E. replace (j =? k) with false by (symmetry; apply Nat.eqb_neq; lia).
      apply firstn_app_skipn, cut_at_mono; lia. }
  rewrite G by lia. unfold cut_at. rewrite Nat.eqb_refl. apply firstn_all.
Qed.
Lemma in_nth_concat (v : groups) i : In i (concat v) -> exists k, k < length v /\ In i (nth k v []).
Proof.
  intro H. apply in_concat in H. destruct H as (x & Hx & Hi). destruct (In_nth v x [] Hx) as (k & Hk & <-). eauto.
Qed.
Lemma nth_in_concat (v : groups) i k : In i (nth k v []) -> In i (concat v).
Proof.
  intro H. destruct (le_lt_dec (length v) k) as [L|L]; [rewrite nth_overflow in H by exact L; destruct H|].
  apply in_concat. exists (nth k v []). split; [apply nth_In; exact L|exact H].
Qed.
Lemma labelled_lt lab v i : labelled lab v -> In i (concat v) -> lab i < length v.
Proof. intros H Hi. destruct (in_nth_concat v i Hi) as (k & Hk & Hi'). rewrite (H k i Hi'). exact Hk. Qed.
Lemma labelled_by_labels lab n xs : labelled lab (by_labels lab n xs).
Proof.
  intros k i H. destruct (le_lt_dec n k) as [L|L]; [rewrite nth_overflow in H by (rewrite by_labels_length; exact L); destruct H|].
  rewrite by_labels_nth in H by exact L. apply filter_In in H. apply Nat.eqb_eq, H.
Qed.
Lemma labelled_sort lab g : labelled lab g -> labelled lab (map sort_nat g).
Proof. intros H k i Hi. rewrite nth_map_sort in Hi. apply (H k i). eapply Permutation_in; [apply sort_nat_perm|exact Hi]. Qed.
Lemma labelled_filter lab v k : labelled lab v -> k < length v -> Permutation (filter (fun i => lab i =? k) (concat v)) (nth k v []).
Proof.
  intros H Hk. assert (G : forall u s, (forall j i, In i (nth j u []) -> lab i = s + j) -> s <= k -> filter (fun i => lab i =? k) (concat u) = nth (k - s) u []).
  { induction u as [|x u IH]; intros s Hu Hs; [destruct (k - s); reflexivity|]. cbn [concat]. rewrite filter_app.
    assert (Hx : forall i, In i x -> lab i = s) by (intros i Hi; rewrite (Hu 0 i Hi); lia).
    destruct (Nat.eq_dec k s) as [->|Hne].
    - replace (s - s) with 0 by lia. cbn [nth]. rewrite (filter_all_false _ (concat u)).
      + rewrite app_nil_r. apply filter_all_true. intros i Hi. apply Nat.eqb_eq, Hx, Hi.
      + intros i Hi. apply Nat.eqb_neq. destruct (in_nth_concat u i Hi) as (j & _ & Hj). specialize (Hu (S j) i Hj). lia.
    - rewrite (filter_all_false _ x) by (intros i Hi; apply Nat.eqb_neq; rewrite (Hx i Hi); lia).
      replace (k - s) with (S (k - S s)) by lia. cbn [nth app]. apply (IH (S s)); [|lia]. intros j i Hj. rewrite (Hu (S j) i Hj). lia. }
  rewrite (G v 0) by (auto; lia). rewrite Nat.sub_0_r. reflexivity.
Qed.

Lemma fold_left_pair {A B C} (f : B -> A -> B) (g : C -> A -> C) xs b c :
  fold_left (fun bc x => (f (fst bc) x, g (snd bc) x)) xs (b, c) = (fold_left f xs b, fold_left g xs c).
Proof. revert b c. induction xs as [|x xs IH]; intros b c; [reflexivity|]. apply IH. Qed.

Section Cut.
  Context (shuf : nat -> list nat -> list nat) (Hshuf : forall s xs, Permutation (shuf s xs) xs).
  Context (a b : nat) (dest : nat -> nat) (parts : groups) (n : nat).
  Let tr_part (p : nat * list nat) := skipn (round_frac a b (length (shuf (fst p) (snd p)))) (shuf (fst p) (snd p)).
  Let te_part (p : nat * list nat) := firstn (round_frac a b (length (shuf (fst p) (snd p)))) (shuf (fst p) (snd p)).
  Let tagged := combine (seq 0 (length parts)) parts.
  Lemma cut_parts_eq : cut_parts shuf a b dest parts n =
    (fold_left (fun g p => push_to (dest (fst p)) (tr_part p) g) tagged (empties n),
     fold_left (fun g p => push_to (dest (fst p)) (te_part p) g) tagged (empties n)).
  Proof.
    unfold cut_parts.
    exact (fold_left_pair (fun g p => push_to (dest (fst p)) (tr_part p) g) (fun g p => push_to (dest (fst p)) (te_part p) g) tagged (empties n) (empties n)).
  Qed.
  Lemma cut_parts_perm : (forall y, y < length parts -> dest y < n) ->
    let tt := cut_parts shuf a b dest parts n in
    length (fst tt) = n /\ length (snd tt) = n /\ Permutation (concat (fst tt) ++ concat (snd tt)) (concat parts).
  Proof.
    intro Hd. cbv zeta. rewrite cut_parts_eq. cbn [fst snd].
    destruct (push_all_gen (fun p => dest (fst p)) tr_part n tagged (empties n) (empties_length n)) as (X1 & _ & Z1).
    destruct (push_all_gen (fun p => dest (fst p)) te_part n tagged (empties n) (empties_length n)) as (X2 & _ & Z2).
    split; [exact X1|]. split; [exact X2|].
    assert (Hp : forall p, In p tagged -> dest (fst p) < n) by (intros p Hp; apply combine_seq_in in Hp; apply Hd; lia).
    rewrite Z1, Z2, empties_concat by exact Hp. cbn [app]. rewrite <- concat_map_app.
    rewrite (concat_map_perm _ (fun p : nat * list nat => snd p)).
    - unfold tagged. rewrite map_snd_combine_seq. reflexivity.
    - intros p _. unfold tr_part, te_part. rewrite Permutation_app_comm, firstn_skipn. apply Hshuf.
  Qed.
End Cut.

Lemma tagged_pick {A} (F : nat * list nat -> list A) (parts : groups) k : forall s, s <= k -> k < s + length parts ->
  concat (map (fun p => if fst p =? k then F p else []) (combine (seq s (length parts)) parts)) = F (k, nth (k - s) parts []).
Proof.
  induction parts as [|x parts IH]; intros s Hs Hk; cbn [length] in *; [lia|]. cbn [seq combine map concat fst].
  destruct (s =? k) eqn:E.
  - apply Nat.eqb_eq in E. subst s. rewrite Nat.sub_diag. cbn [nth]. rewrite concat_map_nil; [apply app_nil_r|].
    intros p Hp. apply combine_seq_in in Hp. replace (fst p =? k) with false by (symmetry; apply Nat.eqb_neq; lia). reflexivity.
  - apply Nat.eqb_neq in E. cbn [app]. rewrite IH by lia. replace (k - s) with (S (k - S s)) by lia. reflexivity.
Qed.
