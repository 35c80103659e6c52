(** Lemmas on bit sets. *)
From Coq Require Import List Arith Bool NArith Lia.
From Verif Require Import Model_FeatureVector Model_Data Model_Bitset.
Import ListNotations.

Lemma bs_upd_spec g : forall b e, e < length b ->
  exists b', bs_upd g e b = Some b' /\ length b' = length b /\ forall k, nth k b' 0%N = if k =? e then g (nth k b 0%N) else nth k b 0%N.
Proof.
  induction b as [|x b IH]; intros e He; cbn [length] in He; [lia|]. destruct e as [|e]; cbn [bs_upd].
  - exists (g x :: b). split; [reflexivity|]. split; [reflexivity|]. intros [|k]; reflexivity.
  - destruct (IH e ltac:(lia)) as (b' & -> & L & N). exists (x :: b'). split; [reflexivity|]. split; [cbn; lia|].
    intros [|k]; [reflexivity|]. apply N.
Qed.
Lemma bs_upd_none g : forall b e, length b <= e -> bs_upd g e b = None.
Proof. induction b as [|x b IH]; intros [|e] H; cbn in *; try reflexivity; try lia. rewrite IH by lia. reflexivity. Qed.

Section W.
  Context (w : nat) (Hw : 0 < w).
  (** No bit at or above position [w] of an element is set. *)
  Definition low (b : bitset) : Prop := forall e k, w <= k -> N.testbit (nth e b 0%N) (N.of_nat k) = false.

  Lemma mask_bit i k : N.testbit (bs_mask w i) (N.of_nat k) = (k =? i mod w).
  Proof.
    unfold bs_mask. rewrite N.shiftl_1_l, N.pow2_bits_eqb. destruct (k =? i mod w) eqn:E.
    - apply Nat.eqb_eq in E. subst k. apply N.eqb_refl.
    - apply Nat.eqb_neq in E. apply N.eqb_neq. intro H. apply E. symmetry. apply Nat2N.inj. exact H.
  Qed.
  Lemma mask_high i k : w <= k -> N.testbit (bs_mask w i) (N.of_nat k) = false.
  Proof. intro H. rewrite mask_bit. apply Nat.eqb_neq. pose proof (Nat.mod_upper_bound i w ltac:(lia)). lia. Qed.
  Lemma div_mod_eqb i j : (j =? i) = (j / w =? i / w) && (j mod w =? i mod w).
  Proof.
    destruct (j =? i) eqn:E.
    - apply Nat.eqb_eq in E. subst. rewrite !Nat.eqb_refl. reflexivity.
    - symmetry. apply andb_false_iff. apply Nat.eqb_neq in E.
      destruct (Nat.eq_dec (j / w) (i / w)) as [D|D]; [right|left]; apply Nat.eqb_neq; [|exact D].
      intro M. apply E. rewrite (Nat.div_mod j w), (Nat.div_mod i w) by lia. rewrite D, M. reflexivity.
  Qed.

  (** One update whose function acts bit by bit with the mask. *)
  Lemma bs_bit_op (g : N -> N -> N) (h : bool -> bool -> bool) i b :
    (forall x y k, N.testbit (g x y) k = h (N.testbit x k) (N.testbit y k)) -> (forall c, h c false = c) ->
    i / w < length b -> low b ->
    exists b', bs_upd (fun x => g x (bs_mask w i)) (i / w) b = Some b' /\ length b' = length b /\ low b'
      /\ forall j, bs_mem w b' j = h (bs_mem w b j) (j =? i).
  Proof.
    intros Hg Hh Hi Hl. destruct (bs_upd_spec (fun x => g x (bs_mask w i)) b (i / w) Hi) as (b' & E & L & N).
    exists b'. split; [exact E|]. split; [exact L|]. split.
    - intros e k Hk. rewrite N. destruct (e =? i / w); [|apply Hl; exact Hk]. rewrite Hg, mask_high, Hh by exact Hk. apply Hl. exact Hk.
    - intro j. unfold bs_mem. rewrite N, (div_mod_eqb i j). destruct (j / w =? i / w); cbn [andb]; [|rewrite Hh; reflexivity].
      rewrite Hg, mask_bit. reflexivity.
  Qed.

  Lemma elements_bound size i : i < size -> i / w < (size - 1) / w + 1.
  Proof. intro H. assert (i / w <= (size - 1) / w) by (apply Nat.div_le_mono; lia). lia. Qed.
  Lemma nth_zeros n e : nth e (repeat 0%N n) 0%N = 0%N.
  Proof. revert e. induction n as [|n IH]; intros [|e]; cbn; auto. Qed.
  Lemma low_zeros n : low (repeat 0%N n).
  Proof. intros e k _. rewrite nth_zeros. apply N.bits_0. Qed.
  Lemma mem_zeros n i : bs_mem w (repeat 0%N n) i = false.
  Proof. unfold bs_mem. rewrite nth_zeros. apply N.bits_0. Qed.

  (** Equality. *)
  Lemma bs_eq_iff : forall a b, length a = length b -> bs_eq a b = Some true /\ a = b \/ bs_eq a b = Some false /\ a <> b.
  Proof.
    induction a as [|x a IH]; intros [|y b] H; cbn in *; try discriminate; [left; auto|].
    destruct (N.eqb_spec x y) as [->|E].
    - destruct (IH b ltac:(lia)) as [[-> ->]|[-> D]]; [left; auto|]. right. split; [reflexivity|]. intro Q. apply D. congruence.
    - right. split; [reflexivity|]. congruence.
  Qed.
  Lemma low_ext a b : length a = length b -> low a -> low b -> (forall j, bs_mem w a j = bs_mem w b j) -> a = b.
  Proof.
    intros L La Lb M. apply (nth_ext a b 0%N 0%N L). intros e He. apply N.bits_inj. intro k.
    rewrite <- (N2Nat.id k). destruct (le_lt_dec w (N.to_nat k)) as [H|H]; [rewrite La, Lb by exact H; reflexivity|].
    specialize (M (N.to_nat k + e * w)). unfold bs_mem in M.
    rewrite Nat.div_add, Nat.mod_add, Nat.div_small, Nat.mod_small in M by lia. exact M.
  Qed.
End W.
