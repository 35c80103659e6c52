(** C28: bit sets behave like sets of positions, except for ClearBit. *)
From Coq Require Import List Arith Bool NArith Lia.
From Verif Require Import Model_FeatureVector Model_Data Model_Bitset Proofs_Bitset.
Import ListNotations.

Inductive bs_op := SetOp (i : nat) | ToggleOp (i : nat).
Definition op_index (o : bs_op) : nat := match o with SetOp i => i | ToggleOp i => i end.
Definition bs_step (w : nat) (b : option bitset) (o : bs_op) : option bitset :=
  match b with
  | None => None
  | Some b => match o with SetOp i => bs_set w i b | ToggleOp i => bs_toggle w i b end
  end.
(** Building a set of [size] positions and applying the operations. *)
Definition bs_run (w size : nat) (ops : list bs_op) : option bitset := fold_left (bs_step w) ops (bs_make w size).

(** Whether position [j] is in the set after the operations. *)
Definition set_step (j : nat) (c : bool) (o : bs_op) : bool :=
  match o with SetOp i => if j =? i then true else c | ToggleOp i => if j =? i then negb c else c end.
Definition set_after (ops : list bs_op) (j : nat) : bool := fold_left (set_step j) ops false.

Lemma bs_run_gen w size : 0 < w -> forall ops b (m : nat -> bool), length b = (size - 1) / w + 1 -> low w b -> (forall j, bs_mem w b j = m j) ->
  (forall o, In o ops -> op_index o < size) ->
  exists b', fold_left (bs_step w) ops (Some b) = Some b' /\ length b' = length b /\ low w b'
    /\ forall j, bs_mem w b' j = fold_left (set_step j) ops (m j).
Proof.
  intro Hw. induction ops as [|o ops IH]; intros b m L Hl Hm Ho; cbn [fold_left].
  - exists b. auto.
  - assert (Hi : op_index o / w < length b) by (rewrite L; apply elements_bound; [exact Hw|apply Ho; left; reflexivity]).
    destruct o as [i|i]; cbn [op_index bs_step] in *.
    + destruct (bs_bit_op w Hw N.lor orb i b N.lor_spec ltac:(intros []; reflexivity) Hi Hl) as (b1 & E & L1 & Hl1 & M1).
      unfold bs_set. rewrite E. destruct (IH b1 (fun j => m j || (j =? i))) as (b2 & E2 & L2 & Hl2 & M2); [congruence|exact Hl1| |intros; apply Ho; right; assumption|].
      { intro j. rewrite M1, Hm. reflexivity. }
      exists b2. split; [exact E2|]. split; [congruence|]. split; [exact Hl2|]. intro j. rewrite M2. f_equal. cbn [set_step].
      destruct (j =? i); [apply orb_true_r|apply orb_false_r].
    + destruct (bs_bit_op w Hw N.lxor xorb i b N.lxor_spec ltac:(intros []; reflexivity) Hi Hl) as (b1 & E & L1 & Hl1 & M1).
      unfold bs_toggle. rewrite E. destruct (IH b1 (fun j => xorb (m j) (j =? i))) as (b2 & E2 & L2 & Hl2 & M2); [congruence|exact Hl1| |intros; apply Ho; right; assumption|].
      { intro j. rewrite M1, Hm. reflexivity. }
      exists b2. split; [exact E2|]. split; [congruence|]. split; [exact Hl2|]. intro j. rewrite M2. f_equal. cbn [set_step].
      destruct (j =? i); [apply xorb_true_r|apply xorb_false_r].
Qed.
Lemma bs_run_ok w size ops : 0 < w -> 0 < size -> (forall o, In o ops -> op_index o < size) ->
  exists b, bs_run w size ops = Some b /\ length b = (size - 1) / w + 1 /\ low w b /\ forall j, bs_mem w b j = set_after ops j.
Proof.
  intros Hw Hs Ho. unfold bs_run, bs_make. replace (size =? 0) with false by (symmetry; apply Nat.eqb_neq; lia).
  destruct (bs_run_gen w size Hw ops (repeat 0%N ((size - 1) / w + 1)) (fun _ => false)) as (b & E & L & Hl & M).
  - apply repeat_length.
  - apply low_zeros.
  - intro j. apply mem_zeros.
  - exact Ho.
  - exists b. rewrite repeat_length in L. auto.
Qed.

(** C28: setting and toggling change exactly the given position, for any sequence of
    operations on positions inside the set. *)
Theorem C28_set_and_toggle : forall w size ops, 0 < w -> 0 < size -> (forall o, In o ops -> op_index o < size) ->
  exists b, bs_run w size ops = Some b /\ forall j, bs_mem w b j = set_after ops j.
Proof. intros w size ops Hw Hs Ho. destruct (bs_run_ok w size ops Hw Hs Ho) as (b & E & _ & _ & M). eauto. Qed.
Print Assumptions C28_set_and_toggle.

(** C28: two bit sets of equal size are equal exactly when they hold the same positions. *)
Theorem C28_equality : forall w size ops1 ops2 b1 b2, 0 < w -> 0 < size ->
  (forall o, In o ops1 -> op_index o < size) -> (forall o, In o ops2 -> op_index o < size) ->
  bs_run w size ops1 = Some b1 -> bs_run w size ops2 = Some b2 ->
  (bs_eq b1 b2 = Some true <-> forall j, j < size -> set_after ops1 j = set_after ops2 j)
  /\ (bs_eq b1 b2 = Some false <-> exists j, j < size /\ set_after ops1 j <> set_after ops2 j).
Proof.
  intros w size ops1 ops2 b1 b2 Hw Hs H1 H2 E1 E2.
  destruct (bs_run_ok w size ops1 Hw Hs H1) as (c1 & F1 & L1 & Hl1 & M1).
  destruct (bs_run_ok w size ops2 Hw Hs H2) as (c2 & F2 & L2 & Hl2 & M2).
  assert (c1 = b1) by congruence. assert (c2 = b2) by congruence. subst c1 c2.
  assert (Out : forall ops, (forall o, In o ops -> op_index o < size) -> forall j, size <= j -> forall c, fold_left (set_step j) ops c = c).
  { induction ops as [|o ops IH]; intros Ho j Hj c; [reflexivity|]. cbn [fold_left]. rewrite IH by (auto; intros; apply Ho; right; assumption).
    specialize (Ho o (or_introl eq_refl)). destruct o as [i|i]; cbn in *; replace (j =? i) with false by (symmetry; apply Nat.eqb_neq; lia); reflexivity. }
  assert (Eq : (forall j, j < size -> set_after ops1 j = set_after ops2 j) -> b1 = b2).
  { intro H. apply (low_ext w Hw); [congruence|exact Hl1|exact Hl2|]. intro j. rewrite M1, M2.
    destruct (le_lt_dec size j) as [L|L]; [unfold set_after; rewrite !Out by assumption; reflexivity|apply H; exact L]. }
  assert (Dec : (forall j, j < size -> set_after ops1 j = set_after ops2 j) \/ exists j, j < size /\ set_after ops1 j <> set_after ops2 j).
  { clear. induction size as [|s IH]; [left; intros; lia|]. destruct IH as [IH|(j & Hj & D)]; [|right; exists j; split; [lia|exact D]].
    destruct (bool_dec (set_after ops1 s) (set_after ops2 s)) as [E|E]; [left|right; exists s; split; [lia|exact E]].
    intros j Hj. destruct (Nat.eq_dec j s) as [->|Hne]; [exact E|apply IH; lia]. }
  destruct (bs_eq_iff w Hw b1 b2 ltac:(congruence)) as [[-> Q]|[-> Q]].
  - subst b2. assert (A : forall j, set_after ops1 j = set_after ops2 j) by (intro j; rewrite <- M1, <- M2; reflexivity).
    split; split; [auto|auto|discriminate|]. intros (j & _ & D). exfalso. apply D, A.
  - split; split; [discriminate| | |auto].
    + intro H. exfalso. apply Q, Eq, H.
    + intros _. destruct Dec as [D|D]; [exfalso; apply Q, Eq, D|exact D].
Qed.
Print Assumptions C28_equality.

(** C28: ClearBit keeps the bit it should clear and clears the other bits of the same
    element (dynamic_bitset.h: [&=] instead of [&= ~]). *)
Theorem C28_clear_refuted : forall w, 1 < w ->
  exists b b', bs_run w w [SetOp 0; SetOp 1] = Some b /\ bs_clear w 0 b = Some b' /\ bs_mem w b' 0 = true /\ bs_mem w b' 1 = false.
Proof.
  intros w Hw. destruct (bs_run_ok w w [SetOp 0; SetOp 1]) as (b & E & L & Hl & M); [lia|lia|intros o [<-|[<-|[]]]; cbn; lia|].
  unfold bs_clear. destruct (bs_upd_spec (fun x => N.land x (bs_mask w 0)) b (0 / w)) as (b' & E' & L' & N'); [rewrite Nat.div_0_l by lia; lia|].
  exists b, b'. split; [exact E|]. split; [exact E'|].
  assert (X : forall j, j < w -> bs_mem w b' j = bs_mem w b j && (j =? 0)).
  { intros j Hj. unfold bs_mem. rewrite N'. rewrite Nat.div_0_l by lia. rewrite (Nat.div_small j) by exact Hj. cbn [Nat.eqb].
    rewrite N.land_spec, mask_bit by lia. rewrite Nat.mod_0_l by lia. rewrite (Nat.mod_small j) by exact Hj. reflexivity. }
  rewrite !X, !M by lia. split; reflexivity.
Qed.
Print Assumptions C28_clear_refuted.

(** C28: there is no bit set of size 0: the number of elements wraps around. *)
Theorem C28_size_zero_refuted : forall w, bs_make w 0 = None.
Proof. reflexivity. Qed.
Print Assumptions C28_size_zero_refuted.

Example c28_ex : exists b, bs_run 8 20 [SetOp 3; SetOp 19; ToggleOp 3; ToggleOp 11] = Some b
  /\ filter (bs_mem 8 b) (seq 0 20) = [11; 19] /\ b = [0%N; 8%N; 8%N].
Proof. eexists. split; [vm_compute; reflexivity|]. vm_compute. auto. Qed.
