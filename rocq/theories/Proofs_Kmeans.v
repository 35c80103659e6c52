(** Proofs about the one-dimensional clustering. *)
From Coq Require Import List Arith Bool Lia QArith Qminmax Lqa Setoid.
From Verif Require Import Base_Q Model_Kmeans.
Import ListNotations.
Local Open Scope nat_scope.

Lemma sq_nonneg (a : Q) : (0 <= a * a)%Q.
Proof. destruct (Qlt_le_dec a 0); nra. Qed.
Lemma sq_zero (a : Q) : (a * a <= 0 -> a == 0)%Q.
Proof. intro H. destruct (Qlt_le_dec a 0); [nra|]. destruct (Qlt_le_dec 0 a); [nra|]. lra. Qed.

Definition rng (j i : nat) : list nat := seq j (i - j).
Lemma rng_in j i p : In p (rng j i) <-> j <= p < i.
Proof. unfold rng. rewrite in_seq. lia. Qed.
Lemma rng_split j k i : j <= k <= i -> rng j i = rng j k ++ rng k i.
Proof. intro H. unfold rng. replace (i - j) with ((k - j) + (i - k)) by lia. rewrite seq_app. f_equal. f_equal; lia. Qed.
Lemma rng_nil j i : i <= j -> rng j i = [].
Proof. intro H. unfold rng. replace (i - j) with 0 by lia. reflexivity. Qed.
Lemma rng_cons j i : j < i -> rng j i = j :: rng (S j) i.
Proof. intro H. unfold rng. replace (i - j) with (S (i - S j)) by lia. reflexivity. Qed.
Lemma rng_snoc j i : j <= i -> rng j (S i) = rng j i ++ [i].
Proof. intro H. rewrite (rng_split j i (S i)) by lia. f_equal. unfold rng. replace (S i - i) with 1 by lia. reflexivity. Qed.

Lemma sumQ_le {A} (f g : A -> Q) l : (forall x, In x l -> f x <= g x)%Q -> (sumQ f l <= sumQ g l)%Q.
Proof. induction l as [|x l IH]; intros H; cbn; [lra|]. pose proof (H x (or_introl eq_refl)). specialize (IH (fun y I => H y (or_intror I))). lra. Qed.
Lemma sumQ_zero {A} (f : A -> Q) l : (forall x, In x l -> 0 <= f x)%Q -> (sumQ f l <= 0)%Q -> forall x, In x l -> (f x == 0)%Q.
Proof.
  induction l as [|y l IH]; intros H Z x I; [contradiction|]. cbn in Z. destruct I as [<-|I].
  - pose proof (H y (or_introl eq_refl)). pose proof (sumQ_nonneg f l (fun z J => H z (or_intror J))). lra.
  - apply IH; [intros z J; apply H; now right| |exact I]. pose proof (H y (or_introl eq_refl)). lra.
Qed.
Lemma sumQ_pos {A} (f : A -> Q) l : l <> [] -> (forall x, In x l -> 0 < f x)%Q -> (0 < sumQ f l)%Q.
Proof.
  intros N H. destruct l as [|x l]; [now elim N|]. cbn. pose proof (H x (or_introl eq_refl)).
  pose proof (sumQ_nonneg f l (fun z J => Qlt_le_weak _ _ (H z (or_intror J)))). lra.
Qed.

Section Points.
  Context (wt xv : nat -> Q) (N : nat).
  Hypothesis Hw : forall i, i < N -> (0 < wt i)%Q.
  Hypothesis Hx : forall i j, i <= j -> j < N -> (xv i <= xv j)%Q.

  (** Sums over the points [j <= p < i] and their squared distance to [c]. *)
  Definition sw (j i : nat) : Q := sumQ wt (rng j i).
  Definition sx (j i : nat) : Q := sumQ (fun p => wt p * xv p)%Q (rng j i).
  Definition dist (c : Q) (j i : nat) : Q := sumQ (fun p => wt p * ((xv p - c) * (xv p - c)))%Q (rng j i).
  Definition mu (j i : nat) : Q := (sx j i / sw j i)%Q.
  Definition wc (j i : nat) : Q := if j <? i then dist (mu j i) j i else 0%Q.

  Lemma sw_pos j i : j < i -> i <= N -> (0 < sw j i)%Q.
  Proof. intros H1 H2. apply sumQ_pos; [rewrite rng_cons by exact H1; discriminate|]. intros p Hp. apply rng_in in Hp. apply Hw. lia. Qed.
  Lemma sw_split j k i : j <= k <= i -> (sw j i == sw j k + sw k i)%Q.
  Proof. intro H. unfold sw. rewrite (rng_split j k i H). apply sumQ_app. Qed.
  Lemma sx_split j k i : j <= k <= i -> (sx j i == sx j k + sx k i)%Q.
  Proof. intro H. unfold sx. rewrite (rng_split j k i H). apply sumQ_app. Qed.
  Lemma dist_split c j k i : j <= k <= i -> (dist c j i == dist c j k + dist c k i)%Q.
  Proof. intro H. unfold dist. rewrite (rng_split j k i H). apply sumQ_app. Qed.
  Lemma dist_nonneg c j i : i <= N -> (0 <= dist c j i)%Q.
  Proof. intros H. apply sumQ_nonneg. intros p Hp. apply rng_in in Hp. pose proof (Hw p ltac:(lia)). pose proof (sq_nonneg (xv p - c)). nra. Qed.
  Lemma dist_nil c j i : i <= j -> (dist c j i == 0)%Q.
  Proof. intro H. unfold dist. rewrite rng_nil by exact H. reflexivity. Qed.
  Lemma mu_eq j i : j < i -> i <= N -> (mu j i * sw j i == sx j i)%Q.
  Proof. intros H1 H2. unfold mu. pose proof (sw_pos j i H1 H2). field. lra. Qed.
  Lemma dist_shift c m j i : (dist c j i == dist m j i + 2 * (m - c) * (sx j i - m * sw j i) + (m - c) * (m - c) * sw j i)%Q.
  Proof.
    unfold dist, sx, sw. generalize (rng j i). induction l as [|p l IH]; cbn; [ring|].
    rewrite IH. ring.
  Qed.
  Lemma dist_mean c j i : j < i -> i <= N -> (dist c j i == wc j i + sw j i * ((c - mu j i) * (c - mu j i)))%Q.
  Proof.
    intros H1 H2. unfold wc. destruct (Nat.ltb_spec j i); [|lia]. rewrite (dist_shift c (mu j i)).
    pose proof (mu_eq j i H1 H2) as M. assert (E : (sx j i - mu j i * sw j i == 0)%Q) by (rewrite M; ring). rewrite E. ring.
  Qed.
  Lemma wc_le c j i : i <= N -> (wc j i <= dist c j i)%Q.
  Proof.
    intros H2. destruct (Nat.lt_ge_cases j i) as [H1|H1].
    - rewrite (dist_mean c j i H1 H2). pose proof (sw_pos j i H1 H2). pose proof (sq_nonneg (c - mu j i)). nra.
    - unfold wc. destruct (Nat.ltb_spec j i); [lia|]. rewrite dist_nil by exact H1. lra.
  Qed.
  Lemma wc_attain j i : j < i -> wc j i = dist (mu j i) j i.
  Proof. intro H. unfold wc. destruct (Nat.ltb_spec j i); [reflexivity|lia]. Qed.
  Lemma wc_nil j i : i <= j -> wc j i = 0%Q.
  Proof. intro H. unfold wc. destruct (Nat.ltb_spec j i); [lia|reflexivity]. Qed.
  Lemma wc_nonneg j i : i <= N -> (0 <= wc j i)%Q.
  Proof. intro H. unfold wc. destruct (j <? i); [apply dist_nonneg; exact H|lra]. Qed.
  (** A larger range costs at least as much, also when the smaller one is cut out of it. *)
  Lemma wc_super j k i : j <= k <= i -> i <= N -> (wc j k + wc k i <= wc j i)%Q.
  Proof.
    intros H1 H2. destruct (Nat.lt_ge_cases j i) as [H|H].
    - rewrite (wc_attain j i H), (dist_split _ j k i H1).
      pose proof (wc_le (mu j i) j k ltac:(lia)). pose proof (wc_le (mu j i) k i H2). lra.
    - rewrite !wc_nil by lia. lra.
  Qed.
  Lemma wc_mono j i j' i' : j' <= j -> i <= i' -> i' <= N -> (wc j i <= wc j' i')%Q.
  Proof.
    intros H1 H2 H3. destruct (Nat.lt_ge_cases j i) as [H|H]; [|rewrite (wc_nil j i H); apply wc_nonneg; exact H3].
    pose proof (wc_super j' j i' ltac:(lia) H3). pose proof (wc_super j i i' ltac:(lia) H3).
    pose proof (wc_nonneg j' j ltac:(lia)). pose proof (wc_nonneg i i' H3). lra.
  Qed.
  Lemma wc_one i : i < N -> (wc i (S i) == 0)%Q.
  Proof.
    intro H. rewrite wc_attain by lia. pose proof (mu_eq i (S i) ltac:(lia) ltac:(lia)) as M. pose proof (Hw i H) as P.
    assert (R : rng i (S i) = [i]) by (unfold rng; replace (S i - i) with 1 by lia; reflexivity).
    assert (S1 : (sx i (S i) == wt i * xv i)%Q) by (unfold sx; rewrite R; cbn; ring).
    assert (S2 : (sw i (S i) == wt i)%Q) by (unfold sw; rewrite R; cbn; ring).
    rewrite S1, S2 in M. assert (E : (mu i (S i) == xv i)%Q) by nra.
    unfold dist. rewrite R. cbn. rewrite E. ring.
  Qed.

  (** The mean lies between the first and the last value. *)
  Lemma mu_low j i c : j < i -> i <= N -> (forall p, (j <= p < i)%nat -> c <= xv p)%Q -> (c <= mu j i)%Q.
  Proof.
    intros H1 H2 H. pose proof (mu_eq j i H1 H2) as M. pose proof (sw_pos j i H1 H2) as P.
    assert (L : (c * sw j i <= sx j i)%Q).
    { unfold sw, sx. assert (G : forall l, (forall p, In p l -> j <= p < i) -> (c * sumQ wt l <= sumQ (fun p => wt p * xv p) l)%Q).
      { induction l as [|p l IH]; intros G; cbn; [lra|]. specialize (IH (fun z I => G z (or_intror I))).
        pose proof (G p (or_introl eq_refl)) as B. pose proof (H p B). pose proof (Hw p ltac:(lia)). nra. }
      apply G. intros p. apply rng_in. }
    nra.
  Qed.
  Lemma mu_high j i c : j < i -> i <= N -> (forall p, (j <= p < i)%nat -> xv p <= c)%Q -> (mu j i <= c)%Q.
  Proof.
    intros H1 H2 H. pose proof (mu_eq j i H1 H2) as M. pose proof (sw_pos j i H1 H2) as P.
    assert (L : (sx j i <= c * sw j i)%Q).
    { unfold sw, sx. assert (G : forall l, (forall p, In p l -> j <= p < i) -> (sumQ (fun p => wt p * xv p) l <= c * sumQ wt l)%Q).
      { induction l as [|p l IH]; intros G; cbn; [lra|]. specialize (IH (fun z I => G z (or_intror I))).
        pose proof (G p (or_introl eq_refl)) as B. pose proof (H p B). pose proof (Hw p ltac:(lia)). nra. }
      apply G. intros p. apply rng_in. }
    nra.
  Qed.
  Lemma dist_far_low c m j i : i <= N -> (c <= m)%Q -> (forall p, (j <= p < i)%nat -> xv p <= c)%Q -> (dist c j i <= dist m j i)%Q.
  Proof.
    intros H2 L H. apply sumQ_le. intros p Hp. apply rng_in in Hp. pose proof (Hw p ltac:(lia)). pose proof (H p Hp).
    assert ((xv p - c) * (xv p - c) <= (xv p - m) * (xv p - m))%Q by nra. nra.
  Qed.
  Lemma dist_far_high c m j i : i <= N -> (m <= c)%Q -> (forall p, (j <= p < i)%nat -> c <= xv p)%Q -> (dist c j i <= dist m j i)%Q.
  Proof.
    intros H2 L H. apply sumQ_le. intros p Hp. apply rng_in in Hp. pose proof (Hw p ltac:(lia)). pose proof (H p Hp).
    assert ((xv p - c) * (xv p - c) <= (xv p - m) * (xv p - m))%Q by nra. nra.
  Qed.

  (** The quadrangle inequality. *)
  Lemma monge j k i l : j <= k -> k < i -> i <= l -> l <= N -> (wc j i + wc k l <= wc j l + wc k i)%Q.
  Proof.
    intros H1 H2 H3 H4. set (m := mu j l). set (v := mu k i).
    assert (E1 : (wc j l == dist m j k + dist m k i + dist m i l)%Q).
    { rewrite wc_attain by lia. fold m. rewrite (dist_split m j k l) by lia. rewrite (dist_split m k i l) by lia. ring. }
    assert (E2 : (wc k i == dist v k i)%Q) by (rewrite wc_attain by lia; reflexivity).
    destruct (Qlt_le_dec m v) as [L|L].
    - pose proof (wc_le m j i ltac:(lia)) as A. rewrite (dist_split m j k i) in A by lia.
      pose proof (wc_le v k l ltac:(lia)) as B. rewrite (dist_split v k i l) in B by lia.
      assert (C : (dist v i l <= dist m i l)%Q).
      { apply dist_far_high; [exact H4|lra|]. intros p Hp. apply mu_high; [exact H2|lia|]. intros q Hq. apply Hx; lia. }
      lra.
    - pose proof (wc_le v j i ltac:(lia)) as A. rewrite (dist_split v j k i) in A by lia.
      pose proof (wc_le m k l ltac:(lia)) as B. rewrite (dist_split m k i l) in B by lia.
      assert (C : (dist v j k <= dist m j k)%Q).
      { apply dist_far_low; [lia|exact L|]. intros p Hp. apply mu_low; [exact H2|lia|]. intros q Hq. apply Hx; lia. }
      lra.
  Qed.
  (** Also for empty middle parts. *)
  Lemma monge' j k i l : j <= k -> k <= l -> i <= l -> j <= i -> l <= N -> (wc j i + wc k l <= wc j l + wc k i)%Q.
  Proof.
    intros H1 H2 H3 H4 H5. destruct (Nat.lt_ge_cases k i) as [H|H]; [apply monge; lia|].
    rewrite (wc_nil k i H). pose proof (wc_super j k l ltac:(lia) H5). pose proof (wc_mono j i j k ltac:(lia) H ltac:(lia)). lra.
  Qed.

  (** When it is an equality with three parts that are not empty, all values are equal. *)
  Lemma dist_zero_gap c j i : i <= N -> (dist c j i <= 0)%Q -> forall p, j <= p < i -> (xv p == c)%Q.
  Proof.
    intros H2 Z p Hp. assert (E : (wt p * ((xv p - c) * (xv p - c)) == 0)%Q).
    { apply (sumQ_zero (fun p => wt p * ((xv p - c) * (xv p - c)))%Q (rng j i)); [|exact Z|apply rng_in; exact Hp].
      intros q Hq. apply rng_in in Hq. pose proof (Hw q ltac:(lia)). pose proof (sq_nonneg (xv q - c)). nra. }
    pose proof (Hw p ltac:(lia)). pose proof (sq_zero (xv p - c)) as Q0. pose proof (sq_nonneg (xv p - c)).
    assert ((xv p - c) * (xv p - c) <= 0)%Q by nra. specialize (Q0 H1). lra.
  Qed.
  Lemma mean_all_low c j i : i <= N -> (sx j i == c * sw j i)%Q -> (forall p, (j <= p < i)%nat -> xv p <= c)%Q -> forall p, j <= p < i -> (xv p == c)%Q.
  Proof.
    intros H2 E H p Hp. assert (Z : (wt p * (c - xv p) == 0)%Q).
    { apply (sumQ_zero (fun p => wt p * (c - xv p))%Q (rng j i)).
      - intros q Hq. apply rng_in in Hq. pose proof (Hw q ltac:(lia)). pose proof (H q Hq). nra.
      - assert (G : forall l, (sumQ (fun p => wt p * (c - xv p)) l == c * sumQ wt l - sumQ (fun p => wt p * xv p) l)%Q).
        { induction l as [|q l IH]; cbn; [ring|]. rewrite IH. ring. }
        rewrite G. unfold sx, sw in E. rewrite E. lra.
      - apply rng_in. exact Hp. }
    pose proof (Hw p ltac:(lia)). nra.
  Qed.
  Lemma mean_all_high c j i : i <= N -> (sx j i == c * sw j i)%Q -> (forall p, (j <= p < i)%nat -> c <= xv p)%Q -> forall p, j <= p < i -> (xv p == c)%Q.
  Proof.
    intros H2 E H p Hp. assert (Z : (wt p * (xv p - c) == 0)%Q).
    { apply (sumQ_zero (fun p => wt p * (xv p - c))%Q (rng j i)).
      - intros q Hq. apply rng_in in Hq. pose proof (Hw q ltac:(lia)). pose proof (H q Hq). nra.
      - assert (G : forall l, (sumQ (fun p => wt p * (xv p - c)) l == sumQ (fun p => wt p * xv p) l - c * sumQ wt l)%Q).
        { induction l as [|q l IH]; cbn; [ring|]. rewrite IH. ring. }
        rewrite G. unfold sx, sw in E. rewrite E. lra.
      - apply rng_in. exact Hp. }
    pose proof (Hw p ltac:(lia)). nra.
  Qed.
  (** If [v] is as good a center as the mean, it is the mean. *)
  Lemma dist_is_mean c j i : j < i -> i <= N -> (dist c j i <= wc j i)%Q -> (sx j i == c * sw j i)%Q.
  Proof.
    intros H1 H2 L. rewrite (dist_mean c j i H1 H2) in L. pose proof (sw_pos j i H1 H2) as P.
    assert (Z : ((c - mu j i) * (c - mu j i) <= 0)%Q) by (pose proof (sq_nonneg (c - mu j i)); nra).
    apply sq_zero in Z. rewrite <- (mu_eq j i H1 H2). assert (mu j i == c)%Q by lra. rewrite H. reflexivity.
  Qed.
  Lemma monge_flat j k i l : j < k -> k < i -> i < l -> l <= N -> (wc j l + wc k i <= wc j i + wc k l)%Q ->
    exists v, forall p, j <= p < l -> (xv p == v)%Q.
  Proof.
    intros H1 H2 H3 H4 Eq. set (m := mu j l). set (v := mu k i).
    assert (Vlow : forall p, j <= p < k -> (xv p <= v)%Q).
    { intros p Hp. apply mu_low; [exact H2|lia|]. intros q Hq. apply Hx; lia. }
    assert (Vhigh : forall p, i <= p < l -> (v <= xv p)%Q).
    { intros p Hp. apply mu_high; [exact H2|lia|]. intros q Hq. apply Hx; lia. }
    assert (E1 : (wc j l == dist m j k + dist m k i + dist m i l)%Q).
    { rewrite wc_attain by lia. fold m. rewrite (dist_split m j k l) by lia. rewrite (dist_split m k i l) by lia. ring. }
    assert (E2 : (wc k i == dist v k i)%Q) by (rewrite wc_attain by lia; reflexivity).
    assert (MV : (m == v)%Q).
    { destruct (Qlt_le_dec m v) as [L|L].
      - exfalso. pose proof (wc_le m j i ltac:(lia)) as A. rewrite (dist_split m j k i) in A by lia.
        pose proof (wc_le v k l ltac:(lia)) as B. rewrite (dist_split v k i l) in B by lia.
        assert (C : (dist v i l < dist m i l)%Q).
        { unfold dist. rewrite (rng_cons i l H3). cbn [sumQ].
          assert (R : (sumQ (fun p => wt p * ((xv p - v) * (xv p - v))) (rng (S i) l) <= sumQ (fun p => wt p * ((xv p - m) * (xv p - m))) (rng (S i) l))%Q).
          { apply (dist_far_high v m (S i) l); [exact H4|lra|]. intros p Hp. apply Vhigh. lia. }
          pose proof (Hw i ltac:(lia)). pose proof (Vhigh i ltac:(lia)).
          assert ((xv i - v) * (xv i - v) < (xv i - m) * (xv i - m))%Q by nra. nra. }
        lra.
      - destruct (Qlt_le_dec v m) as [L'|L']; [|lra]. exfalso.
        pose proof (wc_le v j i ltac:(lia)) as A. rewrite (dist_split v j k i) in A by lia.
        pose proof (wc_le m k l ltac:(lia)) as B. rewrite (dist_split m k i l) in B by lia.
        assert (C : (dist v j k < dist m j k)%Q).
        { unfold dist. rewrite (rng_cons j k H1). cbn [sumQ].
          assert (R : (sumQ (fun p => wt p * ((xv p - v) * (xv p - v))) (rng (S j) k) <= sumQ (fun p => wt p * ((xv p - m) * (xv p - m))) (rng (S j) k))%Q).
          { apply (dist_far_low v m (S j) k); [lia|lra|]. intros p Hp. apply Vlow. lia. }
          pose proof (Hw j ltac:(lia)). pose proof (Vlow j ltac:(lia)).
          assert ((xv j - v) * (xv j - v) < (xv j - m) * (xv j - m))%Q by nra. nra. }
        lra. }
    assert (DE : forall a b, (dist m a b == dist v a b)%Q).
    { intros a b. unfold dist. apply sumQ_ext. intros p _. rewrite MV. reflexivity. }
    rewrite !DE in E1.
    pose proof (wc_le v j i ltac:(lia)) as A. pose proof (wc_le v k l ltac:(lia)) as B.
    assert (A' : (dist v j i <= wc j i)%Q).
    { pose proof (dist_split v j k i ltac:(lia)). pose proof (dist_split v k i l ltac:(lia)). lra. }
    assert (B' : (dist v k l <= wc k l)%Q).
    { pose proof (dist_split v j k i ltac:(lia)). pose proof (dist_split v k i l ltac:(lia)). lra. }
    pose proof (dist_is_mean v j i ltac:(lia) ltac:(lia) A') as MA.
    pose proof (dist_is_mean v k l ltac:(lia) ltac:(lia) B') as MB.
    assert (MK : (sx k i == v * sw k i)%Q) by (subst v; rewrite (mu_eq k i H2 ltac:(lia)); reflexivity).
    assert (FA : forall p, j <= p < k -> (xv p == v)%Q).
    { apply mean_all_low; [lia| |exact Vlow]. rewrite (sx_split j k i), (sw_split j k i) in MA by lia. lra. }
    assert (FC : forall p, i <= p < l -> (xv p == v)%Q).
    { apply mean_all_high; [lia| |exact Vhigh]. rewrite (sx_split k i l), (sw_split k i l) in MB by lia. lra. }
    exists v. intros p Hp. destruct (Nat.lt_ge_cases p k) as [P|P]; [apply FA; lia|]. destruct (Nat.lt_ge_cases p i) as [P'|P']; [|apply FC; lia].
    pose proof (FA j ltac:(lia)) as Z1. pose proof (FC i ltac:(lia)) as Z2. pose proof (Hx j p ltac:(lia) ltac:(lia)). pose proof (Hx p i ltac:(lia) ltac:(lia)). lra.
  Qed.
  Lemma flat_zero v j i : i <= N -> (forall p, j <= p < i -> (xv p == v)%Q) -> (wc j i == 0)%Q.
  Proof.
    intros H2 F. pose proof (wc_le v j i H2) as A. pose proof (wc_nonneg j i H2).
    assert (Z : (dist v j i == 0)%Q).
    { unfold dist. rewrite (sumQ_ext _ (fun _ => 0%Q)); [|intros p Hp; apply rng_in in Hp; rewrite (F p Hp); ring].
      generalize (rng j i). induction l as [|p l IH]; cbn; [reflexivity|]. rewrite IH. ring. }
    lra.
  Qed.
  (** Points equal to [v] that do not make a range dearer can be followed by more of them. *)
  Lemma free_more v j h l i : j < h -> h < l -> l <= i -> i <= N -> (forall p, h <= p < i -> (xv p == v)%Q) ->
    (wc j l <= wc j h)%Q -> (wc j i <= wc j l)%Q.
  Proof.
    intros H1 H2 H3 H4 F L. set (m := mu j l).
    assert (E : (wc j l == dist m j h + dist m h l)%Q) by (rewrite wc_attain by lia; fold m; apply dist_split; lia).
    pose proof (wc_le m j h ltac:(lia)) as A. pose proof (dist_nonneg m h l ltac:(lia)) as B.
    assert (Z : (dist m h l <= 0)%Q) by lra.
    assert (M : (m == v)%Q).
    { pose proof (dist_zero_gap m h l ltac:(lia) Z h ltac:(lia)). pose proof (F h ltac:(lia)). lra. }
    pose proof (wc_le m j i H4) as C. rewrite (dist_split m j l i) in C by lia.
    assert (Z' : (dist m l i == 0)%Q).
    { unfold dist. rewrite (sumQ_ext _ (fun _ => 0%Q)); [|intros p Hp; apply rng_in in Hp; rewrite (F p ltac:(lia)), M; ring].
      generalize (rng l i). induction l0 as [|p l0 IH]; cbn; [reflexivity|]. rewrite IH. ring. }
    assert (D : (wc j l == dist m j l)%Q) by (rewrite wc_attain by lia; reflexivity).
    lra.
  Qed.

  (** The smallest cost of the first [i] points in [q + 1] ranges that are not empty. *)
  Fixpoint minl (l : list Q) : Q := match l with [] => 0%Q | [x] => x | x :: l' => Qmin x (minl l') end.
  Lemma minl_le x l : In x l -> (minl l <= x)%Q.
  Proof.
    induction l as [|y l IH]; [contradiction|]. intros I. destruct l as [|z l].
    - destruct I as [<-|[]]. cbn. lra.
    - change (minl (y :: z :: l)) with (Qmin y (minl (z :: l))). destruct I as [<-|I]; [apply Q.le_min_l|].
      eapply Qle_trans; [apply Q.le_min_r|]. apply IH. exact I.
  Qed.
  Lemma minl_in l : l <> [] -> exists x, In x l /\ (minl l == x)%Q.
  Proof.
    induction l as [|y l IH]; intro H; [now elim H|]. destruct l as [|z l].
    - exists y. split; [now left|reflexivity].
    - change (minl (y :: z :: l)) with (Qmin y (minl (z :: l))). destruct (IH ltac:(discriminate)) as (x & I & E).
      destruct (Q.min_spec y (minl (z :: l))) as [[_ M]|[_ M]].
      + exists y. split; [now left|exact M].
      + exists x. split; [now right|rewrite M; exact E].
  Qed.
  Fixpoint dp (q i : nat) : Q :=
    match q with 0 => wc 0 i | S q' => minl (map (fun j => dp q' j + wc j i)%Q (rng q i)) end.
  Definition cand (q i j : nat) : Q := (dp q j + wc j i)%Q.
  Lemma dp_le q i j : S q <= j < i -> (dp (S q) i <= cand q i j)%Q.
  Proof. intro H. cbn [dp]. apply minl_le. apply (in_map (fun j => dp q j + wc j i)%Q). apply rng_in. lia. Qed.
  Lemma dp_attain q i : S q < i -> exists j, S q <= j < i /\ (dp (S q) i == cand q i j)%Q.
  Proof.
    intro H. cbn [dp]. destruct (minl_in (map (fun j => dp q j + wc j i)%Q (rng (S q) i))) as (x & I & E).
    - rewrite rng_cons by lia. discriminate.
    - apply in_map_iff in I. destruct I as (j & <- & I). apply rng_in in I. exists j. split; [lia|exact E].
  Qed.
  Lemma dp_mono_anti q : (forall i i', q < i -> i <= i' -> i' <= N -> (dp q i <= dp q i')%Q)
    /\ (forall i, S q < i -> i <= N -> (dp (S q) i <= dp q i)%Q).
  Proof.
    assert (A : forall q, (forall i i', q < i -> i <= i' -> i' <= N -> (dp q i <= dp q i')%Q) -> forall i, S q < i -> i <= N -> (dp (S q) i <= dp q i)%Q).
    { intros k M i H1 H2. pose proof (dp_le k i (i - 1) ltac:(lia)) as L. unfold cand in L.
      pose proof (wc_one (i - 1) ltac:(lia)) as W. replace (S (i - 1)) with i in W by lia.
      pose proof (M (i - 1) i ltac:(lia) ltac:(lia) H2). lra. }
    assert (B : forall i i', q < i -> i <= i' -> i' <= N -> (dp q i <= dp q i')%Q).
    { induction q as [|q IH]; intros i i' H1 H2 H3; [cbn [dp]; apply wc_mono; lia|].
      destruct (dp_attain q i' ltac:(lia)) as (j & Hj & E). rewrite E. unfold cand.
      destruct (Nat.lt_ge_cases j i) as [L|L].
      - pose proof (dp_le q i j ltac:(lia)) as D. unfold cand in D. pose proof (wc_mono j i j i' ltac:(lia) H2 H3). lra.
      - pose proof (A q IH i ltac:(lia) ltac:(lia)). pose proof (IH i j ltac:(lia) L ltac:(lia)). pose proof (wc_nonneg j i' H3). lra. }
    split; [exact B|apply A; exact B].
  Qed.
  Lemma dp_mono q i i' : q < i -> i <= i' -> i' <= N -> (dp q i <= dp q i')%Q.
  Proof. apply dp_mono_anti. Qed.
  Lemma dp_anti q i : S q < i -> i <= N -> (dp (S q) i <= dp q i)%Q.
  Proof. apply dp_mono_anti. Qed.
  Lemma dp_nonneg q : forall i, q < i -> i <= N -> (0 <= dp q i)%Q.
  Proof.
    induction q as [|q IH]; intros i H1 H2; [apply wc_nonneg; exact H2|].
    destruct (dp_attain q i H1) as (j & Hj & E). rewrite E. unfold cand. pose proof (IH j ltac:(lia) ltac:(lia)). pose proof (wc_nonneg j i H2). lra.
  Qed.

  (** One more range is worth more on more points. *)
  Lemma exchange q : forall a b, S q < a -> a <= b -> b <= N -> (dp (S q) b + dp q a <= dp q b + dp (S q) a)%Q.
  Proof.
    induction q as [|q IH]; intros a b H1 H2 H3.
    - destruct (dp_attain 0 a H1) as (j & Hj & E). rewrite E. unfold cand. cbn [dp].
      pose proof (dp_le 0 b j ltac:(lia)) as D. unfold cand in D. cbn [dp] in D.
      pose proof (monge' 0 j a b ltac:(lia) ltac:(lia) H2 ltac:(lia) H3) as M. cbn [dp] in *. lra.
    - destruct (dp_attain (S q) a H1) as (j' & Hj' & E'). destruct (dp_attain q b ltac:(lia)) as (j & Hj & E).
      rewrite E, E'. unfold cand. destruct (Nat.lt_ge_cases j j') as [L|L].
      + pose proof (dp_le (S q) b j' ltac:(lia)) as D1. pose proof (dp_le q a j ltac:(lia)) as D2. unfold cand in *.
        pose proof (monge' j j' a b ltac:(lia) ltac:(lia) H2 ltac:(lia) H3) as M. lra.
      + pose proof (IH j' j ltac:(lia) L ltac:(lia)) as X.
        pose proof (dp_le (S q) b j ltac:(lia)) as D1. pose proof (dp_le q a j' ltac:(lia)) as D2. unfold cand in *. lra.
  Qed.
  Lemma convex q n : S (S q) < n -> n <= N -> (2 * dp (S q) n <= dp q n + dp (S (S q)) n)%Q.
  Proof.
    intros H1 H2. destruct (dp_attain (S q) n H1) as (j & Hj & E). rewrite E. unfold cand.
    pose proof (exchange q j n ltac:(lia) ltac:(lia) H2) as X. pose proof (dp_le q n j ltac:(lia)) as D. unfold cand in D. lra.
  Qed.

  (** [j] is an optimal start of the last range of the first [i] points in [q + 2] ranges. *)
  Definition best_start (q i j : nat) : Prop := S q <= j < i /\ (cand q i j <= dp (S q) i)%Q.
  Lemma best_start_le q i j j' : best_start q i j -> S q <= j' < i -> (cand q i j <= cand q i j')%Q.
  Proof. intros [_ B] H. pose proof (dp_le q i j' H). lra. Qed.
  (** Starts left of an optimal start for fewer points are not needed. *)
  Lemma start_right q i i' j j' : best_start q i j -> S q <= j' < j -> i <= i' -> i' <= N -> (cand q i' j <= cand q i' j')%Q.
  Proof.
    intros B H1 H2 H3. pose proof (best_start_le q i j j' B ltac:(destruct B; lia)) as L. destruct B as [B _]. unfold cand in *.
    pose proof (monge' j' j i i' ltac:(lia) ltac:(lia) H2 ltac:(lia) H3). lra.
  Qed.
  (** Starts right of an optimal start for more points are not needed. *)
  Lemma start_left q i i' j j' : best_start q i' j -> j < j' < i -> i <= i' -> i' <= N -> (cand q i j <= cand q i j')%Q.
  Proof.
    intros B H1 H2 H3. pose proof (best_start_le q i' j j' B ltac:(destruct B; lia)) as L. destruct B as [B _]. unfold cand in *.
    pose proof (monge' j j' i i' ltac:(lia) ltac:(lia) H2 ltac:(lia) H3). lra.
  Qed.
  (** Starts left of an optimal start for one range less are not needed. *)
  Lemma start_up q i j j' : best_start q i j -> S (S q) <= j' < j -> i <= N -> (cand (S q) i j <= cand (S q) i j')%Q.
  Proof.
    intros B H1 H2. pose proof (best_start_le q i j j' B ltac:(destruct B; lia)) as L. destruct B as [B _]. unfold cand in *.
    pose proof (exchange q j' j ltac:(lia) ltac:(lia) ltac:(lia)). lra.
  Qed.

  (** Equal points that are free can be followed by more of them. *)
  Lemma free_dp v q h l i : q < h -> h < l -> l <= i -> i <= N -> (forall p, h <= p < i -> (xv p == v)%Q) ->
    (dp q l <= dp q h)%Q -> (dp q i <= dp q h)%Q.
  Proof.
    intros H1 H2 H3 H4 F L. destruct q as [|q].
    - cbn [dp] in *. pose proof (free_more v 0 h l i ltac:(lia) H2 H3 H4 F L). lra.
    - destruct (dp_attain q l ltac:(lia)) as (j & Hj & E). unfold cand in E.
      pose proof (dp_le q i j ltac:(lia)) as D. unfold cand in D.
      destruct (Nat.lt_ge_cases j h) as [G|G].
      + pose proof (dp_le q h j ltac:(lia)) as D2. unfold cand in D2.
        assert (W : (wc j l <= wc j h)%Q) by lra.
        pose proof (free_more v j h l i G H2 H3 H4 F W). lra.
      + assert (Z1 : (wc j l == 0)%Q) by (apply (flat_zero v); [lia|]; intros p Hp; apply F; lia).
        assert (Z2 : (wc j i == 0)%Q) by (apply (flat_zero v); [lia|]; intros p Hp; apply F; lia). lra.
  Qed.

  (** ** The running sums *)
  Lemma qlt_true a b : qlt a b = true <-> (a < b)%Q.
  Proof.
    unfold qlt. rewrite negb_true_iff. split; intro H.
    - apply Qnot_le_lt. intro L. apply Qle_bool_iff in L. congruence.
    - destruct (Qle_bool b a) eqn:E; [|reflexivity]. apply Qle_bool_iff in E. lra.
  Qed.
  Lemma qlt_false a b : qlt a b = false <-> (b <= a)%Q.
  Proof. unfold qlt. rewrite negb_false_iff. apply Qle_bool_iff. Qed.
  Lemma run_rng g i : (run g i == sumQ g (rng 0 (S i)))%Q.
  Proof.
    induction i as [|i IH]; [cbn; ring|]. cbn [run]. rewrite IH, (rng_snoc 0 (S i)) by lia.
    rewrite sumQ_app. cbn [sumQ]. ring.
  Qed.
  Lemma run_diff g j i : 0 < j -> j <= i -> (run g i - run g (j - 1)%nat == sumQ g (rng j (S i)))%Q.
  Proof.
    intros H1 H2. rewrite !run_rng. replace (S (j - 1)) with j by lia. rewrite (rng_split 0 j (S i)) by lia. rewrite sumQ_app. ring.
  Qed.
  Lemma not_equally : 0 < N -> equally_weighted wt = false.
  Proof.
    intro H. unfold equally_weighted. destruct (Qeq_bool (wt 0) 0) eqn:E; [|reflexivity]. apply Qeq_bool_iff in E. pose proof (Hw 0 H). lra.
  Qed.
  Lemma sum_lin sh l : (sumQ (fun i => wt i * (xv i - sh)) l == sumQ (fun p => wt p * xv p) l - sh * sumQ wt l)%Q.
  Proof. induction l as [|p l IH]; cbn [sumQ]; [ring|]. rewrite IH. ring. Qed.
  Lemma sum_sq sh l : (sumQ (fun i => wt i * (xv i - sh) * (xv i - sh)) l == sumQ (fun p => wt p * ((xv p - sh) * (xv p - sh))) l)%Q.
  Proof. induction l as [|p l IH]; cbn [sumQ]; [ring|]. rewrite IH. ring. Qed.
  Lemma ssq_wc j i : j <= i -> i < N -> (ssq wt xv N j i == wc j (S i))%Q.
  Proof.
    intros H1 H2. unfold ssq. cbv zeta. pose proof (not_equally ltac:(lia)) as EW.
    assert (SW : forall k, (sum_w wt k == sw 0 (S k))%Q).
    { intro k. unfold sum_w, sw. rewrite EW. apply run_rng. }
    set (sh := shift xv N).
    assert (G : forall A B C, (A == dist sh j (S i) -> B == sx j (S i) - sh * sw j (S i) -> C == sw j (S i) -> A - C * (B / C) * (B / C) == wc j (S i))%Q).
    { intros A B C EA EB EC. pose proof (sw_pos j (S i) ltac:(lia) ltac:(lia)) as P.
      rewrite EA, EB, EC. rewrite (dist_mean sh j (S i)) by lia. pose proof (mu_eq j (S i) ltac:(lia) ltac:(lia)) as M. rewrite <- M. field. lra. }
    assert (E : (match Qle_bool (sum_w wt i) (sum_w wt j) with
                 | true => 0%Q
                 | false => if 0 <? j
                   then (sum_x_sq wt xv N i - sum_x_sq wt xv N (j - 1)%nat - (sum_w wt i - sum_w wt (j - 1)%nat) * ((sum_x wt xv N i - sum_x wt xv N (j - 1)%nat) / (sum_w wt i - sum_w wt (j - 1)%nat)) * ((sum_x wt xv N i - sum_x wt xv N (j - 1)%nat) / (sum_w wt i - sum_w wt (j - 1)%nat)))%Q
                   else (sum_x_sq wt xv N i - sum_x wt xv N i * sum_x wt xv N i / sum_w wt i)%Q
                 end == wc j (S i))%Q).
    { destruct (Qle_bool (sum_w wt i) (sum_w wt j)) eqn:LE.
      - apply Qle_bool_iff in LE. rewrite !SW in LE. destruct (Nat.eq_dec j i) as [->|NE]; [rewrite wc_one by exact H2; reflexivity|].
        rewrite (sw_split 0 (S j) (S i)) in LE by lia. pose proof (sw_pos (S j) (S i) ltac:(lia) ltac:(lia)). lra.
      - destruct (Nat.ltb_spec 0 j) as [J|J].
        + apply G.
          * unfold sum_x_sq. rewrite EW. fold sh. rewrite (run_diff _ j i J H1). unfold dist. apply sum_sq.
          * unfold sum_x. rewrite EW. fold sh. rewrite (run_diff _ j i J H1). apply sum_lin.
          * unfold sum_w. rewrite EW. apply run_diff; assumption.
        + assert (j = 0) by lia. subst j.
          rewrite <- (G (sum_x_sq wt xv N i) (sum_x wt xv N i) (sum_w wt i)).
          * pose proof (sw_pos 0 (S i) ltac:(lia) ltac:(lia)) as P. rewrite <- SW in P. field. lra.
          * unfold sum_x_sq. rewrite EW. fold sh. rewrite run_rng. unfold dist. apply sum_sq.
          * unfold sum_x. rewrite EW. fold sh. rewrite run_rng. apply sum_lin.
          * apply SW. }
    match goal with |- ((if qlt ?a 0 then 0 else ?b) == _)%Q => set (s := a) in *; change b with s end.
    assert (E' : (s == wc j (S i))%Q) by exact E.
    destruct (qlt s 0) eqn:Z; [|exact E']. apply qlt_true in Z. pose proof (wc_nonneg j (S i) ltac:(lia)). lra.
  Qed.

  (** ** One row *)
  Section Row.
    (** The row with [q + 2] ranges is filled from [prev], the row with [q + 1]. *)
    Context (q : nat) (prev : krow).
    Hypothesis Hprev : forall k, q <= k -> k < N -> (fst prev k == dp q (S k))%Q.
    Hypothesis HJ0 : q = 0 -> forall k, snd prev k = 0.
    Hypothesis HJ : forall q', q = S q' -> forall k, q <= k -> k < N -> best_start q' (S k) (snd prev k).

    Lemma scan_spec i : i < N -> forall j jlow best, S q <= jlow -> j <= i ->
      let r := scan wt xv N (fst prev) i j jlow best in
      (fst r <= fst best)%Q /\ (forall j', jlow <= j' <= j -> (fst r <= cand q (S i) j')%Q)
      /\ (r = best \/ (jlow <= snd r <= j /\ (fst r == cand q (S i) (snd r))%Q)).
    Proof.
      intro Hi. induction j as [|j IH]; intros jlow best H1 H2.
      - cbn [scan]. destruct (Nat.ltb_spec 0 jlow); [|lia]. split; [lra|]. split; [intros; lia|now left].
      - cbn [scan]. destruct (Nat.ltb_spec (S j) jlow) as [L|L].
        { split; [lra|]. split; [intros; lia|now left]. }
        assert (C : forall j', S q <= j' -> j' <= i -> (ssq wt xv N j' i + fst prev (j' - 1)%nat == cand q (S i) j')%Q).
        { intros j' A B. unfold cand. rewrite (ssq_wc j' i B Hi), (Hprev (j' - 1)%nat) by lia. replace (S (j' - 1)) with j' by lia. ring. }
        destruct (Qle_bool (fst best) (ssq wt xv N (S j) i + fst prev (jlow - 1)%nat)) eqn:B.
        + split; [lra|]. split; [|now left]. intros j' Hj'. apply Qle_bool_iff in B. eapply Qle_trans; [exact B|].
          unfold cand. rewrite (ssq_wc (S j) i) by lia. rewrite (Hprev (jlow - 1)%nat) by lia. replace (S (jlow - 1)) with jlow by lia.
          pose proof (dp_mono q jlow j' ltac:(lia) ltac:(lia) ltac:(lia)). pose proof (wc_mono (S j) (S i) j' (S i) ltac:(lia) ltac:(lia) ltac:(lia)). lra.
        + cbv zeta. clear B.
          set (low := (ssq wt xv N jlow i + fst prev (jlow - 1)%nat)%Q). assert (El : (low == cand q (S i) jlow)%Q) by (apply C; lia).
          set (b1 := if qlt low (fst best) then (low, jlow) else best).
          assert (B1 : (fst b1 <= fst best)%Q /\ (fst b1 <= cand q (S i) jlow)%Q /\ (b1 = best \/ (snd b1 = jlow /\ (fst b1 == cand q (S i) jlow)%Q))).
          { subst b1. destruct (qlt low (fst best)) eqn:Q1; cbn [fst snd].
            - apply qlt_true in Q1. split; [lra|]. split; [lra|]. right. split; [reflexivity|exact El].
            - apply qlt_false in Q1. split; [lra|]. split; [lra|]. now left. }
          set (cur := (ssq wt xv N (S j) i + fst prev (S j - 1)%nat)%Q). assert (Ec : (cur == cand q (S i) (S j))%Q) by (apply C; lia).
          set (b2 := if qlt cur (fst b1) then (cur, S j) else b1).
          assert (B2 : (fst b2 <= fst b1)%Q /\ (fst b2 <= cand q (S i) (S j))%Q /\ (b2 = b1 \/ (snd b2 = S j /\ (fst b2 == cand q (S i) (S j))%Q))).
          { subst b2. destruct (qlt cur (fst b1)) eqn:Q1; cbn [fst snd].
            - apply qlt_true in Q1. split; [lra|]. split; [lra|]. right. split; [reflexivity|exact Ec].
            - apply qlt_false in Q1. split; [lra|]. split; [lra|]. now left. }
          destruct B1 as (P1 & P2 & P3). destruct B2 as (R1 & R2 & R3). clearbody b1 b2.
          destruct (IH (S jlow) b2 ltac:(lia) ltac:(lia)) as (A1 & A2 & A3). cbv zeta in A1, A2, A3.
          split; [lra|]. split.
          * intros j' Hj'. destruct (Nat.eq_dec j' jlow) as [->|N1]; [lra|]. destruct (Nat.eq_dec j' (S j)) as [->|N2]; [lra|]. apply A2. lia.
          * destruct A3 as [A3|(A3 & A4)]; [|right; split; [lia|exact A4]].
            rewrite A3. destruct R3 as [->|(R3 & R4)]; [|right; rewrite R3; split; [lia|exact R4]].
            destruct P3 as [->|(P3 & P4)]; [now left|]. right. rewrite P3. split; [lia|exact P4].
    Qed.

    (** An entry of the row that is right. *)
    Definition entry (row : krow) (i : nat) : Prop :=
      (fst row i == dp (S q) (S i))%Q /\ best_start q (S i) (snd row i) /\ snd prev i <= snd row i.

    (** If the two ends of the range of starts cross, the last point alone is optimal. *)
    Lemma crossing row i i2 L H : i < i2 -> i2 < N -> S q <= i ->
      entry row i2 -> H = snd row i2 -> H < L -> L <= i ->
      (forall j', S q <= j' < L -> (cand q (S i) L <= cand q (S i) j')%Q) ->
      ((exists i1, i1 < i /\ best_start q (S i1) L) \/ L = snd prev i) ->
      forall j', S q <= j' <= i -> (cand q (S i) i <= cand q (S i) j')%Q.
    Proof.
      intros H1 H2 Hqi (E1 & E2 & E3) -> HL Li HLe Src. set (H := snd row i2) in *.
      assert (BH : S q <= H < S i2) by (destruct E2; assumption).
      assert (F : exists v, forall p, H <= p < S i -> (xv p == v)%Q).
      { destruct Src as [(i1 & I1 & B1)|EL].
        - destruct (monge_flat H L (S i1) (S i2)) as (v & F); [lia|destruct B1; lia|lia|lia| |].
          + pose proof (best_start_le q (S i1) L H B1 ltac:(destruct B1; lia)) as X1.
            pose proof (best_start_le q (S i2) H L E2 ltac:(lia)) as X2. unfold cand in *. lra.
          + exists v. intros p Hp. apply F. lia.
        - destruct q as [|q'] eqn:Eq.
          + rewrite (HJ0 eq_refl) in EL. lia.
          + pose proof (HJ q' eq_refl i ltac:(lia) ltac:(lia)) as B1. rewrite <- EL in B1.
            pose proof (HJ q' eq_refl i2 ltac:(lia) ltac:(lia)) as B2. set (H0 := snd prev i2) in *.
            destruct (monge_flat H0 L (S i) (S i2)) as (v & F); [lia|destruct B1; lia|lia|lia| |].
            * pose proof (best_start_le q' (S i) L H0 B1 ltac:(destruct B1, B2; lia)) as X1.
              pose proof (best_start_le q' (S i2) H0 L B2 ltac:(destruct B1; lia)) as X2. unfold cand in *. lra.
            * exists v. intros p Hp. apply F. lia. }
      destruct F as (v & F).
      assert (ZH : (wc H (S i) == 0)%Q) by (apply (flat_zero v); [lia|]; intros p Hp; apply F; lia).
      assert (ZL : (wc L (S i) == 0)%Q) by (apply (flat_zero v); [lia|]; intros p Hp; apply F; lia).
      pose proof (HLe H ltac:(lia)) as C1. unfold cand in C1.
      assert (D : (dp q i <= dp q H)%Q).
      { apply (free_dp v q H L i); try lia; [|lra]. intros p Hp. apply F. lia. }
      assert (CI : (cand q (S i) i <= cand q (S i) H)%Q).
      { unfold cand. pose proof (wc_one i ltac:(lia)). lra. }
      assert (CR : forall j', H < j' <= i -> (cand q (S i) H <= cand q (S i) j')%Q).
      { intros j' Hj'. apply (start_left q (S i) (S i2) H j' E2); lia. }
      intros j' Hj'. eapply Qle_trans; [exact CI|]. destruct (Nat.lt_ge_cases H j') as [G|G]; [apply CR; lia|].
      eapply Qle_trans; [apply (CR L); lia|]. apply HLe. lia.
    Qed.

    (** One entry. *)
    Lemma one_entry row imin imax jmin jmax i :
      S q <= imin -> imin <= i <= imax -> imax < N ->
      (S q < imin -> jmin <= S q \/ (entry row (imin - 1) /\ jmin = snd row (imin - 1))) ->
      (imax < N - 1 -> entry row (imax + 1) /\ jmax = snd row (imax + 1)) ->
      let jlow := Nat.max (if S q <? imin then Nat.max (S q) jmin else S q) (snd prev i) in
      let jhigh := if imax <? N - 1 then Nat.min (i - 1) jmax else i - 1 in
      let best := scan wt xv N (fst prev) i jhigh jlow (fst prev (i - 1), i) in
      (fst best == dp (S q) (S i))%Q /\ best_start q (S i) (snd best) /\ snd prev i <= snd best.
    Proof.
      intros H1 H2 H3 P1 P2 jlow jhigh best.
      assert (Bp : snd prev i <= i).
      { destruct q as [|q'] eqn:Eq; [rewrite (HJ0 eq_refl); lia|]. pose proof (HJ q' eq_refl i ltac:(lia) ltac:(lia)) as [B _]. lia. }
      assert (Lq : S q <= jlow) by (subst jlow; destruct (S q <? imin); lia).
      assert (Lp : snd prev i <= jlow) by (subst jlow; lia).
      (* what is left of jlow is not needed *)
      assert (LL : jlow <= i /\ (forall j', S q <= j' < jlow -> (cand q (S i) jlow <= cand q (S i) j')%Q)
        /\ (jlow = S q \/ (exists i1, i1 < i /\ best_start q (S i1) jlow) \/ jlow = snd prev i)).
      { assert (L2 : forall j', S q <= j' < snd prev i -> (cand q (S i) (snd prev i) <= cand q (S i) j')%Q).
        { intros j' Hj'. destruct q as [|q'] eqn:Eq; [rewrite (HJ0 eq_refl) in Hj'; lia|]. apply (start_up q' (S i)); [apply (HJ q' eq_refl); lia|lia|lia]. }
        destruct (Nat.ltb_spec (S q) imin) as [I|I].
        - destruct (P1 I) as [J|(En & J)].
          + assert (EJ : jlow = Nat.max (S q) (snd prev i)) by (subst jlow; lia). destruct (Nat.max_spec (S q) (snd prev i)) as [[M1 M2]|[M1 M2]].
            * rewrite EJ, M2. split; [exact Bp|]. split; [exact L2|]. right. now right.
            * rewrite EJ, M2. split; [lia|]. split; [intros; lia|now left].
          + destruct En as (_ & En & _). rewrite <- J in En. replace (S (imin - 1)) with imin in En by lia.
            assert (Bj : S q <= jmin < imin) by (destruct En; assumption).
            assert (L1 : forall j', S q <= j' < jmin -> (cand q (S i) jmin <= cand q (S i) j')%Q).
            { intros j' Hj'. apply (start_right q imin (S i) jmin j' En); lia. }
            assert (EJ : jlow = Nat.max jmin (snd prev i)) by (subst jlow; lia). destruct (Nat.max_spec jmin (snd prev i)) as [[M1 M2]|[M1 M2]].
            * rewrite EJ, M2. split; [exact Bp|]. split; [exact L2|]. right. now right.
            * rewrite EJ, M2. split; [lia|]. split; [exact L1|]. right. left. exists (imin - 1). replace (S (imin - 1)) with imin by lia. split; [lia|exact En].
        - assert (EJ : jlow = Nat.max (S q) (snd prev i)) by (subst jlow; lia). destruct (Nat.max_spec (S q) (snd prev i)) as [[M1 M2]|[M1 M2]].
          + rewrite EJ, M2. split; [exact Bp|]. split; [exact L2|]. right. now right.
          + rewrite EJ, M2. split; [lia|]. split; [intros; lia|now left]. }
      destruct LL as (Li & Lle & Lsrc).
      assert (Hh : jhigh <= i) by (subst jhigh; destruct (imax <? N - 1); lia).
      destruct (scan_spec i ltac:(lia) jhigh jlow (fst prev (i - 1)%nat, i) Lq Hh) as (A1 & A2 & A3). fold best in A1, A2, A3. cbn [fst snd] in A1.
      assert (Ei : (fst prev (i - 1)%nat == cand q (S i) i)%Q).
      { unfold cand. rewrite (Hprev (i - 1)%nat) by lia. replace (S (i - 1)) with i by lia. rewrite (wc_one i) by lia. ring. }
      assert (BS : (fst best == cand q (S i) (snd best))%Q /\ S q <= snd best <= i /\ snd prev i <= snd best).
      { destruct A3 as [A3|(A3 & A4)].
        - rewrite A3. cbn [fst snd]. split; [exact Ei|]. lia.
        - split; [exact A4|]. lia. }
      destruct BS as (BS1 & BS2 & BS3).
      (* every start costs at least as much *)
      assert (ALL : forall j', S q <= j' <= i -> (fst best <= cand q (S i) j')%Q).
      { intros j' Hj'. destruct (Nat.eq_dec j' i) as [->|Nj]; [lra|].
        assert (IN : jhigh = i - 1 -> (fst best <= cand q (S i) j')%Q).
        { intro E. destruct (Nat.lt_ge_cases j' jlow) as [G|G]; [|apply A2; lia].
          destruct (Nat.eq_dec jlow i) as [El|El].
          - pose proof (Lle j' ltac:(lia)) as X. rewrite El in X. lra.
          - pose proof (Lle j' ltac:(lia)) as X. pose proof (A2 jlow ltac:(lia)) as Y. lra. }
        destruct (Nat.ltb_spec imax (N - 1)) as [I|I]; [|apply IN; reflexivity].
        destruct (P2 I) as (En & EJ). destruct (Nat.lt_ge_cases jmax (i - 1)) as [G|G]; [|apply IN; subst jhigh; lia].
        assert (Eh : jhigh = jmax) by (subst jhigh; lia).
        assert (Bh : S q <= jmax) by (rewrite EJ; destruct En as (_ & [B _] & _); exact (proj1 B)).
        assert (R : forall j0, jmax < j0 <= i -> (cand q (S i) jmax <= cand q (S i) j0)%Q).
        { intros j0 Hj0. destruct En as (_ & En & _). rewrite <- EJ in En. apply (start_left q (S i) (S (imax + 1)) jmax j0 En); lia. }
        destruct (Nat.le_gt_cases jlow jmax) as [C|C].
        - destruct (Nat.lt_ge_cases j' jlow) as [G1|G1].
          + pose proof (Lle j' ltac:(lia)) as X. pose proof (A2 jlow ltac:(lia)) as Y. lra.
          + destruct (Nat.le_gt_cases j' jmax) as [G2|G2]; [apply A2; lia|].
            pose proof (R j' ltac:(lia)) as X. pose proof (A2 jmax ltac:(lia)) as Y. lra.
        - destruct Lsrc as [Lsrc|Lsrc]; [lia|].
          pose proof (crossing row i (imax + 1) jlow jmax ltac:(lia) ltac:(lia) ltac:(lia) En EJ C Li Lle Lsrc j' Hj') as X. lra. }
      split; [|split; [|exact BS3]].
      - destruct (dp_attain q (S i) ltac:(lia)) as (j0 & B0 & E0). pose proof (ALL j0 ltac:(lia)). pose proof (dp_le q (S i) (snd best) ltac:(lia)). lra.
      - split; [lia|]. destruct (dp_attain q (S i) ltac:(lia)) as (j0 & B0 & E0). pose proof (ALL j0 ltac:(lia)). lra.
    Qed.

    Lemma upd_same {A} (f : nat -> A) i x : upd f i x i = x.
    Proof. unfold upd. rewrite Nat.eqb_refl. reflexivity. Qed.
    Lemma upd_other {A} (f : nat -> A) i x k : k <> i -> upd f i x k = f k.
    Proof. intro H. unfold upd. destruct (Nat.eqb_spec k i); [contradiction|reflexivity]. Qed.
    Lemma entry_same row row' i : fst row' i = fst row i -> snd row' i = snd row i -> entry row i -> entry row' i.
    Proof. intros E1 E2. unfold entry. rewrite E1, E2. tauto. Qed.

    Lemma fill_ll_spec fuel : forall imin imax jmin jmax row,
      imax + 1 - imin <= fuel -> S q <= imin -> imax < N -> imin <= imax + 1 ->
      (S q < imin -> (jmin <= S q /\ snd row (imin - 1) <= S q) \/ (entry row (imin - 1) /\ jmin = snd row (imin - 1))) ->
      (imax < N - 1 -> entry row (imax + 1) /\ jmax = snd row (imax + 1)) ->
      let r := fill_ll wt xv N fuel prev (S q) imin imax jmin jmax row in
      (forall i, imin <= i <= imax -> entry r i)
      /\ (forall i, ~ imin <= i <= imax -> fst r i = fst row i /\ snd r i = snd row i).
    Proof.
      induction fuel as [|fuel IH]; intros imin imax jmin jmax row Hf H1 H3 H4 P1 P2.
      - cbn [fill_ll]. split; [intros; lia|intros; split; reflexivity].
      - cbn [fill_ll]. destruct (Nat.ltb_spec imax imin) as [E|E]; [split; [intros; lia|intros; split; reflexivity]|].
        set (i := (imin + imax) / 2).
        assert (Hi : imin <= i <= imax).
        { subst i. split; [apply Nat.div_le_lower_bound; lia|apply Nat.div_le_upper_bound; lia]. }
        assert (P1' : S q < imin -> jmin <= S q \/ (entry row (imin - 1) /\ jmin = snd row (imin - 1))).
        { intro I. destruct (P1 I) as [[A _]|A]; [now left|now right]. }
        pose proof (one_entry row imin imax jmin jmax i H1 Hi H3 P1' P2) as OE. cbv zeta in OE. cbv zeta.
        set (best := scan wt xv N (fst prev) i _ _ _) in *. clearbody best.
        set (row1 := (upd (fst row) i (fst best), upd (snd row) i (snd best))).
        assert (Ri : entry row1 i).
        { unfold entry, row1. cbn [fst snd]. rewrite !upd_same. exact OE. }
        assert (Ro : forall k, k <> i -> fst row1 k = fst row k /\ snd row1 k = snd row k).
        { intros k Hk. unfold row1. cbn [fst snd]. rewrite !upd_other by exact Hk. split; reflexivity. }
        clearbody row1.
        set (jm := if S q <? imin then snd row1 (imin - 1) else S q).
        destruct (IH imin (i - 1) jm (snd row1 i) row1) as (L1 & L2); [lia|exact H1|lia|lia| | |].
        { intro I. subst jm. destruct (Nat.ltb_spec (S q) imin); [|lia]. destruct (Ro (imin - 1) ltac:(lia)) as [O1 O2].
          destruct (P1 I) as [[A B]|[A B]].
          - left. rewrite O2. split; exact B.
          - right. split; [|reflexivity]. apply (entry_same row); [exact O1|exact O2|exact A]. }
        { intro I. replace (i - 1 + 1) with i by lia. split; [exact Ri|reflexivity]. }
        set (row2 := fill_ll wt xv N fuel prev (S q) imin (i - 1) jm (snd row1 i) row1) in *. clearbody row2.
        destruct (L2 i ltac:(lia)) as [O1 O2].
        assert (Ri2 : entry row2 i) by (apply (entry_same row1); assumption).
        set (jx := if imax <? N - 1 then snd row2 (imax + 1) else imax).
        destruct (IH (i + 1) imax (snd row2 i) jx row2) as (R1 & R2); [lia|lia|exact H3|lia| | |].
        { intro I. right. replace (i + 1 - 1) with i by lia. split; [exact Ri2|reflexivity]. }
        { intro I. subst jx. destruct (Nat.ltb_spec imax (N - 1)); [|lia]. split; [|reflexivity].
          destruct (P2 I) as [A _]. destruct (L2 (imax + 1) ltac:(lia)) as [O3 O4]. destruct (Ro (imax + 1) ltac:(lia)) as [O5 O6].
          apply (entry_same row1); [exact O3|exact O4|]. apply (entry_same row); [exact O5|exact O6|exact A]. }
        set (row3 := fill_ll wt xv N fuel prev (S q) (i + 1) imax (snd row2 i) jx row2) in *. clearbody row3.
        split.
        + intros k Hk. destruct (Nat.lt_trichotomy k i) as [K|[K|K]].
          * destruct (R2 k ltac:(lia)) as [O3 O4]. apply (entry_same row2); [exact O3|exact O4|]. apply L1. lia.
          * subst k. destruct (R2 i ltac:(lia)) as [O3 O4]. apply (entry_same row2); assumption.
          * apply R1. lia.
        + intros k Hk. destruct (R2 k ltac:(lia)) as [O3 O4]. destruct (L2 k ltac:(lia)) as [O5 O6]. destruct (Ro k ltac:(lia)) as [O7 O8].
          rewrite O3, O4, O5, O6, O7, O8. split; reflexivity.
    Qed.

    Lemma fill_row_spec last : S q < N -> N <= 300 ->
      let r := fill_row wt xv N prev (S q) last in
      forall i, (if last then N - 1 else S q) <= i -> i < N -> entry r i.
    Proof.
      intros H Small. unfold fill_row. cbv zeta. destruct (Nat.ltb_spec 300 N) as [Big|_]; [apply Nat.le_ngt in Small; contradiction|]. set (row0 := ((fun _ : nat => 0%Q), (fun _ : nat => 0))).
      set (imin := if last then N - 1 else Nat.max 1 (S q)).
      assert (E : imin = if last then N - 1 else S q) by (subst imin; destruct last; lia).
      assert (B : S q <= imin <= N - 1) by (rewrite E; destruct last; lia).
      destruct (fill_ll_spec (S N) imin (N - 1) (S q) (N - 1) row0) as (A & _); [lia|lia|lia|lia| | |].
      - intros _. left. cbn [row0 snd]. lia.
      - intro I. lia.
      - intros i Hi1 Hi2. apply A. rewrite E. lia.
    Qed.
  End Row.

  (** ** The rows and the early stop *)
  Definition row_ok (q : nat) (row : krow) : Prop :=
    (forall k, q <= k -> k < N -> (fst row k == dp q (S k))%Q)
    /\ (q = 0 -> forall k, snd row k = 0)
    /\ (forall q', q = S q' -> forall k, q <= k -> k < N -> best_start q' (S k) (snd row k)).
  Lemma first_row_ok : row_ok 0 (first_row wt xv N).
  Proof.
    split; [|split; [intros _ k; reflexivity|intros q' E; discriminate]].
    intros k _ Hk. unfold first_row. cbn [fst dp]. destruct (Nat.eqb_spec k 0) as [->|NE].
    - rewrite (wc_one 0 Hk). reflexivity.
    - apply ssq_wc; lia.
  Qed.
  Lemma qn_lin a b : a <= b -> (qn b == qn a + qn (b - a))%Q.
  Proof. intro H. rewrite <- qn_add. replace (a + (b - a)) with b by lia. reflexivity. Qed.
  Lemma qn_nonneg a : (0 <= qn a)%Q.
  Proof. unfold qn. change 0%Q with (inject_Z 0). rewrite <- Zle_Qle. lia. Qed.

  (** Once one more range is not worth its price, further ones are not. *)
  Lemma stays reg q k : q + k < N -> (dp q N - dp (S q) N < reg)%Q -> S q < N -> (dp q N + qn q * reg <= dp (q + k) N + qn (q + k) * reg)%Q.
  Proof.
    intros H L H2.
    assert (D : forall k, S (q + k) < N -> (dp (q + k) N - dp (S (q + k)) N < reg)%Q).
    { induction k0 as [|k0 IH]; intro B; [rewrite Nat.add_0_r; exact L|]. specialize (IH ltac:(lia)).
      replace (q + S k0) with (S (q + k0)) by lia. pose proof (convex (q + k0) N ltac:(lia) ltac:(lia)). lra. }
    induction k as [|k IH]; [rewrite Nat.add_0_r; lra|]. specialize (IH ltac:(lia)). pose proof (D k ltac:(lia)) as X.
    replace (q + S k) with (S (q + k)) by lia. rewrite qn_S. lra.
  Qed.

  Lemma stop_loop_spec reg : N <= 300 -> forall rem q prev, q + rem < N ->
    (fst prev (N - 1)%nat == dp q N)%Q -> (rem <> 0 -> row_ok q prev) ->
    (forall k, k <= q -> (dp q N + qn q * reg <= dp k N + qn k * reg)%Q) ->
    let r := stop_loop wt xv N reg rem (S q) prev in
    snd r <= q + rem /\ (fst r == dp (snd r) N + qn (snd r) * reg)%Q
    /\ forall k, k <= q + rem -> (fst r <= dp k N + qn k * reg)%Q.
  Proof.
    intro Small. induction rem as [|rem IH]; intros q prev H1 H2 H3 H4; cbn [stop_loop].
    - replace (S q - 1) with q by lia. cbn [fst snd]. split; [lia|]. split; [rewrite H2; reflexivity|]. intros k Hk. rewrite H2. apply H4. lia.
    - specialize (H3 ltac:(lia)). destruct H3 as (R1 & R2 & R3).
      pose proof (fill_row_spec q prev R1 R2 R3 (rem =? 0) ltac:(lia) Small) as FR. cbv zeta in FR. cbv zeta.
      set (row := fill_row wt xv N prev (S q) (rem =? 0)) in *. clearbody row.
      assert (EN : (fst row (N - 1)%nat == dp (S q) N)%Q).
      { destruct (FR (N - 1)) as (A & _); [destruct (rem =? 0); lia|lia|]. rewrite A. replace (S (N - 1)) with N by lia. reflexivity. }
      destruct (qlt (fst prev (N - 1)%nat - fst row (N - 1)%nat) reg) eqn:E.
      + apply qlt_true in E. rewrite H2, EN in E. replace (S q - 1) with q by lia. cbn [fst snd]. split; [lia|]. split; [rewrite H2; reflexivity|].
        intros k Hk. rewrite H2. destruct (Nat.le_gt_cases k q) as [G|G]; [apply H4; exact G|].
        replace k with (q + (k - q)) by lia. apply stays; [lia|exact E|lia].
      + apply qlt_false in E. rewrite H2, EN in E.
        destruct (IH (S q) row) as (A & B & C).
        * lia.
        * exact EN.
        * intro Nz. assert (Z : (rem =? 0) = false) by (apply Nat.eqb_neq; exact Nz). rewrite Z in FR.
          split; [|split; [discriminate|]].
          -- intros k K1 K2. destruct (FR k K1 K2) as (A & _). exact A.
          -- intros q' [= <-] k K1 K2. destruct (FR k K1 K2) as (_ & A & _). exact A.
        * intros k Hk. destruct (Nat.eq_dec k (S q)) as [->|Nk]; [lra|]. pose proof (H4 k ltac:(lia)) as X. rewrite qn_S. lra.
        * split; [lia|]. split; [exact B|]. intros k Hk. apply C. lia.
  Qed.
  (** ** Any centers *)
  Lemma first_true (f : nat -> bool) n : exists h, h <= n /\ (forall p, p < h -> f p = false) /\ (h < n -> f h = true).
  Proof.
    induction n as [|n (h & A & B & C)].
    - exists 0. split; [lia|]. split; [intros; lia|lia].
    - destruct (Nat.eq_dec h n) as [->|NE].
      + destruct (f n) eqn:E; [exists n; split; [lia|]; split; [exact B|intros _; exact E]|].
        exists (S n). split; [lia|]. split; [|lia]. intros p Hp. destruct (Nat.eq_dec p n) as [->|Np]; [exact E|apply B; lia].
      + exists h. split; [lia|]. split; [exact B|]. intros _. apply C. lia.
  Qed.
  Lemma max_in (cs : list Q) : cs <> [] -> exists c, In c cs /\ forall c', In c' cs -> (c' <= c)%Q.
  Proof.
    induction cs as [|a cs IH]; [intro H; now elim H|]. intros _. destruct cs as [|b cs].
    - exists a. split; [now left|]. intros c' [<-|[]]. lra.
    - destruct (IH ltac:(discriminate)) as (c & I & M). destruct (Qlt_le_dec a c) as [L|L].
      + exists c. split; [now right|]. intros c' [<-|J]; [lra|apply M, J].
      + exists a. split; [now left|]. intros c' [<-|J]; [lra|]. specialize (M c' J). lra.
  Qed.

  (** Every choice of centers, with every point charged at least its distance to one of them,
      costs as much as the best split into that many ranges or fewer. *)
  Lemma cover : forall k cs b n, length cs = S k -> 1 <= n -> n <= N ->
    (forall p, p < n -> exists c, In c cs /\ (wt p * ((xv p - c) * (xv p - c)) <= b p)%Q) ->
    exists q, q <= k /\ q < n /\ (dp q n <= sumQ b (rng 0 n))%Q.
  Proof.
    induction k as [|k IH]; intros cs b n Hl H1 H2 Hb.
    - destruct cs as [|c [|c2 cs]]; try discriminate. exists 0. split; [lia|]. split; [lia|]. cbn [dp].
      eapply Qle_trans; [apply (wc_le c); exact H2|]. unfold dist. apply sumQ_le. intros p Hp. apply rng_in in Hp.
      destruct (Hb p ltac:(lia)) as (c' & [<-|[]] & L). exact L.
    - destruct (max_in cs) as (c & Ic & Mc); [destruct cs; discriminate|].
      destruct (in_split c cs Ic) as (l1 & l2 & Ecs).
      assert (Hl' : length (l1 ++ l2) = S k) by (rewrite Ecs in Hl; rewrite app_length in Hl |- *; cbn in Hl; lia).
      set (good := fun p => forallb (fun c' => Qle_bool ((xv p - c) * (xv p - c)) ((xv p - c') * (xv p - c'))) cs).
      assert (Gd : forall p, good p = true <-> forall c', In c' cs -> ((xv p - c) * (xv p - c) <= (xv p - c') * (xv p - c'))%Q).
      { intro p. unfold good. rewrite forallb_forall. split; intros H c' Hc'; [apply Qle_bool_iff, H, Hc'|apply Qle_bool_iff, H, Hc']. }
      destruct (first_true good n) as (h & Hh & Hlow & Hhigh).
      (* below h another center serves *)
      assert (LOW : forall p, p < h -> exists c', In c' (l1 ++ l2) /\ (wt p * ((xv p - c') * (xv p - c')) <= b p)%Q).
      { intros p Hp. destruct (Hb p ltac:(lia)) as (c0 & I0 & L0).
        assert (D : In c0 (l1 ++ l2) \/ c0 = c).
        { rewrite Ecs in I0. apply in_app_or in I0. destruct I0 as [I0|[I0|I0]]; [left; apply in_or_app; now left|right; now symmetry|left; apply in_or_app; now right]. }
        destruct D as [D| ->]; [exists c0; split; assumption|].
        assert (X : exists c', In c' cs /\ ((xv p - c') * (xv p - c') < (xv p - c) * (xv p - c))%Q).
        { pose proof (Hlow p Hp) as F. destruct (existsb (fun c' => qlt ((xv p - c') * (xv p - c')) ((xv p - c) * (xv p - c))) cs) eqn:E.
          - apply existsb_exists in E. destruct E as (c' & I' & L'). exists c'. split; [exact I'|]. apply qlt_true, L'.
          - exfalso. assert (T : good p = true); [|congruence]. apply Gd. intros c' I'.
            apply qlt_false. destruct (qlt _ _) eqn:Z; [|reflexivity]. assert (Y : existsb (fun c'0 => qlt ((xv p - c'0) * (xv p - c'0)) ((xv p - c) * (xv p - c))) cs = true) by (apply existsb_exists; exists c'; split; assumption). congruence. }
        destruct X as (c' & I' & L'). exists c'. split.
        - rewrite Ecs in I'. apply in_app_or in I'. destruct I' as [I'|[I'|I']]; [apply in_or_app; now left|subst c'; lra|apply in_or_app; now right].
        - pose proof (Hw p ltac:(lia)). eapply Qle_trans; [|exact L0]. apply Qmult_le_l; [assumption|]. lra. }
      (* from h on the largest center is a nearest one *)
      assert (HIGH : h < n -> (wc h n <= sumQ b (rng h n))%Q).
      { intro Hn. eapply Qle_trans; [apply (wc_le c); exact H2|]. unfold dist. apply sumQ_le. intros p Hp. apply rng_in in Hp.
        destruct (Hb p ltac:(lia)) as (c0 & I0 & L0). pose proof (proj1 (Gd h) (Hhigh Hn) c0 I0) as G. pose proof (Hx h p ltac:(lia) ltac:(lia)) as X.
        pose proof (Mc c0 I0) as M. pose proof (Hw p ltac:(lia)) as W. eapply Qle_trans; [|exact L0]. apply Qmult_le_l; [exact W|].
        assert (Y : (0 <= (c - c0) * (xv p - xv h))%Q) by (apply Qmult_le_0_compat; lra). lra. }
      destruct (Nat.eq_dec h 0) as [->|Nh].
      + exists 0. split; [lia|]. split; [lia|]. apply HIGH. lia.
      + destruct (IH (l1 ++ l2) b h Hl' ltac:(lia) ltac:(lia) LOW) as (q & Q1 & Q2 & Q3).
        destruct (Nat.eq_dec h n) as [->|Nn]; [exists q; split; [lia|]; split; [lia|exact Q3]|].
        exists (S q). split; [lia|]. split; [lia|].
        eapply Qle_trans; [apply (dp_le q n h); lia|]. unfold cand. rewrite (rng_split 0 h n) by lia. rewrite sumQ_app. pose proof (HIGH ltac:(lia)). lra.
  Qed.

  (** The value is reached. *)
  Lemma reached q : forall n, q < n -> n <= N -> exists cs a, length cs = S q /\ (forall p, p < n -> In (a p) cs)
    /\ (sumQ (fun p => wt p * ((xv p - a p) * (xv p - a p))) (rng 0 n) == dp q n)%Q.
  Proof.
    induction q as [|q IH]; intros n H1 H2.
    - exists [mu 0 n], (fun _ => mu 0 n). split; [reflexivity|]. split; [intros p _; now left|]. cbn [dp]. rewrite (wc_attain 0 n) by lia. unfold dist. reflexivity.
    - destruct (dp_attain q n ltac:(lia)) as (j & B & E). destruct (IH j ltac:(lia) ltac:(lia)) as (cs & a & L & I & V).
      exists (mu j n :: cs), (fun p => if p <? j then a p else mu j n). split; [cbn; lia|]. split.
      + intros p Hp. destruct (Nat.ltb_spec p j) as [G|G]; [right; apply I; exact G|now left].
      + rewrite E. unfold cand. rewrite <- V, (wc_attain j n) by lia. rewrite (rng_split 0 j n) by lia. rewrite sumQ_app. unfold dist.
        rewrite (sumQ_ext (fun p => wt p * ((xv p - (if p <? j then a p else mu j n)) * (xv p - (if p <? j then a p else mu j n))))%Q (fun p => wt p * ((xv p - a p) * (xv p - a p)))%Q (rng 0 j)).
        2:{ intros p Hp. apply rng_in in Hp. destruct (Nat.ltb_spec p j); [reflexivity|lia]. }
        rewrite (sumQ_ext (fun p => wt p * ((xv p - (if p <? j then a p else mu j n)) * (xv p - (if p <? j then a p else mu j n))))%Q (fun p => wt p * ((xv p - mu j n) * (xv p - mu j n)))%Q (rng j n)).
        2:{ intros p Hp. apply rng_in in Hp. destruct (Nat.ltb_spec p j); [lia|reflexivity]. }
        reflexivity.
  Qed.
End Points.
