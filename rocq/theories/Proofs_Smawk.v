(** Proofs about the linear-time filler of the one-dimensional clustering (more than 300 points). *)
From Coq Require Import List Arith Bool Lia QArith Qminmax Lqa Setoid Sorting.Sorted.
From Verif Require Import Base_Q Model_Kmeans Proofs_Kmeans.
Import ListNotations.
Local Open Scope nat_scope.

Section Points.
  Context (wt xv : nat -> Q) (N : nat).
  Hypothesis Hw : forall i, i < N -> (0 < wt i)%Q.
  Hypothesis Hx : forall i j, i <= j -> j < N -> (xv i <= xv j)%Q.

  Local Notation wc := (Proofs_Kmeans.wc wt xv).
  Local Notation dp := (Proofs_Kmeans.dp wt xv).
  Local Notation cand := (Proofs_Kmeans.cand wt xv).
  Local Notation best_start := (Proofs_Kmeans.best_start wt xv).
  Local Notation wc_nonneg := (Proofs_Kmeans.wc_nonneg wt xv N Hw).
  Local Notation wc_mono := (Proofs_Kmeans.wc_mono wt xv N Hw).
  Local Notation wc_one := (Proofs_Kmeans.wc_one wt xv N Hw).
  Local Notation wc_nil := (Proofs_Kmeans.wc_nil wt xv).
  Local Notation dp_le := (Proofs_Kmeans.dp_le wt xv).
  Local Notation dp_attain := (Proofs_Kmeans.dp_attain wt xv).
  Local Notation dp_mono := (Proofs_Kmeans.dp_mono wt xv N Hw).
  Local Notation dp_anti := (Proofs_Kmeans.dp_anti wt xv N Hw).
  Local Notation dp_nonneg := (Proofs_Kmeans.dp_nonneg wt xv N Hw).

  (** ** More clusters than distinct values *)
  Lemma dp_single p : S p <= N -> (dp p (S p) == 0)%Q.
  Proof.
    induction p as [|p IH]; intro H; [apply wc_one; lia|].
    pose proof (dp_le p (S (S p)) (S p) ltac:(lia)) as L. unfold Proofs_Kmeans.cand in L.
    pose proof (IH ltac:(lia)) as Z. pose proof (wc_one (S p) ltac:(lia)) as W. pose proof (dp_nonneg (S p) (S (S p)) ltac:(lia) H). lra.
  Qed.
  (** One more range helps as long as something is left to gain. *)
  Lemma dp_strict n : n <= N -> forall d p, n - p = d -> S p < n -> (0 < dp p n)%Q -> (dp (S p) n < dp p n)%Q.
  Proof.
    intro Hn. induction d as [|d IH]; intros p E H P; [lia|].
    destruct (Qlt_le_dec (dp (S p) n) (dp p n)) as [L|L]; [exact L|exfalso].
    destruct (Nat.eq_dec (S (S p)) n) as [E2|E2].
    - subst n. pose proof (dp_single (S p) Hn). lra.
    - pose proof (convex wt xv N Hw Hx p n ltac:(lia) Hn) as C.
      pose proof (IH (S p) ltac:(lia) ltac:(lia)) as S1. lra.
  Qed.

  (** [live q k]: with one range less something is left to gain; [good q k]: the cells whose
      value matters. *)
  Definition live (q k : nat) : Prop := match q with 0 => True | S p => (0 < dp p (S k))%Q end.
  Definition edge (p k : nat) : Prop := (dp p (S k) == 0)%Q /\ live p k /\ (S k = N \/ (0 < dp p (S (S k)))%Q).
  Definition good (q k : nat) : Prop := match q with 0 => True | S p => (0 < dp p (S k))%Q \/ edge p k end.
  Lemma live_dec p k : p <= k -> k < N -> (0 < dp p (S k))%Q \/ (dp p (S k) == 0)%Q.
  Proof. intros A B. pose proof (dp_nonneg p (S k) ltac:(lia) ltac:(lia)). destruct (Qlt_le_dec 0 (dp p (S k))); [now left|right; lra]. Qed.
  Lemma live_later p k k' : p <= k -> k <= k' -> k' < N -> (0 < dp p (S k))%Q -> (0 < dp p (S k'))%Q.
  Proof. intros A B C L. pose proof (dp_mono p (S k) (S k') ltac:(lia) ltac:(lia) ltac:(lia)). lra. Qed.
  Lemma live_fewer q k : q <= k -> k < N -> live (S q) k -> live q k.
  Proof. intros A B L. destruct q as [|p]; [exact I|]. cbn [live] in *. pose proof (dp_anti p (S k) ltac:(lia) ltac:(lia)). lra. Qed.
  Lemma live_prev p b : p < b -> b < N -> (0 < dp p (S b))%Q -> live p (b - 1).
  Proof.
    intros A B L. destruct p as [|p]; [exact I|]. cbn [live]. replace (S (b - 1)) with b by lia.
    pose proof (dp_le p (S b) b ltac:(lia)) as D. unfold Proofs_Kmeans.cand in D. pose proof (wc_one b B). lra.
  Qed.
  (** An optimal start, the rightmost one. *)
  Definition rstart (p i j : nat) : Prop := best_start p i j /\ forall j', j < j' < i -> (dp (S p) i < cand p i j')%Q.

  (** What a filled row must tell the next one. *)
  Definition row_live (q : nat) (row : krow) (k : nat) : Prop :=
    (dp q (S k) <= fst row k)%Q /\ (good q k -> (fst row k == dp q (S k))%Q)
    /\ match q with 0 => snd row k = 0 | S p => live q k -> rstart p (S k) (snd row k) end.

  Lemma ssq_wc_any j i : j < N -> i < N -> (ssq wt xv N j i == wc j (S i))%Q.
  Proof.
    intros H1 H2. destruct (Nat.le_gt_cases j i) as [L|L]; [apply ssq_wc; assumption|].
    rewrite wc_nil by lia. unfold ssq. cbv zeta.
    assert (E : Qle_bool (sum_w wt i) (sum_w wt j) = true).
    { apply Qle_bool_iff. unfold sum_w. rewrite (not_equally wt N Hw ltac:(lia)). change (fun i0 : nat => if false then 0%Q else wt i0) with (fun i0 : nat => wt i0). rewrite !run_rng. rewrite (rng_split 0 (S i) (S j)) by lia. rewrite sumQ_app.
      pose proof (sumQ_nonneg (fun i0 => wt i0) (rng (S i) (S j))) as P.
      assert (Z : (0 <= sumQ (fun i0 => wt i0) (rng (S i) (S j)))%Q).
      { apply P. intros k Hk. apply rng_in in Hk. apply Qlt_le_weak. apply Hw. lia. }
      lra. }
    rewrite E. destruct (qlt 0 0); reflexivity.
  Qed.
  Lemma monge_any j k i l : j <= k -> i <= l -> l <= N -> (wc j i + wc k l <= wc j l + wc k i)%Q.
  Proof.
    intros H1 H2 H3. destruct (Nat.lt_ge_cases l k) as [A|A].
    - rewrite (wc_nil k l), (wc_nil k i) by lia. pose proof (wc_mono j i j l ltac:(lia) H2 H3). lra.
    - destruct (Nat.lt_ge_cases i j) as [B|B].
      + rewrite (wc_nil j i), (wc_nil k i) by lia. pose proof (wc_mono k l j l H1 ltac:(lia) H3). lra.
      + apply (monge' wt xv N Hw Hx); assumption.
  Qed.

  Section Row.
    (** The row with [p + 2] ranges is filled from [prev], the row with [p + 1]. *)
    Context (p : nat) (prev : krow).
    Local Notation q := (S p).
    Local Notation Sp := (fst prev).
    Local Notation Jp := (snd prev).
    Hypothesis HN : q < N.
    Hypothesis Hprev : forall k, p <= k -> k < N -> row_live p prev k.
    Local Notation D := (mcell wt xv N (fst prev)).

    Lemma D_eq i j : i < N -> j < N -> (D i j == Sp (j - 1)%nat + wc j (S i))%Q.
    Proof. intros A B. unfold mcell. rewrite ssq_wc_any by assumption. reflexivity. Qed.
    Lemma Sp_low j : q <= j -> j <= N -> (dp p j <= Sp (j - 1)%nat)%Q.
    Proof. intros A B. destruct (Hprev (j - 1) ltac:(lia) ltac:(lia)) as (L & _). replace (S (j - 1)) with j in L by lia. exact L. Qed.
    Lemma Sp_good j : q <= j -> j <= N -> good p (j - 1) -> (Sp (j - 1)%nat == dp p j)%Q.
    Proof. intros A B G. destruct (Hprev (j - 1) ltac:(lia) ltac:(lia)) as (_ & E & _). rewrite (E G). replace (S (j - 1)) with j by lia. reflexivity. Qed.
    Lemma live_good k : live p k -> good p k.
    Proof. destruct p; [trivial|]. intro L. left. exact L. Qed.
    Lemma D_nonneg i j : i < N -> q <= j < N -> (0 <= D i j)%Q.
    Proof.
      intros A B. rewrite D_eq by lia. pose proof (Sp_low j ltac:(lia) ltac:(lia)). pose proof (dp_nonneg p j ltac:(lia) ltac:(lia)). pose proof (wc_nonneg j (S i) ltac:(lia)). lra.
    Qed.
    Lemma D_monge i i' j j' : i <= i' -> j <= j' -> i' < N -> j' < N -> (D i j + D i' j' <= D i j' + D i' j)%Q.
    Proof.
      intros A B C E. rewrite !D_eq by lia. pose proof (monge_any j j' (S i) (S i') B ltac:(lia) ltac:(lia)). lra.
    Qed.
    Lemma D_low i j : q <= i < N -> q <= j < N -> (dp q (S i) <= D i j)%Q.
    Proof.
      intros A B. rewrite D_eq by lia. pose proof (Sp_low j ltac:(lia) ltac:(lia)) as L. destruct (Nat.le_gt_cases j i) as [C|C].
      - pose proof (dp_le p (S i) j ltac:(lia)) as X. unfold Proofs_Kmeans.cand in X. lra.
      - pose proof (dp_anti p (S i) ltac:(lia) ltac:(lia)). pose proof (dp_mono p (S i) j ltac:(lia) ltac:(lia) ltac:(lia)). pose proof (wc_nonneg j (S i) ltac:(lia)). lra.
    Qed.

    (** The rightmost smallest entry of a row. *)
    Definition rm (i e : nat) : Prop :=
      q <= e < N /\ (forall j, q <= j <= e -> (D i e <= D i j)%Q) /\ (forall j, e < j < N -> (D i e < D i j)%Q).
    Lemma rm_exists i : exists e, rm i e.
    Proof.
      assert (G : forall n, q < n -> exists e, q <= e < n /\ (forall j, q <= j <= e -> (D i e <= D i j)%Q) /\ (forall j, e < j < n -> (D i e < D i j)%Q)).
      { induction n as [|n IH]; intro H; [lia|]. destruct (Nat.eq_dec q n) as [E|E].
        - exists q. split; [lia|]. split; [|intros; lia]. intros j Hj. replace j with q by lia. lra.
        - destruct (IH ltac:(lia)) as (e & A & B & C). destruct (Qlt_le_dec (D i e) (D i n)) as [L|L].
          + exists e. split; [lia|]. split; [exact B|]. intros j Hj. destruct (Nat.eq_dec j n) as [->|Nj]; [exact L|apply C; lia].
          + exists n. split; [lia|]. split; [|intros; lia]. intros j Hj. destruct (Nat.eq_dec j n) as [->|Nj]; [lra|].
            destruct (Nat.le_gt_cases j e) as [F|F]; [pose proof (B j ltac:(lia)); lra|pose proof (C j ltac:(lia)); lra]. }
      destruct (G N HN) as (e & A & B & C). exists e. split; [exact A|split; assumption].
    Qed.
    Lemma rm_any i e j : rm i e -> q <= j < N -> (D i e <= D i j)%Q.
    Proof. intros (A & B & C) H. destruct (Nat.le_gt_cases j e) as [F|F]; [apply B; lia|apply Qlt_le_weak, C; lia]. Qed.
    Lemma rm_mono i i' e e' : rm i e -> rm i' e' -> i <= i' -> i' < N -> e <= e'.
    Proof.
      intros (A & B & C) (A' & B' & C') H1 H2. destruct (Nat.le_gt_cases e e') as [L|L]; [exact L|exfalso].
      pose proof (B e' ltac:(lia)). pose proof (C' e ltac:(lia)). pose proof (D_monge i i' e' e H1 ltac:(lia) H2 ltac:(lia)). lra.
    Qed.
    Lemma rm_unique i e e' : rm i e -> rm i e' -> i < N -> e = e'.
    Proof. intros A B H. pose proof (rm_mono i i e e' A B ltac:(lia) H). pose proof (rm_mono i i e' e B A ltac:(lia) H). lia. Qed.

    (** An optimal start of a live row uses a right cell. *)
    Lemma start_cell i j : q <= i < N -> (0 < dp p (S i))%Q -> q <= j <= i -> (cand p (S i) j <= dp q (S i))%Q ->
      (Sp (j - 1)%nat == dp p j)%Q /\ (D i j == dp q (S i))%Q.
    Proof.
      intros Hi L Hj C. pose proof (dp_strict (S i) ltac:(lia) _ p eq_refl ltac:(lia) L) as St.
      assert (G : good p (j - 1)).
      { apply live_good. destruct p as [|p']; [exact I|]. cbn [live]. replace (S (j - 1)) with j by lia.
        destruct (Qlt_le_dec 0 (dp p' j)) as [P|P]; [exact P|exfalso].
        pose proof (dp_le p' (S i) j ltac:(lia)) as X. unfold Proofs_Kmeans.cand in *.
        pose proof (dp_nonneg (S p') j ltac:(lia) ltac:(lia)). lra. }
      pose proof (Sp_good j ltac:(lia) ltac:(lia) G) as E. split; [exact E|]. rewrite D_eq by lia.
      pose proof (dp_le p (S i) j ltac:(lia)) as X. unfold Proofs_Kmeans.cand in *. lra.
    Qed.
    Lemma live_rm i e : q <= i < N -> (0 < dp p (S i))%Q -> rm i e ->
      (D i e == dp q (S i))%Q /\ e <= i /\ rstart p (S i) e /\ (Sp (e - 1)%nat == dp p e)%Q.
    Proof.
      intros Hi L R. pose proof R as (A & B & C). pose proof (dp_strict (S i) ltac:(lia) _ p eq_refl ltac:(lia) L) as St.
      destruct (dp_attain p (S i) ltac:(lia)) as (j0 & Hj0 & E0).
      destruct (start_cell i j0 Hi L ltac:(lia) ltac:(lra)) as (_ & D0).
      pose proof (rm_any i e j0 R ltac:(lia)) as Le. pose proof (D_low i e Hi A) as Lo.
      assert (V : (D i e == dp q (S i))%Q) by lra.
      pose proof (Sp_low e ltac:(lia) ltac:(lia)) as SL.
      assert (Ei : e <= i).
      { destruct (Nat.le_gt_cases e i) as [F|F]; [exact F|exfalso]. rewrite D_eq in V by lia. rewrite wc_nil in V by lia.
        pose proof (dp_mono p (S i) e ltac:(lia) ltac:(lia) ltac:(lia)). lra. }
      assert (Cn : (cand p (S i) e <= dp q (S i))%Q).
      { rewrite D_eq in V by lia. unfold Proofs_Kmeans.cand. lra. }
      split; [exact V|]. split; [exact Ei|]. split.
      - split; [split; [lia|exact Cn]|]. intros j' Hj'. destruct (Qlt_le_dec (dp q (S i)) (cand p (S i) j')) as [F|F]; [exact F|exfalso].
        destruct (start_cell i j' Hi L ltac:(lia) F) as (_ & Dj). pose proof (C j' ltac:(lia)). lra.
      - apply (start_cell i e Hi L ltac:(lia) Cn).
    Qed.
    (** What the previous row says about the start. *)
    Lemma live_skip i e : q <= i < N -> (0 < dp p (S i))%Q -> rm i e -> Jp i <= e.
    Proof.
      intros Hi L R. destruct (live_rm i e Hi L R) as (_ & Ei & (Bs & Rt) & _). destruct (Hprev i ltac:(lia) ltac:(lia)) as (_ & _ & J).
      pose proof (live_fewer p i ltac:(lia) ltac:(lia) L) as L'. destruct p as [|p']; [lia|]. specialize (J L'). destruct J as (B & _).
      destruct (Nat.le_gt_cases (Jp i) e) as [F|F]; [exact F|exfalso]. destruct Bs as [Be Bc].
      pose proof (start_up wt xv N Hw Hx p' (S i) (Jp i) e B ltac:(lia) ltac:(lia)) as U.
      pose proof (Rt (Jp i) ltac:(destruct B; lia)). lra.
    Qed.
    Lemma live_cell i e j : q <= i < N -> (0 < dp p (S i))%Q -> rm i e -> q <= j -> Jp i <= j < e -> (Sp (j - 1)%nat <= Sp (e - 1)%nat)%Q.
    Proof.
      intros Hi L R Hq Hj. destruct (live_rm i e Hi L R) as (_ & Ei & _ & Se).
      assert (G : good p (j - 1)).
      { destruct (Hprev i ltac:(lia) ltac:(lia)) as (_ & _ & J). pose proof (live_fewer p i ltac:(lia) ltac:(lia) L) as L'.
        destruct p as [|p']; [exact I|]. specialize (J L'). destruct J as ((B1 & B2) & Rt). cbn [good]. unfold edge.
        replace (S (j - 1)) with j by lia. destruct (Qlt_le_dec 0 (dp p' j)) as [P|P]; [now left|right].
        pose proof (dp_nonneg p' j ltac:(lia) ltac:(lia)) as P0.
        pose proof (dp_nonneg p' (Jp i) ltac:(lia) ltac:(lia)) as Pb.
        destruct (Nat.eq_dec j (Jp i)) as [Ej|Nj].
        - assert (Pn : (0 < dp p' (S j))%Q).
          { destruct (Qlt_le_dec 0 (dp p' (S j))) as [X|X]; [exact X|exfalso].
            pose proof (Rt (S j) ltac:(lia)) as Y. unfold Proofs_Kmeans.cand in *. pose proof (wc_mono (S j) (S i) (Jp i) (S i) ltac:(lia) ltac:(lia) ltac:(lia)). lra. }
          split; [lra|]. split; [apply live_prev; [lia|lia|exact Pn]|now right].
        - exfalso. pose proof (Rt j ltac:(lia)) as Y. unfold Proofs_Kmeans.cand in *. pose proof (wc_mono j (S i) (Jp i) (S i) ltac:(lia) ltac:(lia) ltac:(lia)). lra. }
      rewrite (Sp_good j ltac:(lia) ltac:(lia) G), Se. apply dp_mono; lia.
    Qed.
    (** The start of a live row lies after every row that is not live. *)
    Lemma live_after i e r : q <= i < N -> (0 < dp p (S i))%Q -> rm i e -> q <= r < N -> (dp p (S r) == 0)%Q -> S r <= e.
    Proof.
      intros Hi L R Hr Z. destruct (live_rm i e Hi L R) as (_ & Ei & ((B1 & B2) & Rt) & _).
      assert (ri : r < i).
      { destruct (Nat.lt_ge_cases r i) as [F|F]; [exact F|exfalso]. pose proof (live_later p i r ltac:(lia) F ltac:(lia) L). lra. }
      destruct (Nat.le_gt_cases (S r) e) as [F|F]; [exact F|exfalso].
      pose proof (Rt (S r) ltac:(lia)) as Y. unfold Proofs_Kmeans.cand in *. pose proof (wc_mono (S r) (S i) e (S i) ltac:(lia) ltac:(lia) ltac:(lia)).
      pose proof (dp_nonneg p e ltac:(lia) ltac:(lia)). lra.
    Qed.
    (** The columns of cost zero of the last row that is not live. *)
    Lemma edge_zero r j : q <= r < N -> edge p r -> q <= j < N -> Jp r <= j <= S r -> (Sp (j - 1)%nat == 0)%Q /\ (D r j == 0)%Q.
    Proof.
      intros Hr (Z & Lv & _) Hj Hb.
      enough (G : (Sp (j - 1)%nat == 0)%Q /\ (wc j (S r) == 0)%Q).
      { destruct G as [G1 G2]. split; [exact G1|]. rewrite D_eq by lia. lra. }
      destruct (Nat.eq_dec j (S r)) as [->|Nj].
      { replace (S r - 1) with r by lia. destruct (Hprev r ltac:(lia) ltac:(lia)) as (_ & E & _). split; [rewrite (E (live_good r Lv)); exact Z|].
        rewrite wc_nil by lia. reflexivity. }
      assert (Dz : (dp p j == 0)%Q).
      { pose proof (dp_mono p j (S r) ltac:(lia) ltac:(lia) ltac:(lia)). pose proof (dp_nonneg p j ltac:(lia) ltac:(lia)). lra. }
      pose proof (wc_nonneg j (S r) ltac:(lia)) as W0.
      enough (G : good p (j - 1) /\ (wc j (S r) <= 0)%Q).
      { destruct G as [G1 G2]. split; [rewrite (Sp_good j ltac:(lia) ltac:(lia) G1); exact Dz|lra]. }
      destruct (Hprev r ltac:(lia) ltac:(lia)) as (_ & _ & J).
      destruct p as [|p'].
      { split; [exact I|]. cbn [Proofs_Kmeans.dp] in Z. pose proof (wc_mono j (S r) 0 (S r) ltac:(lia) ltac:(lia) ltac:(lia)). lra. }
      specialize (J Lv). destruct J as ((B1 & B2) & Rt). cbn [good]. unfold edge. replace (S (j - 1)) with j by lia.
      pose proof (dp_nonneg p' (Jp r) ltac:(lia) ltac:(lia)) as Pb. pose proof (wc_nonneg (Jp r) (S r) ltac:(lia)) as Wb.
      unfold Proofs_Kmeans.cand in B2.
      pose proof (wc_mono j (S r) (Jp r) (S r) ltac:(lia) ltac:(lia) ltac:(lia)) as Wj. split; [|lra].
      destruct (Qlt_le_dec 0 (dp p' j)) as [P|P]; [now left|right]. pose proof (dp_nonneg p' j ltac:(lia) ltac:(lia)) as P0.
      destruct (Nat.eq_dec j (Jp r)) as [Ej|Nj'].
      - assert (Pn : (0 < dp p' (S j))%Q).
        { destruct (Nat.eq_dec j r) as [->|Njr]; [exact Lv|]. pose proof (Rt (S j) ltac:(lia)) as Y. unfold Proofs_Kmeans.cand in Y.
          pose proof (wc_mono (S j) (S r) (Jp r) (S r) ltac:(lia) ltac:(lia) ltac:(lia)). lra. }
        split; [lra|]. split; [apply live_prev; [lia|lia|exact Pn]|now right].
      - exfalso. pose proof (Rt j ltac:(lia)) as Y. unfold Proofs_Kmeans.cand in Y. lra.
    Qed.
    Lemma edge_start r : q <= r < N -> edge p r -> Jp r <= r.
    Proof.
      intros Hr (Z & Lv & _). destruct (Hprev r ltac:(lia) ltac:(lia)) as (_ & _ & J). destruct p as [|p']; [lia|]. destruct (J Lv) as ((B1 & _) & _). lia.
    Qed.
    Lemma edge_rm r e : q <= r < N -> edge p r -> rm r e -> r <= e.
    Proof.
      intros Hr E R. pose proof (edge_start r Hr E) as B. destruct (edge_zero r r Hr E ltac:(lia) ltac:(lia)) as (_ & Z).
      destruct (Nat.le_gt_cases r e) as [F|F]; [exact F|exfalso]. destruct R as (A & _ & C). pose proof (C r ltac:(lia)). pose proof (D_nonneg r e ltac:(lia) ltac:(lia)). lra.
    Qed.
    (** A column whose earlier points cost nothing is at least as good as every earlier column. *)
    Lemma zero_column i j c : i < N -> q <= j -> j < c -> c < N -> (Sp (c - 1)%nat == 0)%Q -> (D i c <= D i j)%Q.
    Proof.
      intros A B C E Z. rewrite !D_eq by lia. pose proof (wc_mono c (S i) j (S i) ltac:(lia) ltac:(lia) ltac:(lia)).
      pose proof (Sp_low j ltac:(lia) ltac:(lia)). pose proof (dp_nonneg p j ltac:(lia) ltac:(lia)). lra.
    Qed.

    (** ** Removing columns *)
    Local Notation inc := (StronglySorted lt).
    Definition cols (js : list nat) : Prop := forall j, In j js -> q <= j < N.
    Lemma inc_app a b : inc (a ++ b) <-> inc a /\ inc b /\ forall x y, In x a -> In y b -> x < y.
    Proof.
      induction a as [|x a IH]; cbn [app].
      - split; [intro H; split; [constructor|split; [exact H|intros x y []]]|tauto].
      - split.
        + intro H. apply StronglySorted_inv in H. destruct H as [H F]. apply IH in H. destruct H as (H1 & H2 & H3). rewrite Forall_forall in F.
          split; [constructor; [exact H1|apply Forall_forall; intros y Hy; apply F, in_or_app; now left]|]. split; [exact H2|].
          intros u v [<-|Hu] Hv; [apply F, in_or_app; now right|apply H3; assumption].
        + intros (H1 & H2 & H3). apply StronglySorted_inv in H1. destruct H1 as [H1 F]. rewrite Forall_forall in F.
          constructor; [apply IH; split; [exact H1|split; [exact H2|intros u v Hu Hv; apply H3; [now right|exact Hv]]]|].
          apply Forall_forall. intros y Hy. apply in_app_or in Hy. destruct Hy as [Hy|Hy]; [apply F; exact Hy|apply H3; [now left|exact Hy]].
    Qed.
    Lemma inc_cons x b : inc (x :: b) <-> inc b /\ forall y, In y b -> x < y.
    Proof.
      change (x :: b) with ([x] ++ b). rewrite inc_app. split.
      - intros (_ & H & K). split; [exact H|]. intros y Hy. apply K; [now left|exact Hy].
      - intros (H & K). split; [repeat constructor|]. split; [exact H|]. intros u v [<-|[]] Hv. apply K. exact Hv.
    Qed.
    Lemma inc_del a x b : inc (a ++ x :: b) -> inc (a ++ b).
    Proof.
      rewrite !inc_app, inc_cons. intros (A & (B & _) & C). split; [exact A|]. split; [exact B|]. intros u v Hu Hv. apply C; [exact Hu|now right].
    Qed.

    Section Reduce.
      Context (n imin istep : nat).
      Hypothesis Hn : 1 <= n.
      Hypothesis Hrows : forall t, t < n -> imin + t * istep < N.
      Definition kept (L L' : list nat) : Prop :=
        incl L' L
        /\ (forall t e, t < n -> rm (imin + t * istep) e -> In e L -> In e L')
        /\ (forall c, (Sp (c - 1)%nat == 0)%Q -> In c L -> In c L' \/ forall x, In x L' -> c < x).
      Lemma kept_refl L : kept L L.
      Proof. split; [apply incl_refl|]. split; [intros; assumption|]. intros c _ H. now left. Qed.
      Lemma kept_trans L1 L2 L3 : kept L1 L2 -> kept L2 L3 -> kept L1 L3.
      Proof.
        intros (A & B & C) (A' & B' & C'). split; [eapply incl_tran; eassumption|]. split.
        - intros t e Ht R I. apply (B' t e Ht R). apply (B t e Ht R). exact I.
        - intros c Z I. destruct (C c Z I) as [K|K]; [apply C'; assumption|right]. intros x Hx'. apply K, A', Hx'.
      Qed.
      Fixpoint stk_ok (stk : list nat) (h : nat) : Prop :=
        match stk with [] => True | c :: s => (D (imin + length s * istep) c < D (imin + length s * istep) h)%Q /\ stk_ok s c end.
      Lemma red_spec fuel : forall stk rest, inc (rev stk ++ rest) -> cols (rev stk ++ rest) -> length stk <= n - 1 -> rest <> [] ->
        stk_ok stk (hd 0 rest) -> 2 * length rest + length stk < fuel ->
        exists jr, red_loop wt xv N fuel Sp n imin istep stk rest = Some jr /\ inc jr /\ kept (rev stk ++ rest) jr.
      Proof.
        induction fuel as [|fuel IH]; intros stk rest Hi Hc Hs Hr Hk Hf; [lia|]. cbn [red_loop].
        destruct (Nat.leb_spec (length stk + length rest) n) as [E|E].
        { exists (rev stk ++ rest). split; [reflexivity|]. split; [exact Hi|apply kept_refl]. }
        destruct rest as [|j [|j1 tl]]; [now elim Hr|cbn [length] in E; lia|]. clear Hr. cbv zeta. cbn [hd] in Hk.
        set (k := length stk) in *. set (i := imin + k * istep) in *.
        assert (Hik : i < N) by (apply Hrows; lia).
        assert (Hj : q <= j < N) by (apply Hc, in_or_app; right; now left).
        assert (Hj1 : q <= j1 < N) by (apply Hc, in_or_app; right; right; now left).
        assert (Hjj : j < j1) by (apply inc_app in Hi; destruct Hi as (_ & Hi & _); apply inc_cons in Hi; apply Hi; now left).
        destruct (qlt (D i j) (D i j1)) eqn:Q.
        - apply qlt_true in Q. cbn [andb]. destruct (Nat.ltb_spec k (n - 1)) as [P|P].
          + assert (EL : rev stk ++ j :: j1 :: tl = rev (j :: stk) ++ j1 :: tl) by (cbn [rev]; rewrite <- app_assoc; reflexivity).
            rewrite EL in Hi, Hc |- *. apply IH; [exact Hi|exact Hc|cbn [length]; fold k; lia|discriminate| |cbn [length] in *; fold k in Hf |- *; lia].
            cbn [hd stk_ok]. split; [exact Q|exact Hk].
          + assert (Ek : k = n - 1) by lia. rewrite (proj2 (Nat.eqb_eq k (n - 1)) Ek).
            assert (K : kept (rev stk ++ j :: j1 :: tl) (rev stk ++ j :: tl)).
            { split; [intros x Hx'; apply in_app_or in Hx'; apply in_or_app; destruct Hx' as [?|[?|?]]; [now left|right; now left|right; right; now right]|].
              assert (Del : forall x, In x (rev stk ++ j :: j1 :: tl) -> x = j1 \/ In x (rev stk ++ j :: tl)).
              { intros x Hx'. apply in_app_or in Hx'. destruct Hx' as [?|[?|[?|?]]]; [right; apply in_or_app; now left|right; apply in_or_app; right; now left|now left|right; apply in_or_app; right; now right]. }
              split.
              - intros t e Ht R I. destruct (Del e I) as [->|I']; [exfalso|exact I'].
                assert (Tk : imin + t * istep <= i) by (unfold i; nia).
                destruct R as (_ & R & _). pose proof (R j ltac:(lia)). pose proof (D_monge (imin + t * istep) i j j1 Tk ltac:(lia) Hik ltac:(lia)). lra.
              - intros c Z I. destruct (Del c I) as [->|I']; [exfalso|now left].
                pose proof (zero_column i j j1 Hik ltac:(lia) Hjj ltac:(lia) Z). lra. }
            destruct (IH stk (j :: tl)) as (jr & E1 & E2 & E3).
            * change (rev stk ++ j :: j1 :: tl) with (rev stk ++ [j] ++ j1 :: tl) in Hi. rewrite app_assoc in Hi. apply inc_del in Hi. rewrite <- app_assoc in Hi. exact Hi.
            * intros x Hx'. apply Hc. apply K. exact Hx'.
            * exact Hs.
            * discriminate.
            * exact Hk.
            * cbn [length] in *. fold k in Hf |- *. lia.
            * exists jr. split; [exact E1|]. split; [exact E2|]. eapply kept_trans; eassumption.
        - apply qlt_false in Q. cbn [andb].
          assert (Del : forall x, In x (rev stk ++ j :: j1 :: tl) -> x = j \/ In x (rev stk ++ j1 :: tl)).
          { intros x Hx'. apply in_app_or in Hx'. destruct Hx' as [?|[?|?]]; [right; apply in_or_app; now left|now left|right; apply in_or_app; now right]. }
          assert (K : kept (rev stk ++ j :: j1 :: tl) (rev stk ++ j1 :: tl)).
          { split; [intros x Hx'; apply in_app_or in Hx'; apply in_or_app; destruct Hx' as [?|?]; [now left|right; now right]|]. split.
            - intros t e Ht R I. destruct (Del e I) as [->|I']; [exfalso|exact I'].
              destruct (Nat.le_gt_cases k t) as [F|F].
              + assert (Tk : i <= imin + t * istep) by (unfold i; nia). pose proof (Hrows t Ht) as B.
                destruct R as (_ & _ & R). pose proof (R j1 ltac:(lia)). pose proof (D_monge i (imin + t * istep) j j1 Tk ltac:(lia) B ltac:(lia)). lra.
              + destruct stk as [|c stk']; [cbn [length] in k; lia|]. cbn [stk_ok] in Hk. destruct Hk as [Hk _]. cbn [length] in k.
                assert (Tk : imin + t * istep <= imin + length stk' * istep) by (subst k; nia).
                assert (B : imin + length stk' * istep < N) by (apply Hrows; subst k; cbn [length] in Hs; lia).
                assert (Hcj : q <= c < j).
                { split; [apply Hc, in_or_app; left; cbn [rev]; apply in_or_app; right; now left|].
                  apply inc_app in Hi. apply Hi; [cbn [rev]; apply in_or_app; right; now left|now left]. }
                destruct R as (_ & R & _). pose proof (R c ltac:(lia)). pose proof (D_monge _ _ c j Tk ltac:(lia) B ltac:(lia)). lra.
            - intros c Z I. destruct (Del c I) as [->|I']; [right|now left].
              destruct stk as [|c' stk'].
              + cbn [rev app] in Hi |- *. apply inc_cons in Hi. apply Hi.
              + exfalso. cbn [stk_ok] in Hk. destruct Hk as [Hk _].
                assert (B : imin + length stk' * istep < N) by (apply Hrows; subst k; cbn [length] in Hs; lia).
                assert (Hcj : q <= c' < j).
                { split; [apply Hc, in_or_app; left; cbn [rev]; apply in_or_app; right; now left|].
                  apply inc_app in Hi. apply Hi; [cbn [rev]; apply in_or_app; right; now left|now left]. }
                pose proof (zero_column _ c' j B ltac:(lia) ltac:(lia) ltac:(lia) Z). lra. }
          apply inc_del in Hi. destruct stk as [|t stk'].
          + destruct (IH [] (j1 :: tl)) as (jr & E1 & E2 & E3); [exact Hi|intros x Hx'; apply Hc, K, Hx'|exact Hs|discriminate|exact I|cbn [length] in *; lia|].
            exists jr. split; [exact E1|]. split; [exact E2|]. eapply kept_trans; eassumption.
          + assert (EL : rev (t :: stk') ++ j1 :: tl = rev stk' ++ t :: j1 :: tl) by (cbn [rev]; rewrite <- app_assoc; reflexivity).
            rewrite EL in K, Hi. cbn [length] in k.
            destruct (IH stk' (t :: j1 :: tl)) as (jr & E1 & E2 & E3); [exact Hi|intros x Hx'; apply Hc, K, Hx'|subst k; cbn [length] in Hs; lia|discriminate|cbn [stk_ok] in Hk; cbn [hd]; apply Hk|cbn [length] in *; lia|].
            exists jr. split; [exact E1|]. split; [exact E2|]. eapply kept_trans; eassumption.
      Qed.
    End Reduce.

    Lemma reduce_spec imin imax istep js : 1 <= istep -> imin <= imax -> imax < N -> inc js -> cols js -> js <> [] ->
      exists jr, reduce wt xv N Sp imin imax istep js = Some jr /\ inc jr /\ incl jr js
        /\ (forall t e, imin + t * istep <= imax -> rm (imin + t * istep) e -> In e js -> In e jr)
        /\ (forall c, (Sp (c - 1)%nat == 0)%Q -> In c js -> In c jr \/ forall x, In x jr -> c < x).
    Proof.
      intros H1 H2 H3 Hi Hc Hne. unfold reduce. cbv zeta. set (n := (imax - imin) / istep + 1).
      assert (T : forall t, imin + t * istep <= imax <-> t < n).
      { intro t. unfold n. split; intro H.
        - enough (t <= (imax - imin) / istep) by lia. apply Nat.div_le_lower_bound; lia.
        - pose proof (Nat.mul_div_le (imax - imin) istep ltac:(lia)). nia. }
      destruct (length js <=? n).
      { exists js. split; [reflexivity|]. split; [exact Hi|]. split; [apply incl_refl|]. split; [intros; assumption|]. intros c _ H. now left. }
      destruct (red_spec n imin istep ltac:(unfold n; lia) ltac:(intros t Ht; apply T in Ht; lia) (S (2 * length js)) [] js) as (jr & E1 & E2 & E3 & E4 & E5); [exact Hi|exact Hc|cbn; lia|exact Hne|exact I|cbn [length]; lia|].
      exists jr. split; [exact E1|]. split; [exact E2|]. split; [exact E3|]. split; [|exact E5]. intros t e Ht. apply E4. apply T. exact Ht.
    Qed.

    (** ** One row *)
    Definition okc (i : nat) (b : Q * nat) : Prop :=
      q <= snd b < N /\ (fst b == D i (snd b))%Q
      /\ (forall i' e, i <= i' < N -> (0 < dp p (S i'))%Q -> rm i' e -> snd b <= e)
      /\ ((0 < dp p (S i))%Q -> forall e, rm i e -> snd b = e)
      /\ (edge p i -> (fst b == 0)%Q).
    Lemma okc_of i a b : q <= i < N -> q <= snd b < N -> (fst b == D i (snd b))%Q -> (snd b = a \/ snd b <= i) ->
      (forall i' e, i <= i' < N -> (0 < dp p (S i'))%Q -> rm i' e -> a <= e) ->
      ((0 < dp p (S i))%Q -> forall e, rm i e -> snd b = e) -> (edge p i -> (fst b == 0)%Q) -> okc i b.
    Proof.
      intros Hi A B C Ha L E. split; [exact A|]. split; [exact B|]. split; [|split; assumption].
      intros i' e Hi' L' R. destruct C as [->|C]; [apply (Ha i'); assumption|].
      destruct (live_dec p i ltac:(lia) ltac:(lia)) as [Li|Zi].
      - destruct (rm_exists i) as (e0 & R0). rewrite (L Li e0 R0). apply (rm_mono i i'); [exact R0|exact R|lia|lia].
      - pose proof (live_after i' e i ltac:(lia) L' R Hi Zi). lia.
    Qed.

    Lemma even_scan_spec k jmax sj a : q <= k < N -> jmax <= k -> (sj == wc jmax (S k))%Q ->
      forall tl cur best, inc (cur :: tl) -> cols (cur :: tl) -> q <= snd best < N -> (fst best == D k (snd best))%Q -> snd best <= cur ->
      (snd best = a \/ snd best <= k) ->
      let r := even_scan wt xv N Sp k (Jp k) jmax sj cur tl best in
      q <= snd (fst r) < N /\ (fst (fst r) == D k (snd (fst r)))%Q /\ (snd (fst r) = a \/ snd (fst r) <= k) /\ In (snd (fst r)) (snd best :: tl)
      /\ ((0 < dp p (S k))%Q -> forall e, rm k e -> e <= jmax -> snd best = e \/ In e tl -> snd (fst r) = e)
      /\ (edge p k -> jmax = k -> (fst best == 0)%Q \/ (exists c, In c tl /\ Jp k <= c <= k) -> (fst (fst r) == 0)%Q)
      /\ (exists pre x suf, snd r = x :: suf /\ cur :: tl = pre ++ x :: suf /\ (x = cur \/ x <= jmax)).
    Proof.
      intros Hk Hm Hs. induction tl as [|j tl IH]; intros cur best Hi Hc B1 B2 B3 B4; cbv zeta; cbn [even_scan].
      - cbn [fst snd]. split; [exact B1|]. split; [exact B2|]. split; [exact B4|]. split; [now left|]. split; [|split].
        + intros L e R Le [H|[]]. exact H.
        + intros E J [H|(c & [] & _)]. exact H.
        + exists [], cur, []. split; [reflexivity|]. split; [reflexivity|now left].
      - pose proof Hi as Hi0. apply inc_cons in Hi0. destruct Hi0 as (Hi' & Hlt). pose proof (Hlt j (or_introl eq_refl)) as Hcj.
        assert (Hj : q <= j < N) by (apply Hc; right; now left).
        assert (Hc' : cols (j :: tl)) by (intros x X; apply Hc; now right).
        pose proof (proj2 (proj1 (inc_cons j tl) Hi')) as Htl.
        (* stopping before [j] *)
        assert (Stop : (forall e, (0 < dp p (S k))%Q -> rm k e -> e <= jmax -> e < j) ->
                       (edge p k -> jmax = k -> (exists c, In c (j :: tl) /\ Jp k <= c <= k) -> (fst best == 0)%Q) ->
          q <= snd best < N /\ (fst best == D k (snd best))%Q /\ (snd best = a \/ snd best <= k) /\ In (snd best) (snd best :: j :: tl)
          /\ ((0 < dp p (S k))%Q -> forall e, rm k e -> e <= jmax -> snd best = e \/ In e (j :: tl) -> snd best = e)
          /\ (edge p k -> jmax = k -> (fst best == 0)%Q \/ (exists c, In c (j :: tl) /\ Jp k <= c <= k) -> (fst best == 0)%Q)
          /\ (exists pre x suf, cur :: j :: tl = x :: suf /\ cur :: j :: tl = pre ++ x :: suf /\ (x = cur \/ x <= jmax))).
        { intros St1 St2. split; [exact B1|]. split; [exact B2|]. split; [exact B4|]. split; [now left|]. split; [|split].
          - intros L e R Le [H|[H|H]]; [exact H| |]; pose proof (St1 e L R Le); [subst e; lia|]. pose proof (Htl e H). lia.
          - intros E J [H|H]; [exact H|apply St2; assumption].
          - exists [], cur, (j :: tl). split; [reflexivity|]. split; [reflexivity|now left]. }
        (* going on after [j] *)
        assert (Suf : forall r : (Q * nat) * list nat, (exists pre x suf, snd r = x :: suf /\ j :: tl = pre ++ x :: suf /\ (x = j \/ x <= jmax)) -> j <= jmax ->
                   exists pre x suf, snd r = x :: suf /\ cur :: j :: tl = pre ++ x :: suf /\ (x = cur \/ x <= jmax)).
        { intros r (pre & x & suf & E1 & E2 & E3) Lj. exists (cur :: pre), x, suf. split; [exact E1|]. split; [rewrite E2; reflexivity|]. right. lia. }
        destruct (Nat.ltb_spec jmax j) as [X1|X1]; cbn [orb].
        { cbn [fst snd]. apply Stop; [intros; lia|]. intros E J (c & [<-|Ic] & Hcc); [lia|]. pose proof (Htl c Ic). lia. }
        destruct (Nat.ltb_spec k j) as [X2|X2]; [lia|].
        destruct (Nat.ltb_spec j (Jp k)) as [X3|X3].
        { destruct (IH j best Hi' Hc' B1 B2 ltac:(lia) B4) as (A1 & A2 & A3 & A4 & A5 & A6 & A7). cbv zeta in *.
          split; [exact A1|]. split; [exact A2|]. split; [exact A3|]. split; [destruct A4; [now left|right; now right]|]. split; [|split].
          - intros L e R Le [H|[H|H]]; [apply A5; auto| |apply A5; auto]. pose proof (live_skip k e Hk L R). lia.
          - intros E J [H|(c & [<-|Ic] & Hcc)]; [apply A6; auto|lia|apply A6; [exact E|exact J|right; exists c; split; assumption]].
          - apply Suf; [exact A7|exact X1]. }
        destruct (Qle_bool (D k j) (fst best)) eqn:Q1.
        { apply Qle_bool_iff in Q1. destruct (IH j (D k j, j) Hi' Hc') as (A1 & A2 & A3 & A4 & A5 & A6 & A7); [exact Hj|cbn; reflexivity|cbn; lia|right; cbn; lia|]. cbv zeta in *. cbn [fst snd] in A4, A5, A6.
          split; [exact A1|]. split; [exact A2|]. split; [exact A3|]. split; [right; exact A4|]. split; [|split].
          - intros L e R Le [H|[H|H]]; [|apply A5; auto|apply A5; auto]. exfalso. destruct R as (_ & _ & R). pose proof (R j ltac:(lia)). rewrite B2, H in Q1. lra.
          - intros E J Hz. apply A6; [exact E|exact J|]. left.
            assert (Z : (D k j <= 0)%Q).
            { destruct Hz as [Hz|(c & Ic & Hcc)]; [lra|]. assert (j <= c) by (destruct Ic as [<-|Ic]; [lia|pose proof (Htl c Ic); lia]).
              destruct (edge_zero k j Hk E Hj ltac:(lia)) as (_ & Z). lra. }
            pose proof (D_nonneg k j ltac:(lia) Hj). lra.
          - apply Suf; [exact A7|exact X1]. }
        assert (Q1' : (fst best < D k j)%Q).
        { apply Qnot_le_lt. intro F. apply Qle_bool_iff in F. congruence. }
        assert (Ez : edge p k -> jmax = k -> (exists c, In c (j :: tl) /\ Jp k <= c <= k) -> False).
        { intros E J (c & Ic & Hcc). assert (j <= c) by (destruct Ic as [<-|Ic]; [lia|pose proof (Htl c Ic); lia]).
          destruct (edge_zero k j Hk E Hj ltac:(lia)) as (_ & Z). pose proof (D_nonneg k (snd best) ltac:(lia) B1). lra. }
        destruct (qlt (fst best) (Sp (j - 1)%nat + sj)) eqn:Q2.
        { apply qlt_true in Q2. cbn [fst snd]. apply Stop.
          - intros e L R Le. destruct (Nat.lt_ge_cases e j) as [F|F]; [exact F|exfalso].
            pose proof (rm_any k e (snd best) R B1) as Rb.
            destruct (Nat.eq_dec e j) as [->|Ne]; [lra|].
            pose proof (live_cell k e j Hk L R ltac:(lia) ltac:(lia)) as Lc.
            pose proof (proj1 R) as Re. pose proof (D_eq k e ltac:(lia) ltac:(lia)) as De.
            pose proof (wc_mono jmax (S k) e (S k) Le ltac:(lia) ltac:(lia)). lra.
          - intros E J H. elim (Ez E J H). }
        destruct (IH j best Hi' Hc' B1 B2 ltac:(lia) B4) as (A1 & A2 & A3 & A4 & A5 & A6 & A7). cbv zeta in *.
        split; [exact A1|]. split; [exact A2|]. split; [exact A3|]. split; [destruct A4; [now left|right; now right]|]. split; [|split].
        + intros L e R Le [H|[H|H]]; [apply A5; auto| |apply A5; auto]. subst e. pose proof (rm_any k j (snd best) R B1). lra.
        + intros E J [H|H]; [apply A6; auto|elim (Ez E J H)].
        + apply Suf; [exact A7|exact X1].
    Qed.
    Lemma find_scan_spec k a : q <= k < N ->
      forall tl cur best, inc (cur :: tl) -> cols (cur :: tl) -> q <= snd best < N -> (fst best == D k (snd best))%Q -> snd best <= cur ->
      (snd best = a \/ snd best <= k) ->
      let r := find_scan wt xv N Sp k (Jp k) tl best in
      q <= snd r < N /\ (fst r == D k (snd r))%Q /\ (snd r = a \/ snd r <= k) /\ In (snd r) (snd best :: tl)
      /\ ((0 < dp p (S k))%Q -> forall e, rm k e -> snd best = e \/ In e tl -> snd r = e)
      /\ (edge p k -> (fst best == 0)%Q \/ (exists c, In c tl /\ Jp k <= c <= k) -> (fst r == 0)%Q).
    Proof.
      intros Hk. induction tl as [|j tl IH]; intros cur best Hi Hc B1 B2 B3 B4; cbv zeta; cbn [find_scan].
      - split; [exact B1|]. split; [exact B2|]. split; [exact B4|]. split; [now left|]. split.
        + intros L e R [H|[]]. exact H.
        + intros E [H|(c & [] & _)]. exact H.
      - pose proof Hi as Hi0. apply inc_cons in Hi0. destruct Hi0 as (Hi' & Hlt). pose proof (Hlt j (or_introl eq_refl)) as Hcj.
        assert (Hj : q <= j < N) by (apply Hc; right; now left).
        assert (Hc' : cols (j :: tl)) by (intros x X; apply Hc; now right).
        pose proof (proj2 (proj1 (inc_cons j tl) Hi')) as Htl.
        destruct (Nat.ltb_spec j (Jp k)) as [X3|X3].
        { destruct (IH j best Hi' Hc' B1 B2 ltac:(lia) B4) as (A1 & A2 & A3 & A4 & A5 & A6). cbv zeta in *.
          split; [exact A1|]. split; [exact A2|]. split; [exact A3|]. split; [destruct A4; [now left|right; now right]|]. split.
          - intros L e R [H|[H|H]]; [apply A5; auto| |apply A5; auto]. pose proof (live_skip k e Hk L R). lia.
          - intros E [H|(c & [<-|Ic] & Hcc)]; [apply A6; auto|lia|apply A6; [exact E|right; exists c; split; assumption]]. }
        destruct (Nat.ltb_spec k j) as [X2|X2].
        { split; [exact B1|]. split; [exact B2|]. split; [exact B4|]. split; [now left|]. split.
          - intros L e R H. destruct (live_rm k e Hk L R) as (_ & Le & _). destruct H as [H|[H|H]]; [exact H|lia|]. pose proof (Htl e H). lia.
          - intros E [H|(c & [<-|Ic] & Hcc)]; [exact H|lia|]. pose proof (Htl c Ic). lia. }
        destruct (Qle_bool (D k j) (fst best)) eqn:Q1.
        { apply Qle_bool_iff in Q1. destruct (IH j (D k j, j) Hi' Hc') as (A1 & A2 & A3 & A4 & A5 & A6); [exact Hj|cbn; reflexivity|cbn; lia|right; cbn; lia|]. cbv zeta in *. cbn [fst snd] in A4, A5, A6.
          split; [exact A1|]. split; [exact A2|]. split; [exact A3|]. split; [right; exact A4|]. split.
          - intros L e R [H|[H|H]]; [|apply A5; auto|apply A5; auto]. exfalso. destruct R as (_ & _ & R). pose proof (R j ltac:(lia)). rewrite B2, H in Q1. lra.
          - intros E Hz. apply A6; [exact E|]. left.
            assert (Z : (D k j <= 0)%Q).
            { destruct Hz as [Hz|(c & Ic & Hcc)]; [lra|]. assert (j <= c) by (destruct Ic as [<-|Ic]; [lia|pose proof (Htl c Ic); lia]).
              destruct (edge_zero k j Hk E Hj ltac:(lia)) as (_ & Z). lra. }
            pose proof (D_nonneg k j ltac:(lia) Hj). lra. }
        assert (Q1' : (fst best < D k j)%Q).
        { apply Qnot_le_lt. intro F. apply Qle_bool_iff in F. congruence. }
        destruct (IH j best Hi' Hc' B1 B2 ltac:(lia) B4) as (A1 & A2 & A3 & A4 & A5 & A6). cbv zeta in *.
        split; [exact A1|]. split; [exact A2|]. split; [exact A3|]. split; [destruct A4; [now left|right; now right]|]. split.
        + intros L e R [H|[H|H]]; [apply A5; auto| |apply A5; auto]. subst e. pose proof (rm_any k j (snd best) R B1). lra.
        + intros E [H|(c & Ic & Hcc)]; [apply A6; auto|]. exfalso. assert (j <= c) by (destruct Ic as [<-|Ic]; [lia|pose proof (Htl c Ic); lia]).
          destruct (edge_zero k j Hk E Hj ltac:(lia)) as (_ & Z). pose proof (D_nonneg k (snd best) ltac:(lia) B1). lra.
    Qed.

    Lemma seek_spec jl : forall rs pre, inc (pre ++ rs) -> In jl (pre ++ rs) -> rs <> [] ->
      exists a tl pre', seek jl rs = a :: tl /\ pre ++ rs = pre' ++ a :: tl /\ (a = hd 0 rs \/ a = jl) /\ jl <= a.
    Proof.
      induction rs as [|j rs IH]; intros pre Hi Hj Hne; [now elim Hne|]. cbn [seek]. destruct (Nat.ltb_spec j jl) as [L|L].
      - assert (Hr : rs <> []).
        { intros ->. apply inc_app in Hi. destruct Hi as (_ & _ & Hi). apply in_app_or in Hj. destruct Hj as [Hj|[Hj|[]]]; [|lia].
          pose proof (Hi jl j Hj (or_introl eq_refl)). lia. }
        assert (EL : pre ++ j :: rs = (pre ++ [j]) ++ rs) by (rewrite <- app_assoc; reflexivity).
        rewrite EL in Hi, Hj |- *. destruct (IH (pre ++ [j]) Hi Hj Hr) as (a & tl & pre' & E1 & E2 & E3 & E4).
        exists a, tl, pre'. split; [exact E1|]. split; [exact E2|]. split; [|exact E4]. right. destruct E3 as [E3|E3]; [|exact E3].
        (* [jl] is not before the head of the rest *)
        destruct rs as [|j2 rs']; [now elim Hr|]. cbn [hd] in E3. subst a.
        apply inc_app in Hi. destruct Hi as (P1 & P2 & P3). apply in_app_or in Hj. destruct Hj as [Hj|[Hj|Hj]].
        + apply in_app_or in Hj. destruct Hj as [Hj|[Hj|[]]]; [|lia]. apply inc_app in P1. destruct P1 as (_ & _ & P1).
          pose proof (P1 jl j Hj (or_introl eq_refl)). lia.
        + exact Hj.
        + apply inc_cons in P2. pose proof (proj2 P2 jl Hj). lia.
      - exists j, rs, pre. split; [reflexivity|]. split; [reflexivity|]. split; [now left|exact L].
    Qed.

    Lemma last_max js : inc js -> forall x, In x js -> x <= last js 0.
    Proof.
      induction js as [|j js IH]; intros Hi x Hx'; [contradiction|]. apply inc_cons in Hi. destruct Hi as [Hi Hl].
      destruct js as [|j2 js']; [destruct Hx' as [<-|[]]; cbn; lia|]. change (last (j :: j2 :: js') 0) with (last (j2 :: js') 0).
      destruct Hx' as [<-|Hx']; [|apply IH; assumption]. pose proof (IH Hi j2 (or_introl eq_refl)). pose proof (Hl j2 (or_introl eq_refl)). lia.
    Qed.
    Lemma last_in (js : list nat) : js <> [] -> In (last js 0) js.
    Proof.
      induction js as [|j js IH]; intro H; [now elim H|]. destruct js as [|j2 js']; [now left|]. right. apply IH. discriminate.
    Qed.

    (** ** Rows of a set *)
    Definition cell (row : krow) (k : nat) : Q * nat := (fst row k, snd row k).
    Definition same (row row' : krow) (k : nat) : Prop := fst row' k = fst row k /\ snd row' k = snd row k.
    Lemma same_cell row row' k : same row row' k -> cell row' k = cell row k.
    Proof. intros [A B]. unfold cell. rewrite A, B. reflexivity. Qed.
    Section Set_.
      Context (imin imax istep : nat) (js : list nat).
      Hypothesis H1 : 1 <= istep.
      Hypothesis H2 : q <= imin.
      Hypothesis H3 : imax < N.
      Hypothesis Hi : inc js.
      Hypothesis Hc : cols js.
      Hypothesis Hne : js <> [].
      Hypothesis HR : forall t e, imin + t * istep <= imax -> rm (imin + t * istep) e -> In e js.
      Hypothesis HE : forall t, imin + t * istep <= imax -> edge p (imin + t * istep) ->
        (exists c, In c js /\ Jp (imin + t * istep) <= c <= imin + t * istep) \/ forall x, In x js -> Jp (imin + t * istep) <= x.

      (** The part of the columns from [a] on still serves row [k]. *)
      Lemma suffix_row t a tl pre : let k := imin + t * istep in k <= imax -> js = pre ++ a :: tl ->
        (forall i' e, k <= i' < N -> (0 < dp p (S i'))%Q -> rm i' e -> a <= e) ->
        inc (a :: tl) /\ cols (a :: tl)
        /\ ((0 < dp p (S k))%Q -> forall e, rm k e -> a = e \/ In e tl)
        /\ (edge p k -> (D k a == 0)%Q \/ exists c, In c tl /\ Jp k <= c <= k).
      Proof.
        intros k Hk E Ha. pose proof Hi as Hi'. rewrite E in Hi'. apply inc_app in Hi'. destruct Hi' as (P1 & P2 & P3).
        assert (Cc : cols (a :: tl)) by (intros x Hx'; apply Hc; rewrite E; apply in_or_app; now right).
        split; [exact P2|]. split; [exact Cc|]. split.
        - intros L e R. pose proof (HR t e Hk R) as I. rewrite E in I. apply in_app_or in I. destruct I as [I|[I|I]]; [|now left|now right].
          pose proof (P3 e a I (or_introl eq_refl)). pose proof (Ha k e ltac:(lia) L R). lia.
        - intro Eg. pose proof (edge_start k ltac:(lia) Eg) as Js. assert (Ka : q <= a < N) by (apply Cc; now left).
          assert (Up : a <= S k).
          { destruct Eg as (Z & Lv & [Nk|Ln]); [lia|]. destruct (Nat.eq_dec (S k) N) as [Nk|Nk]; [lia|]. destruct (rm_exists (S k)) as (e & R). pose proof (Ha (S k) e ltac:(lia) Ln R).
            destruct (live_rm (S k) e ltac:(lia) Ln R) as (_ & Le & _). lia. }
          destruct (Nat.le_gt_cases (Jp k) a) as [G|G]; [left; apply (edge_zero k a ltac:(lia) Eg Ka ltac:(lia))|right].
          pose proof (HE t Hk Eg) as HEk. fold k in HEk. destruct HEk as [(c & Ic & Hcc)|Al].
          + exists c. split; [|exact Hcc]. rewrite E in Ic. apply in_app_or in Ic. destruct Ic as [Ic|[Ic|Ic]]; [|lia|exact Ic].
            pose proof (P3 c a Ic (or_introl eq_refl)). lia.
          + pose proof (Al a ltac:(rewrite E; apply in_or_app; right; now left)). lia.
      Qed.

      Lemma even_loop_spec fuel : forall t rs pre jl row, js = pre ++ rs -> rs <> [] -> In jl js ->
        (imin + 2 * t * istep <= imax -> forall i' e, imin + 2 * t * istep <= i' < N -> (0 < dp p (S i'))%Q -> rm i' e -> hd 0 rs <= e /\ jl <= e) ->
        (forall u, imin + (2 * u + 1) * istep <= imax -> okc (imin + (2 * u + 1) * istep) (cell row (imin + (2 * u + 1) * istep)) /\ In (snd row (imin + (2 * u + 1) * istep)) js) ->
        imax < imin + 2 * t * istep + fuel ->
        exists row', even_loop wt xv N fuel prev (imin + 2 * t * istep) imax istep (last js 0) jl rs row = Some row'
          /\ (forall u, t <= u -> imin + 2 * u * istep <= imax -> okc (imin + 2 * u * istep) (cell row' (imin + 2 * u * istep)) /\ In (snd row' (imin + 2 * u * istep)) js)
          /\ (forall k, (forall u, t <= u -> k = imin + 2 * u * istep -> imax < k) -> same row row' k).
      Proof.
        induction fuel as [|fuel IH]; intros t rs pre jl row E Hr Hj Hb Ho Hf; cbn [even_loop]; destruct (Nat.ltb_spec imax (imin + 2 * t * istep)) as [L|L]; [| lia | |].
        1,2: exists row; split; [reflexivity|]; split; [intros u Hu Hu'; exfalso; nia|intros k _; split; reflexivity].
        set (k := imin + 2 * t * istep) in *.
        pose proof Hi as Hi'. pose proof Hj as Hj'. rewrite E in Hi', Hj'.
        destruct (seek_spec jl rs pre Hi' Hj' Hr) as (a & tl & pre' & E1 & E2 & E3 & E4). rewrite E1. cbv zeta.
        assert (Ha : forall i' e, k <= i' < N -> (0 < dp p (S i'))%Q -> rm i' e -> a <= e).
        { intros i' e Hi0 Li Ri. destruct (Hb L i' e Hi0 Li Ri). destruct E3 as [->| ->]; assumption. }
        rewrite E2 in E.
        assert (Kt : imin + (2 * t) * istep = k) by reflexivity.
        destruct (suffix_row (2 * t) a tl pre') as (S1 & S2 & S3 & S4); [rewrite Kt; exact L|exact E|rewrite Kt; exact Ha|]. rewrite Kt in S3, S4.
        set (jh := if k + istep <=? imax then snd row (k + istep) else last js 0).
        assert (Hk : q <= k < N) by (subst k; lia).
        assert (Next : k + istep = imin + (2 * t + 1) * istep) by (subst k; lia).
        assert (Jin : In jh js).
        { unfold jh. destruct (Nat.leb_spec (k + istep) imax) as [F|F]; [|apply last_in; exact Hne]. rewrite Next in F |- *. apply Ho. exact F. }
        assert (Jlive : (0 < dp p (S k))%Q -> forall e, rm k e -> e <= jh).
        { intros Lk e R. unfold jh. destruct (Nat.leb_spec (k + istep) imax) as [F|F].
          - pose proof F as F'. rewrite Next in F'. destruct (Ho t F') as ((_ & _ & _ & O & _) & _). rewrite <- Next in O. cbn [cell snd] in O.
            destruct (rm_exists (k + istep)) as (e' & R'). rewrite (O (live_later p k (k + istep) ltac:(lia) ltac:(lia) ltac:(lia) Lk) e' R').
            apply (rm_mono k (k + istep)); [exact R|exact R'|lia|lia].
          - apply last_max; [exact Hi|]. apply (HR (2 * t)); rewrite Kt; assumption. }
        assert (Jedge : edge p k -> k <= jh).
        { intro Eg. unfold jh. destruct (Nat.leb_spec (k + istep) imax) as [F|F].
          - pose proof F as F'. rewrite Next in F'. destruct (Ho t F') as ((_ & _ & _ & O & _) & _). rewrite <- Next in O. cbn [cell snd] in O.
            assert (Ln : (0 < dp p (S (k + istep)))%Q).
            { destruct Eg as (_ & _ & [Nk|Ln]); [lia|]. apply (live_later p (S k)); [lia|lia|lia|exact Ln]. }
            destruct (rm_exists (k + istep)) as (e' & R'). rewrite (O Ln e' R'). pose proof (live_after (k + istep) e' k ltac:(lia) Ln R' Hk (proj1 Eg)). lia.
          - destruct (rm_exists k) as (e' & R'). pose proof (edge_rm k e' Hk Eg R'). pose proof (last_max js Hi e' ltac:(apply (HR (2 * t)); rewrite Kt; assumption)). lia. }
        assert (Hm : Nat.min jh k <= k) by lia.
        assert (Hs : (ssq wt xv N (Nat.min jh k) k == wc (Nat.min jh k) (S k))%Q) by (apply ssq_wc_any; lia).
        destruct (even_scan_spec k (Nat.min jh k) _ a Hk Hm Hs tl a (D k a, a) S1 S2) as (A1 & A2 & A3 & A4 & A5 & A6 & A7);
          [apply S2; now left|cbn; reflexivity|cbn; lia|now left|]. cbv zeta in *. cbn [fst snd] in A4, A5, A6.
        set (r := even_scan wt xv N Sp k (Jp k) (Nat.min jh k) (ssq wt xv N (Nat.min jh k) k) a tl (D k a, a)) in *. clearbody r.
        set (row1 := (upd (fst row) k (fst (fst r)), upd (snd row) k (snd (fst r)))).
        assert (C1 : cell row1 k = fst r) by (unfold cell, row1; cbn [fst snd]; rewrite !upd_same; destruct r as [[? ?] ?]; reflexivity).
        assert (C2 : forall k', k' <> k -> same row row1 k') by (intros k' Nk; unfold same, row1; cbn [fst snd]; rewrite !upd_other by exact Nk; split; reflexivity).
        assert (Ok : okc k (fst r)).
        { apply (okc_of k a); [exact Hk|exact A1|exact A2|exact A3|exact Ha| |].
          - intros Lk e R. destruct (live_rm k e Hk Lk R) as (_ & Le & _). apply A5; [exact Lk|exact R|pose proof (Jlive Lk e R); lia|apply S3; assumption].
          - intro Eg. apply A6; [exact Eg|pose proof (Jedge Eg); lia|apply S4; exact Eg]. }
        assert (Inr : In (snd (fst r)) js) by (rewrite E; apply in_or_app; right; exact A4).
        destruct A7 as (pre2 & x & suf & R1 & R2 & R3). rewrite R1.
        replace (k + 2 * istep) with (imin + 2 * (S t) * istep) by (subst k; lia).
        destruct (IH (S t) (x :: suf) (pre' ++ pre2) jh row1) as (row' & B1 & B2 & B3).
        - rewrite E, R2. apply app_assoc.
        - discriminate.
        - exact Jin.
        - intros Rem i' e Hi0 Li Ri. cbn [hd].
          assert (Jb : k + istep <= imax -> jh <= e).
          { intro F. unfold jh. rewrite (proj2 (Nat.leb_le _ _) F). rewrite Next in F |- *. destruct (Ho t F) as ((_ & _ & O & _) & _). apply (O i' e); [subst k; lia|exact Li|exact Ri]. }
          assert (F : k + istep <= imax) by (subst k; lia).
          specialize (Jb F). split; [|exact Jb]. destruct R3 as [->|R3]; [apply (Ha i' e); [subst k; lia|exact Li|exact Ri]|lia].
        - intros u Hu. destruct (Ho u Hu) as [O1 O2]. assert (Nk : imin + (2 * u + 1) * istep <> k) by (intro X; assert (Y : (2 * u + 1) * istep = (2 * t) * istep) by (subst k; lia); apply Nat.mul_cancel_r in Y; lia).
          rewrite (same_cell row row1 _ (C2 _ Nk)). destruct (C2 _ Nk) as [_ C2']. rewrite C2'. split; assumption.
        - subst k. lia.
        - exists row'. split; [exact B1|]. split.
          + intros u Hu Hu'. destruct (Nat.eq_dec u t) as [->|Nu]; [|apply B2; lia].
            fold k. assert (Sm : same row1 row' k) by (apply B3; intros u' Hu2 Eu; subst k; nia).
            rewrite (same_cell _ _ _ Sm). destruct Sm as [_ Sm]. rewrite Sm. rewrite C1. split; [exact Ok|]. unfold row1. cbn [snd]. rewrite upd_same. exact Inr.
          + intros k' Hk'. assert (Sm : same row1 row' k') by (apply B3; intros u Hu; apply Hk'; lia).
            assert (Nk : k' <> k) by (intro X; pose proof (Hk' t ltac:(lia) X); lia).
            destruct (C2 k' Nk) as [X1 X2]. destruct Sm as [Y1 Y2]. split; congruence.
      Qed.
    End Set_.

    Lemma hd_low imin js : inc js -> imin < N -> (forall e, rm imin e -> In e js) ->
      forall i' e, imin <= i' < N -> rm i' e -> hd 0 js <= e.
    Proof.
      intros Hi Hm HR i' e Hi' R. destruct (rm_exists imin) as (e0 & R0). pose proof (HR e0 R0) as I. pose proof (rm_mono imin i' e0 e R0 R ltac:(lia) ltac:(lia)) as L.
      destruct js as [|j js]; [contradiction|]. cbn [hd]. destruct I as [<-|I]; [exact L|]. apply inc_cons in Hi. pose proof (proj2 Hi e0 I). lia.
    Qed.
    Lemma smawk_spec fuel : forall imin imax istep js row, 1 <= istep -> q <= imin -> imin <= imax -> imax < N -> (exists m, imax = imin + m * istep) ->
      imax - imin < fuel -> inc js -> cols js ->
      (forall t e, imin + t * istep <= imax -> rm (imin + t * istep) e -> In e js) ->
      (forall t, imin + t * istep <= imax -> edge p (imin + t * istep) ->
        (exists c, In c js /\ Jp (imin + t * istep) <= c <= imin + t * istep) \/ forall x, In x js -> Jp (imin + t * istep) <= x) ->
      exists row', smawk wt xv N fuel prev imin imax istep js row = Some row'
        /\ (forall t, imin + t * istep <= imax -> okc (imin + t * istep) (cell row' (imin + t * istep)) /\ In (snd row' (imin + t * istep)) js)
        /\ (forall k, (forall t, k = imin + t * istep -> imax < k) -> same row row' k).
    Proof.
      induction fuel as [|fuel IH]; intros imin imax istep js row H1 H2 H23 H3 (m & Hal) Hf Hi Hc HR HE; [lia|]. cbn [smawk].
      assert (R0 : forall e, rm imin e -> In e js).
      { intros e R. apply (HR 0 e); rewrite Nat.add_0_r; [exact H23|exact R]. }
      pose proof (hd_low imin js Hi ltac:(lia) R0) as Hh.
      assert (Hne : js <> []).
      { intros ->. destruct (rm_exists imin) as (e & R). elim (R0 e R). }
      destruct (Nat.leb_spec imax imin) as [B|B].
      - clear m Hal. assert (imax = imin) by lia. subst imax. destruct js as [|a tl]; [now elim Hne|]. cbv zeta. cbn [hd] in Hh.
        assert (K0 : imin + 0 * istep = imin) by lia.
        destruct (suffix_row imin imin istep (a :: tl) H1 H2 H3 Hi Hc HR HE 0 a tl []) as (S1 & S2 & S3 & S4); rewrite ?K0; [lia|reflexivity|intros i' e A _ R; apply (Hh i' e A R)|].
        rewrite K0 in S3, S4.
        destruct (find_scan_spec imin a ltac:(lia) tl a (D imin a, a) S1 S2) as (A1 & A2 & A3 & A4 & A5 & A6); [apply S2; now left|cbn; reflexivity|cbn; lia|now left|].
        cbv zeta in *. cbn [fst snd] in A4, A5, A6.
        set (b := find_scan wt xv N Sp imin (Jp imin) tl (D imin a, a)) in *. clearbody b.
        eexists. split; [reflexivity|]. split.
        + intros t Ht. assert (t = 0) by nia. subst t. rewrite K0. unfold cell. cbn [fst snd]. rewrite !upd_same. rewrite <- surjective_pairing.
          split; [|exact A4]. apply (okc_of imin a); [lia|exact A1|exact A2|exact A3|intros i' e X _ R; apply (Hh i' e X R)| |].
          * intros L e R. apply A5; [exact L|exact R|apply S3; assumption].
          * intro Eg. apply A6; [exact Eg|apply S4; exact Eg].
        + intros k Hk. assert (Nk : k <> imin) by (intro X; pose proof (Hk 0 ltac:(lia)); lia). unfold same. cbn [fst snd]. rewrite !upd_other by exact Nk. split; reflexivity.
      - assert (Hm : 1 <= m) by (destruct m; lia). assert (M1 : imin + istep <= imax) by nia.
        destruct (reduce_spec imin imax istep js H1 ltac:(lia) H3 Hi Hc Hne) as (jr & E1 & E2 & E3 & E4 & E5). rewrite E1. cbv zeta.
        set (w := (imax - (imin + istep)) / (2 * istep)).
        assert (Hw' : imin + istep + w * (2 * istep) <= imax).
        { pose proof (Nat.mul_div_le (imax - (imin + istep)) (2 * istep) ltac:(lia)). fold w in H. lia. }
        assert (Odd : forall u, imin + (2 * u + 1) * istep <= imax <-> imin + istep + u * (2 * istep) <= imin + istep + w * (2 * istep)).
        { intro u. split; intro H; [|lia]. enough (u <= w) by nia. apply Nat.div_le_lower_bound; lia. }
        assert (Sh : forall u, imin + istep + u * (2 * istep) = imin + (2 * u + 1) * istep) by (intro u; lia).
        destruct (IH (imin + istep) (imin + istep + w * (2 * istep)) (2 * istep) jr row) as (row1 & F1 & F2 & F3); [lia|lia|lia|lia|exists w; reflexivity|lia|exact E2|intros x Hx'; apply Hc, E3, Hx'| | |].
        { intros u e Hu R. apply Odd in Hu. rewrite Sh in R. apply (E4 (2 * u + 1)); [exact Hu|exact R|]. apply (HR (2 * u + 1)); assumption. }
        { intros u Hu Eg. apply Odd in Hu. rewrite Sh in Eg |- *. set (k := imin + (2 * u + 1) * istep) in *.
          destruct (HE (2 * u + 1) Hu Eg) as [(c & Ic & Hcc)|Al].
          - fold k in Hcc. destruct (edge_zero k c ltac:(lia) Eg (Hc c Ic) ltac:(lia)) as (Z & _).
            destruct (E5 c Z Ic) as [I|I]; [left; exists c; split; assumption|right; intros x Hx'; pose proof (I x Hx'); lia].
          - right. intros x Hx'. apply Al. apply E3. exact Hx'. }
        rewrite F1.
        destruct (even_loop_spec imin imax istep js H1 H2 H3 Hi Hc Hne HR HE (S N) 0 js [] (hd 0 js) row1) as (row' & G1 & G2 & G3).
        + reflexivity.
        + exact Hne.
        + destruct js; [now elim Hne|now left].
        + intros _ i' e A _ R. rewrite Nat.mul_0_r, Nat.mul_0_l, Nat.add_0_r in A. pose proof (Hh i' e A R). split; assumption.
        + intros u Hu. pose proof (proj1 (Odd u) Hu) as Hu'. destruct (F2 u Hu') as [O1 O2]. rewrite Sh in O1, O2. split; [exact O1|apply E3; exact O2].
        + lia.
        + rewrite Nat.mul_0_r, Nat.mul_0_l, Nat.add_0_r in G1. exists row'. split; [exact G1|]. split.
          * intros t Ht. destruct (Nat.Even_or_Odd t) as [(u & ->)|(u & ->)]; [apply G2; [lia|exact Ht]|].
            pose proof (proj1 (Odd u) Ht) as Hu'. destruct (F2 u Hu') as [O1 O2]. rewrite Sh in O1, O2.
            assert (Sm : same row1 row' (imin + (2 * u + 1) * istep)).
            { apply G3. intros v _ X. exfalso. assert (Y : (2 * u + 1) * istep = (2 * v) * istep) by lia. apply Nat.mul_cancel_r in Y; lia. }
            rewrite (same_cell _ _ _ Sm). destruct Sm as [_ Sm]. rewrite Sm. split; [exact O1|apply E3; exact O2].
          * intros k Hk. assert (Sm1 : same row row1 k).
            { apply F3. intros u X. rewrite Sh in X. pose proof (Hk _ X). lia. }
            assert (Sm2 : same row1 row' k) by (apply G3; intros v _ X; apply (Hk _ X)).
            destruct Sm1, Sm2. split; congruence.
    Qed.

    (** ** A whole row *)
    Lemma inc_seq a n : inc (seq a n).
    Proof.
      revert a. induction n as [|n IH]; intro a; cbn [seq]; constructor; [apply IH|]. apply Forall_forall. intros x Hx'. apply in_seq in Hx'. lia.
    Qed.
    Lemma okc_row i row : q <= i < N -> okc i (cell row i) -> row_live q row i.
    Proof.
      intros Hi (A & B & _ & L & E). cbn [cell fst snd] in *. pose proof (D_low i (snd row i) Hi A) as Lo.
      split; [rewrite B; exact Lo|]. destruct (rm_exists i) as (e & R). split.
      - intros [G|G].
        + rewrite B, (L G e R). apply (live_rm i e Hi G R).
        + rewrite (E G). destruct G as (Z & _). pose proof (dp_anti p (S i) ltac:(lia) ltac:(lia)). pose proof (dp_nonneg q (S i) ltac:(lia) ltac:(lia)). lra.
      - intro G. rewrite (L G e R). apply (live_rm i e Hi G R).
    Qed.
    Lemma fill_smawk_spec imin : q <= imin < N -> forall i, imin <= i < N -> row_live q (fill_smawk wt xv N prev q imin) i.
    Proof.
      intros Hm i Hi. unfold fill_smawk. cbv zeta. set (row0 := ((fun _ : nat => 0%Q), (fun _ : nat => 0))).
      set (js := seq q (N - 1 - q + 1)).
      assert (Hjs : forall j, In j js <-> q <= j < N) by (intro j; unfold js; rewrite in_seq; lia).
      destruct (smawk_spec (S N) imin (N - 1) 1 js row0) as (row' & E1 & E2 & _); [lia|lia|lia|lia|exists (N - 1 - imin); lia|lia|apply inc_seq|intros j Hj; apply Hjs; exact Hj| | |].
      - intros t e _ (A & _). apply Hjs. exact A.
      - intros t Ht Eg. left. exists (imin + t * 1). pose proof (edge_start (imin + t * 1) ltac:(lia) Eg). split; [apply Hjs; lia|lia].
      - rewrite E1. pose proof (E2 (i - imin)) as X. replace (imin + (i - imin) * 1) with i in X by lia. apply okc_row; [lia|]. apply X. lia.
    Qed.
  End Row.

  (** ** The rows and the early stop, more than 300 points *)
  Lemma first_row_live k : k < N -> row_live 0 (first_row wt xv N) k.
  Proof.
    intro Hk. destruct (first_row_ok wt xv N Hw) as (A & B & _). split; [rewrite (A k ltac:(lia) Hk); lra|]. split; [intros _; apply A; [lia|exact Hk]|apply B; reflexivity].
  Qed.
  Lemma stop_loop_big reg : (0 <= reg)%Q -> 300 < N -> forall rem q prev, q + rem < N ->
    (fst prev (N - 1)%nat == dp q N)%Q -> (rem <> 0 -> forall k, q <= k -> k < N -> row_live q prev k) ->
    (forall k, k <= q -> (dp q N + qn q * reg <= dp k N + qn k * reg)%Q) ->
    let r := stop_loop wt xv N reg rem (S q) prev in
    snd r <= q + rem /\ (fst r == dp (snd r) N + qn (snd r) * reg)%Q
    /\ forall k, k <= q + rem -> (fst r <= dp k N + qn k * reg)%Q.
  Proof.
    intros Hr Big. induction rem as [|rem IH]; intros q prev H1 H2 H3 H4; cbn [stop_loop].
    - replace (S q - 1) with q by lia. cbn [fst snd]. split; [lia|]. split; [rewrite H2; reflexivity|]. intros k Hk. rewrite H2. apply H4. lia.
    - specialize (H3 ltac:(lia)). set (imin := if rem =? 0 then N - 1 else Nat.max 1 (S q)).
      assert (Im : S q <= imin < N) by (subst imin; destruct (Nat.eqb_spec rem 0); lia).
      pose proof (fill_smawk_spec q prev ltac:(lia) H3 imin Im) as FR. cbv zeta.
      assert (ER : fill_row wt xv N prev (S q) (rem =? 0) = fill_smawk wt xv N prev (S q) imin).
      { unfold fill_row. cbv zeta. rewrite (proj2 (Nat.ltb_lt 300 N) Big). reflexivity. }
      rewrite ER. set (row := fill_smawk wt xv N prev (S q) imin) in *. clearbody row. clear ER.
      assert (NN : S (N - 1) = N) by lia.
      destruct (FR (N - 1) ltac:(lia)) as (Lo & Gd & _). rewrite NN in Lo, Gd. cbn [good] in Gd. rewrite NN in Gd.
      replace (S q - 1) with q by lia.
      assert (Ret : (forall k, q < k -> k <= q + S rem -> (dp q N + qn q * reg <= dp k N + qn k * reg)%Q) ->
        let r := ((fst prev (N - 1)%nat + qn q * reg)%Q, q) in
        snd r <= q + S rem /\ (fst r == dp (snd r) N + qn (snd r) * reg)%Q /\ forall k, k <= q + S rem -> (fst r <= dp k N + qn k * reg)%Q).
      { intro G. cbn [fst snd]. split; [lia|]. split; [rewrite H2; reflexivity|]. intros k Hk. rewrite H2.
        destruct (Nat.le_gt_cases k q) as [F|F]; [apply H4; exact F|apply G; assumption]. }
      assert (St : (dp q N == 0)%Q -> forall k, q < k -> k <= q + S rem -> (dp q N + qn q * reg <= dp k N + qn k * reg)%Q).
      { intros Z k K1 K2. pose proof (dp_nonneg k N ltac:(lia) ltac:(lia)). rewrite (qn_lin q k) by lia. pose proof (qn_nonneg (k - q)).
        pose proof (Qmult_le_0_compat _ _ H0 Hr). lra. }
      assert (Cont : (fst row (N - 1)%nat == dp (S q) N)%Q -> (reg <= dp q N - dp (S q) N)%Q ->
        let r := stop_loop wt xv N reg rem (S (S q)) row in
        snd r <= q + S rem /\ (fst r == dp (snd r) N + qn (snd r) * reg)%Q /\ forall k, k <= q + S rem -> (fst r <= dp k N + qn k * reg)%Q).
      { intros EN Ge. destruct (IH (S q) row) as (A & B & C).
        - lia.
        - exact EN.
        - intro Nz. intros k K1 K2. apply FR. subst imin. destruct (Nat.eqb_spec rem 0); [contradiction|lia].
        - intros k Hk. destruct (Nat.eq_dec k (S q)) as [->|Nk]; [lra|]. pose proof (H4 k ltac:(lia)) as X. rewrite qn_S. lra.
        - cbv zeta. split; [lia|]. split; [exact B|]. intros k Hk. apply C. lia. }
      pose proof (dp_nonneg q N ltac:(lia) ltac:(lia)) as Nq. pose proof (dp_nonneg (S q) N ltac:(lia) ltac:(lia)) as Nsq.
      destruct (qlt (fst prev (N - 1)%nat - fst row (N - 1)%nat) reg) eqn:E.
      + apply qlt_true in E. rewrite H2 in E. apply Ret. destruct (Qlt_le_dec 0 (dp q N)) as [P|P]; [|apply St; lra].
        rewrite (Gd (or_introl P)) in E. intros k K1 K2. replace k with (q + (k - q)) by lia. apply (stays wt xv N Hw Hx); [lia|exact E|lia].
      + apply qlt_false in E. rewrite H2 in E. apply Cont.
        * destruct (Qlt_le_dec 0 (dp q N)) as [P|P]; [apply Gd; now left|]. lra.
        * destruct (Qlt_le_dec 0 (dp q N)) as [P|P]; [rewrite (Gd (or_introl P)) in E; exact E|lra].
  Qed.

  (** ** Any number of points *)
  Lemma dynamic_stop_spec K reg : (0 <= reg)%Q -> 1 <= K -> K <= N ->
    let r := dynamic_stop wt xv N K reg in
    snd r < K /\ (fst r == dp (snd r) N + qn (snd r) * reg)%Q /\ forall k, k < K -> (fst r <= dp k N + qn k * reg)%Q.
  Proof.
    intros Hr H1 H2. unfold dynamic_stop. pose proof (first_row_ok wt xv N Hw) as FO.
    assert (F0 : (fst (first_row wt xv N) (N - 1)%nat == dp 0 N)%Q).
    { destruct FO as (F & _). rewrite (F (N - 1) ltac:(lia) ltac:(lia)). replace (S (N - 1)) with N by lia. reflexivity. }
    assert (G0 : forall k, k <= 0 -> (dp 0 N + qn 0 * reg <= dp k N + qn k * reg)%Q).
    { intros k Hk. assert (k = 0) by lia. subst k. lra. }
    destruct (Nat.le_gt_cases N 300) as [S1|S1].
    - destruct (stop_loop_spec wt xv N Hw Hx reg S1 (K - 1) 0 (first_row wt xv N)) as (A & B & C); [lia|exact F0|intros _; exact FO|exact G0|].
      cbv zeta. split; [lia|]. split; [exact B|]. intros k Hk. apply C. lia.
    - destruct (stop_loop_big reg Hr S1 (K - 1) 0 (first_row wt xv N)) as (A & B & C); [lia|exact F0|intros _ k _ Hk; apply first_row_live; exact Hk|exact G0|].
      cbv zeta. split; [lia|]. split; [exact B|]. intros k Hk. apply C. lia.
  Qed.
End Points.
