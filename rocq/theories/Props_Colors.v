(** C96, C97: the colours in exported trees. *)
From Coq Require Import List Arith Bool Lia ZArith QArith Qround Qabs Lqa Ascii String Permutation.
From Verif Require Import Base_Q Model_SimpleLinear Model_Colors.
Import ListNotations.
Local Open Scope nat_scope.

(** Specification: what a colour code "#RRGGBB" means. *)
Definition digit_value (a : ascii) : option Z :=
  let z := Z.of_N (N_of_ascii a) in
  if ((48 <=? z) && (z <=? 57))%Z then Some (z - 48)%Z
  else if ((97 <=? z) && (z <=? 102))%Z then Some (z - 87)%Z else None.
Definition two_digits (a b : ascii) : option Z :=
  match digit_value a, digit_value b with Some x, Some y => Some (16 * x + y)%Z | _, _ => None end.
Definition read_code (s : string) : option (Z * Z * Z) :=
  match s with
  | String "#" (String a (String b (String c (String d (String e (String f EmptyString)))))) =>
    match two_digits a b, two_digits c d, two_digits e f with Some r, Some g, Some u => Some (r, g, u) | _, _, _ => None end
  | _ => None
  end.
Definition each (P : Z -> Prop) (c : colour) : Prop := let '(r, g, b) := c in P r /\ P g /\ P b.
(** The labels of the training data are 0, 1, ..., without gaps. *)
Definition without_gaps (y : list nat) : Prop := forall l, In l y <-> l < List.length (nodup Nat.eq_dec y).
(** The numbers of classes of the fits in a history. *)
Definition classes_all (k : nat) (ops : list ps_op) : Prop :=
  Forall (fun o => match o with OpFit y => List.length (nodup Nat.eq_dec y) = k | OpExport _ => True end) ops.

(** * Codes *)
Definition byte_ok (fillc : ascii) (lo : Z) : bool :=
  forallb (fun k => let z := (lo + Z.of_nat k)%Z in
    match hex2 fillc z with String a (String b EmptyString) => match two_digits a b with Some v => (v =? z)%Z | None => false end | _ => false end) (seq 0 (Z.to_nat (256 - lo))).
Lemma byte_all fillc lo z : (0 <= lo)%Z -> byte_ok fillc lo = true -> (lo <= z <= 255)%Z ->
  exists a b, hex2 fillc z = String a (String b EmptyString) /\ two_digits a b = Some z.
Proof.
  intros H0 H Hz. unfold byte_ok in H. rewrite forallb_forall in H. specialize (H (Z.to_nat (z - lo))).
  replace (lo + Z.of_nat (Z.to_nat (z - lo)))%Z with z in H by lia. cbv zeta in H.
  specialize (H ltac:(apply in_seq; lia)). destruct (hex2 fillc z) as [|a [|b [|? ?]]]; try discriminate. exists a, b. split; [reflexivity|].
  destruct (two_digits a b); [|discriminate]. apply Z.eqb_eq in H. congruence.
Qed.
Lemma code_read fillc lo c : (0 <= lo)%Z -> byte_ok fillc lo = true -> each (fun z => lo <= z <= 255)%Z c -> read_code (hex3 fillc c) = Some c.
Proof.
  intros H0 H. destruct c as [[r g] b]. intros (A & B & C). unfold hex3.
  destruct (byte_all fillc lo r H0 H A) as (a1 & a2 & -> & E1). destruct (byte_all fillc lo g H0 H B) as (b1 & b2 & -> & E2).
  destruct (byte_all fillc lo b H0 H C) as (c1 & c2 & -> & E3). cbn [append read_code]. rewrite E1, E2, E3. reflexivity.
Qed.
Lemma code02_read c : each (fun z => 0 <= z <= 255)%Z c -> read_code (code02 c) = Some c.
Proof. apply code_read; [lia|vm_compute; reflexivity]. Qed.
Lemma code2_read c : each (fun z => 16 <= z <= 255)%Z c -> read_code (code2 c) = Some c.
Proof. apply code_read; [lia|vm_compute; reflexivity]. Qed.

(** * The palette *)
Definition all_hues : list Z := map (fun k => (25 + Z.of_nat k)%Z) (seq 0 360).
Lemma in_all_hues h : In h all_hues <-> (25 <= h <= 384)%Z.
Proof.
  unfold all_hues. rewrite in_map_iff. split.
  - intros (k & <- & H). apply in_seq in H. lia.
  - intro H. exists (Z.to_nat (h - 25)). split; [lia|]. apply in_seq. lia.
Qed.
Fixpoint distinct (l : list Z) : bool := match l with [] => true | x :: l' => negb (existsb (Z.eqb x) l') && distinct l' end.
Lemma distinct_nodup l : distinct l = true -> NoDup l.
Proof.
  induction l as [|x l IH]; cbn [distinct]; intro H; constructor; apply andb_prop in H; destruct H as [A B]; [|apply IH; exact B].
  intro Hin. apply negb_true_iff in A. assert (existsb (Z.eqb x) l = true) by (apply existsb_exists; exists x; split; [exact Hin|apply Z.eqb_refl]). congruence.
Qed.
Definition pack (c : colour) : Z := let '(r, g, b) := c in (65536 * r + 256 * g + b)%Z.
Lemma hue_colours_nodup : NoDup (map hue_colour all_hues).
Proof. apply (NoDup_map_inv pack). rewrite map_map. apply distinct_nodup. vm_compute. reflexivity. Qed.
Lemma hue_colours_range h : (25 <= h <= 384)%Z -> each (fun z => 57 <= z <= 229)%Z (hue_colour h).
Proof.
  intro H. apply in_all_hues in H. revert H.
  assert (G : forallb (fun h => let '(r, g, b) := hue_colour h in (57 <=? r) && (r <=? 229) && (57 <=? g) && (g <=? 229) && (57 <=? b) && (b <=? 229))%Z all_hues = true) by (vm_compute; reflexivity).
  rewrite forallb_forall in G. intro H. specialize (G h H). cbv beta in G. destruct (hue_colour h) as [[r g] b]. rewrite !andb_true_iff, !Z.leb_le in G. cbn. lia.
Qed.
Lemma hue_colour_inj h h' : (25 <= h <= 384)%Z -> (25 <= h' <= 384)%Z -> hue_colour h = hue_colour h' -> h = h'.
Proof.
  intros H H' E. apply in_all_hues in H, H'. pose proof hue_colours_nodup as N. revert N H H'. induction all_hues as [|x l IH]; [intros _ []|].
  cbn [map]. intro N. inversion N as [|? ? N1 N2]; subst. intros [->|H] [->|H']; [reflexivity| | |apply IH; assumption].
  - exfalso. apply N1. rewrite E. apply in_map. exact H'.
  - exfalso. apply N1. rewrite <- E. apply in_map. exact H.
Qed.
Lemma step_pos n : 1 <= n -> (0 < 360 / qn n)%Q.
Proof. intro H. apply Qlt_shift_div_l; [apply qn_pos; lia|lra]. Qed.
Lemma hue_range n i : i < n -> (25 <= hue n i <= 384)%Z.
Proof.
  intro H. pose proof (step_pos n ltac:(lia)) as Hs. pose proof (qn_pos n ltac:(lia)) as Hn. unfold hue.
  assert (0 <= qn i)%Q by (unfold qn; change 0%Q with (inject_Z 0); rewrite <- Zle_Qle; lia).
  assert (Hm : (qn i * (360 / qn n) < 360)%Q).
  { assert (E : (qn i * (360 / qn n) == qn i * 360 / qn n)%Q) by (field; lra). rewrite E. apply Qlt_shift_div_r; [exact Hn|].
    assert (qn i < qn n)%Q by (unfold qn; rewrite <- Zlt_Qlt; lia). lra. }
  assert (0 <= qn i * (360 / qn n))%Q by (apply Qmult_le_0_compat; lra). set (p := (qn i * (360 / qn n))%Q) in *. split.
  - change 25%Z with (Qfloor (inject_Z 25)) at 1. apply Qfloor_resp_le. change (inject_Z 25) with 25%Q. lra.
  - assert (Hlt : (Qfloor (25 + p) < 385)%Z); [|lia]. rewrite Zlt_Qlt. pose proof (Qfloor_le (25 + p)). change (inject_Z 385) with 385%Q. lra.
Qed.
Lemma hue_mono n i j : n <= 360 -> i < j -> j < n -> (hue n i < hue n j)%Z.
Proof.
  intros Hn Hij Hj. unfold hue. set (s := (360 / qn n)%Q). pose proof (qn_pos n ltac:(lia)) as Hp.
  assert (Hs : (1 <= s)%Q) by (unfold s; apply Qle_shift_div_l; [exact Hp|]; assert (qn n <= 360)%Q by (unfold qn; change 360%Q with (inject_Z 360); rewrite <- Zle_Qle; lia); lra).
  assert (Hd : (25 + qn i * s + 1 <= 25 + qn j * s)%Q).
  { assert (E : (qn i + 1 <= qn j)%Q) by (unfold qn; change 1%Q with (inject_Z 1); rewrite <- inject_Z_plus, <- Zle_Qle; lia).
    assert (0 <= (qn j - qn i - 1) * s)%Q by (apply Qmult_le_0_compat; lra). lra. }
  apply Qfloor_resp_le in Hd. set (x := (25 + qn i * s)%Q) in *. assert (Qfloor (x + 1) = Qfloor x + 1)%Z; [|lia].
  apply Zle_antisym.
  - assert (Qfloor (x + 1) < Qfloor x + 2)%Z; [|lia]. rewrite Zlt_Qlt. pose proof (Qfloor_le (x + 1)). pose proof (Qlt_floor x) as L. rewrite inject_Z_plus in L. rewrite inject_Z_plus. change (inject_Z 1) with 1%Q in L. change (inject_Z 2) with 2%Q. lra.
  - rewrite <- (Qfloor_Z (Qfloor x + 1)). apply Qfloor_resp_le. rewrite inject_Z_plus. change (inject_Z 1) with 1%Q. pose proof (Qfloor_le x). lra.
Qed.
Lemma brew_length n : List.length (color_brew n) = n.
Proof. unfold color_brew, hues. rewrite !map_length, seq_length. reflexivity. Qed.
Lemma brew_nth n i : i < n -> nth_error (color_brew n) i = Some (hue_colour (hue n i)).
Proof. intro H. unfold color_brew, hues. apply map_nth_error, map_nth_error. rewrite nth_error_nth' with (d := 0) by (rewrite seq_length; exact H). rewrite seq_nth by exact H. reflexivity. Qed.

Theorem C96_palette n :
  List.length (color_brew n) = n
  /\ Forall (each (fun z => 0 <= z <= 255)%Z) (color_brew n)
  /\ (n <= 360 -> NoDup (color_brew n)).
Proof.
  split; [apply brew_length|]. split.
  - apply Forall_forall. intros c Hc. apply In_nth_error in Hc. destruct Hc as (i & Hi).
    assert (i < n) by (rewrite <- (brew_length n); apply nth_error_Some; congruence). rewrite brew_nth in Hi by assumption. injection Hi as <-.
    pose proof (hue_colours_range _ (hue_range n i ltac:(assumption))) as R. destruct (hue_colour (hue n i)) as [[r g] b]. cbn in *. lia.
  - intro Hn. rewrite NoDup_nth_error. intros i j Hi E. rewrite brew_length in Hi.
    assert (Hj : j < n) by (rewrite <- (brew_length n); apply nth_error_Some; rewrite <- E, brew_nth by exact Hi; discriminate).
    rewrite !brew_nth in E by assumption. injection E as E. apply hue_colour_inj in E; try (apply hue_range; assumption).
    destruct (Nat.lt_trichotomy i j) as [L|[L|L]]; [|exact L|]; [pose proof (hue_mono n i j Hn L Hj)|pose proof (hue_mono n j i Hn L Hi)]; lia.
Qed.
(** With more classes some have the same colour. *)
Theorem C96_many_refuted n : 360 < n -> ~ NoDup (color_brew n).
Proof.
  intros Hn N. assert (I : incl (color_brew n) (map hue_colour all_hues)).
  { intros c Hc. unfold color_brew in Hc. apply in_map_iff in Hc. destruct Hc as (h & <- & Hh). apply in_map, in_all_hues. unfold hues in Hh. apply in_map_iff in Hh. destruct Hh as (i & <- & Hi).
    apply hue_range. apply in_seq in Hi. lia. }
  pose proof (NoDup_incl_length N I) as L. rewrite brew_length, map_length in L. unfold all_hues in L. rewrite map_length, seq_length in L. lia.
Qed.

(** * Exports in a history *)
Definition good_state (k : nat) (s : palette_state) : Prop :=
  (ps_classes s = None \/ ps_classes s = Some k) /\ (ps_colors s = None \/ ps_colors s = Some (color_brew k)).
Lemma run_good k ops : forall s, good_state k s -> classes_all k ops -> good_state k (ps_run ops s).
Proof.
  induction ops as [|o ops IH]; intros s G H; [exact G|]. inversion H as [|? ? Ho Hr]; subst. destruct o as [y|ls]; cbn [ps_run]; apply IH; try exact Hr.
  - split; [right; cbn; rewrite Ho; reflexivity|exact (proj2 G)].
  - unfold ps_export. destruct G as [A B]. destruct (ps_classes s) as [n|] eqn:E; [|split; [left; exact E|exact B]]. destruct A as [A|A]; [discriminate|]. injection A as ->. cbn [snd]. split; [right; reflexivity|].
    right. cbn. unfold ps_palette. destruct B as [->| ->]; reflexivity.
Qed.
Lemma run_app ops y : ps_run (ops ++ [OpFit y]) ps_new = ps_fit y (ps_run ops ps_new).
Proof. assert (G : forall s, ps_run (ops ++ [OpFit y]) s = ps_fit y (ps_run ops s)) by (induction ops as [|[z|ls] ops IH]; intro s; cbn; [reflexivity|apply IH|apply IH]). apply G. Qed.
Lemma codes_ok p labels : (forall l, In l labels -> l < List.length p) ->
  exists cs, codes_of p labels = Some cs
    /\ Forall2 (fun l c => fst c = code02 (nth l p (0, 0, 0)%Z) /\ snd c = code02 (darker (nth l p (0, 0, 0)%Z))) labels cs.
Proof.
  induction labels as [|l labels IH]; intro H; [exists []; split; [reflexivity|constructor]|].
  destruct IH as (cs & E & F); [intros; apply H; right; assumption|]. cbn [codes_of]. unfold leaf_codes.
  rewrite (nth_error_nth' p (0, 0, 0)%Z (H l (or_introl eq_refl))). cbn [option_map]. rewrite E. eexists. split; [reflexivity|]. constructor; [split; reflexivity|exact F].
Qed.
Definition dark (z : Z) : Z := (4 * z / 10)%Z.
Lemma darker_eq c : darker c = let '(r, g, b) := c in (dark r, dark g, dark b).
Proof.
  assert (E : forall z, Qfloor ((4 # 10) * inject_Z z) = dark z).
  { intro z. unfold dark, Qfloor, Qmult, inject_Z. cbn [Qnum Qden]. reflexivity. }
  destruct c as [[r g] b]. unfold darker. rewrite !E. reflexivity.
Qed.

(** When all fits so far had the same number of classes and the labels have no gaps, exporting a
    tree works; every label has its own fill colour, the line is the same colour at 40 percent. *)
Theorem C96_export_partial ops y labels :
  classes_all (List.length (nodup Nat.eq_dec y)) ops -> without_gaps y -> incl labels y ->
  exists (colour_of : nat -> colour) codes,
    fst (ps_export (ps_run (ops ++ [OpFit y]) ps_new) labels) = Some codes
    /\ Forall2 (fun l code => read_code (fst code) = Some (colour_of l)
                              /\ read_code (snd code) = Some (let '(r, g, b) := colour_of l in (dark r, dark g, dark b))) labels codes
    /\ (forall l, In l y -> each (fun z => 0 <= z <= 255)%Z (colour_of l))
    /\ (List.length (nodup Nat.eq_dec y) <= 360 -> forall l l', In l y -> In l' y -> colour_of l = colour_of l' -> l = l').
Proof.
  set (k := List.length (nodup Nat.eq_dec y)). intros Hc Hg Hi. rewrite run_app.
  pose proof (run_good k ops ps_new (conj (or_introl eq_refl) (or_introl eq_refl)) Hc) as [_ G].
  set (s := ps_run ops ps_new) in *. unfold ps_export, ps_fit. cbn [ps_classes ps_colors fst]. fold k.
  assert (Ep : ps_palette (PS (Some k) (ps_colors s)) k = color_brew k) by (unfold ps_palette; cbn; destruct G as [->| ->]; reflexivity).
  rewrite Ep. assert (Hy : forall l, In l y -> l < k) by (intros l Hl; apply Hg; exact Hl).
  destruct (codes_ok (color_brew k) labels) as (cs & E & F); [intros l Hl; rewrite brew_length; apply Hy, Hi, Hl|].
  destruct (C96_palette k) as (_ & P2 & P3). exists (fun l => nth l (color_brew k) (0, 0, 0)%Z), cs. split; [exact E|].
  assert (R : forall l, In l y -> each (fun z => 0 <= z <= 255)%Z (nth l (color_brew k) (0, 0, 0)%Z)).
  { intros l Hl. apply (proj1 (Forall_forall _ _) P2). apply nth_In. rewrite brew_length. apply Hy, Hl. }
  split; [|split; [exact R|]].
  - clear E. induction F as [|l c ls cs [A B] F IH]; [constructor|]. constructor; [|apply IH; intros x Hx; apply Hi; right; exact Hx].
    specialize (R l (Hi l (or_introl eq_refl))). rewrite A, B. split; [apply code02_read; exact R|]. rewrite darker_eq. set (c0 := nth l (color_brew k) (0, 0, 0)%Z) in *. clearbody c0. destruct c0 as [[r g] b].
    destruct R as (R1 & R2 & R3). apply code02_read. unfold dark. cbn [each].
    assert (D : forall z, (0 <= z <= 255 -> 0 <= 4 * z / 10 <= 255)%Z) by (intros z Hz; split; [apply Z.div_pos; lia|apply Z.div_le_upper_bound; lia]). auto.
  - intros Hk l l' Hl Hl' E2. specialize (P3 Hk). rewrite (NoDup_nth _ (0, 0, 0)%Z) in P3. apply P3; [rewrite brew_length; apply Hy, Hl|rewrite brew_length; apply Hy, Hl'|exact E2].
Qed.
(** A second fit with one more class: exporting the new tree fails at the new label. *)
Theorem C96_refit_refuted : exists ops y label,
  without_gaps y /\ In label y /\ fst (ps_export (ps_run (ops ++ [OpFit y]) ps_new) [label]) = None
  /\ fst (ps_export (ps_run [OpFit y] ps_new) [label]) <> None.
Proof.
  exists [OpFit [0; 1]; OpExport [0; 1]], [0; 1; 2], 2. split; [|split; [cbn; auto|split; [vm_compute; reflexivity|vm_compute; discriminate]]].
  intro l. cbn. lia.
Qed.
(** Labels with a gap: exporting the first tree fails. *)
Theorem C96_gap_refuted : exists y label, In label y /\ fst (ps_export (ps_run [OpFit y] ps_new) [label]) = None.
Proof. exists [0; 2], 2. split; [cbn; auto|vm_compute; reflexivity]. Qed.
Example C96_ex :
  classes_all 3 [OpFit [0; 1; 2; 1]; OpExport [1]] /\ without_gaps [2; 0; 1]
  /\ fst (ps_export (ps_run ([OpFit [0; 1; 2; 1]; OpExport [1]] ++ [OpFit [2; 0; 1]]) ps_new) [1; 0; 1])
     = Some [("#39e581", "#165b33"); ("#e58139", "#5b3316"); ("#39e581", "#165b33")]%string.
Proof. split; [repeat constructor|split; [intro l; cbn; lia|vm_compute; reflexivity]]. Qed.

(** * Branching nodes of cost-sensitive trees *)
Lemma argmin_from_ok l : forall best bv i pre, List.length pre = i -> best < i -> nth best pre 0%Q = bv -> (forall x, In x pre -> bv <= x)%Q ->
  let k := argmin_from best bv i l in k < i + List.length l /\ forall x, In x (pre ++ l) -> (nth k (pre ++ l) 0 <= x)%Q.
Proof.
  induction l as [|y l IH]; intros best bv i pre Hl Hb Hn Hm; cbn [argmin_from].
  - split; [cbn; lia|]. intro x. rewrite app_nil_r. intro H. rewrite Hn. auto.
  - replace (pre ++ y :: l) with ((pre ++ [y]) ++ l) by (rewrite <- app_assoc; reflexivity).
    assert (Hl' : List.length (pre ++ [y]) = S i) by (rewrite app_length, Hl; cbn; lia).
    destruct (qlt y bv) eqn:E; unfold qlt in E.
    + apply negb_true_iff in E. assert (~ (bv <= y)%Q) by (intro X; apply Qle_bool_iff in X; congruence).
      destruct (IH i y (S i) (pre ++ [y]) Hl' ltac:(lia)) as [A B].
      * rewrite app_nth2 by lia. rewrite Hl, Nat.sub_diag. reflexivity.
      * intros x Hx. apply in_app_iff in Hx. destruct Hx as [Hx|[->|[]]]; [specialize (Hm x Hx); lra|lra].
      * split; [cbn [List.length]; lia|exact B].
    + apply negb_false_iff, Qle_bool_iff in E. destruct (IH best bv (S i) (pre ++ [y]) Hl' ltac:(lia)) as [A B].
      * rewrite app_nth1 by lia. exact Hn.
      * intros x Hx. apply in_app_iff in Hx. destruct Hx as [Hx|[->|[]]]; [auto|exact E].
      * split; [cbn [List.length]; lia|exact B].
Qed.
Lemma argmin_ok costs : costs <> [] -> argmin costs < List.length costs /\ forall x, In x costs -> (nth (argmin costs) costs 0 <= x)%Q.
Proof.
  destruct costs as [|c l]; [congruence|]. intros _. cbn [argmin].
  destruct (argmin_from_ok l 0 c 1 [c] eq_refl ltac:(lia) eq_refl) as [A B]; [intros x [->|[]]; lra|]. split; [cbn; lia|exact B].
Qed.
Lemma insert_perm x l : Permutation (sorted_insert x l) (x :: l).
Proof. induction l as [|y l IH]; cbn [sorted_insert]; [reflexivity|]. destruct (qlt y x); [|reflexivity]. rewrite IH. apply perm_swap. Qed.
Lemma sorted_perm l : Permutation (sorted l) l.
Proof. induction l as [|x l IH]; cbn [sorted fold_right]; [reflexivity|]. rewrite insert_perm. unfold sorted in IH. rewrite IH. reflexivity. Qed.
Fixpoint incr (l : list Q) : Prop := match l with [] => True | x :: l' => (forall y, In y l' -> x <= y)%Q /\ incr l' end.
Lemma insert_incr x l : incr l -> incr (sorted_insert x l).
Proof.
  induction l as [|y l IH]; cbn [sorted_insert incr]; [intros _; split; [intros ? []|exact I]|]. intros [A B]. destruct (qlt y x) eqn:E; unfold qlt in E.
  - cbn [incr]. split; [|apply IH; exact B]. intros z Hz. apply (Permutation_in z (insert_perm x l)) in Hz. destruct Hz as [->|Hz]; [|auto].
    apply negb_true_iff in E. destruct (Qlt_le_dec y z) as [L|L]; [lra|]. apply Qle_bool_iff in L. congruence.
  - apply negb_false_iff, Qle_bool_iff in E. cbn [incr]. split; [|split; assumption]. intros z [->|Hz]; [exact E|]. specialize (A z Hz). lra.
Qed.
Lemma sorted_incr l : incr (sorted l).
Proof. induction l as [|x l IH]; [exact I|]. apply insert_incr. exact IH. Qed.
Lemma sum_perm l l' : Permutation l l' -> (sumQ (fun x => x) l == sumQ (fun x => x) l')%Q.
Proof. induction 1; cbn [sumQ]; lra. Qed.
Lemma fold_sum l : forall a, (fold_left Qplus l a == a + sumQ (fun x => x) l)%Q.
Proof. induction l as [|x l IH]; intro a; cbn [fold_left sumQ]; [lra|]. rewrite IH. lra. Qed.

(** The strength is between 0 and 1; in the last case it is one minus the ratio of the two least costs. *)
Lemma strength_ok costs : 2 <= List.length costs -> exists alpha, strength costs = Some alpha /\ (0 <= alpha <= 1)%Q.
Proof.
  intro Hlen. unfold strength. assert (Hne : costs <> []) by (destruct costs; [cbn in Hlen; lia|discriminate]).
  destruct (argmin_ok costs Hne) as [Ha Hm]. set (best := nth (argmin costs) costs 0%Q) in *.
  pose proof (sorted_perm costs) as HP. pose proof (sorted_incr costs) as HI. pose proof (Permutation_length HP) as HL.
  destruct (sorted costs) as [|s0 [|s1 rest]] eqn:Es; try (cbn in HL; lia). cbn [nth_error nth].
  destruct (qlt best _) eqn:E1; [exists 0%Q; split; [reflexivity|lra]|]. destruct (qlt s1 (1 # 100)) eqn:E2; [exists 0%Q; split; [reflexivity|lra]|].
  eexists. split; [reflexivity|]. unfold qlt in E1, E2. apply negb_false_iff, Qle_bool_iff in E1, E2. rewrite fold_sum, <- (sum_perm _ _ HP) in E1. cbn [sumQ] in E1.
  cbn [incr] in HI. destruct HI as (I1 & I2 & _). pose proof (I1 s1 (or_introl eq_refl)) as H01.
  assert (Hr : (0 <= sumQ (fun x => x) rest)%Q).
  { assert (X : forall y, In y rest -> (0 <= y)%Q) by (intros y Hy; specialize (I2 y Hy); lra). clear -X. induction rest as [|y rest IH]; cbn [sumQ]; [lra|].
    specialize (IH ltac:(intros; apply X; right; assumption)). specialize (X y (or_introl eq_refl)). lra. }
  assert (Hb : (best <= s0)%Q) by (apply Hm; apply (Permutation_in s0 HP); left; reflexivity).
  assert (Hs0 : (0 <= s0)%Q) by (destruct (Qlt_le_dec s0 0); lra).
  split; [apply Qle_shift_div_l; lra|apply Qle_shift_div_r; lra].
Qed.
Lemma round_bounds lo hi x : (inject_Z lo <= x)%Q -> (x <= inject_Z hi)%Q -> (lo <= round_even x <= hi)%Z.
Proof.
  intros Hl Hh. unfold round_even. set (f := Qfloor x). pose proof (Qfloor_le x) as F1. pose proof (Qlt_floor x) as F2. fold f in F1, F2. rewrite inject_Z_plus in F2. change (inject_Z 1) with 1%Q in F2.
  assert (Lo : (lo <= f)%Z) by (unfold f; rewrite <- (Qfloor_Z lo); apply Qfloor_resp_le; exact Hl).
  assert (Hi : (f <= hi)%Z) by (rewrite Zle_Qle; lra).
  assert (Up : (inject_Z f < x)%Q -> (f + 1 <= hi)%Z) by (intro X; assert (f < hi)%Z by (rewrite Zlt_Qlt; lra); lia).
  destruct (qlt (x - inject_Z f) (1 # 2)) eqn:E1; [lia|]. unfold qlt in E1. apply negb_false_iff, Qle_bool_iff in E1.
  assert (f + 1 <= hi)%Z by (apply Up; lra). destruct (qlt (1 # 2) _); [lia|]. destruct (Z.even f); lia.
Qed.
Lemma mix_bounds alpha z : (0 <= alpha <= 1)%Q -> (z <= 255)%Z -> (z <= round_even (alpha * inject_Z z + (1 - alpha) * 255) <= 255)%Z.
Proof.
  intros Ha Hz. assert (Hq : (inject_Z z <= 255)%Q) by (change 255%Q with (inject_Z 255); rewrite <- Zle_Qle; exact Hz).
  assert (0 <= (1 - alpha) * (255 - inject_Z z))%Q by (apply Qmult_le_0_compat; lra). assert (0 <= alpha * (255 - inject_Z z))%Q by (apply Qmult_le_0_compat; lra).
  apply round_bounds; [lra|]. change (inject_Z 255) with 255%Q. lra.
Qed.

(** A branching node has a well-formed colour code, whatever the costs: the colour of a class of
    least cost, lightened. *)
Theorem C97_code_partial costs : 2 <= List.length costs ->
  exists k code r g b,
    k < List.length costs /\ (forall x, In x costs -> (nth k costs 0 <= x)%Q)
    /\ nth_error (color_brew (List.length costs)) k = Some (r, g, b)
    /\ branching_color costs = Some code
    /\ exists r' g' b', read_code code = Some (r', g', b') /\ (r <= r' <= 255)%Z /\ (g <= g' <= 255)%Z /\ (b <= b' <= 255)%Z.
Proof.
  intro Hlen. assert (Hne : costs <> []) by (destruct costs; [cbn in Hlen; lia|discriminate]). destruct (argmin_ok costs Hne) as [Ha Hm].
  destruct (strength_ok costs Hlen) as (alpha & Es & Hal). pose proof (brew_nth _ _ Ha) as En. pose proof (hue_colours_range _ (hue_range _ _ Ha)) as Rg.
  destruct (hue_colour (hue (List.length costs) (argmin costs))) as [[r g] b]. exists (argmin costs), (code2 (mix alpha (r, g, b))), r, g, b.
  split; [exact Ha|]. split; [exact Hm|]. split; [exact En|]. unfold branching_color. rewrite En, Es. split; [reflexivity|].
  destruct Rg as (R1 & R2 & R3). pose proof (mix_bounds alpha r Hal ltac:(lia)) as M1. pose proof (mix_bounds alpha g Hal ltac:(lia)) as M2. pose proof (mix_bounds alpha b Hal ltac:(lia)) as M3.
  unfold mix. do 3 eexists. split; [apply code2_read; cbn [each]; lia|]. auto.
Qed.
(** The colour of a node does not show how clear the decision is: a clearer case is white. *)
Theorem C97_clear_refuted : branching_color [0; 1]%Q = Some "#ffffff"%string /\ branching_color [1 # 2; 1]%Q = Some "#f2c09c"%string
  /\ branching_color [1; 1]%Q = Some "#ffffff"%string.
Proof. vm_compute. auto. Qed.
(** With one class there is no second cost. *)
Theorem C97_single_refuted : branching_color [1%Q] = None.
Proof. vm_compute. reflexivity. Qed.
Example C97_ex : branching_color [4; -1; 3]%Q = Some "#ffffff"%string /\ branching_color [4; 1; 3]%Q = Some "#7beeab"%string.
Proof. vm_compute. auto. Qed.

Print Assumptions C96_palette.
Print Assumptions C96_many_refuted.
Print Assumptions C96_export_partial.
Print Assumptions C96_refit_refuted.
Print Assumptions C96_gap_refuted.
Print Assumptions C97_code_partial.
Print Assumptions C97_clear_refuted.
Print Assumptions C97_single_refuted.
